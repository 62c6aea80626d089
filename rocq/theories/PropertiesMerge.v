(** C17, C45, C46: merging.  [exchange tok s1 s2 w] (MergeSpec.v): two peers with sessions [s1]
    and [s2] start from the empty document and reach [w] by some schedule of edits, sends,
    in-order deliveries and losses. *)
From Coq Require Import List Arith Bool Lia ZifyBool.
From Verif Require Import Base ListLib MultisetModel MultisetSpec DeltaModel DeltaSpec
  EngineModel EngineSpec EngineInv EngineHist MergeModel MergeSpec MergeLattice MergeSys MergePeers.
Import ListNotations.

(** Peers for the examples. *)
Definition mx_tok (r : rev_id) : nat := session1 r * 1000 + num r.
Definition mx_peer (s : nat) : option (engine nat) := let? e := empty_engine in set_session_id e (s, 0).
Definition mx_none : engine nat := Engine (0, 0) 0 [] [] [] [] [].
Definition mx_get (o : option (engine nat)) : engine nat := match o with Some e => e | None => mx_none end.
(** Replace [from, to) of the head by [t]. *)
Definition mx_edit e (p from to : nat) (t : list nat) : option (engine nat) :=
  let? id := get_head_rev_id e in
  let? d := simple_edit from to t (length (text e)) in
  edit_rev mx_tok e p 1 (mx_tok id) d.

(** ** C17 *)
Section C17.
Context {A : Type} (tok : rev_id -> nat).
Implicit Types a b : engine A.

(** Whatever the schedule was, peers that hold the same revisions show the same text. *)
Theorem C17_peers_converge s1 s2 a b x y : s1 <> s2 -> exchange tok s1 s2 (Net a b x y) ->
  (forall id, holds a id <-> holds b id) -> get_head a = get_head b.
Proof.
  intros Hne X H. destruct (exchange_ok tok s1 s2 _ Hne X) as (L & i & j & N & _). cbn in N.
  destruct (same_revs_same_text L a b i j (n_sys _ _ _ _ _ _ _ N) H) as [E _]. exact E.
Qed.

(** A delivered state is always merged, and adds the revisions of the sender. *)
Theorem C17_merge_delivers s1 s2 a b m x y : s1 <> s2 -> exchange tok s1 s2 (Net a b (m :: x) y) ->
  exists a', merge a m = Some a' /\ forall id, holds a' id <-> holds a id \/ holds m id.
Proof.
  intros Hne X. destruct (exchange_ok tok s1 s2 _ Hne X) as (L & i & j & N & _). cbn in N.
  destruct (net_recv L a b m x y i j N) as (a' & k & E & _ & _ & _ & H). exists a'. auto.
Qed.

(** Two peers that exchange their states end with the same text. *)
Theorem C17_exchange_converges s1 s2 a b : s1 <> s2 -> exchange tok s1 s2 (Net a b [] []) ->
  exists a' b', merge a b = Some a' /\ merge b a = Some b' /\ get_head a' = get_head b'.
Proof.
  intros Hne X. pose proof (x_send_right tok _ _ _ _ _ _ X) as X1. cbn [app] in X1.
  pose proof (x_send_left tok _ _ _ _ _ _ X1) as X2. cbn [app] in X2.
  destruct (C17_merge_delivers s1 s2 _ _ _ _ _ Hne X2) as (a' & Ea & Ha).
  pose proof (x_recv_left tok _ _ _ _ _ _ _ _ X2 Ea) as X3.
  destruct (exchange_ok tok s1 s2 _ Hne X3) as (L & i & j & N & _). cbn in N. apply net_swap in N.
  destruct (net_recv _ b a' a [] [] _ _ N) as (b' & k & Eb & _ & _ & _ & Hb).
  exists a', b'. split; auto. split; auto.
  apply (C17_peers_converge s1 s2 a' b' [] []); auto.
  - eapply x_recv_right; eauto.
  - intros id. rewrite Ha. unfold holds in *. rewrite Hb. tauto.
Qed.

(** The peer that merges keeps its own revisions, in order. *)
Theorem C17_merge_appends a b a' : merge a b = Some a' -> exists news, revs a' = revs a ++ news /\
  session a' = session a /\ forall id, holds a id -> holds a' id.
Proof.
  unfold merge. intros H.
  repeat match type of H with bind ?o _ = Some _ => destruct o; cbn [bind] in H; [|discriminate] end.
  destruct p as [[[nr t'] tb'] d']. injection H as <-. exists nr. cbn. split; auto. split; auto.
  unfold holds. cbn. intros id Hin. rewrite map_app, in_app_iff. auto.
Qed.

(** Nothing is merged into a peer whose history has another origin. *)
Theorem C17_merge_needs_common_origin a b r l r' l' : revs a = r :: l -> revs b = r' :: l' ->
  r_id r <> r_id r' -> merge a b = None.
Proof.
  intros Ea Eb Hn. unfold merge. rewrite Ea, Eb. cbn [find_base_index].
  destruct (rev_id_eqb (r_id r) (r_id r')) eqn:E; [|reflexivity]. now apply rev_id_eqb_eq in E.
Qed.
End C17.

(** Two rounds of concurrent typing and deleting at the same places. *)
Definition mx_a0 := Eval vm_compute in mx_get (mx_peer 1).
Definition mx_b0 := Eval vm_compute in mx_get (mx_peer 2).
Definition mx_d1 : delta nat := Delta [Insert [10; 11; 12]] 0.
Definition mx_d2 : delta nat := Delta [Insert [20; 21]] 0.
Definition mx_d3 : delta nat := Delta [Copy 0 2; Insert [13]; Copy 4 5] 5.
Definition mx_d4 : delta nat := Delta [Copy 0 1; Insert [22; 23]] 2.
Definition mx_a1 := Eval vm_compute in mx_get (edit_rev mx_tok mx_a0 1 1 0 mx_d1).
Definition mx_b1 := Eval vm_compute in mx_get (edit_rev mx_tok mx_b0 1 1 0 mx_d2).
Definition mx_a2 := Eval vm_compute in mx_get (merge mx_a1 mx_b1).
Definition mx_a3 := Eval vm_compute in mx_get (edit_rev mx_tok mx_a2 2 2 2001 mx_d3).
Definition mx_b2 := Eval vm_compute in mx_get (edit_rev mx_tok mx_b1 1 3 2001 mx_d4).
Lemma mx_wf1 : wf_delta mx_d1.
Proof. split; cbn; [lia|]. repeat constructor; discriminate. Qed.
Lemma mx_wf2 : wf_delta mx_d2.
Proof. split; cbn; [lia|]. repeat constructor; discriminate. Qed.
Lemma mx_wf3 : wf_delta mx_d3.
Proof. split; cbn; [lia|]. repeat constructor; discriminate. Qed.
Lemma mx_wf4 : wf_delta mx_d4.
Proof. split; cbn; [lia|]. repeat constructor; discriminate. Qed.
(** The left peer has merged the right one's first edit, and both edit again. *)
Lemma mx_exchange : exchange mx_tok (1, 0) (2, 0) (Net mx_a3 mx_b2 [] []).
Proof.
  apply (x_edit_right mx_tok _ _ mx_a3 mx_b1 [] [] 1 3 2001 mx_d4 mx_b2 (Ok tt)); [|apply mx_wf4|now vm_compute].
  apply (x_edit_left mx_tok _ _ mx_a2 mx_b1 [] [] 2 2 2001 mx_d3 mx_a3 (Ok tt)); [|apply mx_wf3|now vm_compute].
  apply (x_recv_left mx_tok _ _ mx_a1 mx_b1 mx_b1); [|now vm_compute].
  apply (x_send_right mx_tok _ _ mx_a1 mx_b1 [] []).
  apply (x_edit_right mx_tok _ _ mx_a1 mx_b0 [] [] 1 1 0 mx_d2 mx_b1 (Ok tt)); [|apply mx_wf2|now vm_compute].
  apply (x_edit_left mx_tok _ _ mx_a0 mx_b0 [] [] 1 1 0 mx_d1 mx_a1 (Ok tt)); [|apply mx_wf1|now vm_compute].
  apply (x_start mx_tok _ _ (mx_get empty_engine)); now vm_compute.
Qed.
Definition mx_a4 := Eval vm_compute in mx_get (merge mx_a3 mx_b2).
Definition mx_b3 := Eval vm_compute in mx_get (merge mx_b2 mx_a3).
Example C17_example : exchange mx_tok (1, 0) (2, 0) (Net mx_a3 mx_b2 [] []) /\
  get_head mx_a3 = [10; 11; 13; 21] /\ get_head mx_b2 = [20; 22; 23] /\
  merge mx_a3 mx_b2 = Some mx_a4 /\ merge mx_b2 mx_a3 = Some mx_b3 /\
  get_head mx_a4 = [10; 11; 13; 22; 23] /\ get_head mx_b3 = get_head mx_a4 /\
  map r_id (revs mx_a4) <> map r_id (revs mx_b3).
Proof. split; [exact mx_exchange|]. repeat (split; [now vm_compute|]). vm_compute. discriminate. Qed.

(** ** C45: more than two peers.
    Three peers type one character each at the start, all with the same priority.  The
    first merges the second, then the third; the third merges the first's result.  Both
    hold the same three revisions and show different texts: [compute_transforms] joins
    edits of the same priority although their sessions differ. *)
Theorem C45_three_peers_refuted :
  exists a b c ab abc cab : engine nat,
    reachable mx_tok a /\ reachable mx_tok b /\ reachable mx_tok c /\
    session a <> session b /\ session b <> session c /\ session a <> session c /\
    merge a b = Some ab /\ merge ab c = Some abc /\ merge c ab = Some cab /\
    (forall id, holds abc id <-> holds cab id) /\ get_head abc <> get_head cab.
Proof.
  set (mk s := mx_get (let? e := mx_peer s in edit_rev mx_tok e 1 1 0 (Delta [Insert [s]] 0))).
  exists (mk 1), (mk 3), (mk 2), (mx_get (merge (mk 1) (mk 3))), (mx_get (merge (mx_get (merge (mk 1) (mk 3))) (mk 2))),
    (mx_get (merge (mk 2) (mx_get (merge (mk 1) (mk 3))))).
  assert (R : forall s, s = 1 \/ s = 2 \/ s = 3 -> reachable mx_tok (mk s)).
  { intros s Hs. apply (reach_move mx_tok (mx_get (mx_peer s))).
    - apply (reach_session mx_tok (mx_get empty_engine) (s, 0)); destruct Hs as [->|[->| ->]]; now vm_compute.
    - apply (move_edit mx_tok _ 1 1 0 (Delta [Insert [s]] 0) _ (Ok tt)).
      + split; cbn; [lia|]. repeat constructor; discriminate.
      + destruct Hs as [->|[->| ->]]; now vm_compute. }
  repeat (split; [solve [apply R; auto|vm_compute; discriminate|now vm_compute]|]).
  split.
  - intros id. unfold holds. vm_compute. tauto.
  - vm_compute. discriminate.
Qed.

(** With different priorities the same schedule converges on this input. *)
Example C45_other_priorities :
  let mk s := mx_get (let? e := mx_peer s in edit_rev mx_tok e s 1 0 (Delta [Insert [s]] 0)) in
  let ab := mx_get (merge (mk 1) (mk 3)) in
  get_head (mx_get (merge ab (mk 2))) = get_head (mx_get (merge (mk 2) ab)) /\
  get_head (mx_get (merge ab (mk 2))) = [1; 2; 3].
Proof. now vm_compute. Qed.

(** ** C46: undo and merge.
    A peer that has undone anything can neither merge nor be merged. *)
Lemma rearrange_undo base (l : list revision) : Exists (fun r => exists t b, r_edit r = Undo t b) l ->
  forall n, rearrange l base n = None.
Proof.
  intros H n. unfold rearrange. destruct (subset_new n) as [s|]; [|reflexivity]. cbn [bind].
  assert (H' : Exists (fun r => exists t b, r_edit r = Undo t b) (rev l)).
  { apply Exists_exists in H as (r & Hr & Hp). apply Exists_exists. exists r. split; auto. now apply -> in_rev. }
  clear H. generalize (@nil revision) as out. revert s. induction H' as [r l' (t & b & E)|r l' H IH]; intros s out; cbn [rearrange_loop].
  - now rewrite E.
  - destruct (r_edit r); [|reflexivity]. destruct (has_id (r_id r) base).
    + destruct (transform_union _ _); cbn [bind]; auto.
    + destruct (transform_expand inserts s); cbn [bind]; auto.
      destruct (transform_expand deletes s); cbn [bind]; auto.
      destruct (transform_shrink s s0); cbn [bind]; auto.
Qed.

(** The call panics, whatever the other peer holds. *)
Theorem C46_merge_after_undo_refuted {A} (tok : rev_id -> nat) (e e' b : engine A) G :
  reachable tok e -> undo e G = Some e' -> merge e' b = None /\ merge b e' = None.
Proof.
  intros Hr H. assert (Q : exists r, revs e' = revs e ++ [r] /\ exists t x, r_edit r = Undo t x).
  { unfold undo in H. destruct (compute_undo e G) as [[r D]|] eqn:Eu; [|discriminate]. cbn [bind] in H.
    destruct (shuffle _ _ _ _) as [[t1 t2]|]; [|discriminate]. cbn [bind] in H. injection H as <-. cbn [revs].
    exists r. split; auto. unfold compute_undo in Eu.
    repeat match type of Eu with bind ?o _ = Some _ => destruct o; cbn [bind] in Eu; [|discriminate] end.
    injection Eu as <- _. cbn [r_edit]. eauto. }
  destruct Q as (r & Er & t & x & Ex). clear H.
  assert (HX : forall l, Exists (fun r => exists t b, r_edit r = Undo t b) (l ++ [r])).
  { intros l. apply Exists_exists. exists r. split; [apply in_or_app; right; now left|]. eauto. }
  assert (Hs : revs e <> [] -> exists l, skipn 1 (revs e') = l ++ [r]).
  { rewrite Er. destruct (revs e) as [|r0 l]; [congruence|]. intros _. exists l. reflexivity. }
  destruct (reachable_inv tok e Hr) as (u & n0 & I). destruct (Hs (i_ne _ _ _ I)) as (l & El). split; unfold merge.
  - destruct (find_base_index (revs e') (revs b)) as [n|] eqn:En; [|reflexivity]. cbn [bind].
    assert (n = 1) as ->. { unfold find_base_index in En. destruct (revs e'), (revs b); try discriminate. destruct (rev_id_eqb _ _); congruence. }
    rewrite El, rearrange_undo; auto.
  - destruct (find_base_index (revs b) (revs e')) as [n|] eqn:En; [|reflexivity]. cbn [bind].
    assert (n = 1) as ->. { unfold find_base_index in En. destruct (revs e'), (revs b); try discriminate. destruct (rev_id_eqb _ _); congruence. }
    rewrite El. destruct (rearrange _ _ (subset_len (deletes_from_union b))); [|reflexivity]. cbn [bind].
    rewrite rearrange_undo; auto.
Qed.

Example C46_example : exists e e' : engine nat, reachable mx_tok e /\ undo e [1] = Some e' /\
  get_head e = [10; 11; 12] /\ get_head e' = [].
Proof.
  exists mx_a1, (mx_get (undo mx_a1 [1])). split; [|now vm_compute].
  apply (reach_move mx_tok mx_a0).
  - apply (reach_session mx_tok (mx_get empty_engine) (1, 0)); now vm_compute.
  - apply (move_edit mx_tok _ 1 1 0 mx_d1 _ (Ok tt)); [apply mx_wf1|now vm_compute].
Qed.

Print Assumptions C17_peers_converge.
Print Assumptions C17_merge_delivers.
Print Assumptions C17_exchange_converges.
Print Assumptions C17_merge_appends.
Print Assumptions C17_merge_needs_common_origin.
Print Assumptions C45_three_peers_refuted.
Print Assumptions C46_merge_after_undo_refuted.
