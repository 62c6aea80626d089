(** C29: selections. *)
From Coq Require Import List Arith Lia Bool ZifyBool Permutation.
From Verif Require Import Base ListLib DeltaModel DeltaSpec DeltaProofs DeltaProofs2 IndexSetModel IndexSetProofs SelectionModel SelectionProofs.
Import ListNotations.

(** The specification. A region lies between two offsets, its edges in either order. *)
Definition lo (r : region) : nat := Nat.min (r_start r) (r_end r).
Definition hi (r : region) : nat := Nat.max (r_start r) (r_end r).
(** In order, no two overlap, and a caret touches nothing (selection.rs 48-49). *)
Definition disjoint_in_order (rs : list region) : Prop :=
  forall i j a b, i < j -> nth_error rs i = Some a -> nth_error rs j = Some b ->
    hi a <= lo b /\ (lo a = hi a \/ lo b = hi b -> hi a < lo b).
(** Characters selected, offsets touched, and offsets strictly inside a region. *)
Definition selected (rs : list region) (p : nat) : Prop := exists r, In r rs /\ lo r <= p < hi r.
Definition touched (rs : list region) (p : nat) : Prop := exists r, In r rs /\ lo r <= p <= hi r.
Definition inside (rs : list region) (p : nat) : Prop := exists r, In r rs /\ lo r < p < hi r.

Lemma sok_order rs : sok rs <-> disjoint_in_order rs.
Proof.
  split.
  - intros S i j a b Hij Ha Hb. exact (sok_nth rs i j a b S Hij Ha Hb).
  - induction rs as [|r rs IH]; intros H; [exact Logic.I|]. split.
    + apply Forall_forall. intros x Hx. apply In_nth_error in Hx as [i Hi]. apply (H 0 (S i)); auto. lia.
    + apply IH. intros i j a b Hij. apply (H (S i) (S j)). lia.
Qed.

(** The selections a program can have. *)
Inductive sop := SAdd (r : region) | STouch (s e : nat) | SCut (s e : nat) | SClear | SCollapse.
Definition sel_step (rs : list region) (o : sop) : option (list region) :=
  match o with
  | SAdd r => add_region rs r
  | STouch s e => sel_delete_range rs s e true
  | SCut s e => sel_delete_range rs s e false
  | SClear => Some []
  | SCollapse => collapse rs
  end.
Inductive reachable : list region -> Prop :=
| reach_empty : reachable []
| reach_step rs o rs' : reachable rs -> sel_step rs o = Some rs' -> reachable rs'
| reach_edit rs (A : Type) (d : delta A) after dr rs' : reachable rs -> wf_delta d -> no_empty_copy (els d) ->
    sel_apply_delta rs d after dr = Some rs' -> reachable rs'.

Lemma remove_sok {T} (P : list T -> Prop) v i n v' : (forall a b c, P (a ++ b ++ c) -> P (a ++ c)) -> P v -> i + n <= length v -> remove_n_at v i n = Some v' -> P v'.
Proof.
  intros Hp H L E. rewrite remove_n_at_ok in E by auto. injection E as <-. apply (Hp (firstn i v) (firstn n (skipn i v)) (skipn (i + n) v)).
  rewrite <- skipn_skipn, firstn_skipn, firstn_skipn. exact H.
Qed.
Lemma sok_cut a b c : sok (a ++ b ++ c) -> sok (a ++ c).
Proof.
  intros H. apply sok_app in H as (H1 & H2 & H3). apply sok_app in H2 as (H2 & H4 & H5). apply sok_app. split; auto. split; auto.
  intros x y Hx Hy. apply H3; auto. apply in_or_app. now right.
Qed.
Lemma delete_sok rs s e adj rs' : sok rs -> sel_delete_range rs s e adj = Some rs' -> sok rs'.
Proof.
  intros Hs E. unfold sel_delete_range in E. destruct (nth_error rs (search rs s)) as [f|] eqn:Ef; [|congruence].
  set (a := if negb adj && (rmax f =? s) then S (search rs s) else search rs s) in *.
  match type of E with check (_ <=? ?x) _ = _ => set (l := x) in * end.
  destruct (a <=? l) eqn:Ea; [|discriminate]. cbn [check] in E.
  apply (remove_sok sok _ _ _ _ sok_cut Hs) in E; auto.
  assert (l <= length rs); [|lia]. unfold l. pose proof (search_le rs e). destruct (nth_error rs (search rs e)) as [o|] eqn:Eo; auto.
  assert (search rs e < length rs) by (apply nth_error_Some; congruence). destruct (_ || _); lia.
Qed.
Lemma reachable_sok rs : reachable rs -> sok rs.
Proof.
  induction 1 as [|rs o rs' H IH E|rs A d after dr rs' H IH Hw Hc E]; [exact Logic.I| |].
  - destruct o as [r|s e|s e| |]; cbn [sel_step] in E.
    + destruct (add_region_ok rs r IH) as (q & E' & S & _). congruence.
    + eapply delete_sok; eauto.
    + eapply delete_sok; eauto.
    + injection E as <-. exact Logic.I.
    + destruct rs as [|r rs]; [discriminate|]. injection E as <-. split; [constructor|exact Logic.I].
  - destruct (sel_apply_delta_ok d after dr rs Hw Hc) as (q & E' & S & _). congruence.
Qed.

(** Every selection reached by any sequence of operations and edits is sorted and has no two
    mergeable neighbours. *)
Theorem C29_invariant rs : reachable rs -> disjoint_in_order rs.
Proof. intros H. now apply sok_order, reachable_sok. Qed.
Print Assumptions C29_invariant.

(** Adding a region never fails; the result covers what was covered and the new region. *)
Theorem C29_add rs r : reachable rs -> exists rs', add_region rs r = Some rs' /\ disjoint_in_order rs' /\ forall p,
  (selected rs' p <-> selected rs p \/ lo r <= p < hi r) /\
  (touched rs' p <-> touched rs p \/ lo r <= p <= hi r) /\
  (inside rs' p <-> inside rs p \/ lo r < p < hi r).
Proof.
  intros H. apply reachable_sok in H. destruct (add_region_ok rs r H) as (rs' & E & S & P). exists rs'. split; auto. split; [now apply sok_order|].
  intros p. split; [|split]; [apply (P KCov p)|apply (P KTouch p)|apply (P KIn p)].
Qed.
Print Assumptions C29_add.

(** What is selected, touched and inside determines the regions, so the order in which regions are
    added makes no difference to where the regions of the result lie. *)
Theorem C29_determined rs qs : disjoint_in_order rs -> disjoint_in_order qs ->
  (forall p, (selected rs p <-> selected qs p) /\ (touched rs p <-> touched qs p) /\ (inside rs p <-> inside qs p)) ->
  map (fun r => (lo r, hi r)) rs = map (fun r => (lo r, hi r)) qs.
Proof.
  intros H1 H2 H. apply sok_order in H1, H2. apply (sok_unique rs qs H1 H2). intros k p. destruct (H p) as (P1 & P2 & P3). destruct k; auto.
Qed.
Print Assumptions C29_determined.

Fixpoint add_all (rs : list region) (l : list region) : option (list region) :=
  match l with [] => Some rs | r :: l' => let? rs' := add_region rs r in add_all rs' l' end.
Lemma add_all_ok l : forall rs, sok rs -> exists out, add_all rs l = Some out /\ sok out /\ forall k p, pts k out p <-> pts k rs p \/ pts k l p.
Proof.
  induction l as [|r l IH]; intros rs S; cbn [add_all].
  - exists rs. split; auto. split; auto. intros k p. split; auto. intros [H|H]; [auto|now apply pts_nil in H].
  - destruct (add_region_ok rs r S) as (rs' & -> & S' & P). cbn [bind]. destruct (IH rs' S') as (out & E & So & Po). exists out. split; auto. split; auto.
    intros k p. rewrite Po, P, pts_cons. tauto.
Qed.
Theorem C29_order_independent l l' : Permutation l l' -> exists out out', add_all [] l = Some out /\ add_all [] l' = Some out' /\
  disjoint_in_order out /\ map (fun r => (lo r, hi r)) out = map (fun r => (lo r, hi r)) out' /\
  forall p, (selected out p <-> selected l p) /\ (touched out p <-> touched l p).
Proof.
  intros H. destruct (add_all_ok l [] Logic.I) as (o & E & S & P). destruct (add_all_ok l' [] Logic.I) as (o' & E' & S' & P').
  assert (N : forall k p x, pts k [] p \/ x <-> x) by (intros k p x; split; [intros [Q|Q]; [now apply pts_nil in Q|auto]|auto]).
  exists o, o'. split; auto. split; auto. split; [now apply sok_order|]. split.
  - apply (sok_unique o o' S S'). intros k p. rewrite P, P', !N. split; intros (r & Hr & Hp); exists r; (split; [|auto]); [now apply (Permutation_in r H)|apply Permutation_sym in H; now apply (Permutation_in r H)].
  - intros p. split; [rewrite (P KCov p : selected o p <-> _)|rewrite (P KTouch p : touched o p <-> _)]; apply N.
Qed.
Print Assumptions C29_order_independent.

(** A selection with a caret that merges, two regions that only touch, and a backward region. *)
Example C29_add_ex :
  add_all [] [region_new 5 8; region_new 8 10; caret 5; caret 2; region_new 14 9; caret 20; region_new 18 16] =
  Some [caret 2; region_new 5 8; region_new 14 8; region_new 18 16; caret 20].
Proof. reflexivity. Qed.
Example C29_add_ex2 :
  add_all [] [caret 20; region_new 14 9; region_new 18 16; caret 2; caret 5; region_new 8 10; region_new 5 8] =
  Some [caret 2; region_new 5 8; region_new 8 14; region_new 18 16; caret 20].
Proof. reflexivity. Qed.

(** The query for a range answers regions that touch it, and all that reach into it, or end at its
    start; if no two regions meet at its end, it answers exactly the regions that touch it. *)
Theorem C29_query_partial rs s e : reachable rs -> s <= e -> exists out, regions_in_range rs s e = Some out /\
  (forall r, In r out -> In r rs /\ s <= hi r /\ lo r <= e) /\
  (forall r, In r rs -> s <= hi r -> lo r < e -> In r out) /\
  ((forall a b, In a rs -> In b rs -> hi a = e -> lo b = e -> lo a = e) ->
     out = filter (fun r => (s <=? hi r) && (lo r <=? e)) rs).
Proof. intros H He. apply reachable_sok in H. destruct (regions_in_range_ok rs s e H He) as (out & E & P1 & P2 & P3). exists out. repeat split; auto; now apply P2. Qed.
Print Assumptions C29_query_partial.

(** The comment on [regions_in_range] says regions that merely touch the range are included. A
    region that starts where the range ends is left out if another ends there. *)
Theorem C29_query_refuted : exists rs s e r out, reachable rs /\ s <= e /\ In r rs /\ s <= hi r /\ lo r <= e /\
  regions_in_range rs s e = Some out /\ ~ In r out.
Proof.
  exists [region_new 3 5; region_new 5 8], 0, 5, (region_new 5 8), [region_new 3 5]. split.
  - apply (reach_step [region_new 3 5] (SAdd (region_new 5 8))); [|reflexivity]. apply (reach_step [] (SAdd (region_new 3 5))); [constructor|reflexivity].
  - split; [lia|]. split; [cbn; auto|]. split; [cbn; lia|]. split; [cbn; lia|]. split; [reflexivity|]. intros [H|[]]. discriminate.
Qed.
Print Assumptions C29_query_refuted.

(** Deletion removes exactly the regions that touch, or overlap, the range. *)
Theorem C29_delete_touching_partial rs s e : reachable rs -> s <= e ->
  (forall a b, In a rs -> In b rs -> hi a = e -> lo b = e -> lo a = e) ->
  sel_delete_range rs s e true = Some (filter (fun r => negb ((s <=? hi r) && (lo r <=? e))) rs).
Proof. intros H. apply reachable_sok in H. now apply delete_touching_ok. Qed.
Print Assumptions C29_delete_touching_partial.
Theorem C29_delete_overlapping_partial rs s e : reachable rs -> s < e \/ (s = e /\ forall r, In r rs -> ~ (lo r = s /\ hi r = s)) ->
  sel_delete_range rs s e false = Some (filter (fun r => negb ((s <? hi r) && (lo r <? e))) rs).
Proof. intros H. apply reachable_sok in H. now apply delete_intersecting_ok. Qed.
Print Assumptions C29_delete_overlapping_partial.

(** Deleting an empty range at a caret, not counting adjacent regions, panics (an index underflows). *)
Theorem C29_delete_at_caret_refuted : exists rs p, reachable rs /\ sel_delete_range rs p p false = None.
Proof. exists [caret 4], 4. split; [apply (reach_step [] (SAdd (caret 4))); [constructor|reflexivity]|reflexivity]. Qed.
Print Assumptions C29_delete_at_caret_refuted.
(** Deleting the regions touching a range misses one that starts at its end if another ends there. *)
Theorem C29_delete_touching_refuted : exists rs s e r rs', reachable rs /\ In r rs /\ s <= hi r /\ lo r <= e /\
  sel_delete_range rs s e true = Some rs' /\ In r rs'.
Proof.
  exists [region_new 3 5; region_new 5 8], 0, 5, (region_new 5 8), [region_new 5 8]. split.
  - apply (reach_step [region_new 3 5] (SAdd (region_new 5 8))); [|reflexivity]. apply (reach_step [] (SAdd (region_new 3 5))); [constructor|reflexivity].
  - repeat split; cbn; auto; lia.
Qed.
Print Assumptions C29_delete_touching_refuted.

Example C29_query_ex :
  let rs := [caret 2; region_new 5 8; region_new 14 8; caret 20] in
  regions_in_range rs 2 7 = Some [caret 2; region_new 5 8] /\ sel_delete_range rs 2 7 true = Some [region_new 14 8; caret 20] /\
  sel_delete_range rs 2 7 false = Some [caret 2; region_new 14 8; caret 20] /\ sel_delete_range rs 8 20 false = Some [caret 2; region_new 5 8; caret 20].
Proof. repeat split. Qed.

(** Search results are added without merging. Regions that are not carets stay in order; a result
    that starts inside an earlier one is dropped, otherwise it replaces those that it overlaps. *)
Theorem C29_distinct_partial rs r : disjoint_in_order rs -> (forall o, In o rs -> lo o < hi o) -> lo r < hi r ->
  exists rs' p, add_range_distinct rs r = Some (rs', p) /\ disjoint_in_order rs' /\ (forall o, In o rs' -> lo o < hi o) /\
    ((exists o, In o rs /\ lo o <= lo r < hi o /\ rs' = rs /\ p = (lo o, hi o)) \/
     ((forall o, In o rs -> ~ lo o <= lo r < hi o) /\
      rs' = filter (fun o => hi o <=? lo r) rs ++ r :: filter (fun o => hi r <=? lo o) rs /\ p = (lo r, hi r))).
Proof.
  intros S W Wr. apply sok_order in S. assert (W' : Forall wide rs) by now apply Forall_forall.
  destruct (add_range_distinct_ok rs r S W' Wr) as [(o & Ho & Hr & E)|[Hn E]]; rewrite E.
  - exists rs, (ext o). split; auto. split; [now apply sok_order|]. split; auto. left. exists o. auto.
  - destruct (distinct_sok rs r S W' Wr) as [D1 D2]. eexists _, _. split; [reflexivity|]. split; [now apply sok_order|]. split; [|right; auto].
    intros o Ho. rewrite Forall_forall in D2. now apply D2.
Qed.
Print Assumptions C29_distinct_partial.
(** Adding an empty result where there is one already panics. *)
Theorem C29_distinct_refuted : exists rs rs' p, add_range_distinct [] (caret 3) = Some (rs, p) /\ rs' = rs /\ add_range_distinct rs' (caret 3) = None.
Proof. exists [caret 3], [caret 3], (3, 3). repeat split. Qed.
Print Assumptions C29_distinct_refuted.
Example C29_distinct_ex :
  add_range_distinct [region_new 0 3; region_new 4 7; region_new 9 12] (region_new 3 5) = Some ([region_new 0 3; region_new 3 5; region_new 9 12], (3, 5)) /\
  add_range_distinct [region_new 0 3; region_new 4 7; region_new 9 12] (region_new 5 8) = Some ([region_new 0 3; region_new 4 7; region_new 9 12], (4, 7)).
Proof. split; reflexivity. Qed.

(** Carried through an edit, a selection stays in order, selects the characters it selected, at
    their new places, and lies within the new text; carets stay before or after text inserted at
    them as asked. *)
Theorem C29_edit {A} rs (d : delta A) base text after dr : wf_delta d -> no_empty_copy (els d) -> apply d base = Some text ->
  exists out, sel_apply_delta rs d after dr = Some out /\ disjoint_in_order out /\
    (forall x j, nth_error (denote (els d)) j = Some (inl x) -> (selected out j <-> selected rs x)) /\
    (forall p, touched out p -> p <= length text) /\
    (forall r, In r rs -> lo r = hi r -> touched out (transform_ix d (lo r) after)).
Proof.
  intros Hw Hc E. destruct (sel_apply_delta_ok d after dr rs Hw Hc) as (out & Eo & S & P1 & P2 & P3). exists out. split; auto. split; [now apply sok_order|].
  split; [exact P1|]. split.
  - intros p Hp. rewrite <- (new_document_len_ok d base text E). now apply P2.
  - intros r Hr Hl. apply (P3 r Hr). rewrite is_caret_ok. apply Nat.eqb_eq. exact Hl.
Qed.
Print Assumptions C29_edit.
Example C29_edit_ex :
  let d := Delta [Copy 0 4; Insert [7; 8]; Copy 5 10] 10 in
  let rs := [caret 0; region_new 2 4; region_new 8 5; caret 9] in
  wf_delta d /\ no_empty_copy (els d) /\ apply d (seq 0 10) = Some [0; 1; 2; 3; 7; 8; 5; 6; 7; 8; 9] /\
  sel_apply_delta rs d true Inside = Some [caret 0; region_new 2 6; region_new 9 6; caret 10] /\
  sel_apply_delta rs d false Outside = Some [caret 0; region_new 2 4; region_new 9 6; caret 10] /\
  sel_apply_delta [caret 3; region_new 4 5; caret 6] d true DefaultDrift = Some [caret 3; caret 6; caret 7].
Proof. split; [split; cbn; [lia|repeat constructor; discriminate]|]. split; [repeat constructor; lia|]. repeat split. Qed.
