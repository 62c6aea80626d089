(** The engine invariant and its preservation by edits and undos. *)
From Coq Require Import List Arith Bool Lia ZifyBool.
From Verif Require Import Base ListLib MultisetModel MultisetSpec MultisetProofs SpreadFacts
  DeltaModel DeltaSpec ExpandProofs SynthProofs DeltaProofs RebaseFacts
  EngineModel EngineSpec EngineFacts.
Import ListNotations.

(** ** Chains and replay *)
Lemma chain_app n l1 l2 m : chain n (l1 ++ l2) m <-> exists k, chain n l1 k /\ chain k l2 m.
Proof.
  revert n; induction l1 as [|[id mx [p g ins del|tg bx]] l1 IH]; intros n; cbn [chain app r_edit].
  - split; [eauto|]. intros (k & -> & H). exact H.
  - rewrite IH. split.
    + intros (H1 & H2 & H3 & H4 & k & H5 & H6). exists k. auto 10.
    + intros (k & (H1 & H2 & H3 & H4 & H5) & H6). do 5 (try split; auto); eauto 10.
  - rewrite IH. split.
    + intros (H1 & H2 & k & H5 & H6). exists k. auto 10.
    + intros (k & (H1 & H2 & H5) & H6). do 5 (try split; auto); eauto 10.
Qed.

Lemma replay_cons U r l c : replay U (r :: l) c = replay U l (step U c r).
Proof. reflexivity. Qed.
Arguments replay : simpl never.

Lemma replay_app U l1 l2 c : replay U (l1 ++ l2) c = replay U l2 (replay U l1 c).
Proof. apply fold_left_app. Qed.

Lemma step_length U c r n m : chain n [r] m -> length c = n -> length (step U c r) = m.
Proof.
  destruct r as [id mx [p g ins del|tg bx]]; cbn [chain step r_edit]; unfold step; cbn [r_edit].
  - intros (_ & _ & H3 & H4 & H5) H. destruct (mem g U).
    + rewrite spread_length; lia.
    + rewrite zipw_length; rewrite spread_length; lia.
  - intros (_ & _ & ->) H. auto.
Qed.

Lemma replay_length U l : forall n m c, chain n l m -> length c = n -> length (replay U l c) = m.
Proof.
  induction l as [|r l IH]; intros n m c Hc Hl.
  - cbn in Hc. unfold replay. cbn [fold_left]. lia.
  - change (r :: l) with ([r] ++ l) in Hc. apply chain_app in Hc as (k & H1 & H2).
    rewrite replay_cons. apply (IH k); auto. eapply step_length; eauto.
Qed.

Lemma step_ext U V c r : same_groups U V -> step U c r = step V c r.
Proof. intros H. unfold step. destruct (r_edit r); auto. now rewrite H. Qed.

Lemma replay_ext U V l : same_groups U V -> forall c, replay U l c = replay V l c.
Proof. intros H. induction l as [|r l IH]; intros c; auto. rewrite !replay_cons. now rewrite (step_ext U V c r), IH. Qed.

(** A group an edit can be affected by. *)
Definition has_group (g : nat) (r : revision) : bool :=
  match r_edit r with Edit _ h _ _ => h =? g | Undo _ _ => false end.

Lemma replay_agree U V l : (forall r g, In r l -> has_group g r = true -> mem g U = mem g V) ->
  forall c, replay U l c = replay V l c.
Proof.
  induction l as [|r l IH]; intros H c; auto. rewrite !replay_cons.
  assert (E : step U c r = step V c r).
  { unfold step. specialize (H r). unfold has_group in H. destruct (r_edit r) as [p g ins del|]; auto.
    rewrite (H g); auto; [now left|apply Nat.eqb_refl]. }
  rewrite E. apply IH. intros. apply (H r0); auto. now right.
Qed.

(** ** Going back through the history *)
Lemma before_false U l : forall n m c0 D, chain n l m -> length c0 = n -> canonical D ->
  flat D = replay U l c0 ->
  exists D', before_loop (rev l) false D U = Some D' /\ canonical D' /\ flat D' = c0.
Proof.
  induction l as [|r l IH] using rev_ind; intros n m c0 D Hc Hl HD E.
  - cbn in *. eauto.
  - rewrite rev_app_distr. cbn [rev app before_loop].
    apply chain_app in Hc as (k & H1 & H2). rewrite replay_app in E.
    assert (Lk : length (replay U l c0) = k) by (eapply replay_length; eauto).
    remember (replay U l c0) as c1 eqn:E1. rewrite replay_cons in E; unfold replay in E; cbn [fold_left] in E.
    destruct r as [id mx [p g ins del|tg bx]]; unfold step in E; cbn [r_edit chain] in *.
    + destruct H2 as (I1 & I2 & I3 & I4 & I5). destruct (mem g U) eqn:Em.
      * destruct (transform_shrink_ok D ins HD I1) as (D1 & -> & C1 & F1).
        { rewrite E, spread_length; lia. }
        cbn [bind]. rewrite E, kept_spread in F1 by lia. subst c1. eapply IH; eauto.
      * assert (L1 : length (flat D) = length (flat del)).
        { rewrite E, zipw_length; rewrite spread_length; lia. }
        destruct (subtract_ok D del HD I2 L1) as (D1 & -> & C1 & F1).
        { rewrite E. apply dominated_add. rewrite spread_length; lia. }
        cbn [bind]. destruct (transform_shrink_ok D1 ins C1 I1) as (D2 & -> & C2 & F2).
        { rewrite F1, zipw_length; lia. }
        cbn [bind]. rewrite F1, E, unstep_expand in F2 by lia. subst c1. eapply IH; eauto.
    + eapply IH; eauto. now rewrite E.
Qed.

(** The deletion counts met when going back dominate those of the replay under the
    undone groups of that time: no subtraction can fail. *)
Fixpoint hist (n0 : nat) (l : list revision) (s : list nat * list nat) : Prop :=
  dominated (replay (snd s) (rev l) (repeat 0 n0)) (fst s) /\
  match l with
  | [] => True
  | r :: l' => hist n0 l' (unstep true r s)
  end.

Lemma hist_ext n0 l : forall c U V, same_groups U V -> hist n0 l (c, U) -> hist n0 l (c, V).
Proof.
  induction l as [|r l IH]; intros c U V H; cbn [hist fst snd].
  - intros [? _]. split; auto.
  - rewrite (replay_ext U V) by auto. intros [H1 H2]. split; auto.
    unfold unstep in *. cbn [fst snd] in *. destruct (r_edit r) as [p g ins del|tg bx].
    + rewrite <- H. eapply IH; eauto.
    + eapply IH; eauto. intros g. rewrite !mem_symdiff. now rewrite H.
Qed.

Lemma before_true U n0 l1 l2 : forall V m D, V = U -> chain n0 (l1 ++ l2) m -> length (flat D) = m ->
  canonical D -> hist n0 (rev (l1 ++ l2)) (flat D, U) ->
  let s := unplay true (rev l2) (flat D, U) in
  exists D' k, before_loop (rev l2) true D V = Some D' /\ canonical D' /\ flat D' = fst s /\
    chain n0 l1 k /\ chain k l2 m /\ length (flat D') = k /\ hist n0 (rev l1) s.
Proof.
  revert U; induction l2 as [|r l2 IH] using rev_ind; intros U V m D -> Hc Hl HD Hh.
  - rewrite app_nil_r in *. exists D, m. cbn. auto 10.
  - rewrite app_assoc in *. apply chain_app in Hc as (k & H1 & H2).
    rewrite rev_app_distr in Hh. cbn [rev app hist] in Hh. destruct Hh as [Hd Hh].
    rewrite rev_app_distr. cbn [rev app before_loop unplay]. cbn zeta.
    rewrite rev_involutive in Hd. cbn [fst snd] in Hd.
    rewrite replay_app in Hd.
    remember (replay U (l1 ++ l2) (repeat 0 n0)) as R eqn:ER.
    assert (LR : length R = k) by (subst R; eapply replay_length; [eauto|apply repeat_length]).
    rewrite replay_cons in Hd; unfold replay in Hd; cbn [fold_left] in Hd.
    destruct r as [id mx [p g ins del|tg bx]]; unfold step in Hd; unfold unstep in *;
      cbn [r_edit chain fst snd] in *.
    + destruct H2 as (I1 & I2 & I3 & I4 & I5).
      assert (Ch : forall a, chain a l2 k -> chain a (l2 ++ [Rev id mx (Edit p g ins del)]) m).
      { intros a Ha. apply chain_app. exists k. split; auto. cbn. auto 10. }
      destruct (mem g U) eqn:Em.
      * destruct (transform_shrink_ok D ins HD I1) as (D1 & -> & C1 & F1); [lia|].
        cbn [bind]. rewrite <- F1 in Hh |- *. specialize (IH U U k D1 eq_refl H1). cbn zeta in IH.
        destruct IH as (D' & k' & J1 & J2 & J3 & J4 & J5 & J6 & J7); auto.
        { rewrite F1, kept_length; lia. }
        exists D', k'. repeat (split; auto).
      * destruct (subtract_ok D del HD I2) as (D1 & -> & C1 & F1); [lia|..].
        { eapply dominated_weak; [..|apply Hd]; rewrite ?spread_length; lia. }
        cbn [bind]. destruct (transform_shrink_ok D1 ins C1 I1) as (D2 & -> & C2 & F2).
        { rewrite F1, zipw_length; lia. }
        cbn [bind]. rewrite <- F1 in Hh |- *. rewrite <- F2 in Hh |- *.
        specialize (IH U U k D2 eq_refl H1). cbn zeta in IH.
        destruct IH as (D' & k' & J1 & J2 & J3 & J4 & J5 & J6 & J7); auto.
        { rewrite F2, kept_length; [lia|]. rewrite F1, zipw_length; lia. }
        exists D', k'. repeat (split; auto).
    + destruct H2 as (I1 & I2 & I3). subst k.
      destruct (bitxor_ok D bx HD I1) as (D1 & -> & C1 & F1); [lia|].
      cbn [bind]. rewrite <- F1 in Hh |- *.
      specialize (IH (symdiff U tg) (symdiff U tg) m D1 eq_refl). cbn zeta in IH.
      destruct IH as (D' & k' & J1 & J2 & J3 & J4 & J5 & J6 & J7); auto.
      { rewrite <- I3. auto. }
      { rewrite F1, zipw_length; lia. }
      exists D', k'. repeat (split; auto). apply chain_app. exists m. split; auto. cbn. rewrite I3 in *; auto.
Qed.

(** ** The invariant *)
Fixpoint max_ok (lo : nat) (l : list revision) : Prop :=
  match l with
  | [] => True
  | r :: l' =>
      lo <= max_undo_so_far r /\ (forall g, has_group g r = true -> g <= max_undo_so_far r) /\
      max_ok (max_undo_so_far r) l'
  end.

Lemma max_ok_app lo l1 l2 : max_ok lo (l1 ++ l2) <->
  max_ok lo l1 /\ max_ok (match last_rev l1 with None => lo | Some r => max_undo_so_far r end) l2.
Proof.
  revert lo; induction l1 as [|r l1 IH]; intros lo; cbn [app max_ok].
  - cbn. tauto.
  - rewrite IH. unfold last_rev. cbn [rev]. destruct (rev l1) as [|x y] eqn:E; cbn [app]; tauto.
Qed.

Section Inv.
Context {A : Type}.
Implicit Types (e : engine A) (u : list A) (d : delta A).

Definition ids_ok e : Prop :=
  NoDup (map r_id (revs e)) /\
  forall r, In r (revs e) -> session_of (r_id r) = session e -> num (r_id r) < rev_id_counter e.

Record Inv e u (n0 : nat) : Prop := {
  i_chain : chain n0 (revs e) (length u);
  i_ne : revs e <> [];
  i_can : canonical (deletes_from_union e);
  i_len : length (flat (deletes_from_union e)) = length u;
  i_text : text e = kept (flat (deletes_from_union e)) u;
  i_tomb : tombstones e = removed (flat (deletes_from_union e)) u;
  i_replay : flat (deletes_from_union e) = replay (undone_groups e) (revs e) (repeat 0 n0);
  i_hist : hist n0 (rev (revs e)) (flat (deletes_from_union e), undone_groups e);
  i_max : max_ok 0 (revs e);
  i_ids : ids_ok e }.

(** Deletion counts of the union string of revision [ix], and the same carried to the
    current union string. *)
Definition counts_at e (ix : nat) : list nat :=
  fst (unplay true (rev (skipn (ix + 1) (revs e))) (flat (deletes_from_union e), undone_groups e)).
Definition cur_counts_at e (ix : nat) : list nat :=
  carry true (skipn (ix + 1) (revs e)) (counts_at e ix).

Lemma for_index_ok e u n0 ix : Inv e u n0 -> ix < length (revs e) ->
  exists D, deletes_from_union_for_index e ix = Some D /\ canonical D /\ flat D = counts_at e ix /\
    chain (length (flat D)) (skipn (ix + 1) (revs e)) (length u).
Proof.
  intros I Hi. unfold deletes_from_union_for_index, deletes_from_union_before_index.
  replace (length (revs e) <? ix + 1) with false by lia.
  destruct (before_true (undone_groups e) n0 (firstn (ix + 1) (revs e)) (skipn (ix + 1) (revs e))
    (undone_groups e) (length u) (deletes_from_union e) eq_refl)
    as (D & k & J1 & J2 & J3 & J4 & J5 & J6 & J7); rewrite ?firstn_skipn; try apply I.
  exists D. rewrite J6. auto.
Qed.

Lemma to_cur_union_ok l : forall D m, canonical D -> chain (length (flat D)) l m ->
  exists D', to_cur_union l D = Some D' /\ canonical D' /\ flat D' = carry true l (flat D) /\
    length (flat D') = m.
Proof.
  induction l as [|[id mx [p g ins del|tg bx]] l IH]; intros D m HD Hc; cbn [to_cur_union carry chain r_edit bind] in *.
  - eauto.
  - destruct Hc as (I1 & I2 & I3 & I4 & I5). destruct (is_empty ins) eqn:Ei; cbn [bind].
    + assert (E : spread true (flat D) (flat ins) = flat D) by (apply spread_empty_ins; auto).
      assert (L : length (flat D) = length (flat ins)) by (rewrite <- E; apply spread_length; auto).
      rewrite E. apply IH; auto. now rewrite L.
    + destruct (transform_union_ok D ins HD I1) as (D1 & -> & C1 & F1); [lia|]. cbn [bind].
      rewrite <- F1. apply IH; auto. rewrite F1, spread_length by lia. auto.
  - apply IH; auto. now destruct Hc as (_ & _ & ?).
Qed.

Lemma cur_index_ok e u n0 ix : Inv e u n0 -> ix < length (revs e) ->
  exists D, deletes_from_cur_union_for_index e ix = Some D /\ canonical D /\
    flat D = cur_counts_at e ix /\ length (flat D) = length u.
Proof.
  intros I Hi. destruct (for_index_ok e u n0 ix I Hi) as (D & E & C & F & Hc).
  unfold deletes_from_cur_union_for_index. rewrite E. cbn [bind].
  replace (length (revs e) <? ix + 1) with false by lia.
  destruct (to_cur_union_ok _ D (length u) C Hc) as (D' & J1 & J2 & J3 & J4).
  exists D'. unfold cur_counts_at. rewrite <- F. auto.
Qed.

Lemma rev_content_ok e u n0 ix : Inv e u n0 -> ix < length (revs e) ->
  rev_content_for_index e ix = Some (kept (cur_counts_at e ix) u).
Proof.
  intros I Hi. unfold rev_content_for_index.
  destruct (cur_index_ok e u n0 ix I Hi) as (D & -> & C & F & L). cbn [bind].
  destruct (synthesize_apply (deletes_from_union e) D u) as (dl & E & _ & _ & Ea); auto; try apply I.
  rewrite (i_tomb e u n0 I), E. cbn [bind]. rewrite (i_text e u n0 I), Ea. now rewrite F.
Qed.

Lemma find_last_lt p l i : find_last p l = Some i -> i < length l.
Proof.
  revert i; induction l as [|r l IH]; intros i; cbn [find_last]; [discriminate|].
  destruct (find_last p l) as [j|]; [|destruct (p r)].
  - intros [= <-]. cbn. specialize (IH j eq_refl). lia.
  - intros [= <-]. cbn. lia.
  - discriminate.
Qed.

(** ** Edits *)
Lemma rebase_empty (w : list (option A)) after n : keeps w = n -> rebase_script after w (repeat 0 n) = w.
Proof.
  revert w; induction n as [|n IH]; intros w H; auto. cbn [repeat rebase_script].
  destruct (span_spec w) as (s & r & -> & -> & [->|(r' & ->)]).
  - rewrite app_nil_r, keeps_Some in H. discriminate.
  - rewrite keeps_app, keeps_Some, keeps_None in H. cbn [tl]. rewrite IH by lia. reflexivity.
Qed.

Fixpoint rb (l : list revision) (p : full_priority) (w : list (option A)) : list (option A) :=
  match l with
  | [] => w
  | r :: l' =>
      rb l' p (match r_edit r with
               | Edit pri _ ins _ =>
                   rebase_script (priority_leb (pri, session_of (r_id r)) p) w (flat ins)
               | Undo _ _ => w
               end)
  end.

Lemma keeps_wf d : wf_insert_delta d -> keeps (script (els d)) = base_len d.
Proof. intros (H & _). erewrite keeps_script by eauto. lia. Qed.

Lemma rebase_over_ok l p : forall d dels m, wf_insert_delta d -> canonical dels ->
  length (flat dels) = base_len d -> chain (base_len d) l m ->
  exists d' dels', rebase_over l p d dels = Some (d', dels') /\ wf_insert_delta d' /\
    base_len d' = m /\ script (els d') = rb l p (script (els d)) /\ canonical dels' /\
    flat dels' = carry false l (flat dels) /\ length (flat dels') = m.
Proof.
  induction l as [|[id mx [pri g ins del|tg bx]] l IH]; intros d dels m W C L Hc;
    cbn [rebase_over carry chain r_edit r_id rb bind] in *.
  - exists d, dels. rewrite <- Hc. auto 10.
  - destruct Hc as (I1 & I2 & I3 & I4 & I5). destruct (is_empty ins) eqn:Ei.
    + rewrite (spread_empty_ins false (flat dels) ins I1 Ei) by lia.
      pose proof (is_empty_repeat ins I1 Ei) as Er.
      assert (En : base_len d = length (flat ins)).
      { rewrite Er in I3. rewrite zeros_repeat in I3. cbn in I3. lia. }
      rewrite Er, rebase_empty by (rewrite keeps_wf; auto).
      apply IH; auto. now rewrite En.
    + destruct (delta_transform_expand_ok d ins (priority_leb (pri, session_of id) p))
        as (d1 & -> & W1 & B1 & S1); auto. cbn [bind].
      destruct (transform_expand_ok dels ins C I1) as (dels1 & -> & C1 & F1); [lia|]. cbn [bind].
      rewrite <- F1, <- S1. apply IH; auto.
      * rewrite F1, spread_length; lia.
      * now rewrite B1.
  - apply IH; auto. now destruct Hc as (_ & _ & ?).
Qed.

Lemma keeps_rb l p : forall (w : list (option A)) n m, chain n l m -> keeps w = n -> keeps (rb l p w) = m.
Proof.
  induction l as [|[id mx [pri g ins del|tg bx]] l IH]; intros w n m Hc Hk; cbn [rb chain r_edit r_id] in *.
  - lia.
  - destruct Hc as (I1 & I2 & I3 & I4 & I5). eapply IH; eauto. apply keeps_rebase. lia.
  - destruct Hc as (_ & _ & ?). eapply IH; eauto.
Qed.

Lemma last_rev_ex (l : list revision) : l <> [] -> exists r, last_rev l = Some r /\ In r l.
Proof.
  intros H. unfold last_rev. destruct (rev l) as [|r l'] eqn:E.
  - apply (f_equal (@rev _)) in E. rewrite rev_involutive in E. cbn in E. congruence.
  - exists r. split; auto. apply in_rev. rewrite E. now left.
Qed.

Lemma next_id_fresh e : ids_ok e -> ~ In (next_rev_id e) (map r_id (revs e)).
Proof.
  intros [_ H] Hin. apply in_map_iff in Hin as (r & E & Hr). specialize (H r Hr). rewrite E in H.
  cbn in H. unfold session_of in H. cbn in H. specialize (H ltac:(now destruct (session e))). lia.
Qed.

Lemma ids_ok_push e txt tm dl U r : ids_ok e -> r_id r = next_rev_id e ->
  ids_ok (Engine (session e) (rev_id_counter e + 1) txt tm dl U (revs e ++ [r])).
Proof.
  intros H E. pose proof (next_id_fresh e H) as Hf. destruct H as [H1 H2]. split; cbn.
  - rewrite map_app. cbn. rewrite E. apply NoDup_rev in H1. rewrite <- (rev_involutive (map r_id (revs e) ++ [_])).
    apply NoDup_rev. rewrite rev_app_distr. cbn. constructor; auto. now rewrite <- in_rev.
  - intros r' Hr Hs. apply in_app_iff in Hr as [Hr|[<-|[]]].
    + specialize (H2 r' Hr Hs). lia.
    + rewrite E. cbn. lia.
Qed.

(** The new union string is [fill w u]. *)
Theorem edit_ok tok e u n0 p g t d ix : Inv e u n0 -> wf_delta d -> find_rev_token tok e t = Some ix ->
  let n := base_len d in
  let c := counts_at e ix in
  let later := skipn (ix + 1) (revs e) in
  if n =? zeros c then
    let w := rb later (p, session e) (rebase_script true (ins_script 0 (els d) n) c) in
    let del := spread false (carry false later (spread false (del_counts 0 (els d) n) c)) (marks w) in
    exists e' ins dels, try_edit_rev tok e p g t d = Some (e', Ok tt) /\
      Inv e' (fill w u) n0 /\ keeps w = length u /\
      canonical ins /\ flat ins = marks w /\ canonical dels /\ flat dels = del /\
      length del = length w /\
      session e' = session e /\ rev_id_counter e' = rev_id_counter e + 1 /\
      undone_groups e' = undone_groups e /\
      flat (deletes_from_union e') =
        (if mem g (undone_groups e) then spread true (flat (deletes_from_union e)) (marks w)
         else zipw Nat.add (spread false (flat (deletes_from_union e)) (marks w)) del) /\
      exists mx, revs e' = revs e ++ [Rev (next_rev_id e) mx (Edit p g ins dels)]
  else try_edit_rev tok e p g t d = Some (e, Err (MalformedDelta (zeros c) n)).
Proof.
  intros I W Hf n c later. cbv zeta.
  set (w := rb later (p, session e) (rebase_script true (ins_script 0 (els d) n) c)).
  set (del := spread false (carry false later (spread false (del_counts 0 (els d) n) c)) (marks w)).
  unfold try_edit_rev, mk_new_rev. rewrite Hf.
  destruct (factor_ok d W) as (insd & del0 & -> & W0 & B0 & C0 & L0 & F0 & S0). cbn [bind].
  assert (Hi : ix < length (revs e)) by (eapply find_last_lt; eauto).
  destruct (for_index_ok e u n0 ix I Hi) as (D & -> & CD & FD & Hc). cbn [bind].
  rewrite len_after_delete_ok, FD, B0. fold c. fold n. destruct (n =? zeros c) eqn:En; cbn [negb]; [|reflexivity].
  apply Nat.eqb_eq in En.
  destruct (delta_transform_expand_ok insd D true W0 CD) as (d1 & -> & W1 & B1 & S1).
  { rewrite FD, B0. exact En. }
  cbn [bind]. destruct (transform_expand_ok del0 D C0 CD) as (del1 & -> & C1 & F1).
  { rewrite L0, FD. exact En. }
  cbn [bind]. fold later. rewrite <- B1 in Hc.
  destruct (rebase_over_ok later (p, session e) d1 del1 (length u) W1 C1)
    as (d2 & del2 & -> & W2 & B2 & S2 & C2 & F2 & L2); auto.
  { rewrite F1, spread_length; [now rewrite B1|]. rewrite L0, FD. exact En. }
  cbn [bind].
  assert (Ew : script (els d2) = w) by (rewrite S2, S1, S0, FD; reflexivity).
  assert (Kw : keeps w = length u) by (rewrite <- Ew, keeps_wf; auto).
  destruct (inserted_subset_ok d2) as (ins & -> & Ci & Fi); try apply W2. cbn [bind].
  rewrite Ew in Fi.
  assert (Zi : zeros (flat ins) = length u) by (rewrite Fi, zeros_marks; auto).
  assert (Edel : exists dels, (if is_empty ins then Some del2 else transform_expand del2 ins) = Some dels /\
     canonical dels /\ flat dels = del).
  { assert (Q : del = spread false (flat del2) (flat ins)).
    { unfold del. rewrite Fi, F2, F1, F0, FD. reflexivity. }
    rewrite Q. destruct (is_empty ins) eqn:Ei.
    - exists del2. repeat split; auto. rewrite spread_empty_ins; auto. lia.
    - destruct (transform_expand_ok del2 ins C2 Ci) as (x & ? & ? & ?); [lia|]. eauto. }
  destruct Edel as (dels & -> & Cd & Fd). cbn [bind].
  assert (Ld : length del = length w).
  { unfold del. rewrite spread_length, marks_length; auto. rewrite zeros_marks, Kw.
    fold c in FD. rewrite <- FD. unfold n. rewrite <- F0, <- F1, <- F2. lia. }
  pose proof (i_can e u n0 I) as CU. pose proof (i_len e u n0 I) as LU.
  destruct (delta_transform_shrink_ok d2 (deletes_from_union e) W2) as (d3 & -> & Co3 & _ & B3 & S3); [lia|].
  cbn [bind]. rewrite (i_text e u n0 I), (i_tomb e u n0 I).
  assert (Ht : apply d3 (kept (flat (deletes_from_union e)) u) =
    Some (kept (spread false (flat (deletes_from_union e)) (marks w)) (fill w u))).
  { unfold apply. rewrite (apply_insert 0); [|rewrite kept_length by lia; rewrite <- B3; exact Co3].
    rewrite S3, Ew. cbn [skipn]. f_equal. apply fill_shrink; lia. }
  rewrite Ht. cbn [bind].
  destruct (transform_expand_ok (deletes_from_union e) ins CU Ci) as (rbd & -> & Cr & Fr); [lia|].
  cbn [bind]. rewrite Fi in Fr.
  assert (Lr : length (flat rbd) = length w).
  { rewrite Fr, spread_length, marks_length; auto. rewrite zeros_marks. lia. }
  assert (Ln : exists nd, union rbd (if mem g (undone_groups e) then ins else dels) = Some nd /\ canonical nd /\
     length (flat nd) = length w /\
     flat nd = (if mem g (undone_groups e) then spread true (flat (deletes_from_union e)) (marks w)
         else zipw Nat.add (spread false (flat (deletes_from_union e)) (marks w)) del)).
  { destruct (mem g (undone_groups e)).
    - assert (Q : length (flat rbd) = length (flat ins)) by (rewrite Fi, marks_length; lia).
      destruct (union_ok rbd ins Cr Ci Q) as (nd & -> & Cn & Fn). exists nd. repeat split; auto.
      + rewrite Fn, zipw_length; lia.
      + rewrite Fn, Fr, Fi, spread_true; auto. rewrite zeros_marks. lia.
    - assert (Q : length (flat rbd) = length (flat dels)) by (rewrite Fd; lia).
      destruct (union_ok rbd dels Cr Cd Q) as (nd & -> & Cn & Fn). exists nd. repeat split; auto.
      + rewrite Fn, zipw_length; lia.
      + rewrite Fn, Fr, Fd. reflexivity. }
  destruct Ln as (nd & -> & Cn & Ln & Fn). cbn [bind].
  assert (Lf : length (fill w u) = length w) by (apply fill_length; auto).
  assert (Hs : shuffle (kept (spread false (flat (deletes_from_union e)) (marks w)) (fill w u))
     (removed (flat (deletes_from_union e)) u) rbd nd = Some (kept (flat nd) (fill w u), removed (flat nd) (fill w u))).
  { rewrite <- (removed_spread w (flat (deletes_from_union e)) u) by lia. rewrite <- Fr.
    apply shuffle_ok; auto; lia. }
  rewrite Hs. cbn [bind].
  destruct (last_rev_ex (revs e) (i_ne e u n0 I)) as (hr & El & Hin). rewrite El. cbn [bind].
  eexists _, ins, dels. split; [reflexivity|].
  match goal with |- Inv ?x _ _ /\ _ => set (e' := x) end.
  assert (Est : step (undone_groups e) (flat (deletes_from_union e))
     (Rev (next_rev_id e) (Nat.max g (max_undo_so_far hr)) (Edit p g ins dels)) = flat nd).
  { unfold step. cbn [r_edit]. rewrite Fn, Fi, Fd. reflexivity. }
  split; [|cbn; repeat (split; [solve [auto]|]); eauto].
  constructor; cbn [e' revs deletes_from_union text tombstones undone_groups]; auto.
  - apply chain_app. exists (length u). split; [apply I|]. cbn. rewrite Fi, Fd, marks_length, zeros_marks. auto 10.
  - now destruct (revs e).
  - now rewrite Lf.
  - rewrite replay_app, <- (i_replay e u n0 I). unfold replay. cbn [fold_left]. now rewrite Est.
  - rewrite rev_app_distr. cbn [rev app hist fst snd]. split.
    + rewrite rev_involutive, replay_app, <- (i_replay e u n0 I). unfold replay. cbn [fold_left].
      rewrite Est. apply dominated_refl.
    + unfold unstep. cbn [r_edit fst snd].
      replace (kept (flat ins) _) with (flat (deletes_from_union e)); [apply I|].
      rewrite Fn, Fi. destruct (mem g (undone_groups e)).
      * symmetry. apply kept_spread. rewrite zeros_marks. lia.
      * rewrite Fd, unstep_expand; auto; rewrite ?zeros_marks, ?marks_length; lia.
  - apply max_ok_app. split; [apply I|]. rewrite El. cbn. repeat split; [lia|].
    unfold has_group. cbn. intros g' Hg. apply Nat.eqb_eq in Hg. lia.
  - apply ids_ok_push; auto. apply I.
Qed.

(** ** Undo *)
Lemma undo_loop_ok G l : forall D m, canonical D -> chain (length (flat D)) l m ->
  exists D', undo_loop l G D = Some D' /\ canonical D' /\ flat D' = replay G l (flat D) /\
    length (flat D') = m.
Proof.
  induction l as [|[id mx [p g ins del|tg bx]] l IH]; intros D m HD Hc; cbn [undo_loop chain r_edit] in *.
  - exists D. unfold replay. cbn. auto.
  - destruct Hc as (I1 & I2 & I3 & I4 & I5). rewrite replay_cons. unfold step at 1. cbn [r_edit].
    assert (E : exists D', (if mem g G then if is_empty ins then Some D else transform_union D ins
             else let? s1 := if is_empty ins then Some D else transform_expand D ins in
                  if is_empty del then Some s1 else union s1 del) = Some D' /\ canonical D' /\
        flat D' = (if mem g G then spread true (flat D) (flat ins)
                   else zipw Nat.add (spread false (flat D) (flat ins)) (flat del)) /\
        length (flat D') = length (flat ins)).
    { destruct (mem g G).
      - destruct (is_empty ins) eqn:Ei.
        + exists D. rewrite spread_empty_ins by (auto; lia). repeat split; auto.
          rewrite <- (spread_empty_ins true (flat D) ins) by (auto; lia). apply spread_length. lia.
        + destruct (transform_union_ok D ins HD I1) as (D1 & -> & C1 & F1); [lia|].
          exists D1. repeat split; auto. rewrite F1. apply spread_length; lia.
      - assert (E1 : exists D1, (if is_empty ins then Some D else transform_expand D ins) = Some D1 /\
            canonical D1 /\ flat D1 = spread false (flat D) (flat ins)).
        { destruct (is_empty ins) eqn:Ei.
          - exists D. rewrite spread_empty_ins by (auto; lia). auto.
          - apply transform_expand_ok; auto. }
        destruct E1 as (D1 & -> & C1 & F1). cbn [bind].
        assert (L1 : length (flat D1) = length (flat ins)) by (rewrite F1; apply spread_length; lia).
        destruct (is_empty del) eqn:Ed.
        + exists D1. rewrite <- F1, add_empty_del by (auto; lia). auto.
        + destruct (union_ok D1 del C1 I2) as (D2 & -> & C2 & F2); [lia|].
          exists D2. rewrite F2, <- F1. repeat split; auto. rewrite zipw_length; lia. }
    destruct E as (D' & -> & C' & F' & L'). cbn [bind]. rewrite <- F'. apply IH; auto. now rewrite L'.
  - cbn [bind]. rewrite replay_cons. unfold step at 1. cbn [r_edit]. apply IH; auto. now destruct Hc as (_ & _ & ?).
Qed.

Lemma max_ok_groups l : forall lo i r, max_ok lo l -> nth_error l i = Some r ->
  forall r' g, In r' (firstn (S i) l) -> has_group g r' = true -> g <= max_undo_so_far r.
Proof.
  induction l as [|x l IH]; intros lo i r Hm Hn r' g Hin Hg; [now destruct i|].
  destruct Hm as (H1 & H2 & H3). destruct i as [|i].
  - injection Hn as ->. cbn [firstn] in Hin. destruct Hin as [<-|[]]. auto.
  - cbn in Hn. destruct Hin as [<-|Hin].
    + specialize (H2 g Hg). clear - H2 H3 Hn. revert i x H2 H3 Hn.
      induction l as [|y l IH]; intros i x H2 H3 Hn; [now destruct i|].
      destruct H3 as (J1 & J2 & J3). destruct i; [injection Hn as ->; lia|].
      eapply (IH i y); eauto. lia.
    + eapply (IH _ i r); eauto.
Qed.

Lemma find_last_nth p l i : find_last p l = Some i -> exists r, nth_error l i = Some r /\ p r = true.
Proof.
  revert i; induction l as [|x l IH]; intros i; cbn [find_last]; [discriminate|].
  destruct (find_last p l) as [j|].
  - intros [= <-]. cbn. now apply IH.
  - destruct (p x) eqn:E; [|discriminate]. intros [= <-]. cbn. eauto.
Qed.

Lemma candidate_ok e u n0 G : Inv e u n0 ->
  let fc := find_first_undo_candidate_index e (symdiff (undone_groups e) G) in
  fc <= length (revs e) /\
  forall c, replay (undone_groups e) (firstn fc (revs e)) c = replay G (firstn fc (revs e)) c.
Proof.
  intros I fc. unfold fc, find_first_undo_candidate_index.
  destruct (set_min _) as [low|] eqn:Em.
  - unfold first_candidate. destruct (find_last _ _) as [i|] eqn:Ef.
    + pose proof (find_last_lt _ _ _ Ef). split; [lia|].
      apply find_last_nth in Ef as (r & Hn & Hp). apply replay_agree. intros r' g Hin Hg.
      rewrite Nat.add_1_r in Hin. pose proof (max_ok_groups _ _ _ _ (i_max e u n0 I) Hn r' g Hin Hg).
      destruct (mem g (symdiff (undone_groups e) G)) eqn:Eg.
      * pose proof (set_min_le _ _ _ Em Eg). lia.
      * rewrite mem_symdiff in Eg. destruct (mem g (undone_groups e)), (mem g G); auto; discriminate.
    + split; [lia|]. reflexivity.
  - split; auto. intros c. apply replay_ext. intros g. apply set_min_None in Em.
    assert (Eg : mem g (symdiff (undone_groups e) G) = false) by now rewrite Em.
    rewrite mem_symdiff in Eg. destruct (mem g (undone_groups e)), (mem g G); auto; discriminate.
Qed.

Theorem undo_ok e u n0 G : Inv e u n0 ->
  exists e', undo e G = Some e' /\ Inv e' u n0 /\
    flat (deletes_from_union e') = replay G (revs e) (repeat 0 n0) /\
    undone_groups e' = G /\ session e' = session e /\ rev_id_counter e' = rev_id_counter e + 1 /\
    exists mx bx, revs e' = revs e ++ [Rev (next_rev_id e) mx (Undo (symdiff (undone_groups e) G) bx)] /\
      flat bx = zipw Nat.lxor (flat (deletes_from_union e)) (flat (deletes_from_union e')).
Proof.
  intros I. unfold undo, compute_undo.
  destruct (candidate_ok e u n0 G I) as [Hfc Hr]. cbn zeta in *.
  set (fc := find_first_undo_candidate_index e (symdiff (undone_groups e) G)) in *.
  unfold deletes_from_union_before_index. replace (length (revs e) <? fc) with false by lia.
  pose proof (i_chain e u n0 I) as Hc. rewrite <- (firstn_skipn fc (revs e)) in Hc.
  apply chain_app in Hc as (k & H1 & H2).
  pose proof (i_replay e u n0 I) as Er. rewrite <- (firstn_skipn fc (revs e)), replay_app in Er.
  assert (Lk : length (replay (undone_groups e) (firstn fc (revs e)) (repeat 0 n0)) = k).
  { eapply replay_length; eauto. apply repeat_length. }
  destruct (before_false (undone_groups e) (skipn fc (revs e)) k (length u) _ _ H2 Lk (i_can e u n0 I) Er)
    as (D0 & -> & C0 & F0). cbn [bind].
  destruct (undo_loop_ok G (skipn fc (revs e)) D0 (length u) C0) as (D1 & -> & C1 & F1 & L1).
  { rewrite F0, Lk. exact H2. }
  cbn [bind]. rewrite F0, Hr, <- replay_app, firstn_skipn in F1.
  pose proof (i_len e u n0 I) as LU. pose proof (i_can e u n0 I) as CU.
  destruct (bitxor_ok (deletes_from_union e) D1 CU C1) as (bx & -> & Cb & Fb); [lia|]. cbn [bind].
  destruct (last_rev_ex (revs e) (i_ne e u n0 I)) as (hr & El & Hin). rewrite El. cbn [bind].
  rewrite (i_text e u n0 I), (i_tomb e u n0 I), shuffle_ok by auto. cbn [bind].
  eexists. split; [reflexivity|]. cbn [deletes_from_union undone_groups session rev_id_counter revs].
  split; [|rewrite <- F1; repeat (split; [reflexivity|]); eauto].
  assert (Lb : length (flat bx) = length u) by (rewrite Fb, zipw_length; lia).
  constructor; cbn [revs deletes_from_union text tombstones undone_groups]; auto.
  - apply chain_app. exists (length u). split; [apply I|]. cbn. auto.
  - now destruct (revs e).
  - rewrite replay_app. unfold replay at 1. cbn [fold_left]. exact F1.
  - rewrite rev_app_distr. cbn [rev app hist fst snd]. split.
    + rewrite rev_involutive, replay_app. unfold replay at 1. cbn [fold_left]. unfold step. cbn [r_edit].
      rewrite F1. apply dominated_refl.
    + unfold unstep. cbn [r_edit fst snd]. rewrite Fb, lxor_cancel by lia.
      eapply hist_ext; [|apply I]. intros g. rewrite !mem_symdiff. now destruct (mem g G), (mem g (undone_groups e)).
  - apply max_ok_app. split; [apply I|]. rewrite El. cbn. repeat split; auto.
    unfold has_group. cbn. discriminate.
  - apply ids_ok_push; auto. apply I.
Qed.

End Inv.
