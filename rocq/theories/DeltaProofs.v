(** Applying, factoring, shrinking and marking deltas. *)
From Coq Require Import List Arith Bool Lia ZifyBool.
From Verif Require Import Base ListLib MultisetModel MultisetSpec MultisetProofs DeltaModel DeltaSpec
  ExpandProofs SynthProofs.
Import ListNotations.

(** ** Lists of counts *)
Lemma spread_app u s1 s2 o1 o2 : length s1 = zeros o1 ->
  spread u (s1 ++ s2) (o1 ++ o2) = spread u s1 o1 ++ spread u s2 o2.
Proof.
  revert s1; induction o1 as [|[|k] o1 IH]; intros s1 H; cbn in *.
  - destruct s1; [auto|discriminate].
  - destruct s1 as [|c s1]; [discriminate|]. cbn. f_equal. apply IH. cbn in H. unfold zeros in *. lia.
  - f_equal. now apply IH.
Qed.

Lemma spread_all_zero u s n : length s = n -> spread u s (repeat 0 n) = s.
Proof. intros <-. induction s; cbn; auto. now f_equal. Qed.

Lemma spread_length u s o : length s = zeros o -> length (spread u s o) = length o.
Proof.
  revert s; induction o as [|[|k] o IH]; intros s H; cbn in *; auto.
  destruct s as [|c s]; [discriminate|]. cbn in *. f_equal. apply IH. unfold zeros in *. lia.
Qed.

Lemma kept_nil_all {A} n (s : list A) : length s = n -> kept (repeat 1 n) s = [].
Proof. intros <-. rewrite kept_repeat. auto. Qed.

Lemma kept_all_zero {A} n (s : list A) : length s = n -> kept (repeat 0 n) s = s.
Proof. intros <-. rewrite kept_repeat. auto. Qed.

Section DP.
Context {A : Type}.
Implicit Types (l : list (element A)) (w : list (option A)) (base : list A).

(** ** Scripts *)
Lemma keeps_app w1 w2 : keeps (w1 ++ w2) = keeps w1 + keeps w2.
Proof. unfold keeps. now rewrite filter_app, app_length. Qed.
Lemma keeps_repeat n : keeps (repeat (@None A) n) = n.
Proof. unfold keeps. induction n; cbn; auto. Qed.
Lemma keeps_Some (s : list A) : keeps (map Some s) = 0.
Proof. unfold keeps. induction s; cbn; auto. Qed.

Lemma marks_app w1 w2 : marks (w1 ++ w2) = marks w1 ++ marks w2.
Proof. apply map_app. Qed.
Lemma marks_repeat n : marks (repeat (@None A) n) = repeat 0 n.
Proof. unfold marks. apply map_repeat. Qed.
Lemma marks_Some (s : list A) : marks (map Some s) = repeat 1 (length s).
Proof. induction s; cbn; auto. now f_equal. Qed.
Lemma zeros_marks w : zeros (marks w) = keeps w.
Proof. unfold zeros, keeps, marks. induction w as [|[c|] w IH]; cbn; auto. Qed.
Lemma marks_length w : length (marks w) = length w.
Proof. apply map_length. Qed.

Lemma fill_app w1 w2 (s1 s2 : list A) : keeps w1 = length s1 -> fill (w1 ++ w2) (s1 ++ s2) = fill w1 s1 ++ fill w2 s2.
Proof.
  revert s1; induction w1 as [|[c|] w1 IH]; intros s1 H; cbn in *.
  - destruct s1; [auto|discriminate].
  - f_equal. apply IH. exact H.
  - destruct s1 as [|x s1]; [discriminate|]. cbn. f_equal. apply IH. cbn in H. unfold keeps in *. lia.
Qed.
Lemma fill_repeat n (s : list A) : length s = n -> fill (repeat None n) s = s.
Proof. intros <-. induction s; cbn; auto. now f_equal. Qed.
Lemma fill_Some (s : list A) r : fill (map Some s) r = s.
Proof. induction s; cbn; auto. now f_equal. Qed.
Lemma fill_Some_app (s : list A) w r : fill (map Some s ++ w) r = s ++ fill w r.
Proof. induction s; cbn; auto. now f_equal. Qed.
Lemma fill_length w (s : list A) : keeps w = length s -> length (fill w s) = length w.
Proof.
  revert s; induction w as [|[c|] w IH]; intros s H; cbn in *; auto.
  destruct s as [|x s]; [discriminate|]. cbn in *. f_equal. apply IH. unfold keeps in *. lia.
Qed.

(** Inserting is undone by deleting what was inserted. *)
Lemma kept_marks_fill w (s : list A) : keeps w = length s -> kept (marks w) (fill w s) = s.
Proof.
  revert s; induction w as [|[c|] w IH]; intros s H; cbn in *.
  - now destruct s.
  - now apply IH.
  - destruct s as [|x s]; [discriminate|]. cbn. f_equal. apply IH. cbn in H. unfold keeps in *. lia.
Qed.

(** ** apply *)
Definition resolve base (t : list (nat + A)) : list A :=
  flat_map (fun x => match x with
                     | inl k => match nth_error base k with Some c => [c] | None => [] end
                     | inr c => [c] end) t.

Arguments resolve : simpl never.

Lemma resolve_app base t1 t2 : resolve base (t1 ++ t2) = resolve base t1 ++ resolve base t2.
Proof. apply flat_map_app. Qed.

Lemma resolve_inr base (s : list A) : resolve base (map inr s) = s.
Proof. unfold resolve. induction s; cbn; auto. now f_equal. Qed.

Lemma resolve_seq base n b : b + n <= length base ->
  resolve base (map inl (seq b n)) = slice base b (b + n).
Proof.
  unfold resolve. revert b; induction n as [|n IH]; intros b H.
  - unfold slice. now replace (b + 0 - b) with 0 by lia.
  - cbn [seq map flat_map].
    destruct (nth_error base b) as [c|] eqn:E; [|apply nth_error_None in E; lia].
    rewrite IH by lia. rewrite (slice_split base b (S b) (b + S n)) by lia.
    replace (S b + n) with (b + S n) by lia. f_equal.
    unfold slice. replace (S b - b) with 1 by lia.
    apply nth_error_split in E as (l1 & l2 & -> & E). rewrite skipn_app_exact by auto. reflexivity.
Qed.

Definition copies_in l n : Prop :=
  Forall (fun x => match x with Copy b e => b <= e /\ e <= n | Insert _ => True end) l.

Lemma sorted_in pos l n : sorted_copies pos l n -> copies_in l n /\ pos <= n.
Proof.
  revert pos; induction l as [|[b e|s] l IH]; cbn; intros pos H; [split; [constructor|auto]| |].
  - destruct H as (H1 & H2 & H3). apply IH in H3 as [H3 H4]. split; [|lia]. constructor; auto.
  - apply IH in H as [H3 H4]. split; [|lia]. constructor; auto.
Qed.

Lemma apply_els_ok l base : copies_in l (length base) ->
  apply_els l base = Some (resolve base (denote l)).
Proof.
  induction 1 as [|[b e|s] l Hx H IH]; cbn [apply_els denote]; auto.
  - destruct Hx as [H1 H2]. rewrite (proj2 (Nat.leb_le _ _) H1), (proj2 (Nat.leb_le _ _) H2). cbn [andb].
    rewrite IH. cbn [bind]. rewrite resolve_app, resolve_seq by lia.
    now replace (b + (e - b)) with e by lia.
  - rewrite IH. cbn [bind]. now rewrite resolve_app, resolve_inr.
Qed.

Lemma apply_ok (d : delta A) base : wf_delta d -> base_len d = length base ->
  apply d base = Some (resolve base (denote (els d))).
Proof. intros [H _] E. apply apply_els_ok. rewrite <- E. now apply sorted_in in H. Qed.

Lemma resolve_between p f t (u : list A) : length f = length u -> length t = length u ->
  resolve (p ++ kept f u) (between (length p) f t u) = kept t u.
Proof.
  revert p t u; induction f as [|f0 f IH]; intros p [|t0 t] [|x u] Hf Ht; cbn in *; auto; try lia.
  rewrite resolve_app. destruct (Nat.eqb_spec f0 0) as [->|Hne].
  - specialize (IH (p ++ [x]) t u ltac:(lia) ltac:(lia)).
    rewrite app_length in IH. cbn in IH. rewrite Nat.add_1_r, <- app_assoc in IH. cbn [app] in IH.
    rewrite IH. destruct (t0 =? 0); [|reflexivity]. unfold resolve; cbn.
    rewrite nth_error_app2, Nat.sub_diag by lia. reflexivity.
  - rewrite IH by lia. destruct (t0 =? 0); reflexivity.
Qed.

Theorem synthesize_apply fs ts (u : list A) : canonical fs -> canonical ts ->
  length (flat fs) = length u -> length (flat ts) = length u ->
  exists d, synthesize (removed (flat fs) u) fs ts = Some d /\ wf_delta d /\
    base_len d = length (kept (flat fs) u) /\
    apply d (kept (flat fs) u) = Some (kept (flat ts) u).
Proof.
  intros Hf Ht Hlf Hlt. destruct (synthesize_ok fs ts u Hf Ht Hlf Hlt) as (d & E & H1 & H2 & H3 & H4).
  assert (base_len d = length (kept (flat fs) u)) by (rewrite H4, kept_length; auto).
  exists d. split; [auto|]. split; [auto|]. split; [auto|]. rewrite apply_ok by auto. rewrite H1.
  f_equal. apply (resolve_between [] (flat fs) (flat ts) u); auto.
Qed.

(** ** Insert deltas *)
Lemma contiguous_sorted pos l n : contiguous pos l n -> sorted_copies pos l n.
Proof.
  revert pos; induction l as [|[b e|s] l IH]; cbn; intros pos H; [lia| |]; intuition; subst; auto.
Qed.

Lemma contiguous_le pos l n : contiguous pos l n -> pos <= n.
Proof. intros H. apply contiguous_sorted in H. now apply sorted_in in H. Qed.

Lemma keeps_script pos l n : contiguous pos l n -> keeps (script l) = n - pos.
Proof.
  revert pos; induction l as [|[b e|s] l IH]; cbn [script contiguous]; intros pos H.
  - cbn. lia.
  - destruct H as (-> & H1 & H2). rewrite keeps_app, keeps_repeat, (IH e) by auto.
    apply contiguous_le in H2. lia.
  - rewrite keeps_app, keeps_Some. now apply IH.
Qed.

Lemma apply_insert pos l base : contiguous pos l (length base) ->
  apply_els l base = Some (fill (script l) (skipn pos base)).
Proof.
  revert pos; induction l as [|[b e|s] l IH]; cbn [script contiguous apply_els]; intros pos H.
  - now cbn.
  - destruct H as (-> & H1 & H2). pose proof (contiguous_le _ _ _ H2) as H3.
    rewrite (proj2 (Nat.leb_le _ _) H1), (proj2 (Nat.leb_le _ _) H3). cbn [andb].
    rewrite (IH e) by auto. cbn [bind]. rewrite (slice_skipn base pos e) by lia.
    rewrite fill_app, fill_repeat; rewrite ?keeps_repeat, ?slice_length; auto.
  - rewrite (IH pos) by auto. cbn [bind]. now rewrite fill_Some_app.
Qed.

Lemma insert_apply_ok d base : wf_insert_delta d -> base_len d = length base ->
  apply d base = Some (fill (script (els d)) base).
Proof. intros (H & _) E. unfold apply. rewrite (apply_insert 0); [auto|now rewrite <- E]. Qed.

(** ** inserted_subset *)
Lemma inserted_loop_ok l : no_empty_insert l -> no_empty_copy l -> forall sb, bld_ok sb ->
  exists sb', inserted_loop l sb = Some sb' /\ bld_ok sb' /\
    flat (build sb') = flat (build sb) ++ marks (script l).
Proof.
  intros H. induction H as [|x l Hx H IH]; intros Hc sb Hsb.
  - exists sb. cbn. now rewrite app_nil_r.
  - inversion_clear Hc as [|? ? Hcx Hc']. destruct x as [b e|s]; cbn [inserted_loop script].
    + destruct (Nat.ltb_spec e b); [lia|].
      destruct (push_segment_ok sb (e - b) 0 Hsb ltac:(lia)) as (sb1 & -> & B1 & B2). cbn [bind].
      destruct (IH Hc' sb1 B1) as (sb' & E & B3 & B4). exists sb'. split; [auto|]. split; [auto|].
      rewrite B4. unfold build in *. rewrite B2, <- app_assoc. f_equal. now rewrite marks_app, marks_repeat.
    + destruct (push_segment_ok sb (length s) 1 Hsb) as (sb1 & -> & B1 & B2).
      { destruct s; [congruence|cbn; lia]. }
      cbn [bind]. destruct (IH Hc' sb1 B1) as (sb' & E & B3 & B4). exists sb'. split; [auto|]. split; [auto|].
      rewrite B4. unfold build in *. rewrite B2, <- app_assoc. f_equal. now rewrite marks_app, marks_Some.
Qed.

Lemma inserted_subset_ok (d : delta A) : no_empty_insert (els d) -> no_empty_copy (els d) ->
  exists r, inserted_subset d = Some r /\ canonical r /\ flat r = marks (script (els d)).
Proof.
  intros H1 H2. unfold inserted_subset.
  destruct (inserted_loop_ok (els d) H1 H2 builder_new bld_ok_new) as (sb & -> & [Hc _] & Hf).
  cbn [bind]. eexists; split; [reflexivity|]. split; auto.
Qed.

(** ** factor *)
Lemma factor_loop_ok n : forall l st, sorted_copies (f_e1 st) l n -> no_empty_insert l ->
  bld_ok (f_sb st) -> b_total (f_sb st) <= f_e1 st -> f_b1 st <= f_e1 st ->
  contiguous 0 (f_ins st) (f_b1 st) -> no_empty_insert (f_ins st) -> no_empty_copy (f_ins st) ->
  exists st', factor_loop l st = Some st' /\ sorted_copies (f_e1 st') (@nil (element A)) n /\
    bld_ok (f_sb st') /\ b_total (f_sb st') <= f_e1 st' /\ f_b1 st' <= f_e1 st' /\
    contiguous 0 (f_ins st') (f_b1 st') /\ no_empty_insert (f_ins st') /\ no_empty_copy (f_ins st') /\
    flat (build (f_sb st')) ++ repeat 0 (f_e1 st' - b_total (f_sb st')) ++ del_counts (f_e1 st') (@nil (element A)) n =
    flat (build (f_sb st)) ++ repeat 0 (f_e1 st - b_total (f_sb st)) ++ del_counts (f_e1 st) l n /\
    script (f_ins st') ++ repeat None (f_e1 st' - f_b1 st') ++ ins_script (f_e1 st') [] n =
    script (f_ins st) ++ repeat None (f_e1 st - f_b1 st) ++ ins_script (f_e1 st) l n.
Proof.
  induction l as [|[b e|s] l IH]; intros [ins sb b1 e1]; cbn [f_ins f_sb f_b1 f_e1 factor_loop];
    intros Hs Hne Hsb Ht Hb Hc Hi Hk.
  - eexists; split; [reflexivity|]. cbn [f_ins f_sb f_b1 f_e1]. repeat (split; auto).
  - cbn in Hs. destruct Hs as (S1 & S2 & S3).
    destruct (add_range_ok sb e1 b 1 Hsb Ht) as (sb1 & -> & B1 & B2). cbn [bind].
    assert (T1 : b_total sb1 = b_total sb + (if b <=? e1 then 0 else b - b_total sb)).
    { destruct B1 as [_ ->]. destruct Hsb as [_ T]. unfold build in B2. rewrite B2, app_length.
      rewrite <- T. destruct (b <=? e1) eqn:E; cbn [length]; [lia|].
      rewrite app_length, !repeat_length. lia. }
    inversion_clear Hne as [|? ? _ Hne'].
    destruct (IH (FState ins sb1 b1 e)) as (st' & E & J1 & J2 & J3 & J4 & J5 & J6 & J7 & J8 & J9);
      cbn [f_ins f_sb f_b1 f_e1]; auto; try lia.
    { destruct (b <=? e1) eqn:E; lia. }
    exists st'. split; [exact E|]. repeat (split; [assumption|]). cbn [f_ins f_sb f_b1 f_e1] in *.
    rewrite J8, J9. cbn [del_counts ins_script]. split.
    + unfold build in *. rewrite B2, <- app_assoc. f_equal. rewrite T1.
      destruct (Nat.leb_spec b e1).
      * replace (b - e1) with 0 by lia. cbn [repeat app]. rewrite app_assoc, <- repeat_app.
        f_equal. f_equal. lia.
      * rewrite <- !app_assoc. f_equal. f_equal. f_equal. f_equal. lia.
    + rewrite app_assoc with (m := repeat None (e - e1)), <- repeat_app.
      replace (e1 - b1 + (e - e1)) with (e - b1) by lia. reflexivity.
  - cbn in Hs. inversion_clear Hne as [|? ? Hn Hne'].
    set (ins1 := if b1 <? e1 then ins ++ [Copy b1 e1] else ins).
    assert (C1 : contiguous 0 ins1 e1 /\ no_empty_insert ins1 /\ no_empty_copy ins1 /\
                 script ins1 = script ins ++ repeat None (e1 - b1)).
    { unfold ins1. destruct (Nat.ltb_spec b1 e1).
      - split; [|split; [|split]].
        + eapply contiguous_app; eauto. cbn. lia.
        + apply no_empty_insert_app. split; auto. repeat constructor.
        + apply no_empty_copy_app. split; auto. repeat constructor. auto.
        + rewrite script_app. cbn. now rewrite app_nil_r.
      - assert (b1 = e1) by lia. subst. rewrite Nat.sub_diag. cbn. rewrite app_nil_r. auto. }
    destruct C1 as (C1 & C2 & C3 & C4).
    destruct (IH (FState (ins1 ++ [Insert s]) sb e1 e1)) as (st' & E & J1 & J2 & J3 & J4 & J5 & J6 & J7 & J8 & J9);
      cbn [f_ins f_sb f_b1 f_e1]; auto; try lia.
    { eapply contiguous_app; eauto. cbn. lia. }
    { apply no_empty_insert_app. split; auto. repeat constructor. auto. }
    { apply no_empty_copy_app. split; auto. repeat constructor. }
    exists st'. split; [exact E|]. repeat (split; [assumption|]). cbn [f_ins f_sb f_b1 f_e1] in *.
    rewrite J9. cbn [del_counts ins_script].
    rewrite script_app, C4, Nat.sub_diag. cbn. rewrite app_nil_r, <- !app_assoc. reflexivity.
Qed.

Lemma factor_ok (d : delta A) : wf_delta d -> exists ins del, factor d = Some (ins, del) /\
  wf_insert_delta ins /\ base_len ins = base_len d /\ canonical del /\
  length (flat del) = base_len d /\
  flat del = del_counts 0 (els d) (base_len d) /\
  script (els ins) = ins_script 0 (els d) (base_len d).
Proof.
  intros [H1 H2]. unfold factor.
  destruct (factor_loop_ok (base_len d) (els d) (FState [] builder_new 0 0)) as
    ([ins sb b1 e1] & -> & J1 & J2 & J3 & J4 & J5 & J6 & J7 & J8 & J9);
    cbn [f_ins f_sb f_b1 f_e1]; auto; try (now constructor); try apply bld_ok_new; cbn [f_ins f_sb f_b1 f_e1] in *.
  cbn [bind f_ins f_sb f_b1 f_e1].
  destruct (add_range_ok sb e1 (base_len d) 1 J2 J3) as (sb1 & -> & B1 & B2). cbn [bind].
  destruct (pad_to_len_ok sb1 (base_len d) B1) as (sb2 & -> & B3 & B4). cbn [bind].
  eexists _, _. split; [reflexivity|]. cbn [els base_len]. cbn in J1.
  assert (Hdel : flat (build sb2) = del_counts 0 (els d) (base_len d)).
  { cbn [build builder_new] in J8. change (flat (build builder_new)) with (@nil nat) in J8. cbn [app b_total builder_new repeat Nat.sub] in J8.
    rewrite <- J8, B4, B2. destruct J2 as [_ T]. unfold build. destruct (Nat.leb_spec (base_len d) e1).
    - assert (e1 = base_len d) by lia. subst e1. rewrite app_nil_r. f_equal. cbn. rewrite Nat.sub_diag. cbn.
      rewrite app_nil_r. f_equal. lia.
    - rewrite <- app_assoc. f_equal. rewrite <- app_assoc. f_equal. cbn.
      rewrite !app_length, !repeat_length.
      replace (base_len d - (length (flat (b_segs sb)) + (e1 - b_total sb + (base_len d - e1)))) with 0 by lia.
      cbn. now rewrite app_nil_r. }
  split; [|split; [reflexivity|split; [apply B3|split; [|split; [exact Hdel|]]]]].
  - destruct (Nat.ltb_spec b1 (base_len d)); split; cbn [els base_len].
    + eapply contiguous_app; eauto. cbn. lia.
    + split; [apply no_empty_insert_app|apply no_empty_copy_app]; split; auto; repeat constructor; auto.
    + now replace (base_len d) with b1 by lia.
    + auto.
  - rewrite B4, B2. rewrite !app_length. destruct J2 as [_ T]. unfold build.
    rewrite <- T. destruct (Nat.leb_spec (base_len d) e1); cbn [length];
    rewrite ?app_length, ?repeat_length; cbn [length]; lia.
  - cbn [repeat Nat.sub script app] in J9. change (script (@nil (element A))) with (@nil (option A)) in J9. cbn [app] in J9.
    rewrite <- J9. cbn [ins_script].
    rewrite <- repeat_app. replace (e1 - b1 + (base_len d - e1)) with (base_len d - b1) by lia.
    destruct (Nat.ltb_spec b1 (base_len d)).
    + rewrite script_app. cbn. now rewrite app_nil_r.
    + replace (base_len d - b1) with 0 by lia. cbn. now rewrite app_nil_r.
Qed.

Lemma ins_script_keeps pos l n : sorted_copies pos l n -> keeps (ins_script pos l n) = n - pos.
Proof.
  revert pos; induction l as [|[b e|s] l IH]; cbn [ins_script sorted_copies]; intros pos H.
  - apply keeps_repeat.
  - destruct H as (H1 & H2 & H3). rewrite keeps_app, keeps_repeat, IH by auto.
    apply sorted_in in H3. lia.
  - rewrite keeps_app, keeps_Some. now apply IH.
Qed.

Lemma del_counts_length pos l n : sorted_copies pos l n -> length (del_counts pos l n) = n - pos.
Proof.
  revert pos; induction l as [|[b e|s] l IH]; cbn [del_counts sorted_copies]; intros pos H.
  - apply repeat_length.
  - destruct H as (H1 & H2 & H3). rewrite !app_length, !repeat_length, IH by auto.
    apply sorted_in in H3. lia.
  - now apply IH.
Qed.

(** Inserting, then deleting, is applying. *)
Lemma factor_apply l : forall pos base, sorted_copies pos l (length base) ->
  kept (spread false (del_counts pos l (length base)) (marks (ins_script pos l (length base))))
       (fill (ins_script pos l (length base)) (skipn pos base)) = resolve base (denote l).
Proof.
  induction l as [|[b e|s] l IH]; cbn [del_counts ins_script sorted_copies denote]; intros pos base H.
  - rewrite marks_repeat, spread_all_zero by apply repeat_length.
    rewrite fill_repeat by apply skipn_length. apply kept_nil_all. apply skipn_length.
  - destruct H as (H1 & H2 & H3). pose proof (proj2 (sorted_in _ _ _ H3)) as H4.
    rewrite resolve_app, resolve_seq by lia. rewrite <- (IH e base H3).
    rewrite (slice_skipn base pos e) by lia. rewrite marks_app, marks_repeat.
    rewrite fill_app by (rewrite keeps_repeat, slice_length; lia).
    rewrite app_assoc, spread_app by (rewrite app_length, !repeat_length, zeros_repeat; cbn; lia).
    rewrite spread_all_zero by (rewrite app_length, !repeat_length; lia).
    rewrite fill_repeat by (rewrite slice_length; lia).
    rewrite kept_app by (rewrite app_length, !repeat_length, slice_length; lia). f_equal.
    rewrite (slice_split base pos b e) by lia.
    rewrite kept_app by (rewrite repeat_length, slice_length; lia).
    rewrite kept_nil_all by (rewrite slice_length; lia). cbn [app].
    rewrite kept_all_zero by (rewrite slice_length; lia). f_equal. lia.
  - rewrite resolve_app, resolve_inr, <- (IH pos base H). rewrite fill_Some_app, marks_app, marks_Some.
    rewrite spread_nonzeros. rewrite kept_app by apply repeat_length.
    rewrite kept_repeat. reflexivity.
Qed.

(** ** transform_shrink *)
Lemma shrink_script_app w1 w2 c1 c2 : keeps w1 = length c1 ->
  shrink_script (w1 ++ w2) (c1 ++ c2) = shrink_script w1 c1 ++ shrink_script w2 c2.
Proof.
  revert c1; induction w1 as [|[x|] w1 IH]; intros c1 H; cbn in *.
  - destruct c1; [auto|discriminate].
  - f_equal. now apply IH.
  - destruct c1 as [|k c1]; [discriminate|]. cbn in *.
    rewrite IH by (unfold keeps in *; lia). destruct (k =? 0); auto.
Qed.
Lemma shrink_script_none c : shrink_script (repeat (@None A) (length c)) c = repeat None (zeros c).
Proof.
  unfold zeros. induction c as [|k c IH]; cbn; auto. destruct (k =? 0); cbn; rewrite IH; auto.
Qed.
Lemma shrink_script_Some (s : list A) w c : shrink_script (map Some s ++ w) c = map Some s ++ shrink_script w c.
Proof. induction s; cbn; auto. now f_equal. Qed.

Lemma shrink_els_ok x : forall l m pos, mp_inv x Zero (mp_last m) m -> mp_last m <= pos ->
  contiguous pos l (length (flat x)) ->
  exists l', shrink_els m l = Some l' /\ contiguous (rank Zero (flat x) pos) l' (zeros (flat x)) /\
    script l' = shrink_script (script l) (skipn pos (flat x)) /\
    (no_empty_insert l -> no_empty_insert l').
Proof.
  induction l as [|[b e|s] l IH]; intros m pos Hm Hp Hc; cbn [shrink_els script contiguous] in *.
  - subst. eexists; split; [reflexivity|]. cbn. rewrite rank_full. repeat split; auto.
  - destruct Hc as (-> & H1 & H2). pose proof (contiguous_le _ _ _ H2) as H3.
    destruct (doc_index_ok x Zero m pos Hm Hp) as (m1 & -> & M1 & M2). cbn [bind].
    destruct (doc_index_ok x Zero m1 e M1 ltac:(lia)) as (m2 & -> & M3 & M4). cbn [bind].
    destruct (IH m2 e M3 ltac:(lia) H2) as (l' & -> & I1 & I2 & I3). cbn [bind].
    eexists; split; [reflexivity|]. split; [|split].
    + cbn. split; auto. split; auto. now apply rank_mono.
    + cbn [script]. rewrite I2. rewrite (slice_skipn (flat x) pos e) by lia.
      rewrite shrink_script_app by (rewrite keeps_repeat, slice_length; lia). f_equal.
      replace (e - pos) with (length (slice (flat x) pos e)) by (rewrite slice_length; lia).
      rewrite shrink_script_none. f_equal. rewrite (rank_zero_slice (flat x) pos e) by lia. lia.
    + intros Hn. inversion_clear Hn. constructor; auto. now apply I3.
  - destruct (IH m pos Hm Hp Hc) as (l' & -> & I1 & I2 & I3). cbn [bind].
    eexists; split; [reflexivity|]. split; [|split]; auto.
    + cbn [script]. now rewrite I2, shrink_script_Some.
    + intros Hn. inversion_clear Hn. constructor; auto. now apply I3.
Qed.

Lemma delta_transform_shrink_ok (d : delta A) x : wf_insert_delta d -> base_len d = length (flat x) ->
  exists d', delta_transform_shrink d x = Some d' /\
    contiguous 0 (els d') (base_len d') /\ no_empty_insert (els d') /\
    base_len d' = zeros (flat x) /\
    script (els d') = shrink_script (script (els d)) (flat x).
Proof.
  intros (H1 & H2 & H3) Hb. unfold delta_transform_shrink. rewrite Hb in H1.
  destruct (shrink_els_ok x (els d) (mapper_of x Zero) 0 (mapper_of_inv x Zero) ltac:(cbn; lia) H1)
    as (l' & -> & I1 & I2 & I3).
  cbn [bind]. eexists; split; [reflexivity|]. cbn [els base_len]. rewrite len_after_delete_ok.
  change (rank Zero (flat x) 0) with 0 in I1. cbn [skipn] in I2. auto.
Qed.

(** Shrinking an insertion script commutes with deletion. *)
Lemma fill_shrink w c (u : list A) : keeps w = length c -> length c = length u ->
  fill (shrink_script w c) (kept c u) = kept (spread false c (marks w)) (fill w u).
Proof.
  revert c u; induction w as [|[x|] w IH]; intros c u Hw Hc.
  - destruct c; reflexivity.
  - cbn. f_equal. now apply IH.
  - destruct c as [|k c]; [discriminate|]. destruct u as [|y u]; [discriminate|].
    cbn in Hw, Hc |- *. specialize (IH c u ltac:(unfold keeps; lia) ltac:(lia)).
    destruct (k =? 0); cbn; first [exact IH|f_equal; exact IH].
Qed.
Lemma removed_spread w c (u : list A) : keeps w = length c -> length c = length u ->
  removed (spread false c (marks w)) (fill w u) = removed c u.
Proof.
  revert c u; induction w as [|[x|] w IH]; intros c u Hw Hc.
  - now destruct c.
  - cbn. now apply IH.
  - destruct c as [|k c]; [discriminate|]. destruct u as [|y u]; [discriminate|].
    cbn in Hw, Hc |- *. specialize (IH c u ltac:(unfold keeps; lia) ltac:(lia)).
    destruct (k =? 0); cbn; first [exact IH|f_equal; exact IH].
Qed.

End DP.
