(** Proofs about the editing commands. *)
From Coq Require Import List Arith Lia Bool ZifyBool.
From Verif Require Import Base ListLib MultisetProofs DeltaModel DeltaSpec DeltaProofs DeltaProofs2 PropertiesDelta TreeModel TreeSpec TreeProofs MetricProofs CursorModel CursorProofs CursorBoundary
  RopeModel RopeSpec RopeProofs RopeMetric RopeIterModel RopeCursor RopeIterProofs SelectionModel SelectionProofs PropertiesSelection WordModel WordProofs PropertiesWord EditOpsModel EditOpsSpec.
Import ListNotations.
Local Notation concat := List.concat.
Local Notation region := SelectionModel.region.
Local Notation edit := (nat * nat * list nat)%type.

Lemma slice_length {A} (l : list A) i j : i <= j <= length l -> length (slice l i j) = j - i.
Proof. intros H. unfold slice. rewrite firstn_length, skipn_length. lia. Qed.

Section Rope.
Context (r : rope) (h : nat) (W : rope_wf h r).
Notation s := (rcontent r).
Local Notation bd := (char_boundary s).
Local Notation run := (@run_edits nat).

Lemma bd_iff o : bd o <-> scut s o.
Proof. symmetry. apply boundary_iff. eapply rope_utf8; eauto. Qed.
Lemma bd_le o : bd o -> o <= length s.
Proof. intros H. apply bd_iff in H. now apply cb_le in H. Qed.
Lemma bd_0 : bd 0. Proof. apply bd_iff. reflexivity. Qed.
Lemma bd_len : bd (length s). Proof. apply bd_iff. apply cb_len. Qed.
Local Notation len_eq := (len_r r h W).

(** ** Deltas from edits *)
Definition cut_ok (x : element nat) : Prop := match x with Copy a b => bd a /\ bd b | Insert _ => True end.
Definition ed_ok (x : edit) : Prop := bd (fst (fst x)) /\ bd (snd (fst x)).
Lemma run_cuts eds : Forall ed_ok eds -> forall b b', Forall cut_ok (db_els b) -> bd (db_last b) -> run b eds = Some b' ->
  Forall cut_ok (db_els b') /\ bd (db_last b') /\ db_base b' = db_base b.
Proof.
  induction 1 as [|[[x y] t] eds (H1 & H2) F IH]; intros b b' Hb Hl E.
  { injection E as <-. auto. }
  rewrite run_edits_cons in E. unfold db_replace, db_delete in E. cbn [fst snd] in *. destruct (x <? db_last b); [discriminate|]. cbn [bind] in E.
  assert (Hq : Forall cut_ok (if db_last b <? x then db_els b ++ [Copy (db_last b) x] else db_els b)).
  { destruct (db_last b <? x); auto. apply Forall_app. split; auto. constructor; auto. split; auto. }
  destruct t as [|c t]; apply IH in E; auto. cbn [db_els]. apply Forall_app. split; auto. constructor; [exact Logic.I|constructor].
Qed.
Lemma edits_make eds : sorted_edits 0 eds (length s) -> Forall ed_ok eds ->
  exists b, run (dbuilder_new (n_len r)) eds = Some b /\ makes (db_build b) s (edited 0 eds s).
Proof.
  intros S F. destruct (C04_builder s eds S) as (b & E & H1 & H2 & H3 & H4 & _). exists b. rewrite len_eq. split; auto.
  split; auto. split; auto. split; auto. destruct (run_cuts eds F _ _ (Forall_nil _ : Forall cut_ok (db_els (dbuilder_new _))) bd_0 E) as (C1 & C2 & C3).
  unfold db_build. cbn [els]. cbn [dbuilder_new db_base] in C3. destruct (_ <? _); auto. apply Forall_app. split; auto. constructor; auto.
  rewrite C3. split; auto. apply bd_len.
Qed.

(** ** Selections *)
Lemma lo_min x : lo x = rmin x. Proof. reflexivity. Qed.
Lemma hi_max x : hi x = rmax x. Proof. reflexivity. Qed.
Lemma lo_hi x : lo x <= hi x. Proof. unfold lo, hi. lia. Qed.
(** The edits of a command that replaces every region. *)
Definition sel_from (k : nat) (rs : list region) : Prop := sok rs /\ forall x, In x rs -> k <= lo x /\ bd (lo x) /\ bd (hi x).
Lemma selects_from rs : selects s rs -> sel_from 0 rs.
Proof. intros [H1 H2]. split; [now apply sok_order|]. intros x Hx. split; [lia|]. auto. Qed.
Lemma sel_from_cons k x rs : sel_from k (x :: rs) -> k <= lo x /\ bd (lo x) /\ bd (hi x) /\ sel_from (hi x) rs.
Proof.
  intros [[H1 H2] H3]. destruct (H3 x (or_introl eq_refl)) as (A & B & C). split; auto. split; auto. split; auto. split; auto.
  intros y Hy. destruct (H3 y (or_intror Hy)) as (A' & B' & C'). rewrite Forall_forall in H1. destruct (H1 y Hy) as [L _]. split; auto.
Qed.
Lemma sorted_map (f : region -> list nat) rs : forall k, k <= length s -> sel_from k rs ->
  sorted_edits k (map (fun x => (lo x, hi x, f x)) rs) (length s) /\ Forall ed_ok (map (fun x => (lo x, hi x, f x)) rs).
Proof.
  induction rs as [|x rs IH]; intros k Hk H; [cbn; auto|]. apply sel_from_cons in H as (H1 & H2 & H3 & H4).
  destruct (IH (hi x) (bd_le _ H3) H4) as [I1 I2]. pose proof (lo_hi x). cbn. split; auto. constructor; auto. split; auto.
Qed.

Lemma insert_run text rs : forall b, insert_loop text rs b = run b (map (fun x => (lo x, hi x, text)) rs).
Proof. induction rs as [|x rs IH]; intros b; [reflexivity|]. cbn [map insert_loop]. rewrite run_edits_cons. rewrite <- lo_min, <- hi_max. destruct (db_replace _ _ _ _); cbn [bind]; auto. Qed.
Lemma insert_ok rs text : selects s rs -> exists d, insert r rs text = Some d /\ makes d s (edited 0 (map (fun x => (lo x, hi x, text)) rs) s).
Proof.
  intros H. destruct (sorted_map (fun _ => text) rs 0 ltac:(lia) (selects_from _ H)) as [H1 H2]. destruct (edits_make _ H1 H2) as (b & E & M).
  exists (db_build b). unfold insert. now rewrite insert_run, E.
Qed.

Lemma transform_run f rs : forall k b, sel_from k rs -> transform_loop r f rs b = run b (map (fun x => (lo x, hi x, f (text_of s x))) rs).
Proof.
  induction rs as [|x rs IH]; intros k b H; [reflexivity|]. apply sel_from_cons in H as (H1 & H2 & H3 & H4). cbn [map transform_loop]. rewrite run_edits_cons.
  rewrite <- lo_min, <- hi_max. rewrite (slice_to_cow_ok r h W) by (try apply lo_hi; now apply bd_iff). cbn [bind]. change (slice s (lo x) (hi x)) with (text_of s x).
  destruct (db_replace _ _ _ _); cbn [bind]; eauto.
Qed.
Lemma transform_ok rs f : selects s rs -> exists d, transform_text r rs f = Some d /\ makes d s (edited 0 (map (fun x => (lo x, hi x, f (text_of s x))) rs) s).
Proof.
  intros H. destruct (sorted_map (fun x => f (text_of s x)) rs 0 ltac:(lia) (selects_from _ H)) as [H1 H2]. destruct (edits_make _ H1 H2) as (b & E & M).
  exists (db_build b). unfold transform_text. now rewrite (transform_run f rs 0), E by now apply selects_from.
Qed.

Definition surround_edits (before after : list nat) (x : region) : list edit := [(lo x, lo x, before); (hi x, hi x, after)].
Lemma surround_run before after rs : forall b, surround_loop before after rs b = run b (flat_map (surround_edits before after) rs).
Proof.
  induction rs as [|x rs IH]; intros b; [reflexivity|]. cbn [flat_map surround_edits app surround_loop]. rewrite run_edits_cons. rewrite <- lo_min, <- hi_max.
  destruct (db_replace _ _ _ _); cbn [bind]; auto. rewrite run_edits_cons. destruct (db_replace _ _ _ _); cbn [bind]; auto.
Qed.
Lemma surround_sorted before after rs : forall k, k <= length s -> sel_from k rs ->
  sorted_edits k (flat_map (surround_edits before after) rs) (length s) /\ Forall ed_ok (flat_map (surround_edits before after) rs).
Proof.
  induction rs as [|x rs IH]; intros k Hk H; [cbn; auto|]. apply sel_from_cons in H as (H1 & H2 & H3 & H4).
  destruct (IH (hi x) (bd_le _ H3) H4) as [I1 I2]. pose proof (lo_hi x). cbn. split; [auto 8|]. constructor; [split; auto|]. constructor; [split; auto|auto].
Qed.
Lemma surround_ok rs before after : selects s rs -> exists d, surround r rs before after = Some d /\
  makes d s (edited 0 (flat_map (surround_edits before after) rs) s).
Proof.
  intros H. destruct (surround_sorted before after rs 0 ltac:(lia) (selects_from _ H)) as [H1 H2]. destruct (edits_make _ H1 H2) as (b & E & M).
  exists (db_build b). unfold surround. now rewrite surround_run, E.
Qed.
(** A surrounded region is the region's text between the two. *)
Lemma edited_surround before after rs : forall k, k <= length s -> sel_from k rs ->
  edited k (flat_map (surround_edits before after) rs) s = edited k (map (fun x => (lo x, hi x, before ++ text_of s x ++ after)) rs) s.
Proof.
  induction rs as [|x rs IH]; intros k Hk H; [reflexivity|]. apply sel_from_cons in H as (H1 & H2 & H3 & H4). cbn [flat_map surround_edits app map edited].
  rewrite (IH (hi x) (bd_le _ H3) H4). rewrite <- !app_assoc. reflexivity.
Qed.

(** ** Deleting *)
Lemma delete_run rs : forall b, delete_loop rs b = run b (map (fun x => (lo x, hi x, [])) (selections rs)).
Proof.
  induction rs as [|x rs IH]; intros b; [reflexivity|]. cbn [delete_loop selections filter]. rewrite <- lo_min, <- hi_max.
  destruct (Nat.leb_spec (hi x) (lo x)).
  - replace (lo x <? hi x) with false by lia. cbn [bind]. apply IH.
  - replace (lo x <? hi x) with true by lia. cbn [map]. rewrite run_edits_cons. unfold db_replace. destruct (db_delete b (lo x) (hi x)); cbn [bind]; [apply IH|reflexivity].
Qed.
Lemma sel_from_selections k rs : sel_from k rs -> sel_from k (selections rs).
Proof.
  revert k. induction rs as [|x rs IH]; intros k H; [exact H|]. cbn [selections filter]. pose proof H as [[H1 H2] H3].
  assert (T : sel_from k rs). { split; auto. intros y Hy. apply H3. now right. }
  destruct (lo x <? hi x); [|now apply IH]. split; [split; [|apply (IH _ T)]|].
  - apply Forall_forall. intros y Hy. apply filter_In in Hy as [Hy _]. rewrite Forall_forall in H1. auto.
  - intros y [<-|Hy]; [apply H3; now left|]. apply filter_In in Hy as [Hy _]. apply H3. now right.
Qed.
Lemma covered_selections rs p : covered (selections rs) p = covered rs p.
Proof.
  induction rs as [|x rs IH]; [reflexivity|]. cbn [selections filter covered existsb]. destruct (Nat.ltb_spec (lo x) (hi x)).
  - cbn [existsb]. unfold covered in IH. now rewrite <- IH.
  - unfold covered in IH. rewrite <- IH. replace ((lo x <=? p) && (p <? hi x)) with false by lia. reflexivity.
Qed.
Lemma filter_none {A} (f : A -> bool) l : (forall x, In x l -> f x = false) -> filter f l = [].
Proof. induction l; cbn; intros H; auto. rewrite (H a) by auto. auto. Qed.
Lemma filter_all {A} (f : A -> bool) l : (forall x, In x l -> f x = true) -> filter f l = l.
Proof. induction l; cbn; intros H; auto. rewrite (H a) by auto. now rewrite IHl by auto. Qed.
Lemma combine_seq_app (u v : list nat) k : combine (seq k (length (u ++ v))) (u ++ v) = combine (seq k (length u)) u ++ combine (seq (k + length u) (length v)) v.
Proof.
  rewrite app_length, seq_app. revert k. induction u as [|x u IH]; intros k; cbn [app length seq combine].
  - now rewrite Nat.add_0_r.
  - specialize (IH (S k)). cbn [Nat.add] in IH. rewrite Nat.add_succ_r. now rewrite IH.
Qed.
Lemma map_snd_combine (l : list nat) k : map snd (combine (seq k (length l)) l) = l.
Proof. revert k. induction l; intros; cbn; congruence. Qed.
Lemma in_combine_seq k (l : list nat) x : In x (combine (seq k (length l)) l) -> k <= fst x < k + length l.
Proof. destruct x as [a b]. intros H. apply in_combine_l in H. apply in_seq in H. exact H. Qed.
Lemma edited_without rs : forall k, k <= length s -> sel_from k rs ->
  edited k (map (fun x => (lo x, hi x, [])) rs) s =
  map snd (filter (fun q => negb (covered rs (fst q))) (combine (seq k (length s - k)) (skipn k s))).
Proof.
  induction rs as [|x rs IH]; intros k Hk H.
  { cbn [map edited]. rewrite filter_all by reflexivity. rewrite <- (skipn_length k s). now rewrite map_snd_combine. }
  pose proof (sel_from_cons _ _ _ H) as (H1 & H2 & H3 & H4). pose proof (lo_hi x) as Hl. pose proof (bd_le _ H3) as He. cbn [map edited app].
  rewrite (IH (hi x) He H4).
  assert (E : skipn k s = slice s k (lo x) ++ slice s (lo x) (hi x) ++ skipn (hi x) s).
  { rewrite <- (firstn_skipn (lo x - k) (skipn k s)). unfold slice. f_equal. rewrite skipn_skipn. replace (k + (lo x - k)) with (lo x) by lia.
    rewrite <- (firstn_skipn (hi x - lo x) (skipn (lo x) s)) at 1. f_equal. rewrite skipn_skipn. f_equal. lia. }
  rewrite <- (skipn_length k s), E, !combine_seq_app. rewrite (slice_length s k (lo x)), (slice_length s (lo x) (hi x)) by lia. rewrite !filter_app, !map_app.
  rewrite (filter_all _ (combine (seq k _) _)), (filter_none _ (combine (seq (k + _) _) _)).
  - replace (combine (seq k (lo x - k)) (slice s k (lo x))) with (combine (seq k (length (slice s k (lo x)))) (slice s k (lo x))) by (now rewrite slice_length by lia).
    rewrite map_snd_combine. cbn [app map]. f_equal. replace (k + (lo x - k) + (hi x - lo x)) with (hi x) by lia. f_equal. rewrite skipn_length.
    apply filter_ext_in. intros q Hq. rewrite <- (skipn_length (hi x) s) in Hq. apply in_combine_seq in Hq. cbn [covered existsb]. replace ((lo x <=? fst q) && (fst q <? hi x)) with false by lia. reflexivity.
  - intros q Hq. replace (hi x - lo x) with (length (slice s (lo x) (hi x))) in Hq by (apply slice_length; lia). apply in_combine_seq in Hq. rewrite slice_length in Hq by lia.
    cbn [covered existsb]. replace ((lo x <=? fst q) && (fst q <? hi x)) with true by lia. reflexivity.
  - intros q Hq. replace (lo x - k) with (length (slice s k (lo x))) in Hq by (apply slice_length; lia). apply in_combine_seq in Hq. rewrite slice_length in Hq by lia.
    cbn [covered existsb]. replace ((lo x <=? fst q) && (fst q <? hi x)) with false by lia. cbn [orb]. apply negb_true_iff, not_true_is_false. intros C.
    apply existsb_exists in C as (y & Hy & C). destruct H4 as [_ H4]. destruct (H4 y Hy) as (L & _). lia.
Qed.
Lemma delete_from rs : sel_from 0 rs -> exists d, delete_sel_regions r rs = Some d /\ makes d s (without rs s).
Proof.
  intros H. pose proof (sel_from_selections _ _ H) as H0. destruct (sorted_map (fun _ => []) (selections rs) 0 ltac:(lia) H0) as [H1 H2].
  destruct (edits_make _ H1 H2) as (b & E & M). exists (db_build b). unfold delete_sel_regions. rewrite delete_run, E. split; auto.
  rewrite edited_without in M by (auto; lia). rewrite Nat.sub_0_r in M. cbn [skipn] in M. unfold without.
  rewrite (filter_ext (fun q => negb (covered rs (fst q))) (fun q => negb (covered (selections rs) (fst q)))); auto. intros q. now rewrite covered_selections.
Qed.

(** ** Copying *)
Definition tail_join (ts : list (list nat)) : list nat := flat_map (fun t => [10] ++ t) ts.
Lemma join_tail t ts : join (t :: ts) = t ++ tail_join ts.
Proof. revert t. induction ts as [|u ts IH]; intros t; [cbn; now rewrite app_nil_r|]. change (join (t :: u :: ts)) with (t ++ [10] ++ join (u :: ts)). rewrite IH. cbn [tail_join flat_map]. now rewrite <- app_assoc. Qed.
Lemma extract_run rs : forall k saved, sel_from k rs -> extract_loop r rs saved =
  Some (match saved with
        | Some t => Some (t ++ tail_join (map (text_of s) (selections rs)))
        | None => match selections rs with [] => None | _ => Some (join (map (text_of s) (selections rs))) end
        end).
Proof.
  induction rs as [|x rs IH]; intros k saved H.
  { cbn. destruct saved; auto. now rewrite app_nil_r. }
  apply sel_from_cons in H as (H1 & H2 & H3 & H4). cbn [extract_loop selections filter]. rewrite is_caret_ok. rewrite <- lo_min, <- hi_max. pose proof (lo_hi x).
  destruct (Nat.eqb_spec (lo x) (hi x)) as [E|E].
  - replace (lo x <? hi x) with false by lia. apply (IH _ _ H4).
  - replace (lo x <? hi x) with true by lia. rewrite (slice_to_cow_ok r h W) by (auto; now apply bd_iff). cbn [bind]. change (slice s (lo x) (hi x)) with (text_of s x). rewrite (IH _ _ H4).
    cbn [map]. change (filter (fun x : region => lo x <? hi x) rs) with (selections rs). destruct saved as [t|]; f_equal; f_equal.
    + cbn [tail_join flat_map]. change NL with 10. now rewrite <- !app_assoc.
    + now rewrite join_tail.
Qed.
Lemma extract_ok rs : sel_from 0 rs -> extract_sel_regions r rs = Some (match selections rs with [] => None | _ => Some (join (map (text_of s) (selections rs))) end).
Proof. intros H. unfold extract_sel_regions. apply (extract_run rs 0 None H). Qed.
End Rope.
