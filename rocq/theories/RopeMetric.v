(** The metrics of text ropes obey the laws. *)
From Coq Require Import List Arith Lia Bool ZifyBool.
From Verif Require Import Base ListLib TreeModel TreeSpec TreeProofs MetricProofs RopeModel RopeSpec RopeProofs.
Import ListNotations.
Local Notation concat := List.concat.

Lemma firstn_le_split {A} (s : list A) i j : i <= j -> firstn j s = firstn i s ++ slice s i j.
Proof.
  intros H. rewrite <- (firstn_skipn i s) at 1. rewrite firstn_app. unfold slice.
  destruct (Nat.le_gt_cases i (length s)).
  - rewrite firstn_length_le by auto. f_equal. apply firstn_all2. rewrite firstn_length. lia.
  - rewrite !(skipn_all2 s) by lia. rewrite !firstn_nil, !app_nil_r. apply firstn_all2. rewrite firstn_length. lia.
Qed.

Lemma rope_text_spec : text_spec rope_ops (fun s => s) leafV scut utf8.
Proof.
  constructor.
  - apply utf8_nil.
  - apply utf8_app.
  - intros l [U _]. exact U.
  - intros s o U H. now apply utf8_cut.
  - intros l _ H ->. discriminate.
  - intros s. split; [reflexivity|apply cb_len].
  - apply (s_cut _ _ _ _ _ rope_leaf_spec).
  - unfold scut. intros a b c i Ta Tb Tc H Hi. destruct Tc as (cs & F & ->). destruct Ta as (ca & Fa & ->). destruct Tb as (cb & Fb & ->).
    destruct (cb_chars cb Fb i H) as (b1 & b2 & -> & ->). apply Forall_app in Fb as [F1 F2].
    replace (concat ca ++ concat (b1 ++ b2) ++ concat cs) with (concat ((ca ++ b1) ++ (b2 ++ cs))).
    2: { now rewrite !concat_app, <- !app_assoc. }
    replace (length (concat ca) + length (concat b1)) with (length (concat (ca ++ b1))) by (now rewrite concat_app, app_length).
    apply cb_start. now apply Forall_app.
Qed.

Lemma count_newlines_mono s i j : i <= j -> count_newlines (firstn i s) <= count_newlines (firstn j s).
Proof. intros H. rewrite (firstn_le_split s i j H), count_newlines_app. lia. Qed.

Lemma base_metric_spec : metric_spec (fun s => s) leafV scut compute_info utf8 base_metric (@length nat) scut.
Proof.
  constructor; cbn [base_metric m_measure m_from_base m_to_base m_can_fragment].
  - intros. apply app_length.
  - auto.
  - intros l o _ Hc Ho. rewrite Hc. rewrite firstn_length_le by auto. reflexivity.
  - intros l m _ Hm Hd. exists m. rewrite Hd. split; auto. split; auto. split; auto. rewrite firstn_length_le by auto. split; auto.
    intros o' Ho' _. rewrite firstn_length. lia.
  - intros s. reflexivity.
  - intros a b c m _ _ _ H Hm. now apply (s_cut _ _ _ _ _ rope_leaf_spec) in H.
  - intros s o _ _ _ Ho. rewrite firstn_length. lia.
Qed.

(** The first place before which there are [m] newlines. *)
Lemma lines_to_base_ok s m : forall off, off <= length s -> m <= count_newlines (skipn off s) ->
  exists o, lines_to_base s m off = Some o /\ o <= length s /\
    count_newlines (firstn o s) = count_newlines (firstn off s) + m /\
    (m = 0 -> o = off) /\
    (0 < m -> exists p, o = S p /\ off <= p /\ nth_error s p = Some NL /\ S (count_newlines (firstn p s)) = count_newlines (firstn off s) + m).
Proof.
  induction m as [|m IH]; intros off Ho Hm; cbn [lines_to_base].
  - exists off. repeat split; auto; lia.
  - destruct (memchr NL (skipn off s)) as [p|] eqn:E.
    2: { exfalso. assert (Z : count_newlines (skipn off s) = 0); [|lia]. pose proof (memchr_none _ _ E) as N. revert N. clear.
         induction (skipn off s) as [|b l IH]; intros N; auto. cbn [count_newlines]. destruct (Nat.eqb_spec b NL).
         - exfalso. apply (N 0). cbn. congruence.
         - rewrite IH; auto. intros j. apply (N (S j)). }
    cbn [bind]. destruct (memchr_some _ _ _ E) as [A B]. rewrite nth_error_skipn in A.
    assert (Hp : off + p < length s) by (apply nth_error_Some; congruence).
    assert (C0 : count_newlines (slice s off (off + p)) = 0).
    { assert (N : forall j, nth_error (slice s off (off + p)) j <> Some NL).
      { intros j. rewrite nth_slice. destruct (j <? off + p - off) eqn:Ej; [|discriminate]. rewrite <- nth_error_skipn. apply B. lia. }
      revert N. clear. induction (slice s off (off + p)) as [|b l IH]; intros N; auto. cbn [count_newlines].
      destruct (Nat.eqb_spec b NL). { exfalso. apply (N 0). cbn. congruence. } rewrite IH; auto. intros j. apply (N (S j)). }
    assert (C1 : count_newlines (firstn (off + p) s) = count_newlines (firstn off s)).
    { rewrite (firstn_le_split s off (off + p)) by lia. rewrite count_newlines_app. lia. }
    assert (C2 : count_newlines (firstn (off + p + 1) s) = S (count_newlines (firstn off s))).
    { rewrite (firstn_le_split s (off + p) (off + p + 1)) by lia. rewrite count_newlines_app, C1.
      replace (slice s (off + p) (off + p + 1)) with [NL]; [cbn; lia|]. unfold slice. replace (off + p + 1 - (off + p)) with 1 by lia.
      destruct (skipn (off + p) s) as [|b l] eqn:Es.
      - apply (f_equal (@length nat)) in Es. rewrite skipn_length in Es. cbn in Es. lia.
      - pose proof (nth_error_skipn s (off + p) 0) as H. rewrite Es, Nat.add_0_r, A in H. cbn in *. congruence. }
    destruct (IH (off + p + 1)) as (o & Eo & Lo & Co & Z & P).
    { lia. }
    { rewrite <- (firstn_skipn (off + p + 1) s) in Hm at 1. 
      assert (count_newlines (skipn off s) = 1 + count_newlines (skipn (off + p + 1) s)); [|rewrite firstn_skipn in Hm; lia].
      pose proof (f_equal count_newlines (firstn_skipn off s)) as H1. rewrite count_newlines_app in H1.
      pose proof (f_equal count_newlines (firstn_skipn (off + p + 1) s)) as H2. rewrite count_newlines_app in H2. lia. }
    exists o. split; auto. split; auto. split; [lia|]. split; [lia|]. intros _. destruct m as [|m].
    + rewrite (Z eq_refl). exists (off + p). repeat split; auto; try lia.
    + destruct (P ltac:(lia)) as (q & -> & Hq & Nq & Cq). exists q. repeat split; auto; lia.
Qed.

Lemma lines_metric_spec : metric_spec (fun s => s) leafV scut compute_info utf8 lines_metric count_newlines (fun _ _ => True).
Proof.
  constructor; cbn [lines_metric m_measure m_from_base m_to_base m_can_fragment compute_info ri_lines]; auto.
  - intros. apply count_newlines_app.
  - intros l o _ Hc Ho. rewrite str_slice_some; auto using cb_0; [|lia]. cbn [bind]. unfold slice. cbn. now rewrite Nat.sub_0_r.
  - intros l m [U _] Hm _. destruct (lines_to_base_ok l m 0) as (o & E & Lo & Co & Z & P); [lia|auto|]. exists o. split; auto. cbn in Co.
    split; auto. destruct m as [|m].
    + rewrite (Z eq_refl). split; [reflexivity|]. split; lia.
    + destruct (P ltac:(lia)) as (p & -> & _ & Np & Cp). split; [now apply cb_after_nl|]. split; [lia|].
      intros o' Ho' _. pose proof (count_newlines_mono l o' p ltac:(lia)). cbn in Cp. lia.
  - discriminate.
Qed.

Lemma count_utf16_char c : utf8_char c = true -> count_utf16 c = utf16_units c.
Proof.
  intros H. destruct (char_shape c H) as (b & t & -> & Hb & Ht & Hl & H4 & H240 & _). unfold utf16_units. rewrite <- H240.
  cbn [count_utf16]. rewrite Hb. assert (Z : count_utf16 t = 0).
  { clear -Ht. induction Ht; auto. cbn [count_utf16]. rewrite H, IHHt. unfold is_start in H. destruct (240 <=? x) eqn:E; auto. lia. }
  rewrite Z. destruct (240 <=? b); lia.
Qed.
Lemma count_utf16_chars cs : Forall uchar cs -> count_utf16 (concat cs) = utf16_len cs.
Proof.
  induction 1; auto. cbn [concat]. rewrite count_utf16_app, count_utf16_char, IHForall; auto.
Qed.
Lemma utf16_pos c : 1 <= utf16_units c <= 2.
Proof. unfold utf16_units. destruct (length c =? 4); lia. Qed.

Lemma utf16_to_base_ok cs1 : forall fuel cs0 m, Forall uchar (cs0 ++ cs1) -> length (concat cs1) <= fuel ->
  m <= utf16_len (cs0 ++ cs1) -> (cs0 = [] \/ utf16_len (removelast cs0) < m) ->
  exists a b, cs0 ++ cs1 = a ++ b /\
    utf16_to_base fuel (concat (cs0 ++ cs1)) m (utf16_len cs0) (length (concat cs0)) = Some (length (concat a)) /\
    m <= utf16_len a /\ (a = [] \/ utf16_len (removelast a) < m).
Proof.
  induction cs1 as [|c cs1 IH]; intros fuel cs0 m F Hf Hm Hp.
  - rewrite app_nil_r in *. exists cs0, []. rewrite app_nil_r. repeat split; auto.
    unfold utf16_to_base. destruct fuel; rewrite skipn_all; reflexivity.
  - apply Forall_app in F as F'. destruct F' as [F0 F1]. inversion F1 as [|? ? Hc F1']; subst.
    destruct (char_shape c Hc) as (b & t & Ec & Hb & Ht & Hl & H4 & H240 & _).
    assert (Es : skipn (length (concat cs0)) (concat (cs0 ++ c :: cs1)) = c ++ concat cs1).
    { rewrite concat_app, skipn_app_exact by auto. reflexivity. }
    cbn [concat] in Hf. rewrite app_length in Hf. destruct fuel as [|fuel]; [lia|]. cbn [utf16_to_base]. rewrite Es.
    assert (Er : c ++ concat cs1 = b :: (t ++ concat cs1)) by (rewrite Ec; reflexivity). rewrite Er. destruct (Nat.leb_spec m (utf16_len cs0)).
    + exists cs0, (c :: cs1). auto.
    + specialize (IH fuel (cs0 ++ [c]) m). rewrite <- app_assoc in IH. cbn [app] in IH.
      assert (Eu : utf16_len (cs0 ++ [c]) = utf16_len cs0 + (if 240 <=? b then 2 else 1)).
      { unfold utf16_len. rewrite map_app, list_sum_app. cbn [map list_sum fold_right]. unfold utf16_units. rewrite <- H240. destruct (240 <=? b); lia. }
      assert (El : length (concat (cs0 ++ [c])) = length (concat cs0) + len_utf8_from_first_byte b).
      { rewrite concat_app, app_length. cbn. rewrite app_nil_r. lia. }
      rewrite Eu, El in IH. apply IH; auto.
      * lia.
      * right. rewrite removelast_last. lia.
Qed.

Lemma removelast_sub cs1 a b' : Forall uchar a -> length (concat cs1) < length (concat a) -> a ++ b' = cs1 ++ skipn (length cs1) (a ++ b') ->
  utf16_len cs1 <= utf16_len (removelast a).
Proof.
  intros Fa Hl E. destruct (Nat.le_gt_cases (length a) (length cs1)) as [G|G].
  - exfalso. assert (cs1 = a ++ skipn (length a) cs1).
    { pose proof (f_equal (firstn (length a)) E) as H. rewrite firstn_app_exact in H by auto. rewrite firstn_app in H.
      replace (length a - length cs1) with 0 in H by lia. cbn in H. rewrite app_nil_r in H. rewrite H at 1. now rewrite firstn_skipn. }
    rewrite H, concat_app, app_length in Hl. lia.
  - assert (Ha : a <> []) by (intros ->; cbn in G; lia). rewrite (app_removelast_last [] Ha) in E at 1.
    rewrite <- app_assoc in E. pose proof (f_equal (firstn (length cs1)) E) as H. rewrite (firstn_app_exact cs1) in H by auto.
    rewrite firstn_app in H. pose proof (app_removelast_last [] Ha) as Hr. apply (f_equal (@length _)) in Hr. rewrite app_length in Hr. cbn in Hr.
    replace (length cs1 - length (removelast a)) with 0 in H by lia. cbn in H. rewrite app_nil_r in H.
    rewrite <- H. rewrite <- (firstn_skipn (length cs1) (removelast a)) at 2. unfold utf16_len. rewrite map_app, list_sum_app. lia.
Qed.

Lemma chars_prefix cs cs1 cs2 a b : cs = cs1 ++ cs2 -> cs = a ++ b -> Forall uchar cs ->
  length (concat cs1) < length (concat a) -> utf16_len cs1 <= utf16_len (removelast a).
Proof.
  intros E1 E2 F H. apply (removelast_sub cs1 a b); auto.
  - subst cs. rewrite E2 in F. apply Forall_app in F. tauto.
  - rewrite <- E2, E1. f_equal. now rewrite skipn_app_exact.
Qed.

Lemma utf16_metric_spec : metric_spec (fun s => s) leafV scut compute_info utf8 utf16_metric count_utf16 (fun _ _ => True).
Proof.
  constructor; cbn [utf16_metric m_measure m_from_base m_to_base m_can_fragment compute_info ri_utf16]; auto.
  - intros. apply count_utf16_app.
  - intros l o _ Hc Ho. rewrite str_slice_some; auto using cb_0; [|lia]. cbn [bind]. unfold slice. cbn. now rewrite Nat.sub_0_r.
  - intros l m [(cs & F & ->) _] Hm _. rewrite count_utf16_chars in Hm by auto.
    destruct (utf16_to_base_ok cs (length (concat cs)) [] m) as (a & b & E & Ea & H1 & H2); auto.
    exists (length (concat a)). split; [exact Ea|]. cbn in E. subst cs. rewrite concat_app. pose proof F as F0. apply Forall_app in F0 as [Fa Fb]. split.
    { rewrite app_length. lia. }
    split. { unfold scut. rewrite <- concat_app. now apply cb_start. }
    rewrite firstn_app_exact by auto. split; [now rewrite count_utf16_chars|].
    intros o' Ho' Hc. unfold scut in Hc. rewrite <- concat_app in Hc. destruct (cb_chars _ F o' Hc) as (c1 & c2 & E' & ->).
    rewrite <- concat_app, E', concat_app, firstn_app_exact by auto. rewrite E' in F. apply Forall_app in F as F'. rewrite count_utf16_chars by tauto.
    destruct H2 as [->|H2]; [cbn in Ho'; lia|]. assert (utf16_len c1 <= utf16_len (removelast a)); [|lia].
    eapply chars_prefix; eauto. apply Forall_app; auto.
  - intros s o U _ Hc Ho. destruct (utf8_cut s o U Hc) as [_ (cs & F & E)].
    rewrite <- (firstn_skipn o s) at 2. rewrite count_utf16_app, E, count_utf16_chars by auto.
    destruct cs as [|c cs].
    + cbn in E. apply (f_equal (@length nat)) in E. rewrite skipn_length in E. cbn in E. lia.
    + unfold utf16_len. cbn. pose proof (utf16_pos c). lia.
Qed.

Lemma newlines_eq s : newlines s = count_newlines s.
Proof.
  unfold newlines. induction s; auto. cbn [count_newlines count_occ]. destruct (Nat.eq_dec a 10) as [->|N].
  - cbn. now rewrite IHs.
  - destruct (Nat.eqb_spec a NL); [unfold NL in *; lia|]. cbn. auto.
Qed.

Lemma sel_base s m o : m <= length s -> scut s m -> sel scut (@length nat) s m o -> o = m.
Proof.
  intros Hm Hc (Ho & _ & Hge & Hlt). rewrite firstn_length_le in Hge by auto.
  destruct (Nat.eq_dec o m); auto. specialize (Hlt m ltac:(lia) Hc). rewrite firstn_length in Hlt. lia.
Qed.

Theorem line_of_offset_ok h r o fuel : rope_wf h r -> scut (rcontent r) o -> h + 1 < fuel ->
  line_of_offset fuel r o = Some (newlines (firstn o (rcontent r))).
Proof.
  intros W Hc Hf. pose proof (cb_le _ _ Hc) as Hle. unfold line_of_offset.
  destruct (convert_ok _ _ _ _ _ _ rope_text_spec _ _ _ _ _ _ base_metric_spec lines_metric_spec h r o fuel W Hle Hc Hf) as (o' & S & E).
  rewrite E, newlines_eq. apply sel_base in S; auto. now rewrite S.
Qed.

(** The start of a line. *)
Definition line_start (s : list nat) (line o : nat) : Prop :=
  o <= length s /\ newlines (firstn o s) = line /\ (o = 0 \/ nth_error s (o - 1) = Some 10).

Lemma line_start_unique s l o o' : line_start s l o -> line_start s l o' -> o = o'.
Proof.
  assert (G : forall o o', line_start s l o -> line_start s l o' -> o < o' -> False).
  { intros a b (H1 & H2 & H3) (H4 & H5 & H6) Hlt. destruct H6 as [->|H6]; [lia|]. rewrite !newlines_eq in *.
    pose proof (count_newlines_mono s a (b - 1) ltac:(lia)).
    rewrite (firstn_le_split s (b - 1) b) in H5 by lia. rewrite count_newlines_app in H5.
    replace (slice s (b - 1) b) with [NL] in H5; [cbn in H5; lia|]. unfold slice. replace (b - (b - 1)) with 1 by lia.
    pose proof (nth_error_skipn s (b - 1) 0) as N. rewrite Nat.add_0_r, H6 in N. destruct (skipn (b - 1) s); [discriminate|]. cbn in *. unfold NL. congruence. }
  intros A B. destruct (Nat.lt_trichotomy o o') as [H|[H|H]]; auto; exfalso; eauto.
Qed.

Theorem offset_of_line_ok h r line fuel : rope_wf h r -> line <= newlines (rcontent r) -> h + 1 < fuel ->
  exists o, offset_of_line fuel r line = Some o /\ line_start (rcontent r) line o.
Proof.
  intros W Hl Hf. unfold offset_of_line. rewrite newlines_eq in Hl.
  assert (Em : measure lines_metric r = count_newlines (rcontent r)).
  { unfold measure. rewrite (wf_info rope_ops (fun s => s) leafV compute_info h r W). reflexivity. }
  rewrite Em. assert (C : (line ?= count_newlines (rcontent r) + 1) = Lt) by (apply Nat.compare_lt_iff; lia). rewrite C.
  destruct (convert_ok _ _ _ _ _ _ rope_text_spec _ _ _ _ _ _ lines_metric_spec base_metric_spec h r line fuel W Hl Logic.I Hf) as (o & (Ho & Hc & Hge & Hlt) & E).
  exists o. rewrite E. change (TreeSpec.content (fun s : list nat => s) r) with (rcontent r) in *. rewrite firstn_length_le by auto. split; auto.
  split; auto. rewrite newlines_eq. set (s := rcontent r) in *.
  pose proof (rope_utf8 h r W) as U. fold s in U.
  destruct (Nat.eq_dec o 0) as [->|Hz].
  { cbn in *. split; [lia|auto]. }
  (* back from [o] to the previous boundary there are fewer newlines, so [o] follows one *)
  destruct (back_spec s (o - 1)) as (B1 & B2 & B3). pose proof (Hlt (back_to_boundary s (o - 1)) ltac:(lia) B1) as Hp.
  set (p := back_to_boundary s (o - 1)) in *.
  assert (Hn : exists q, p <= q < o /\ nth_error s q = Some NL).
  { rewrite (firstn_le_split s p o) in Hge by lia. rewrite count_newlines_app in Hge.
    assert (0 < count_newlines (slice s p o)) by lia. clear -H. 
    assert (G : exists i, nth_error (slice s p o) i = Some NL).
    { induction (slice s p o) as [|b l IH]; cbn [count_newlines] in H; [lia|]. destruct (Nat.eqb_spec b NL); [exists 0; cbn; congruence|].
      destruct IH as (i & Hi); [lia|]. now exists (S i). }
    destruct G as (i & G). rewrite nth_slice in G. destruct (i <? o - p) eqn:E; [|discriminate]. exists (p + i). split; [lia|auto]. }
  destruct Hn as (q & Hq & Nq). assert (Q : q = o - 1).
  { pose proof (cb_after_nl s q U Nq) as Cq. destruct (Nat.le_gt_cases (S q) (o - 1)); [|lia]. exfalso.
    rewrite B3 in Cq; [discriminate|lia]. }
  subst q. split; auto.
  rewrite (firstn_le_split s (o - 1) o) by lia. rewrite count_newlines_app.
  replace (slice s (o - 1) o) with [NL].
  2: { unfold slice. replace (o - (o - 1)) with 1 by lia.
       pose proof (nth_error_skipn s (o - 1) 0) as N. rewrite Nat.add_0_r, Nq in N. destruct (skipn (o - 1) s); [discriminate|]. cbn in *. congruence. }
  cbn. assert (p = o - 1 \/ p < o - 1) as [Ep|Ep] by lia.
  - rewrite <- Ep. rewrite (firstn_le_split s (o - 1) o), count_newlines_app in Hge by lia. rewrite <- Ep in Hge. 
    replace (slice s p o) with [NL] in Hge; [cbn in Hge; lia|].
    rewrite Ep. unfold slice. replace (o - (o - 1)) with 1 by lia.
    pose proof (nth_error_skipn s (o - 1) 0) as N. rewrite Nat.add_0_r, Nq in N. destruct (skipn (o - 1) s); [discriminate|]. cbn in *. congruence.
  - exfalso. (* the newline's own position is a boundary *)
    clear -B3 Nq Ep U Hz. assert (is_char_boundary s (o - 1) = true).
    { unfold is_char_boundary. rewrite Nq. destruct (o - 1 =? 0); auto. }
    rewrite B3 in H; [discriminate|lia].
Qed.

(** The line past the last one starts at the end. *)
Theorem offset_of_line_end h r fuel : rope_wf h r -> offset_of_line fuel r (newlines (rcontent r) + 1) = Some (length (rcontent r)).
Proof.
  intros W. unfold offset_of_line. rewrite newlines_eq.
  assert (Em : measure lines_metric r = count_newlines (rcontent r)).
  { unfold measure. rewrite (wf_info rope_ops (fun s => s) leafV compute_info h r W). reflexivity. }
  rewrite Em, Nat.compare_refl. now rewrite (wf_len rope_ops (fun s => s) leafV compute_info h r W).
Qed.
Theorem offset_of_line_panic h r fuel line : rope_wf h r -> newlines (rcontent r) + 1 < line -> offset_of_line fuel r line = None.
Proof.
  intros W Hl. unfold offset_of_line. rewrite newlines_eq in Hl.
  assert (Em : measure lines_metric r = count_newlines (rcontent r)).
  { unfold measure. rewrite (wf_info rope_ops (fun s => s) leafV compute_info h r W). reflexivity. }
  rewrite Em. now rewrite (proj2 (Nat.compare_gt_iff line (count_newlines (rcontent r) + 1)) Hl).
Qed.

Theorem utf16_of_offset_ok h r cs1 cs2 fuel : rope_wf h r -> chars_of (rcontent r) (cs1 ++ cs2) -> h + 1 < fuel ->
  utf16_of_offset fuel r (length (concat cs1)) = Some (utf16_len cs1).
Proof.
  intros W (F & E) Hf. assert (Hc : scut (rcontent r) (length (concat cs1))).
  { unfold scut. rewrite E. apply cb_start. apply Forall_app in F. tauto. }
  pose proof (cb_le _ _ Hc) as Hle. unfold utf16_of_offset.
  destruct (convert_ok _ _ _ _ _ _ rope_text_spec _ _ _ _ _ _ base_metric_spec utf16_metric_spec h r _ fuel W Hle Hc Hf) as (o' & S & ->).
  apply sel_base in S; auto. rewrite S. change (TreeSpec.content (fun s : list nat => s) r) with (rcontent r).
  rewrite E, concat_app, firstn_app_exact by auto. rewrite count_utf16_chars; auto. apply Forall_app in F. tauto.
Qed.

Theorem offset_of_utf16_ok h r cs1 cs2 fuel : rope_wf h r -> chars_of (rcontent r) (cs1 ++ cs2) -> h + 1 < fuel ->
  offset_of_utf16 fuel r (utf16_len cs1) = Some (length (concat cs1)).
Proof.
  intros W (F & E) Hf. unfold offset_of_utf16. pose proof F as F0. apply Forall_app in F0 as [F1 F2].
  assert (Hle : utf16_len cs1 <= count_utf16 (rcontent r)).
  { rewrite E, concat_app, count_utf16_app, count_utf16_chars by auto. lia. }
  destruct (convert_ok _ _ _ _ _ _ rope_text_spec _ _ _ _ _ _ utf16_metric_spec base_metric_spec h r _ fuel W Hle Logic.I Hf) as (o & (Ho & Hc & Hge & Hlt) & ->).
  change (TreeSpec.content (fun s : list nat => s) r) with (rcontent r) in *. rewrite firstn_length_le by auto. f_equal.
  assert (Hc1 : scut (rcontent r) (length (concat cs1))) by (unfold scut; rewrite E; now apply cb_start).
  destruct (Nat.lt_trichotomy o (length (concat cs1))) as [H|[H|H]]; auto; exfalso.
  - pose proof Hc as Hb. unfold scut in Hb. rewrite E in Hb. destruct (cb_chars _ F o Hb) as (a & b & E' & ->).
    rewrite E, E', concat_app, firstn_app_exact in Hge by auto. pose proof F as F3. rewrite E' in F3. apply Forall_app in F3 as [F3 _].
    rewrite count_utf16_chars in Hge by auto. pose proof (chars_prefix (cs1 ++ cs2) a b cs1 cs2 E' eq_refl F H) as P.
    destruct cs1 as [|c cs1]; [cbn in H; lia|]. assert (utf16_len (removelast (c :: cs1)) < utf16_len (c :: cs1)); [|lia].
    rewrite (app_removelast_last [] (l:=c::cs1)) at 2 by discriminate. unfold utf16_len. rewrite map_app, list_sum_app. cbn [map list_sum fold_right].
    pose proof (utf16_pos (last (c :: cs1) [])). lia.
  - specialize (Hlt _ H Hc1). rewrite E, concat_app, firstn_app_exact, count_utf16_chars in Hlt by auto. lia.
Qed.
