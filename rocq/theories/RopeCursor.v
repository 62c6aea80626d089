(** Cursors over text ropes: the boundaries of the text metrics obey the laws. *)
From Coq Require Import List Arith Lia Bool ZifyBool.
From Verif Require Import Base ListLib TreeModel TreeSpec TreeProofs MetricProofs CursorModel CursorProofs CursorBoundary
  RopeModel RopeSpec RopeProofs RopeMetric.
Import ListNotations.
Local Notation concat := List.concat.

(** Where a line of the text starts, but for the first line. *)
Definition line_break (s : list nat) (o : nat) : Prop := 0 < o /\ nth_error s (o - 1) = Some NL.

Lemma cp_next_spec s o : utf8 s -> scut s o -> o < length s ->
  exists b, nth_error s o = Some b /\ o < o + len_utf8_from_first_byte b <= length s /\
    scut s (o + len_utf8_from_first_byte b) /\ forall x, o < x < o + len_utf8_from_first_byte b -> ~ scut s x.
Proof.
  intros (cs & F & ->) Hc Ho. destruct (cb_chars cs F o Hc) as (a & r & -> & ->). apply Forall_app in F as [Fa Fr].
  destruct r as [|c r]. { rewrite app_nil_r in Ho. lia. }
  inversion Fr as [|? ? Hcc Fr']; subst. destruct (char_shape c Hcc) as (b & t & -> & Hb & Ht & Hl & H4 & _).
  exists b. rewrite concat_app. cbn [concat]. rewrite nth_error_app2, Nat.sub_diag by lia. split; [reflexivity|].
  rewrite !app_length, <- Hl. split; [lia|]. split.
  - unfold scut. replace (concat a ++ (b :: t) ++ concat r) with (concat ((a ++ [b :: t]) ++ r)).
    2: { rewrite !concat_app. cbn. now rewrite app_nil_r, <- app_assoc. }
    replace (length (concat a) + length (b :: t)) with (length (concat (a ++ [b :: t]))). { now apply cb_start. }
    rewrite concat_app, app_length. cbn. now rewrite app_nil_r.
  - intros x Hx Hs. unfold scut in Hs. replace x with (length (concat a) + (x - length (concat a))) in Hs by lia.
    rewrite cb_shift in Hs by lia. rewrite cb_left in Hs by lia. unfold is_char_boundary in Hs.
    replace (x - length (concat a) =? 0) with false in Hs by lia. destruct (x - length (concat a)) as [|k] eqn:Ek; [lia|]. cbn [nth_error] in Hs.
    cbn [length] in Hx. destruct (nth_error t k) eqn:En.
    + rewrite Forall_forall in Ht. rewrite (Ht n) in Hs; [discriminate|]. eapply nth_error_In; eauto.
    + apply nth_error_None in En. lia.
Qed.

Lemma scut_local a b c o : utf8 a -> utf8 b -> utf8 c -> 0 < o <= length b -> (scut (a ++ b ++ c) (length a + o) <-> scut b o).
Proof.
  intros Ha Hb Hc Ho. split; intros H.
  - eapply (t_cut_sub _ _ _ _ _ rope_text_spec); eauto. lia.
  - apply (t_cut_sup _ _ _ _ _ rope_text_spec); auto. lia.
Qed.

Lemma cp_is (l : list nat) o : exists b, Some (is_char_boundary l o) = Some b /\ (b = true <-> scut l o).
Proof. exists (is_char_boundary l o). unfold scut. tauto. Qed.
Lemma cp_next_law (l : list nat) o : leafV l -> o <= length l -> false = true \/ scut l o ->
  exists r, cp_next l o = Some r /\
    match r with
    | Some o' => o < o' <= length l /\ scut l o' /\ forall x, o < x < o' -> ~ scut l x
    | None => forall x, o < x <= length l -> ~ scut l x
    end.
Proof.
  intros [U _] Ho [H|Hc]; [discriminate|]. unfold cp_next. destruct (Nat.eqb_spec o (length l)) as [->|N].
  - exists None. split; auto. lia.
  - destruct (cp_next_spec l o U Hc ltac:(lia)) as (b & -> & H1 & H2 & H3). cbn [bind]. eexists. split; [reflexivity|]. cbn iota. repeat (split; auto).
Qed.
Lemma cp_prev_law (l : list nat) o : leafV l -> 0 < o <= length l ->
  exists r, cp_prev l o = Some r /\
    match r with
    | Some o' => o' < o /\ scut l o' /\ forall x, o' < x < o -> ~ scut l x
    | None => forall x, x < o -> ~ scut l x
    end.
Proof.
  intros _ Ho. destruct o as [|o]; [lia|]. cbn [cp_prev]. eexists. split; [reflexivity|]. cbn iota.
  destruct (back_spec l o) as (A & B & C). split; [lia|]. split; auto. intros x Hx. unfold scut. rewrite C by lia. discriminate.
Qed.

Lemma base_bound : bound_spec (fun s => s) leafV scut compute_info utf8 base_metric (@length nat) scut.
Proof.
  constructor; cbn [base_metric m_measure m_is_boundary m_next m_prev m_can_fragment]; auto using cp_is, cp_next_law, cp_prev_law, scut_local, cb_len, cb_0.
  - intros. apply app_length.
  - intros s _. split; auto. intros _. reflexivity.
  - intros s _ _. apply cb_len.
  - discriminate.
Qed.
Lemma utf16_bound : bound_spec (fun s => s) leafV scut compute_info utf8 utf16_metric count_utf16 scut.
Proof.
  constructor; cbn [utf16_metric m_measure m_is_boundary m_next m_prev m_can_fragment]; auto using cp_is, cp_next_law, cp_prev_law, scut_local, count_utf16_app.
  - intros s _. split; auto. intros _. reflexivity.
  - intros s _ _. apply cb_len.
  - discriminate.
Qed.

Lemma count_newlines_zero s : count_newlines s = 0 <-> forall p, nth_error s p <> Some NL.
Proof.
  split.
  - induction s as [|b s IH]; intros H [|p]; cbn [nth_error count_newlines] in *; try discriminate.
    + destruct (Nat.eqb_spec b NL); [lia|congruence].
    + apply IH. lia.
  - induction s as [|b s IH]; intros H; auto. cbn [count_newlines]. destruct (Nat.eqb_spec b NL).
    + exfalso. apply (H 0). cbn. congruence.
    + apply IH. intros p. apply (H (S p)).
Qed.

Lemma lines_bound : bound_spec (fun s => s) leafV scut compute_info utf8 lines_metric count_newlines line_break.
Proof.
  constructor; cbn [lines_metric m_measure m_is_boundary m_next m_prev m_can_fragment]; auto using count_newlines_app.
  - intros l o _ Ho. destruct o as [|o].
    + exists false. split; auto. split; [discriminate|]. unfold line_break. lia.
    + destruct (nth_error l o) as [b|] eqn:E.
      * cbn [bind]. exists (b =? NL). split; auto. unfold line_break. cbn [Nat.sub]. rewrite Nat.sub_0_r, E, Nat.eqb_eq. split; [intros ->; split; auto; lia|].
        intros [_ [= ->]]. reflexivity.
      * apply nth_error_None in E. lia.
  - intros l o _ Ho _. replace (length l <? o) with false by lia. eexists. split; [reflexivity|].
    destruct (memchr NL (skipn o l)) as [p|] eqn:E.
    + destruct (memchr_some _ _ _ E) as [A B]. rewrite nth_error_skipn in A.
      assert (o + p < length l) by (apply nth_error_Some; congruence). split; [lia|]. unfold line_break. split.
      * split; [lia|]. now replace (o + p + 1 - 1) with (o + p) by lia.
      * intros x Hx [_ Hn]. apply (B (x - 1 - o)); [lia|]. rewrite nth_error_skipn. now replace (o + (x - 1 - o)) with (x - 1) by lia.
    + intros x Hx [_ Hn]. apply (memchr_none _ _ E (x - 1 - o)). rewrite nth_error_skipn. now replace (o + (x - 1 - o)) with (x - 1) by lia.
  - intros l o _ Ho. destruct o as [|o]; [lia|]. replace (length l <? o) with false by lia. eexists. split; [reflexivity|].
    destruct (memrchr NL (firstn o l)) as [p|] eqn:E.
    + destruct (memrchr_some _ _ _ E) as [A B]. assert (p < length (firstn o l)) by (apply nth_error_Some; congruence).
      rewrite firstn_length in H. rewrite nth_error_firstn in A. replace (p <? o) with true in A by lia. split; [lia|]. unfold line_break. split.
      * split; [lia|]. now replace (p + 1 - 1) with p by lia.
      * intros x Hx [_ Hn]. apply (B (x - 1)); [lia|]. rewrite nth_error_firstn. now replace (x - 1 <? o) with true by lia.
    + intros x Hx [H0 Hn]. apply (memrchr_none _ _ E (x - 1)). rewrite nth_error_firstn. now replace (x - 1 <? o) with true by lia.
  - intros a b c o _ _ _ Ho. unfold line_break. rewrite nth_error_app2 by lia. replace (length a + o - 1 - length a) with (o - 1) by lia.
    rewrite nth_error_app1 by lia. split; intros [_ H]; split; auto; lia.
  - intros s _. unfold line_break. split; [lia|discriminate].
  - discriminate.
  - intros s _ _. rewrite count_newlines_zero. unfold line_break. split.
    + intros N x Hx [_ H]. now apply (N (x - 1)).
    + intros N p Hp. assert (p < length s) by (apply nth_error_Some; congruence). apply (N (S p)); [lia|]. split; [lia|].
      cbn [Nat.sub]. now rewrite Nat.sub_0_r.
Qed.

(** ** For ropes *)
Notation rcursor := (cursor (L:=list nat) (I:=rope_info)).
Definition rvalid (r : rope) (c : rcursor) : Prop := is_valid (fun s => s) r c.

Lemma rnew_ok h r pos : rope_wf h r -> pos <= length (rcontent r) -> exists c, c_new r pos = Some c /\ c_pos c = pos /\ rvalid r c.
Proof.
  intros W Hp. destruct (new_ok _ _ _ _ r h W pos Hp) as (c & l & pre & post & E & Ep & Hv).
  exists c. split; auto. split; auto. now exists l, pre, post.
Qed.
Lemma rvalid_le h r c : rope_wf h r -> rvalid r c -> c_pos c <= length (rcontent r).
Proof.
  intros W (l & pre & post & (p & R & _ & Eo & _) & H1 & H2). rewrite Eo in *.
  pose proof (route_total _ _ _ _ r h W _ _ _ _ R) as E. unfold rcontent. rewrite E. lia.
Qed.
