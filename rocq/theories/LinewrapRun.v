(** Every step keeps the invariant; and which lines a step keeps. *)
From Coq Require Import List Arith Lia Bool ZifyBool.
From Verif Require Import Base ListLib TreeModel TreeSpec TreeProofs MetricProofs CursorModel CursorProofs CursorBoundary
  RopeModel RopeSpec RopeProofs RopeMetric RopeCursor BreaksModel BreaksSpec BreaksProofs
  LinewrapModel LinewrapMerged LinewrapLines LinewrapSpec LinewrapWrap LinewrapTask LinewrapWork LinewrapInv.
Import ListNotations.
Local Notation concat := List.concat.

(** ** Counting lines *)
Lemma nl_mono s a b : a <= b -> newlines (firstn a s) <= newlines (firstn b s).
Proof.
  intros H. replace (firstn b s) with (firstn a s ++ skipn a (firstn b s)); [unfold newlines; rewrite count_occ_app; lia|].
  rewrite <- (firstn_skipn a (firstn b s)) at 2. rewrite firstn_firstn, Nat.min_l by lia. reflexivity.
Qed.
Lemma rk_mono l a b : a <= b -> rank (firstn a l) <= rank (firstn b l).
Proof.
  intros H. replace (firstn b l) with (firstn a l ++ skipn a (firstn b l)); [rewrite rank_app; lia|].
  rewrite <- (firstn_skipn a (firstn b l)) at 2. rewrite firstn_firstn, Nat.min_l by lia. reflexivity.
Qed.
Lemma nl_brk s o : line_break s o -> newlines (firstn o s) = S (newlines (firstn (o - 1) s)).
Proof. intros [H1 H2]. replace o with (S (o - 1)) at 1 by lia. rewrite (firstn_S_snoc _ _ _ H2). unfold newlines. rewrite count_occ_app. cbn. lia. Qed.
Lemma nl_total s o : newlines (firstn o s) <= newlines s.
Proof. rewrite <- (firstn_skipn o s) at 2. unfold newlines. rewrite count_occ_app. lia. Qed.
Lemma start_before s o p : lstart s o -> newlines (firstn o s) = newlines (firstn p s) -> o <= p /\ forall y, o < y <= p -> ~ line_break s y.
Proof.
  intros Ho E. assert (Hop : o <= p).
  { destruct (Nat.le_gt_cases o p); auto. destruct Ho as [->|Ho]; [lia|]. rewrite (nl_brk _ _ Ho) in E. pose proof (nl_mono s p (o - 1) ltac:(lia)). lia. }
  split; auto. intros y Hy Hb. pose proof (nl_brk _ _ Hb). pose proof (nl_mono s o (y - 1) ltac:(lia)). pose proof (nl_mono s y p ltac:(lia)). lia.
Qed.
Lemma start_after s o p : lstart s o -> newlines (firstn o s) = newlines (firstn p s) + 1 -> p < o /\ line_break s o /\ forall y, p < y < o -> ~ line_break s y.
Proof.
  intros Ho E. destruct Ho as [->|Ho]; [cbn in E; lia|]. assert (p < o) by (destruct (Nat.lt_ge_cases p o); auto; pose proof (nl_mono s o p ltac:(auto)); lia).
  split; auto. split; auto. intros y Hy Hb. pose proof (nl_brk _ _ Hb). pose proof (nl_brk _ _ Ho). pose proof (nl_mono s p (y - 1) ltac:(lia)). pose proof (nl_mono s y (o - 1) ltac:(lia)). lia.
Qed.
Lemma nl_same s a b : a <= b -> b <= length s -> (forall y, a < y <= b -> ~ line_break s y) -> newlines (firstn a s) = newlines (firstn b s).
Proof.
  intros Hab. induction Hab as [|b Hab IH]; auto. intros Hb Hn. rewrite IH; [|lia|intros; apply Hn; lia].
  destruct (nth_error s b) as [x|] eqn:E; [|apply nth_error_None in E; lia]. rewrite (firstn_S_snoc _ _ _ E). unfold newlines. rewrite count_occ_app. cbn [count_occ].
  destruct (Nat.eq_dec x 10) as [->|]; [|lia]. exfalso. apply (Hn (S b)); [lia|]. split; [lia|]. now rewrite Nat.sub_succ, Nat.sub_0_r.
Qed.

Section Ropes.
Context (text : rope) (ht : nat) (Wt : rope_wf ht text).
Notation s := (rcontent text).
Lemma tf_ok : ht + 1 < tfuel text.
Proof. unfold tfuel. rewrite (height_root _ _ _ _ text ht Wt). lia. Qed.
Lemma line_of_ok o : scut s o -> line_of_offset (tfuel text) text o = Some (newlines (firstn o s)).
Proof. intros Hc. apply (line_of_offset_ok ht); auto. apply tf_ok. Qed.
Lemma start_line_ok p : p <= length s -> exists o, offset_of_line (tfuel text) text (newlines (firstn p s)) = Some o /\ lstart s o /\ newlines (firstn o s) = newlines (firstn p s).
Proof.
  intros Hp. destruct (offset_of_line_ok ht text (newlines (firstn p s)) (tfuel text) Wt (nl_total _ _) tf_ok) as (o & E & Ls). exists o. split; auto.
  split; [eapply line_start_lstart; eauto|]. apply Ls.
Qed.
Lemma next_line_ok p : p <= length s -> exists o, offset_of_line (tfuel text) text (newlines (firstn p s) + 1) = Some o /\
  (lstart s o /\ newlines (firstn o s) = newlines (firstn p s) + 1 \/ o = length s /\ newlines (firstn p s) = newlines s).
Proof.
  intros Hp. pose proof (nl_total s p). destruct (Nat.eq_dec (newlines (firstn p s)) (newlines s)) as [E|E].
  - exists (length s). rewrite E. split; [now apply (offset_of_line_end ht)|auto].
  - destruct (offset_of_line_ok ht text (newlines (firstn p s) + 1) (tfuel text) Wt ltac:(lia) tf_ok) as (o & Eo & Ls). exists o. split; auto. left.
    split; [eapply line_start_lstart; eauto|]. apply Ls.
Qed.
End Ropes.

(** ** An edit of the bytes *)
Section Bytes.
Context (s ins : list nat) (b e : nat) (Hbe : b <= e) (Hen : e <= length s).
Notation k := (length ins).
Notation s' := (firstn b s ++ ins ++ skipn e s).
Notation n' := (length s').
Lemma len_new : n' + (e - b) = length s + k.
Proof. rewrite !app_length, firstn_length, skipn_length. lia. Qed.
Lemma nth_pre i : i < b -> nth_error s' i = nth_error s i.
Proof. intros H. rewrite nth_error_app1 by (rewrite firstn_length; lia). rewrite nth_error_firstn. now replace (i <? b) with true by lia. Qed.
Lemma nth_post i : e <= i -> nth_error s' (i + k - (e - b)) = nth_error s i.
Proof.
  intros H. rewrite nth_error_app2 by (rewrite firstn_length; lia). rewrite firstn_length, Nat.min_l by lia. rewrite nth_error_app2 by lia.
  rewrite nth_error_skipn. f_equal. lia.
Qed.
Lemma brk_pre o : o <= b -> (line_break s' o <-> line_break s o).
Proof. intros H. unfold line_break. destruct (Nat.eq_dec o 0) as [->|]; [split; intros [? _]; lia|]. rewrite nth_pre by lia. reflexivity. Qed.
Lemma brk_post o : e < o -> (line_break s' (o + k - (e - b)) <-> line_break s o).
Proof.
  intros H. unfold line_break. replace (o + k - (e - b) - 1) with (o - 1 + k - (e - b)) by lia. rewrite nth_post by lia. intuition lia.
Qed.
Lemma cut_pre o : o < b -> scut s' o <-> scut s o.
Proof.
  intros H. unfold scut, is_char_boundary. destruct (o =? 0); [tauto|]. rewrite nth_pre by auto. destruct (nth_error s o) eqn:E; [tauto|]. apply nth_error_None in E. lia.
Qed.
Lemma cut_post o : e < o -> scut s' (o + k - (e - b)) <-> scut s o.
Proof.
  intros H. unfold scut, is_char_boundary. replace (o + k - (e - b) =? 0) with false by lia. replace (o =? 0) with false by lia. rewrite nth_post by lia.
  destruct (nth_error s o) eqn:E; [tauto|]. pose proof len_new. split; intros; lia.
Qed.
Lemma utf8_at a c : utf8 c -> scut (a ++ c) (length a).
Proof.
  intros (cs & Fc & ->). unfold scut, is_char_boundary. destruct (length a =? 0); auto. destruct cs as [|c cs].
  - cbn. rewrite app_nil_r. rewrite (proj2 (nth_error_None a (length a))) by lia. apply Nat.eqb_refl.
  - inversion Fc; subst. destruct (char_shape c) as (x & t & -> & Hx & _); auto. rewrite nth_error_app2, Nat.sub_diag by lia. exact Hx.
Qed.
Lemma cut_b : utf8 s -> scut s e -> utf8 ins -> scut s' b.
Proof.
  intros U C Ui. pose proof (utf8_at (firstn b s) (ins ++ skipn e s)) as H. rewrite firstn_length, Nat.min_l in H by lia. apply H.
  apply utf8_app; auto. now apply utf8_cut.
Qed.
Lemma cut_bk : utf8 s -> scut s e -> scut s' (b + k).
Proof.
  intros U C. pose proof (utf8_at (firstn b s ++ ins) (skipn e s)) as H. rewrite app_length, firstn_length, Nat.min_l, <- app_assoc in H by lia. apply H. now apply utf8_cut.
Qed.
End Bytes.
Lemma at_break_false k o : ~ at_break (repeat false k) o.
Proof. intros [_ E]. apply nth_error_In in E. apply repeat_spec in E. discriminate. Qed.
Lemma breaks_edit (bits : list bool) b e k o : b <= e -> e <= length bits ->
  (at_break (firstn b bits ++ repeat false k ++ skipn e bits) o <-> o <= b /\ at_break bits o \/ b + k < o /\ at_break bits (o - k + (e - b))).
Proof.
  intros H1 H2. rewrite !at_break_app, at_break_firstn, at_break_skipn, firstn_length, Nat.min_l, repeat_length by lia. pose proof (at_break_false k (o - b)) as Hfb.
  replace (e + (o - b - k)) with (if b + k <? o then o - k + (e - b) else e + (o - b - k)) by (destruct (Nat.ltb_spec (b + k) o); lia).
  split.
  - intros [H|[Ha [H|[Hb [Hc Hd]]]]]; auto; [contradiction|]. right. replace (b + k <? o) with true in Hd by lia. split; [lia|auto].
  - intros [H|[Ha Hb]]; auto. right. split; [lia|]. right. split; [lia|]. split; [lia|]. replace (b + k <? o) with true by lia. exact Hb.
Qed.

Section Steps.
Context {F : Type} (fzero : F) (fadd : F -> F -> F) (fge fgt : F -> F -> bool) (fis0 : F -> bool) (of_nat : nat -> F).
Context (wid : @wrapw F -> list nat -> F) (opps : list nat -> nat -> list (nat * bool)) (max_pot : nat).
Context (WL : width_laws fzero fadd fge fgt fis0) (okt : list nat -> Prop) (po : list nat -> list (nat * bool)) (OL : opps_laws okt opps po) (Hmp : 0 < max_pot).
Notation wrapw := (@wrapw F).
Notation lines := (@lines F).
Notation inv := (inv fzero fadd fge fgt fis0 of_nat wid okt po).
Notation done := (done fzero fadd fge fgt fis0 wid po).
Notation max_of := (max_of of_nat).
Notation do_wrap_task := (do_wrap_task fzero fadd fge fgt fis0 of_nat wid opps max_pot).
Notation rewrap_chunk := (rewrap_chunk fzero fadd fge fgt fis0 of_nat wid opps max_pot).
Notation after_edit := (after_edit fzero fadd fge fgt fis0 of_nat wid opps max_pot).

Lemma is_none w : is_wnone w = true <-> max_of w = None.
Proof. destruct w; cbn; split; congruence. Qed.

(** ** Setting the width *)
Lemma no_break_ok n : wf br_ops blc bV rank 0 (new_no_break n) /\ content blc (new_no_break n) = repeat false n.
Proof.
  assert (V0 : bV (BLeaf n [])) by (split; cbn; lia). destruct (from_leaf_wf br_ops blc bV bcut rank br_leaf_spec _ V0) as [W0 E0]. split.
  - exact W0.
  - unfold new_no_break. rewrite E0. apply ext_break. { unfold blc. cbn [bl_len bl_data]. now rewrite bits_len, repeat_length. }
    intros o. unfold blc. cbn [bl_len bl_data]. rewrite at_break_bits. pose proof (at_break_false n o). split; [intros [_ Hin]; destruct Hin|tauto].
Qed.
Lemma set_width_ok ln text w : (exists ht, rope_wf ht text) -> okt (rcontent text) -> n_len (ln_breaks ln) = 0 \/ inv ln text -> inv (set_wrap_width ln text w) text.
Proof.
  intros (ht & Wt) Hk Hi. unfold set_wrap_width. set (c := (n_len (ln_breaks ln) =? 0) || differs_in_kind (ln_wrap ln) w).
  assert (Sh : shape text (if c then new_no_break (n_len text) else ln_breaks ln) /\ (max_of w = None -> forall o, ~ at_break (content blc (if c then new_no_break (n_len text) else ln_breaks ln)) o)).
  { destruct c eqn:C.
    - destruct (no_break_ok (n_len text)) as [Wn En]. split.
      + split; [eauto|eauto| | |]; rewrite En; [rewrite repeat_length; apply (len_root _ _ _ _ text ht Wt)|intros o _; apply at_break_false|intros o H; now apply at_break_false in H].
      + intros _ o. rewrite En. apply at_break_false.
    - unfold c in C. destruct Hi as [Hi|(_ & Sh & Hi)]; [rewrite Hi in C; discriminate|]. split; auto. intros Hw. destruct w; try discriminate. destruct (ln_wrap ln); cbn in C; try (rewrite orb_true_r in C; discriminate). exact Hi. }
  destruct Sh as [Sh1 Sh2]. split; auto. cbn [ln_breaks ln_wrap ln_work]. split; auto. destruct (max_of w) as [max|] eqn:Em; auto.
  unfold add_task, iv_is_empty. cbn [fst snd add_work]. rewrite (len_root _ _ _ _ text ht Wt). change (TreeSpec.content (fun s : list nat => s) text) with (rcontent text).
  destruct (Nat.leb_spec (length (rcontent text)) 0) as [Z|Z].
  - split; [constructor|]. intros a e (_ & Hb & _). lia.
  - split; [constructor; [|constructor]; split; [cbn; lia|]; cbn [fst snd]; split; [now left|now right]|]. intros a e (_ & Hb & _). left. exists a. split; [lia|]. apply cov_cons. left. cbn. lia.
Qed.

(** ** A chunk of the work *)
Definition size (ws : list iv) : nat := list_sum (map (fun t => snd t - fst t) ws).
Lemma size_update ws w : fst w < snd w -> Forall (fun t => fst t < snd t) ws -> size (update_tasks_after_wrap ws w) <= size ws /\ (cov ws (fst w) -> size (update_tasks_after_wrap ws w) < size ws).
Proof.
  intros Hw Hf. induction Hf as [|t ws Ht Hf [IH1 IH2]]; [split; [auto|intros H; now apply cov_nil in H]|].
  unfold update_tasks_after_wrap. cbn [flat_map]. fold (update_tasks_after_wrap ws w). unfold size in *. rewrite map_app, list_sum_app. cbn [map list_sum fold_right]. fold (list_sum (map (fun t => snd t - fst t) ws)). rewrite cov_cons.
  unfold iv_is_before, iv_is_after, iv_prefix, iv_suffix.
  destruct (Nat.leb_spec (snd t) (fst w)) as [D|D]; cbn [orb].
  { cbn. split; [lia|]. intros [?|?]; [lia|]. specialize (IH2 H). lia. }
  destruct (Nat.ltb_spec (snd w) (fst t)) as [D2|D2]. { cbn. split; [lia|]. intros [?|?]; [lia|]. specialize (IH2 H). lia. }
  destruct (Nat.ltb_spec (fst t) (fst w)) as [D3|D3], (Nat.ltb_spec (snd w) (snd t)) as [D4|D4]; cbn [app map list_sum fold_right fst snd]; (split; [lia|]); intros [?|?]; try lia; specialize (IH2 H); lia.
Qed.

Theorem chunk_ok ln text visible : inv ln text -> fst visible <= snd visible ->
  exists r ln', rewrap_chunk ln text visible = Some (r, ln') /\ inv ln' text /\ ln_wrap ln' = ln_wrap ln /\
  (is_converged ln = true /\ ln' = ln /\ r = None \/ is_converged ln = false /\ size (ln_work ln') < size (ln_work ln)).
Proof.
  intros Hi Hv. unfold LinewrapModel.rewrap_chunk. destruct (is_converged ln) eqn:C; [exists None, ln; auto 8|].
  unfold is_converged in C. apply orb_false_elim in C as [C1 C2]. destruct (max_of (ln_wrap ln)) as [max|] eqn:Em; [|apply is_none in Em; congruence].
  assert (Hw : ln_work ln <> []) by (intros E; rewrite E in C2; discriminate).
  destruct (do_wrap_ok fzero fadd fge fgt fis0 of_nat wid opps max_pot WL okt po OL Hmp MAX_LINES_PER_BATCH ln text visible max Hi Em Hw Hv)
    as (sm & ln' & t & a & e & new & -> & Hi' & Ew & A1 & A2 & A3 & A4 & A5 & A6 & A7 & _). cbn [bind].
  eexists _, ln'. split; [reflexivity|]. split; auto. split; auto. right. split; auto. rewrite A7.
  destruct Hi as (_ & _ & Hi). rewrite Em in Hi. destruct Hi as [Hi _].
  apply size_update; [cbn; lia| |cbn; exists t; split; auto; lia]. eapply Forall_impl; [|exact Hi]. intros u (U & _). exact U.
Qed.
End Steps.
