(** The visual lines as a list of places, and what the queries of linewrap.rs answer about it. *)
From Coq Require Import List Arith Lia Bool ZifyBool.
From Verif Require Import Base ListLib TreeModel TreeSpec TreeProofs MetricProofs CursorModel CursorProofs CursorBoundary
  RopeModel RopeSpec RopeProofs RopeMetric RopeCursor BreaksModel BreaksSpec BreaksProofs
  LinewrapModel LinewrapMerged LinewrapLines LinewrapSpec LinewrapWrap LinewrapTask LinewrapWork LinewrapInv LinewrapRun LinewrapEdit.
Import ListNotations.
Local Notation concat := List.concat.

(** ** The marked places among the first [n] *)
Section Marks.
Context (f : nat -> bool).
Definition upto (n : nat) : list nat := filter f (seq 1 n).
Lemma upto_S n : upto (S n) = upto n ++ (if f (S n) then [S n] else []).
Proof. unfold upto. rewrite seq_S, filter_app. cbn [filter]. change (1 + n) with (S n). now destruct (f (S n)). Qed.
Lemma upto_in n x : In x (upto n) <-> 1 <= x <= n /\ f x = true.
Proof. unfold upto. rewrite filter_In, in_seq. intuition lia. Qed.
Lemma upto_nth n : forall i x, nth_error (upto n) i = Some x -> 1 <= x <= n /\ f x = true /\ length (upto x) = S i.
Proof.
  induction n as [|n IH]; intros i x E; [destruct i; discriminate|]. rewrite upto_S in E. destruct (Nat.lt_ge_cases i (length (upto n))) as [H|H].
  - rewrite nth_error_app1 in E by auto. destruct (IH _ _ E) as (A & B & C). split; [lia|auto].
  - rewrite nth_error_app2 in E by auto. destruct (f (S n)) eqn:Ef; [|destruct (i - length (upto n)); discriminate].
    destruct (i - length (upto n)) as [|k] eqn:Ek; [|destruct k; discriminate]. injection E as <-. split; [lia|]. split; auto. rewrite upto_S, Ef, app_length. cbn. lia.
Qed.
Lemma upto_mono n m : n <= m -> length (upto n) <= length (upto m).
Proof. induction 1; auto. rewrite upto_S, app_length. lia. Qed.
Lemma upto_sorted n i x y : nth_error (upto n) i = Some x -> nth_error (upto n) (S i) = Some y -> x < y.
Proof.
  intros Ex Ey. destruct (upto_nth _ _ _ Ex) as (A & B & C), (upto_nth _ _ _ Ey) as (A' & B' & C').
  destruct (Nat.lt_ge_cases x y) as [|H]; auto. pose proof (upto_mono _ _ H). lia.
Qed.
Lemma upto_le n o : o <= n -> filter (fun x => x <=? o) (upto n) = upto o.
Proof.
  induction 1 as [|n H IH].
  - assert (G : forall l, (forall x, In x l -> x <= o) -> filter (fun x => x <=? o) l = l).
    { induction l as [|a l IHl]; intros Hl; auto. cbn. replace (a <=? o) with true by (specialize (Hl a (or_introl eq_refl)); lia). f_equal. apply IHl. intros; apply Hl; now right. }
    apply G. intros x Hx. apply upto_in in Hx. lia.
  - rewrite upto_S, filter_app, IH. destruct (f (S n)); [|apply app_nil_r]. cbn [filter]. replace (S n <=? o) with false by lia. apply app_nil_r.
Qed.
End Marks.

Section Shape.
Context (text : rope) (soft : breaks) (Sh : shape text soft).
Notation s := (rcontent text).
Notation bits := (content blc soft).
Notation n := (length s).
Definition is_brk (o : nat) : bool :=
  (0 <? o) && (match nth_error s (o - 1) with Some x => x =? NL | None => false end || match nth_error bits (o - 1) with Some b => b | None => false end).
Lemma is_brk_ok o : is_brk o = true <-> brk text soft o.
Proof.
  unfold is_brk, brk, line_break, at_break. rewrite andb_true_iff, orb_true_iff. destruct (nth_error s (o - 1)) as [x|], (nth_error bits (o - 1)) as [[|]|]; try rewrite Nat.eqb_eq; split; intros Hx; intuition (try lia; try congruence).
Qed.
Definition starts : list nat := 0 :: upto is_brk n.

Lemma vrank_upto o : o <= n -> vrank text soft o = length (upto is_brk o).
Proof.
  destruct Sh as [_ _ El Dj _]. induction o as [|o IH]; intros Ho; [reflexivity|]. rewrite (vrank_S text soft El Dj) by lia. rewrite upto_S, app_length, IH by lia. f_equal.
  destruct (brk_dec text soft El (S o)) as [Y|Y]; [apply is_brk_ok in Y; now rewrite Y|]. destruct (is_brk (S o)) eqn:Z; auto. now apply is_brk_ok in Z.
Qed.
Lemma row_of_vrank o : o <= n -> row_of starts o = vrank text soft o.
Proof. intros Ho. unfold row_of, starts. cbn [filter]. cbn [Nat.leb]. rewrite upto_le by auto. cbn [length]. rewrite Nat.sub_succ, Nat.sub_0_r. now rewrite vrank_upto. Qed.
Lemma starts_visual : visual s starts.
Proof.
  destruct Sh as [_ _ El Dj Bc]. split.
  - reflexivity.
  - intros [|i] x y Ex Ey; unfold starts in Ex, Ey; [|exact (upto_sorted _ _ _ _ _ Ex Ey)]. injection Ex as <-. change (nth_error (upto is_brk n) 0 = Some y) in Ey. apply nth_error_In, upto_in in Ey. lia.
  - intros o Ho E. right. apply upto_in. assert (o - 1 < n) by (apply nth_error_Some; congruence). split; [lia|]. apply is_brk_ok. left. split; auto.
  - intros o [<-|Hi]; [split; [lia|reflexivity]|]. apply upto_in in Hi as [Hi Hb]. split; [lia|]. apply is_brk_ok in Hb. destruct (sh_text _ _ Sh) as (ht & Wt). apply (brk_cut text soft ht Wt El Bc). auto.
Qed.
Lemma starts_nth l : vstart text soft l (nth l starts n).
Proof.
  destruct l as [|l]; [left; auto|]. cbn [nth starts]. pose proof (vrank_upto n ltac:(auto)) as Hn.
  destruct (nth_error (upto is_brk n) l) as [x|] eqn:E.
  - rewrite (nth_error_nth _ _ _ E). right; left. assert (l < length (upto is_brk n)) by (apply nth_error_Some; congruence).
    destruct (upto_nth _ _ _ _ E) as (A & B & C). split; [lia|]. split; [now apply is_brk_ok|]. rewrite vrank_upto by lia. auto.
  - apply nth_error_None in E. rewrite nth_overflow by auto. right; right. split; [lia|auto].
Qed.
Lemma vstart_nth l o : vstart text soft l o -> o = nth l starts n.
Proof. destruct Sh as [_ _ El Dj _]. intros H. apply (vstart_unique text soft El Dj l); auto. apply starts_nth. Qed.
Lemma starts_len : length starts = vrank text soft n + 1.
Proof. unfold starts. cbn [length]. rewrite vrank_upto by auto. lia. Qed.
Lemma shown_head El o : o <= n -> shown s o = head_num text soft El o.
Proof.
  intros Ho. unfold shown, head_num. destruct (Nat.eqb_spec o 0) as [->|H0]; [reflexivity|]. cbn [orb].
  destruct (H_dec text soft El o) as [[_ Hd]|Hd]; [change NL with 10 in Hd; rewrite Hd; reflexivity|].
  destruct (nth_error s (o - 1)) as [x|] eqn:E; [|reflexivity]. destruct (Nat.eq_dec x 10) as [->|Hx]; [exfalso; apply Hd; split; auto; lia|].
  do 11 (destruct x as [|x]; try reflexivity). congruence.
Qed.
End Shape.

Lemma kept_starts old soft text soft' v b e : shape old soft -> shape text soft' -> kept old soft text soft' v b e ->
  lines_kept (starts old soft) (length (rcontent old)) (starts text soft') (length (rcontent text)) (in_start v) (in_old v) (in_new v) b e.
Proof.
  intros Sh Sh' (K1 & K2 & K3 & K4). unfold lines_kept. rewrite (starts_len _ _ Sh), (starts_len _ _ Sh'). split; [lia|]. split; [lia|]. split.
  - intros l Hl. destruct (K3 l _ Hl (starts_nth _ _ Sh l)) as [A B]. split; auto. symmetry. now apply (vstart_nth _ _ Sh').
  - intros l Hl. destruct (K4 (l - (in_start v + in_old v)) (nth l (starts old soft) (length (rcontent old)))) as [A B].
    { replace (in_start v + in_old v + (l - (in_start v + in_old v))) with l by lia. apply starts_nth. auto. }
    split; auto. symmetry. apply (vstart_nth _ _ Sh'). now replace (l + in_new v - in_old v) with (in_start v + in_new v + (l - (in_start v + in_old v))) by lia.
Qed.

(** ** The queries *)
Section Steps.
Context {F : Type} (fzero : F) (fadd : F -> F -> F) (fge fgt : F -> F -> bool) (fis0 : F -> bool) (of_nat : nat -> F).
Context (wid : @wrapw F -> list nat -> F) (opps : list nat -> nat -> list (nat * bool)) (max_pot : nat).
Context (WL : width_laws fzero fadd fge fgt fis0) (okt : list nat -> Prop) (po : list nat -> list (nat * bool)) (OL : opps_laws okt opps po) (Hmp : 0 < max_pot).
Notation lines := (@lines F).
Notation inv := (inv fzero fadd fge fgt fis0 of_nat wid okt po).
Notation max_of := (max_of of_nat).

Lemma none_rank (bits : list bool) o : (forall o, ~ at_break bits o) -> rank (firstn o bits) = 0.
Proof.
  intros Hl. unfold rank. destruct (count_occ bool_dec (firstn o bits) true) eqn:Z; auto. exfalso. assert (In true (firstn o bits)) by (apply (count_occ_In bool_dec); lia).
  apply In_nth_error in H as (i & Hi0). apply (Hl (S i)). split; [lia|]. rewrite Nat.sub_succ, Nat.sub_0_r. rewrite nth_error_firstn in Hi0. destruct (i <? o); congruence.
Qed.

Lemma visual_line_ok ln text o : inv ln text -> scut (rcontent text) o ->
  visual_line_of_offset ln text o = Some (row_of (starts text (ln_breaks ln)) o).
Proof.
  intros (_ & Sh & Hi) Hc. pose proof (cb_le _ _ Hc) as Ho. rewrite (row_of_vrank _ _ Sh) by auto. pose proof Sh as [(ht & Wt) (hs & Ws) El _ _].
  unfold visual_line_of_offset. rewrite (line_of_ok text ht Wt) by auto. cbn [bind]. unfold vrank. destruct (is_wnone (ln_wrap ln)) eqn:W.
  - apply (is_none of_nat) in W. rewrite W in Hi. rewrite none_rank by auto. f_equal. lia.
  - rewrite (br_count_ok text (ln_breaks ln) hs Ws El) by auto. reflexivity.
Qed.
Lemma visual_offset_ok ln text l : inv ln text -> offset_of_visual_line ln text l = Some (nth l (starts text (ln_breaks ln)) (length (rcontent text))).
Proof.
  intros (_ & Sh & Hi). pose proof Sh as [(ht & Wt) (hs & Ws) El Dj Bc]. unfold offset_of_visual_line. destruct (is_wnone (ln_wrap ln)) eqn:W.
  - apply (is_none of_nat) in W. rewrite W in Hi. set (s := rcontent text) in *.
    assert (Em : measure lines_metric text = newlines s).
    { unfold measure. rewrite (wf_len _ _ _ _ ht text Wt), (wf_info _ _ _ _ ht text Wt), newlines_eq. apply (ms_measure _ _ _ _ _ _ _ _ lines_metric_spec); apply (rope_utf8 ht text Wt). }
    rewrite Em. assert (Vn : vrank text (ln_breaks ln) (length s) = newlines s). { unfold vrank. fold s. rewrite firstn_all, none_rank by auto. lia. }
    destruct (Nat.le_gt_cases l (newlines s)) as [Hl|Hl].
    + rewrite Nat.min_l by lia. destruct (offset_of_line_ok ht text l (tfuel text) Wt Hl (tf_ok text ht Wt)) as (o & -> & Ls). f_equal.
      apply (vstart_nth _ _ Sh). pose proof (line_start_lstart _ _ _ Ls) as Hs. destruct Ls as (L1 & L2 & L3). destruct Hs as [->|Hs].
      * left. split; auto.
      * right; left. split.
        { split; [|fold s; lia]. rewrite <- L2. pose proof (nl_brk s o Hs). fold s. lia. }
        split; [now left|]. unfold vrank. rewrite none_rank by auto. lia.
    + rewrite Nat.min_r by lia. rewrite (offset_of_line_end ht) by auto. f_equal. apply (vstart_nth _ _ Sh). right; right. fold s. split; [lia|auto].
  - destruct (mb_new_ok text (ln_breaks ln) ht hs Wt Ws El) as (m & -> & St & Hm). cbn [bind].
    destruct (offset_of_line_merged text (ln_breaks ln) ht hs Wt Ws El Dj Bc m l St Hm) as (x & m' & o' & -> & Vx & _). cbn [bind]. f_equal. now apply (vstart_nth _ _ Sh).
Qed.

Lemma converged_cases (ln : lines) : is_converged ln = true -> ln_wrap ln = WNone \/ ln_work ln = [].
Proof. unfold is_converged. rewrite orb_true_iff. intros [H|H]; [left; destruct (ln_wrap ln); auto; discriminate|right; destruct (ln_work ln); auto; discriminate]. Qed.
Lemma converged_bits ln text max : inv ln text -> is_converged ln = true -> max_of (ln_wrap ln) = Some max ->
  forall a e, para (rcontent text) a e -> slice (content blc (ln_breaks ln)) a e = gbits fzero fadd fge fgt fis0 wid (ln_wrap ln) max po (slice (rcontent text) a e).
Proof.
  intros (Hk & Sh & Hi) Cv Em a e Hp. rewrite Em in Hi. destruct Hi as [_ Hd]. destruct (converged_cases ln Cv) as [E|E]; [rewrite E in Em; discriminate|].
  destruct (Hd a e Hp) as [(x & _ & Hx)|H]; auto. rewrite E in Hx. now apply cov_nil in Hx.
Qed.
(** The soft breaks of a line that has been wrapped. *)
Lemma soft_inside (bits : list bool) a e o : a < o <= e -> e <= length bits -> (at_break bits o <-> at_break (slice bits a e) (o - a)).
Proof. intros Ho He. rewrite (at_break_slice bits a e (o - a)) by lia. replace (a + (o - a)) with o by lia. intuition lia. Qed.

Notation starts ln text := (starts text (ln_breaks (F:=F) ln)).
Lemma in_starts ln text o : In o (starts ln text) <-> o = 0 \/ o <= length (rcontent text) /\ brk text (ln_breaks ln) o.
Proof.
  unfold LinewrapHist.starts. cbn [In]. rewrite upto_in, is_brk_ok. split; [intros [<-|[A B]]; auto; right; split; [lia|auto]|intros [->|[A B]]; auto]. right. split; [|auto].
  destruct B as [[B _]|[B _]]; lia.
Qed.
Lemma in_starts_brk ln text o : shape text (ln_breaks ln) -> 0 < o -> (In o (starts ln text) <-> brk text (ln_breaks ln) o).
Proof.
  intros Sh Ho. rewrite in_starts. split; [intros [->|[_ B]]; auto; lia|]. intros B. right. split; auto. apply (brk_le text _ (sh_len _ _ Sh) o B).
Qed.
Lemma converged_none ln text : inv ln text -> is_converged ln = true -> ~ at_break (content blc (ln_breaks ln)) (length (rcontent text)).
Proof.
  intros Hi Cv Hb. pose proof Hi as (Hk & Sh & Hw). destruct (max_of (ln_wrap ln)) as [max|] eqn:Em; [|now apply Hw in Hb].
  destruct (Nat.eq_dec (length (rcontent text)) 0) as [Z|Z]. { destruct Hb. lia. }
  destruct (para_at (rcontent text) (length (rcontent text) - 1) ltac:(lia)) as (a & e & Hp & Ha). pose proof Hp as (_ & He & _).
  assert (e = length (rcontent text)) by lia. subst e. apply (soft_inside _ a (length (rcontent text))) in Hb; [|lia|rewrite (sh_len _ _ Sh); lia].
  rewrite (converged_bits ln text max Hi Cv Em a _ Hp) in Hb. apply (gbits_break fzero fadd fge fgt fis0 wid opps max_pot WL okt po OL Hmp) in Hb; auto. lia.
Qed.
Lemma bits_wrapped ln text max a e : inv ln text -> para (rcontent text) a e ->
  slice (content blc (ln_breaks ln)) a e = gbits fzero fadd fge fgt fis0 wid (ln_wrap ln) max po (slice (rcontent text) a e) ->
  wrapped_line fzero fadd fge fgt fis0 max (wid (ln_wrap ln)) po (rcontent text) (starts ln text) a e.
Proof.
  intros Hi Hp Hg. pose proof Hi as (Hk & Sh & _). pose proof Hp as (_ & He & _ & Hin).
  destruct (gbits_rows fzero fadd fge fgt fis0 wid opps max_pot WL okt po OL Hmp (ln_wrap ln) max (rcontent text) a e Hk Hp) as (rows & R1 & R2 & R3 & R4 & R5).
  exists rows. split; auto. split; auto. intros o Ho. rewrite (in_starts_brk ln text o Sh) by lia.
  assert (Eb : brk text (ln_breaks ln) o <-> at_break (content blc (ln_breaks ln)) o).
  { split; [|right; auto]. intros [[_ B]|B]; auto. exfalso. apply (Hin (o - 1)); auto; lia. }
  rewrite Eb, (soft_inside _ a e) by (rewrite ?(sh_len _ _ Sh); lia). rewrite Hg, R5. intuition lia.
Qed.
Theorem converged_wrapped ln text max : inv ln text -> is_converged ln = true -> max_of (ln_wrap ln) = Some max ->
  wrapped fzero fadd fge fgt fis0 max (wid (ln_wrap ln)) po (rcontent text) (starts ln text).
Proof. intros Hi Cv Em a e Hp. apply bits_wrapped; auto. now apply converged_bits. Qed.
(** A region that does not need wrapping has been wrapped. *)
Theorem needs_wrap_ok ln text max x y a e : inv ln text -> max_of (ln_wrap ln) = Some max -> interval_needs_wrap ln (x, y) = false ->
  para (rcontent text) a e -> x <= a -> e <= y -> wrapped_line fzero fadd fge fgt fis0 max (wid (ln_wrap ln)) po (rcontent text) (starts ln text) a e.
Proof.
  intros Hi Em Hn Hp Hx Hy. apply bits_wrapped; auto. pose proof Hi as (_ & _ & Hw). rewrite Em in Hw. destruct Hw as [_ Hd].
  destruct (Hd a e Hp) as [(z & Hz & Hc)|H]; auto. exfalso. unfold interval_needs_wrap in Hn. destruct Hc as (t & Ht & Hc).
  assert (E : existsb (fun t => negb (iv_is_empty (iv_intersect t (x, y)))) (ln_work ln) = true); [|congruence].
  apply existsb_exists. exists t. split; auto. unfold iv_intersect, iv_is_empty. cbn [fst snd]. lia.
Qed.
(** The line of the text to which a visual line belongs. *)
Theorem line_range_ok ln text l : inv ln text -> exists a b, logical_line_range ln text l = Some (a, b) /\
  let o := nth l (starts ln text) (length (rcontent text)) in
  lstart (rcontent text) a /\ a <= o <= b /\ (forall i, a <= i < o -> nth_error (rcontent text) i <> Some 10) /\
  (para (rcontent text) a b \/ a = b /\ b = length (rcontent text)).
Proof.
  intros (_ & Sh & _). pose proof Sh as [(ht & Wt) (hs & Ws) El Dj Bc]. unfold logical_line_range.
  destruct (mb_new_ok text (ln_breaks ln) ht hs Wt Ws El) as (m & -> & St & Hm). cbn [bind].
  destruct (offset_of_line_merged text (ln_breaks ln) ht hs Wt Ws El Dj Bc m l St Hm) as (x & m' & o' & -> & Vx & _). cbn [bind].
  rewrite <- (vstart_nth _ _ Sh l x Vx). pose proof (vstart_le text (ln_breaks ln) El _ _ Vx) as Hx.
  assert (Cx : scut (rcontent text) x).
  { apply (brk_cut text (ln_breaks ln) ht Wt El Bc). destruct Vx as [(_ & ->)|[(_ & B & _)|(_ & ->)]]; auto. }
  rewrite (line_of_ok text ht Wt x Cx). cbn [bind]. destruct (start_line_ok text ht Wt x Hx) as (a & -> & A1 & A2). cbn [bind].
  destruct (next_line_ok text ht Wt x Hx) as (b & -> & Hb). cbn [bind]. exists a, b. split; auto. cbn zeta. split; auto.
  pose proof (start_before (rcontent text) a x A1 A2) as Hsb.
  destruct Hsb as [Ha Hnb]. assert (Hin : forall i, a <= i < x -> nth_error (rcontent text) i <> Some 10).
  { intros i Hi E. apply (Hnb (S i)); [lia|]. split; [lia|]. now rewrite Nat.sub_succ, Nat.sub_0_r. }
  destruct Hb as [[B1 B2]|[-> B2]].
  - destruct (start_after _ _ _ B1 B2) as (C1 & [C2 C3] & C4). assert (b - 1 < length (rcontent text)) by (apply nth_error_Some; congruence).
    split; [lia|]. split; auto. left. split; auto. split; [lia|]. split; [left; exact C3|]. intros i Hi Hs E. destruct (Nat.lt_ge_cases i x) as [Hl|Hl]; [now apply (Hin i); [lia|]|].
    apply (C4 (S i)); [lia|]. split; [lia|]. now rewrite Nat.sub_succ, Nat.sub_0_r.
  - split; [lia|]. split; auto. destruct (Nat.eq_dec a (length (rcontent text))) as [->|Hn]; auto. left. split; auto. split; [lia|]. split; auto. intros i Hi Hs E.
    destruct (Nat.lt_ge_cases i x) as [Hl|Hl]; [now apply (Hin i); [lia|]|].
    assert (Hb : line_break (rcontent text) (S i)) by (split; [lia|now rewrite Nat.sub_succ, Nat.sub_0_r]). pose proof (nl_brk _ _ Hb). pose proof (nl_mono (rcontent text) x (S i - 1) ltac:(lia)). pose proof (nl_total (rcontent text) (S i)). lia.
Qed.
Theorem converged_no_more ln text : inv ln text -> is_converged ln = true -> no_more (rcontent text) (starts ln text).
Proof.
  intros Hi Cv o Ho. pose proof Hi as (Hk & Sh & Hw). apply in_starts in Ho as [->|[Hn [[_ B]|B]]]; auto. right; right.
  assert (Hx : o <> length (rcontent text)) by (intros ->; now apply (converged_none ln text Hi Cv)).
  destruct (para_at (rcontent text) (o - 1) ltac:(destruct B; lia)) as (a & e & Hp & Ha). exists a, e. split; auto. destruct (Nat.eq_dec o e) as [->|]; [|destruct B; lia]. exfalso.
  destruct Hp as (_ & He & [H10|E] & _); [|lia]. apply (sh_dj _ _ Sh e); auto. split; [lia|auto].
Qed.
Lemma wrapped_same ln ln' text text' : inv ln text -> inv ln' text' -> is_converged ln = true -> is_converged ln' = true ->
  rcontent text = rcontent text' -> ln_wrap ln = ln_wrap ln' -> starts ln text = starts ln' text'.
Proof.
  intros Hi Hi' Cv Cv' Et Ew. pose proof Hi as (Hk & Sh & Hw). pose proof Hi' as (Hk' & Sh' & Hw').
  assert (Eb : content blc (ln_breaks ln) = content blc (ln_breaks ln')).
  { assert (Hl : length (content blc (ln_breaks ln)) = length (content blc (ln_breaks ln'))) by (rewrite (sh_len _ _ Sh), (sh_len _ _ Sh'); congruence).
    destruct (max_of (ln_wrap ln)) as [max|] eqn:Em.
    - apply ext_break; auto. intros o.
      assert (G : forall l (A : inv l text) (B : is_converged l = true) (C : ln_wrap l = ln_wrap ln), at_break (content blc (ln_breaks l)) o <->
        exists a e, para (rcontent text) a e /\ a < o <= e /\ at_break (gbits fzero fadd fge fgt fis0 wid (ln_wrap ln) max po (slice (rcontent text) a e)) (o - a)).
      { intros l A B C. pose proof A as (_ & Sl & _). split.
        - intros Hb. pose proof (at_break_le _ _ Hb). rewrite (sh_len _ _ Sl) in H. destruct (para_at (rcontent text) (o - 1) ltac:(destruct Hb; lia)) as (a & e & Hp & Ha). exists a, e. split; auto.
          pose proof Hp as (_ & He & _). split; [destruct Hb; lia|]. rewrite <- C, <- (converged_bits l text max A B ltac:(now rewrite C) a e Hp). apply soft_inside; auto; [destruct Hb; lia|]. rewrite (sh_len _ _ Sl). lia.
        - intros (a & e & Hp & Ho & Hb). pose proof Hp as (_ & He & _). apply (soft_inside _ a e); auto; [rewrite (sh_len _ _ Sl); lia|]. rewrite (converged_bits l text max A B ltac:(now rewrite C) a e Hp), C. auto. }
      rewrite (G ln) by auto. symmetry. clear G.
      assert (Em' : max_of (ln_wrap ln') = Some max) by congruence. split.
      + intros Hb. pose proof (at_break_le _ _ Hb). rewrite (sh_len _ _ Sh') in H. destruct (para_at (rcontent text') (o - 1) ltac:(destruct Hb; lia)) as (a & e & Hp & Ha). pose proof Hp as (_ & He & _). exists a, e. rewrite Et. split; auto. split; [destruct Hb; lia|].
        rewrite Ew, <- (converged_bits ln' text' max Hi' Cv' Em' a e Hp). apply soft_inside; auto; [destruct Hb; lia|]. rewrite (sh_len _ _ Sh'). lia.
      + rewrite Et. intros (a & e & Hp & Ho & Hb). pose proof Hp as (_ & He & _). apply (soft_inside _ a e); auto; [rewrite (sh_len _ _ Sh'); lia|]. rewrite (converged_bits ln' text' max Hi' Cv' Em' a e Hp), <- Ew. auto.
    - apply ext_break; auto. intros o. rewrite <- Ew, Em in Hw'. specialize (Hw o). specialize (Hw' o). tauto. }
  unfold LinewrapHist.starts. f_equal. unfold upto, is_brk. now rewrite Et, Eb.
Qed.

(** ** The iterator *)
Theorem iter_ok ln text k : inv ln text -> is_converged ln = true -> k < length (starts ln text) ->
  exists v ls, iter_lines text (ln_breaks ln) k = Some v /\ (forall fuel, length (rcontent text) + 2 < fuel -> vs_all text (ln_breaks ln) fuel v = Some ls) /\
    length ls = length (starts ln text) - k /\
    forall i x, nth_error ls i = Some x -> vl_start x = nth (k + i) (starts ln text) (length (rcontent text)) /\
      vl_end x = nth (k + i + 1) (starts ln text) (length (rcontent text)) /\ vl_num x = shown (rcontent text) (vl_start x).
Proof.
  intros Hi Cv Hk. pose proof Hi as (_ & Sh & _). pose proof Sh as [(ht & Wt) (hs & Ws) El Dj Bc]. rewrite (starts_len _ _ Sh) in *.
  destruct (iter_lines_ok text (ln_breaks ln) ht hs Wt Ws El Dj Bc (converged_none ln text Hi Cv) k ltac:(lia)) as (v & ls & E1 & E2 & E3 & E4).
  exists v, ls. split; auto. split; auto. split; auto. intros i x Hx. destruct (E4 i x Hx) as (A & B & C). split; [now apply (vstart_nth _ _ Sh)|]. split; [now apply (vstart_nth _ _ Sh)|].
  rewrite C. symmetry. apply shown_head. apply (vstart_le text (ln_breaks ln) El _ _ A).
Qed.

(** ** What remains to be done stays in order *)
Lemma order_update ws w : forall lo, in_order lo ws -> fst w <= snd w -> in_order lo (update_tasks_after_wrap ws w).
Proof.
  unfold update_tasks_after_wrap. induction ws as [|t ws IH]; intros lo H Hw; [exact Logic.I|]. cbn [flat_map in_order] in *. destruct H as (H1 & H2 & H3). specialize (IH _ H3 Hw).
  assert (G : forall l lo, in_order lo l -> lo <= snd t -> in_order (snd t) l -> in_order lo l) by auto.
  unfold iv_is_before, iv_is_after, iv_prefix, iv_suffix.
  destruct (Nat.leb_spec (snd t) (fst w)) as [D|D]; cbn [orb app in_order]; auto.
  destruct (Nat.ltb_spec (snd w) (fst t)) as [D2|D2]; cbn [app in_order]; auto.
  destruct (Nat.ltb_spec (fst t) (fst w)) as [D3|D3], (Nat.ltb_spec (snd w) (snd t)) as [D4|D4]; cbn [app in_order fst snd]; rewrite ?Nat.max_l, ?Nat.min_l by lia;
    repeat split; try lia; try (eapply in_order_weaken; [exact IH|lia]).
Qed.

Notation do_wrap_task := (do_wrap_task fzero fadd fge fgt fis0 of_nat wid opps max_pot).
Lemma do_wrap_work batch ln text visible sm ln' : do_wrap_task batch ln text visible = Some (sm, ln') -> in_order 0 (ln_work ln) -> in_order 0 (ln_work ln').
Proof.
  intros E Ho. unfold LinewrapModel.do_wrap_task in E.
  repeat match type of E with
  | bind ?x _ = Some _ => destruct x eqn:?; cbn [bind] in E; [|discriminate]
  | check ?x _ = Some _ => destruct x eqn:?; cbn [check] in E; [|discriminate]
  | (let '(_, _) := ?x in _) = Some _ => destruct x
  end. injection E as <- <-. cbn [ln_work]. apply order_update; auto. cbn [fst snd]. lia.
Qed.
Lemma order_width ln text w : in_order 0 (ln_work (set_wrap_width (F:=F) ln text w)).
Proof. unfold set_wrap_width, add_task, iv_is_empty. cbn [ln_work fst snd]. destruct (Nat.leb_spec (n_len text) 0); cbn; auto with arith. Qed.
Lemma order_chunk ln text visible r ln' : rewrap_chunk fzero fadd fge fgt fis0 of_nat wid opps max_pot ln text visible = Some (r, ln') ->
  in_order 0 (ln_work ln) -> in_order 0 (ln_work ln').
Proof.
  unfold LinewrapModel.rewrap_chunk. intros E Ho. destruct (is_converged ln); [now injection E as <- <-|].
  destruct (do_wrap_task MAX_LINES_PER_BATCH ln text visible) as [[sm ln1]|] eqn:Ed; [|discriminate]. cbn [bind] in E. injection E as <- <-. eapply do_wrap_work; eauto.
Qed.
Lemma order_edit ln text old i newlen visible r ln' : after_edit fzero fadd fge fgt fis0 of_nat wid opps max_pot ln text old i newlen visible = Some (r, ln') ->
  ln_wrap ln <> WNone -> is_converged ln = true -> in_order 0 (ln_work ln').
Proof.
  intros E Hw Cv. destruct (converged_cases ln Cv) as [|Ek]; [contradiction|]. unfold LinewrapModel.after_edit in E. rewrite Ek in E.
  repeat match type of E with
  | bind ?x _ = Some _ => destruct x eqn:?; cbn [bind] in E; [|discriminate]
  | check ?x _ = Some _ => destruct x eqn:?; cbn [check] in E; [|discriminate]
  | (let '(_, _) := ?x in _) = Some _ => destruct x
  end.
  assert (l = []) by (unfold patchup_tasks in *; cbn in *; congruence). subst l.
  destruct (is_wnone (ln_wrap ln)) eqn:W. { injection E as <- <-. exact Logic.I. }
  match type of E with context [add_task [] ?t] => set (tk := t) in E end.
  assert (Ho : in_order 0 (add_task [] tk)). { unfold add_task, iv_is_empty, tk. cbn [fst snd]. destruct (Nat.leb_spec n4 n3); cbn; auto with arith. }
  cbn [ln_work] in E. destruct (add_task [] tk) as [|t0 ts] eqn:Et. { injection E as <- <-. exact Logic.I. }
  destruct (do_wrap_task MAX_LINES_PER_BATCH (Lines n8 (ln_wrap ln) (t0 :: ts)) text visible) as [[sm ln2]|] eqn:Ed; [|discriminate]. cbn [bind] in E.
  apply do_wrap_work in Ed; auto. destruct (is_converged ln2); injection E as <- <-; auto.
Qed.

(** ** Histories *)
Inductive reach : rope -> lines -> Prop :=
| reach_start text w : (exists h, rope_wf h text) -> okt (rcontent text) -> reach text (set_wrap_width (ln_default (F:=F)) text w)
| reach_width text ln w : reach text ln -> reach text (set_wrap_width ln text w)
| reach_chunk text ln visible r ln' : reach text ln -> fst visible <= snd visible ->
    rewrap_chunk fzero fadd fge fgt fis0 of_nat wid opps max_pot ln text visible = Some (r, ln') -> reach text ln'
| reach_edit old ln text ins b e visible r ln' : reach old ln -> (exists h, rope_wf h text) -> okt (rcontent text) ->
    rcontent text = firstn b (rcontent old) ++ ins ++ skipn e (rcontent old) -> b <= e -> e <= length (rcontent old) ->
    is_char_boundary (rcontent old) e = true -> utf8 ins -> fst visible <= snd visible -> ln_wrap ln = WNone \/ in_order 0 (ln_work ln) ->
    after_edit fzero fadd fge fgt fis0 of_nat wid opps max_pot ln text old (b, e) (length ins) visible = Some (r, ln') -> reach text ln'.
Theorem reach_inv text ln : reach text ln -> inv ln text.
Proof.
  induction 1.
  - apply (set_width_ok _ _ _ _ _ _ _ max_pot); auto.
  - pose proof IHreach as (Hk & Sh & _). apply (set_width_ok _ _ _ _ _ _ _ max_pot); auto. apply (sh_text _ _ Sh).
  - destruct (chunk_ok fzero fadd fge fgt fis0 of_nat wid opps max_pot WL okt po OL Hmp ln text visible IHreach ltac:(auto)) as (r' & ln1 & E & Hi & _). congruence.
  - destruct (after_edit_ok fzero fadd fge fgt fis0 of_nat wid opps max_pot WL okt po OL Hmp ln old text ins b e visible IHreach) as (r' & ln1 & E & Hi & _); auto. congruence.
Qed.

Fixpoint chunks (ln : lines) (text : rope) (vs : list iv) : option lines :=
  match vs with
  | [] => Some ln
  | v :: vs' => let? (_, ln') := rewrap_chunk fzero fadd fge fgt fis0 of_nat wid opps max_pot ln text v in chunks ln' text vs'
  end.
Theorem converges text vs : forall ln, inv ln text -> Forall (fun v => fst v <= snd v) vs ->
  exists ln', chunks ln text vs = Some ln' /\ inv ln' text /\ ln_wrap ln' = ln_wrap ln /\ (size (ln_work ln) <= length vs -> is_converged ln' = true).
Proof.
  induction vs as [|v vs IH]; intros ln Hi Hv; cbn [chunks].
  - exists ln. split; auto. split; auto. split; auto. cbn [length]. intros Hz. pose proof Hi as (_ & _ & Hw). unfold is_converged.
    destruct (is_wnone (ln_wrap ln)) eqn:W; auto. cbn [orb]. destruct (max_of (ln_wrap ln)) eqn:Em; [|apply (is_none of_nat) in Em; congruence].
    destruct Hw as [Hf _]. destruct (ln_work ln) as [|t ts]; auto. exfalso. apply Forall_inv in Hf. unfold size in Hz. cbn in Hz. destruct Hf as (Hf & _). lia.
  - apply Forall_cons_iff in Hv as [Hv1 Hv]. destruct (chunk_ok fzero fadd fge fgt fis0 of_nat wid opps max_pot WL okt po OL Hmp ln text v Hi Hv1) as (r & ln1 & -> & Hi1 & Ew & Hc). cbn [bind].
    destruct (IH ln1 Hi1 Hv) as (ln' & E & Hi' & Ew' & Hc'). exists ln'. split; auto. split; auto. split; [congruence|]. intros Hz. cbn [length] in Hz.
    destruct Hc as [(Cv & -> & ->)|(_ & Hs)]; [|apply Hc'; lia].
    (* converged already: chunks change nothing *)
    clear - Cv E. revert E. induction vs as [|v' vs IHv]; cbn [chunks]; [now intros [= <-]|]. unfold LinewrapModel.rewrap_chunk. rewrite Cv. cbn [bind]. auto.
Qed.
End Steps.
