(** Edits: the invariant, and which lines are kept. *)
From Coq Require Import List Arith Lia Bool ZifyBool.
From Verif Require Import Base ListLib TreeModel TreeSpec TreeProofs MetricProofs CursorModel CursorProofs CursorBoundary
  RopeModel RopeSpec RopeProofs RopeMetric RopeCursor BreaksModel BreaksSpec BreaksProofs
  LinewrapModel LinewrapMerged LinewrapLines LinewrapSpec LinewrapWrap LinewrapTask LinewrapWork LinewrapInv LinewrapRun.
Import ListNotations.
Local Notation concat := List.concat.

(** ** The lines that a change of lines leaves as they are *)
Definition kept (old : rope) (soft : breaks) (text : rope) (soft' : breaks) (v : inval) (b e : nat) : Prop :=
  in_start v + in_old v <= vrank old soft (length (rcontent old)) + 1 /\
  vrank text soft' (length (rcontent text)) + in_old v = vrank old soft (length (rcontent old)) + in_new v /\
  (forall l x, l <= in_start v -> vstart old soft l x -> x <= b /\ vstart text soft' l x) /\
  (forall j x, vstart old soft (in_start v + in_old v + j) x ->
    e <= x /\ vstart text soft' (in_start v + in_new v + j) (x + length (rcontent text) - length (rcontent old))).

Lemma prefix_brk {A} (l l' : list A) p i : firstn p l = firstn p l' -> i < p -> nth_error l i = nth_error l' i.
Proof. intros E Hi. apply (f_equal (fun x => nth_error x i)) in E. rewrite !nth_error_firstn in E. now replace (i <? p) with true in E by lia. Qed.
Lemma suffix_nth {A} (l l' : list A) q q' i : skipn q l = skipn q' l' -> nth_error l (q + i) = nth_error l' (q' + i).
Proof. intros E. apply (f_equal (fun x => nth_error x i)) in E. now rewrite !nth_error_skipn in E. Qed.
Lemma firstn_split {A} (l : list A) q o : q <= o -> firstn o l = firstn q l ++ firstn (o - q) (skipn q l).
Proof. intros H. rewrite <- (firstn_skipn q (firstn o l)), firstn_firstn, Nat.min_l by lia. f_equal. now rewrite skipn_firstn_comm. Qed.

Lemma kept_intro old soft text soft' v b e p q q' c : shape old soft -> shape text soft' ->
  let s := rcontent old in let s' := rcontent text in let bits := content blc soft in let bits' := content blc soft' in
  firstn p s = firstn p s' -> firstn p bits = firstn p bits' -> p <= length s -> p <= length s' ->
  in_start v = vrank old soft p ->
  skipn q s = skipn q' s' -> skipn q bits = skipn q' bits' -> q <= length s -> q' <= length s' ->
  in_start v + in_old v = vrank old soft q + c -> in_start v + in_new v = vrank text soft' q' + c ->
  (c = 0 -> brk old soft q /\ brk text soft' q') -> p <= b -> c <= 1 -> e <= q -> kept old soft text soft' v b e.
Proof.
  intros [_ _ El Dj Bc] [_ _ El' Dj' Bc'] s s' bits bits' Ep Epb Hp Hp' Hst Eq Eqb Hq Hq' Ho Hn Hc Hpb Hc1 He.
  fold s bits in El. fold s' bits' in El'.
  assert (Hd : length s - q = length s' - q') by (rewrite <- !skipn_length, Eq; reflexivity).
  assert (P1 : forall x, x <= p -> brk old soft x -> brk text soft' x).
  { intros x Hx [[H1 H2]|[H1 H2]]; [left|right]; (split; [auto|]); [exact (eq_trans (eq_sym (prefix_brk _ _ p (x - 1) Ep ltac:(lia))) H2)|exact (eq_trans (eq_sym (prefix_brk _ _ p (x - 1) Epb ltac:(lia))) H2)]. }
  assert (P2 : forall x, x <= p -> vrank text soft' x = vrank old soft x).
  { intros x Hx. unfold vrank. fold s s' bits bits'. f_equal; f_equal; [|].
    - rewrite <- (Nat.min_l x p Hx), <- !firstn_firstn. now rewrite Ep.
    - rewrite <- (Nat.min_l x p Hx), <- !firstn_firstn. now rewrite Epb. }
  assert (Q1 : forall x, q < x -> brk old soft x -> brk text soft' (x + q' - q)).
  { intros x Hx [[H1 H2]|[H1 H2]]; [left|right]; (split; [lia|]).
    - replace (x + q' - q - 1) with (q' + (x - q - 1)) by lia. fold s'. rewrite <- (suffix_nth s s' q q' (x - q - 1) Eq). fold s in H2. now replace (q + (x - q - 1)) with (x - 1) by lia.
    - replace (x + q' - q - 1) with (q' + (x - q - 1)) by lia. fold bits'. rewrite <- (suffix_nth bits bits' q q' (x - q - 1) Eqb). fold bits in H2. now replace (q + (x - q - 1)) with (x - 1) by lia. }
  assert (Q2 : forall x, q <= x -> vrank text soft' (x + q' - q) + vrank old soft q = vrank old soft x + vrank text soft' q').
  { intros x Hx. unfold vrank. fold s s' bits bits'. rewrite (firstn_split s q x), (firstn_split bits q x), (firstn_split s' q' (x + q' - q)), (firstn_split bits' q' (x + q' - q)) by lia.
    rewrite <- Eq, <- Eqb. replace (x + q' - q - q') with (x - q) by lia. unfold newlines. rewrite !count_occ_app, !rank_app. lia. }
  assert (M : forall x y, x < y -> brk old soft y -> vrank old soft x < vrank old soft y).
  { intros x y Hxy Hb. rewrite (vrank_brk old soft El Dj y Hb). pose proof (brk_le old soft El y Hb). pose proof (vrank_mono old soft El Dj x (y - 1) ltac:(lia) ltac:(lia)). lia. }
  pose proof (vrank_mono old soft El Dj p (length s) Hp (le_n _)) as Mp. pose proof (vrank_mono text soft' El' Dj' p (length s') Hp' (le_n _)) as Mp'.
  pose proof (vrank_mono old soft El Dj q (length s) Hq (le_n _)) as Mq. pose proof (Q2 (length s) Hq) as Qn. replace (length s + q' - q) with (length s') in Qn by lia.
  unfold kept, vstart. fold s s'. split; [lia|]. split; [lia|]. split.
  - intros l x Hl [(A1 & A2)|[(A1 & A2 & A3)|(A1 & A2)]].
    + split; [lia|]. left. auto.
    + assert (Hx : x <= p). { destruct (Nat.le_gt_cases x p); auto. pose proof (M p x ltac:(lia) A2). lia. }
      split; [lia|]. right. left. split; [|split; [now apply P1|rewrite P2; auto]]. pose proof (P2 x Hx). pose proof (vrank_mono text soft' El' Dj' x (length s') ltac:(lia) (le_n _)). lia.
    + lia.
  - intros j x. rewrite Ho, Hn. intros [(A1 & A2)|[(A1 & A2 & A3)|(A1 & A2)]].
    + exfalso. destruct c; [|lia]. destruct (Hc eq_refl) as [Hb _]. pose proof (brk_le old soft El q Hb). pose proof (M 0 q ltac:(lia) Hb). lia.
    + assert (Hx : q <= x). { destruct (Nat.le_gt_cases q x); auto. exfalso. destruct c as [|c].
        - destruct (Hc eq_refl) as [Hb _]. pose proof (M x q ltac:(lia) Hb). lia.
        - pose proof (vrank_mono old soft El Dj x q ltac:(lia) Hq). lia. }
      pose proof (brk_le old soft El x A2) as Hxn. fold s in Hxn. split; [lia|]. right. left. pose proof (Q2 x Hx) as Qx. replace (x + length s' - length s) with (x + q' - q) by lia.
      split; [destruct c as [|c]; [destruct (Hc eq_refl) as [_ Hb]; rewrite (vrank_brk text soft' El' Dj' q' Hb) in *|]; lia|]. split; [|lia]. destruct (Nat.eq_dec x q) as [->|]; [|apply Q1; auto; lia].
      destruct c; [|lia]. replace (q + q' - q) with q' by lia. now apply Hc.
    + split; [lia|]. right. right. lia.
Qed.

Lemma patch_some ws b e k : b <= e -> exists l, patch_loop ws (b, e) k = Some l.
Proof.
  intros H. induction ws as [|t ws (l & El)]; [now exists []|]. cbn [patch_loop]. rewrite El.
  unfold iv_is_before, iv_contains, iv_translate_neg, iv_translate, iv_suffix, iv_size. cbn [fst snd].
  destruct (snd t <=? b); [cbn; eauto|]. destruct ((fst t <=? b) && (b <? snd t)); [cbn; eauto|].
  replace (e - b <=? Nat.max (fst t) e + k) with true by lia. cbn. eauto.
Qed.

Section Steps.
Context {F : Type} (fzero : F) (fadd : F -> F -> F) (fge fgt : F -> F -> bool) (fis0 : F -> bool) (of_nat : nat -> F).
Context (wid : @wrapw F -> list nat -> F) (opps : list nat -> nat -> list (nat * bool)) (max_pot : nat).
Context (WL : width_laws fzero fadd fge fgt fis0) (okt : list nat -> Prop) (po : list nat -> list (nat * bool)) (OL : opps_laws okt opps po) (Hmp : 0 < max_pot).
Notation wrapw := (@wrapw F).
Notation lines := (@lines F).
Notation inv := (inv fzero fadd fge fgt fis0 of_nat wid okt po).
Notation done := (done fzero fadd fge fgt fis0 wid po).
Notation max_of := (max_of of_nat).
Notation rewrap_chunk := (rewrap_chunk fzero fadd fge fgt fis0 of_nat wid opps max_pot).
Notation after_edit := (after_edit fzero fadd fge fgt fis0 of_nat wid opps max_pot).
Notation do_wrap_ok := (do_wrap_ok fzero fadd fge fgt fis0 of_nat wid opps max_pot WL okt po OL Hmp).

(** A chunk of the work leaves the lines it does not report. *)
Theorem chunk_kept ln text visible v ln' : inv ln text -> fst visible <= snd visible -> rewrap_chunk ln text visible = Some (Some v, ln') ->
  kept text (ln_breaks ln) text (ln_breaks ln') v (length (rcontent text)) 0.
Proof.
  intros Hi Hv. unfold LinewrapModel.rewrap_chunk. destruct (is_converged ln) eqn:C; [discriminate|].
  unfold is_converged in C. apply orb_false_elim in C as [C1 C2]. destruct (max_of (ln_wrap ln)) as [max|] eqn:Em; [|apply is_none in Em; congruence].
  assert (Hw : ln_work ln <> []) by (intros E; rewrite E in C2; discriminate).
  destruct (do_wrap_ok MAX_LINES_PER_BATCH ln text visible max Hi Em Hw Hv)
    as (sm & ln1 & t & a & e & new & -> & Hi' & Ew & A1 & A2 & A3 & A4 & A5 & A6 & A7 & A8 & A9 & A10 & A11 & A12 & A13 & A14 & A15 & A16). cbn [bind].
  intros E. injection E as <- <-. pose proof (aligned_le _ _ A2) as Hen. destruct Hi as (_ & Sh & _), Hi' as (_ & Sh' & _).
  pose proof (sh_len _ _ Sh) as El.
  assert (E1 : firstn a (content blc (ln_breaks ln1)) = firstn a (content blc (ln_breaks ln))).
  { rewrite A8, firstn_app, firstn_firstn, firstn_length, Nat.min_id. rewrite (Nat.min_l a) by lia. rewrite Nat.sub_diag. cbn [firstn]. apply app_nil_r. }
  assert (E2 : skipn e (content blc (ln_breaks ln1)) = skipn e (content blc (ln_breaks ln))).
  { rewrite A8, app_assoc, skipn_app, skipn_all2 by (rewrite app_length, firstn_length; lia). cbn [app]. rewrite app_length, firstn_length, A9, (Nat.min_l a) by lia. now replace (e - (a + (e - a))) with 0 by lia. }
  assert (E3 : rank (firstn e (content blc (ln_breaks ln1))) = rank (firstn a (content blc (ln_breaks ln))) + rank new).
  { rewrite A8, app_assoc, firstn_app, app_length, firstn_length, A9, (Nat.min_l a) by lia. replace (e - (a + (e - a))) with 0 by lia. cbn [firstn]. rewrite app_nil_r, firstn_all2 by (rewrite app_length, firstn_length; lia). apply rank_app. }
  apply (kept_intro text (ln_breaks ln) text (ln_breaks ln1) _ _ 0 a e e 1); auto; try lia; cbn [in_start in_old in_new].
  - lia.
  - rewrite A10, A13. unfold vrank. rewrite E3. lia.
Qed.

(** ** Edits *)
Section Edit.
Context (ln : lines) (old text : rope) (ins : list nat) (b e : nat) (visible : iv).
Notation s := (rcontent old).
Notation s' := (rcontent text).
Notation bits := (content blc (ln_breaks ln)).
Notation k := (length ins).
Context (Hi : inv ln old) (hn : nat) (Wn : rope_wf hn text) (Hk : okt s') (Es : s' = firstn b s ++ ins ++ skipn e s).
Context (Hbe : b <= e) (Hen : e <= length s) (Ce : scut s e) (Ui : utf8 ins).

Lemma n_new : length s' + (e - b) = length s + k.
Proof. rewrite Es. now apply len_new. Qed.

Context (prev next oend : nat).
Context (P1 : lstart s' prev) (P2 : newlines (firstn prev s') = newlines (firstn b s')).
Context (N1 : lstart s' next /\ newlines (firstn next s') = newlines (firstn (b + k) s') + 1 \/ next = length s' /\ newlines (firstn (b + k) s') = newlines s').
Context (O1 : lstart s oend /\ newlines (firstn oend s) = newlines (firstn e s) + 1 \/ oend = length s /\ newlines (firstn e s) = newlines s).

Lemma prev_b : prev <= b /\ forall y, prev < y <= b -> ~ line_break s' y.
Proof. now apply start_before. Qed.
Lemma next_b : b + k <= next <= length s' /\ (b + k < next /\ line_break s' next \/ next = length s') /\ forall y, b + k < y < next -> ~ line_break s' y.
Proof.
  pose proof n_new. destruct N1 as [[A B]|[A B]].
  - destruct (start_after s' next (b + k) A B) as (C & D & E). pose proof (aligned_le s' next (or_introl D)). split; [lia|]. auto.
  - split; [lia|]. split; auto. intros y Hy Hb. pose proof (nl_brk _ _ Hb). pose proof (nl_mono s' (b + k) (y - 1) ltac:(lia)). pose proof (nl_total s' y). lia.
Qed.
Lemma oend_b : e <= oend <= length s /\ (e < oend /\ line_break s oend \/ oend = length s /\ newlines (firstn e s) = newlines s).
Proof.
  destruct O1 as [[A B]|[A B]].
  - destruct (start_after s oend e A B) as (C & D & E). pose proof (aligned_le s oend (or_introl D)). split; [lia|]. auto.
  - split; [lia|]. auto.
Qed.
(** The next line after the edit is the same line before and after. *)
Lemma ends_agree : oend + k = next + (e - b) /\ (line_break s oend /\ e < oend <-> line_break s' next /\ b + k < next).
Proof.
  pose proof n_new as En. pose proof oend_b as (Q1 & Q2). pose proof next_b as (R1 & R2 & R3).
  assert (X : forall y, e < y -> (line_break s' (y + k - (e - b)) <-> line_break s y)) by (intros y Hy; rewrite Es; now apply brk_post).
  assert (Y : line_break s oend /\ e < oend -> oend + k = next + (e - b) /\ line_break s' next /\ b + k < next).
  { intros [Y1 Y2]. pose proof (proj2 (X oend Y2) Y1) as Y3. assert (next <= oend + k - (e - b)).
    { destruct (Nat.le_gt_cases next (oend + k - (e - b))); auto. exfalso. apply (R3 (oend + k - (e - b))); auto. lia. }
    assert (Hz : next < oend + k - (e - b) -> False).
    { intros Hlt. destruct R2 as [[R4 R5]|R5]; [|lia]. assert (Hy : line_break s (next + (e - b) - k)). { apply X; [lia|]. replace (next + (e - b) - k + k - (e - b)) with next by lia. exact R5. }
      destruct O1 as [[A B]|[A B]].
      - destruct (start_after s oend e A B) as (_ & _ & E). apply (E (next + (e - b) - k)); auto. lia.
      - pose proof (nl_brk _ _ Hy). pose proof (nl_mono s e (next + (e - b) - k - 1) ltac:(lia)). pose proof (nl_total s (next + (e - b) - k)). lia. }
    assert (next = oend + k - (e - b)) by lia. split; [lia|]. split; [|lia]. now rewrite H0. }
  destruct Q2 as [[Q2 Q3]|[Q2 Q3]].
  - destruct (Y (conj Q3 Q2)) as (Z1 & Z2). split; auto. tauto.
  - assert (Z : ~ (line_break s oend /\ e < oend)). { intros [Z1 Z2]. pose proof (nl_brk _ _ Z1). pose proof (nl_mono s e (oend - 1) ltac:(lia)). pose proof (nl_total s oend). lia. }
    assert (Z' : ~ (line_break s' next /\ b + k < next)).
    { intros [Z1 Z2]. assert (Hy : line_break s (next + (e - b) - k)). { apply X; [lia|]. replace (next + (e - b) - k + k - (e - b)) with next by lia. exact Z1. }
      pose proof (nl_brk _ _ Hy). pose proof (nl_mono s e (next + (e - b) - k - 1) ltac:(lia)). pose proof (nl_total s (next + (e - b) - k)). lia. }
    split; [|tauto]. destruct R2 as [[R2 R4]|R2]; [exfalso; tauto|]. lia.
Qed.

Context (soft' : breaks) (hs' : nat) (Ws' : wf br_ops blc bV rank hs' soft') (Eb : content blc soft' = firstn b bits ++ repeat false k ++ skipn e bits).
Lemma edit_shape : shape text soft'.
Proof.
  destruct Hi as (_ & [(ht & Wt) _ El Dj Bc] & _). pose proof n_new as En. split; [eauto|eauto| | |].
  - rewrite Eb, !app_length, firstn_length, skipn_length, repeat_length. lia.
  - intros o Ho Hb. rewrite Eb in Hb. apply breaks_edit in Hb; [|auto|lia]. destruct Hb as [[H1 H2]|[H1 H2]].
    + apply (Dj o); auto. rewrite Es in Ho. now apply brk_pre in Ho.
    + apply (Dj (o - k + (e - b))); auto. rewrite Es in Ho. apply (brk_post s ins b e Hbe Hen); [lia|]. now replace (o - k + (e - b) + k - (e - b)) with o by lia.
  - intros o Hb. rewrite Eb in Hb. apply breaks_edit in Hb; [|auto|lia]. rewrite Es. destruct Hb as [[H1 H2]|[H1 H2]].
    + destruct (Nat.eq_dec o b) as [->|]; [apply cut_b; auto; apply (rope_utf8 ht old Wt)|]. apply cut_pre; auto; lia.
    + replace o with (o - k + (e - b) + k - (e - b)) by lia. apply cut_post; [auto|auto|lia|]. now apply Bc.
Qed.
(** The paragraphs that the edit does not touch. *)
Lemma para_pre x y : para s' x y -> y <= prev -> para s x y.
Proof.
  pose proof n_new as En. pose proof prev_b as (Q1 & Q2). intros (A & B & C & D) Hy. split.
  { destruct A as [->|A]; [now left|right]. rewrite Es in A. apply (brk_pre s ins b e Hbe Hen x ltac:(lia)) in A. exact A. }
  split; [lia|]. split.
  - left. assert (Hl : line_break s' y). { destruct C as [C|C]; [split; [lia|auto]|]. assert (Ey : y = prev) by (pose proof next_b; lia). rewrite Ey. destruct P1 as [X|X]; [lia|exact X]. }
    rewrite Es in Hl. apply (brk_pre s ins b e Hbe Hen y ltac:(lia)) in Hl. apply Hl.
  - intros i Hx Hiy E. apply (D i); auto. rewrite Es, nth_pre by lia. exact E.
Qed.
Lemma para_post x y : para s' x y -> next <= x -> b + k < x /\ para s (x + (e - b) - k) (y + (e - b) - k).
Proof.
  pose proof n_new as En. pose proof next_b as (Q1 & Q2 & _). intros (A & B & C & D) Hx.
  assert (Hbx : b + k < x). { destruct Q2 as [[Q2 _]|Q2]; lia. } split; auto. split.
  { destruct A as [->|A]; [lia|right]. rewrite Es in A. apply (brk_post s ins b e Hbe Hen); [lia|]. now replace (x + (e - b) - k + k - (e - b)) with x by lia. }
  split; [lia|]. split.
  - destruct C as [C|C]; [left|right; lia]. rewrite Es in C. rewrite <- (nth_post s ins b e Hbe Hen) by lia. now replace (y + (e - b) - k - 1 + k - (e - b)) with (y - 1) by lia.
  - intros i Hxi Hiy E. apply (D (i + k - (e - b))); [lia|lia|]. rewrite Es, nth_post by lia. exact E.
Qed.
Lemma edit_done max work : max_of (ln_wrap ln) = Some max -> in_order 0 (ln_work ln) -> patchup_tasks (ln_work ln) (b, e) k = Some work ->
  inv (Lines soft' (ln_wrap ln) (add_task work (prev, next))) text.
Proof.
  intros Em Ho Ep. pose proof n_new as En. pose proof prev_b as (A1 & A2). pose proof next_b as (B1 & B2 & B3).
  split; auto. cbn [ln_breaks ln_wrap ln_work]. split; [apply edit_shape|]. rewrite Em. destruct Hi as (_ & [_ _ El _ _] & Hi'). rewrite Em in Hi'. destruct Hi' as [Hf Hd].
  assert (NE : forall y, 0 < y -> prev <= y <= b + k -> nearly_e (aligned s') (prev, next) y).
  { intros y Hy Hr. unfold nearly_e. cbn [fst snd]. destruct (Nat.eq_dec y prev) as [->|]; [left; left; destruct P1; [lia|auto]|].
    destruct B2 as [[B2 _]|B2]; [right; lia|]. destruct (Nat.eq_dec y (length s')) as [->|]; [left; now right|right; lia]. }
  assert (An : aligned s' next) by (destruct B2 as [[_ B2]|B2]; [now left|now right]).
  destruct (patchup_ok (lstart s) (aligned s) (nearly_s (lstart s') (prev, next)) (nearly_e (aligned s') (prev, next)) b e k (length s) (length s') Hbe Hen En) with (ws := ln_work ln)
    as (work' & Ep' & W1 & W2 & W3 & W4); auto.
  - intros x Hx [->|Hl]; left; [now left|right]. rewrite Es. now apply brk_pre.
  - intros Hlt. unfold nearly_s. cbn [fst snd]. destruct (Nat.eq_dec b prev) as [->|]; auto. right. destruct B2 as [[B2 _]|B2]; lia.
  - intros Hlt. unfold nearly_s. cbn [fst snd]. destruct (Nat.eq_dec (b + k) prev) as [->|]; auto. right. destruct B2 as [[B2 _]|B2]; lia.
  - intros x Hx [->|Hl]; [lia|]. left. right. rewrite Es. now apply brk_post.
  - intros x Hx0 Hx Ha. destruct Ha as [Hl|Hl]; [left; left; rewrite Es; now apply brk_pre|]. apply NE; auto. lia.
  - intros Hb. apply NE; auto. lia.
  - intros x Hx Hxn Ha Hm. destruct (Nat.le_gt_cases x e) as [C|C]; [apply NE; lia|]. rewrite Nat.max_r by lia. left. destruct Ha as [Hl|Hl]; [left; rewrite Es; now apply brk_post|right; lia].
  - intros t Ht. rewrite Forall_forall in Hf. destruct (Hf t Ht) as (_ & _ & Ha). now apply aligned_le in Ha.
  - rewrite Ep in Ep'. injection Ep' as <-.
    assert (T : Forall (ends_ok (lstart s') (aligned s')) (add_task work (prev, next)) /\ (forall x, prev <= x < next \/ cov work x -> cov (add_task work (prev, next)) x)).
    { unfold add_task, iv_is_empty. cbn [fst snd]. destruct (Nat.leb_spec next prev) as [Z|Z].
      - split; [|intros x [Hx|Hx]; [lia|auto]]. eapply Forall_impl; [|exact W1]. intros t (T1 & T2 & T3). unfold nearly_s, nearly_e in *. cbn [fst snd] in *. split; auto. split; [destruct T2; [auto|lia]|destruct T3; [auto|lia]].
      - destruct (add_work_ok (lstart s') (aligned s') (prev, next) P1 An work Z 0 W2 W1) as (X1 & X2 & _). split; auto. }
    destruct T as [T1 T2]. split; auto. intros x y Hp. pose proof Hp as (_ & Hxy & _).
    destruct (Nat.le_gt_cases y prev) as [C1|C1]; [|destruct (Nat.le_gt_cases next x) as [C2|C2]].
    + pose proof (para_pre _ _ Hp C1) as Hp0. rewrite Eb.
      assert (E1 : slice (firstn b bits ++ repeat false k ++ skipn e bits) x y = slice bits x y).
      { apply nth_error_ext. intros i. unfold slice. rewrite !nth_error_firstn, !nth_error_skipn. destruct (Nat.ltb_spec i (y - x)); auto.
        rewrite nth_error_app1 by (rewrite firstn_length; lia). rewrite nth_error_firstn. now replace (x + i <? b) with true by lia. }
      assert (E2 : slice s' x y = slice s x y).
      { apply nth_error_ext. intros i. unfold slice. rewrite !nth_error_firstn, !nth_error_skipn. destruct (Nat.ltb_spec i (y - x)); auto. rewrite Es. apply nth_pre; lia. }
      rewrite E1, E2. destruct (Hd x y Hp0) as [(z & Hz & Hc)|Hr]; auto. left. exists z. split; auto. apply T2. right. apply W3; auto. lia.
    + destruct (para_post _ _ Hp C2) as [Hbx Hp0]. rewrite Eb.
      assert (E1 : slice (firstn b bits ++ repeat false k ++ skipn e bits) x y = slice bits (x + (e - b) - k) (y + (e - b) - k)).
      { apply nth_error_ext. intros i. unfold slice. rewrite !nth_error_firstn, !nth_error_skipn. replace (y + (e - b) - k - (x + (e - b) - k)) with (y - x) by lia. destruct (Nat.ltb_spec i (y - x)); auto.
        rewrite app_assoc, nth_error_app2 by (rewrite app_length, firstn_length, repeat_length; lia). rewrite app_length, firstn_length, repeat_length, nth_error_skipn. f_equal. lia. }
      assert (E2 : slice s' x y = slice s (x + (e - b) - k) (y + (e - b) - k)).
      { apply nth_error_ext. intros i. unfold slice. rewrite !nth_error_firstn, !nth_error_skipn. replace (y + (e - b) - k - (x + (e - b) - k)) with (y - x) by lia. destruct (Nat.ltb_spec i (y - x)); auto.
        rewrite Es. rewrite <- (nth_post s ins b e Hbe Hen) by lia. f_equal. lia. }
      rewrite E1, E2. destruct (Hd _ _ Hp0) as [(z & Hz & Hc)|Hr]; auto. left. exists (z + k - (e - b)). split; [lia|]. apply T2. right. apply W4; auto. lia.
    + left. exists (Nat.max prev x). split; [lia|]. apply T2. left. lia.
Qed.
End Edit.

Theorem after_edit_ok ln old text ins b e visible : inv ln old -> (exists hn, rope_wf hn text) -> okt (rcontent text) ->
  rcontent text = firstn b (rcontent old) ++ ins ++ skipn e (rcontent old) -> b <= e -> e <= length (rcontent old) ->
  scut (rcontent old) e -> utf8 ins -> fst visible <= snd visible -> ln_wrap ln = WNone \/ in_order 0 (ln_work ln) ->
  exists r ln', after_edit ln text old (b, e) (length ins) visible = Some (r, ln') /\ inv ln' text /\ ln_wrap ln' = ln_wrap ln /\
    forall v, r = Some v -> is_converged ln = true -> kept old (ln_breaks ln) text (ln_breaks ln') v b e.
Proof.
  intros Hi (hn & Wn) Hk Es Hbe Hen Ce Ui Hv Hw. pose proof Hi as (_ & Sh & Hi2). pose proof Sh as [(ht & Wt) (hs & Ws) El Dj Bc].
  pose proof (n_new old text ins b e Es Hbe Hen) as En. set (s := rcontent old) in *. set (s' := rcontent text) in *. set (bits := content blc (ln_breaks ln)) in *. set (k := length ins) in *.
  unfold LinewrapModel.after_edit. cbn [fst snd].
  assert (Cb : scut s' b) by (rewrite Es; apply cut_b; auto; apply (rope_utf8 ht old Wt)).
  assert (Cbk : scut s' (b + k)) by (rewrite Es; apply cut_bk; auto; apply (rope_utf8 ht old Wt)).
  rewrite (line_of_ok text hn Wn b Cb), (line_of_ok old ht Wt e Ce), (line_of_ok text hn Wn (b + k) Cbk). cbn [bind]. fold s s'.
  destruct (next_line_ok old ht Wt e Hen) as (oend & Eo & Ho). fold s in Eo, Ho. rewrite Eo. cbn [bind].
  assert (Epre : firstn b s' = firstn b s). { rewrite Es, firstn_app, firstn_firstn, Nat.min_id, firstn_length, Nat.min_l, Nat.sub_diag by lia. cbn [firstn]. apply app_nil_r. }
  pose proof (nl_mono s b e Hbe) as M1. pose proof (nl_mono s' b (b + k) ltac:(lia)) as M2. rewrite Epre in *.
  replace (newlines (firstn b s) <=? newlines (firstn e s) + 1) with true by lia. cbn [check].
  replace (newlines (firstn b s) <=? newlines (firstn (b + k) s') + 1) with true by lia. cbn [check].
  destruct (start_line_ok text hn Wn b ltac:(fold s'; lia)) as (prev & Epv & Hp1 & Hp2). fold s' in Epv, Hp1, Hp2. rewrite Epre in Epv. rewrite Epv. cbn [bind].
  destruct (next_line_ok text hn Wn (b + k) ltac:(fold s'; lia)) as (next & Enx & Hn). fold s' in Enx, Hn. rewrite Enx. cbn [bind].
  pose proof (prev_b text b prev Hp1 Hp2) as (A1 & A2).
  pose proof (next_b old text ins b e Es Hbe Hen prev next oend Hp2 Hn Ho) as (B1 & B2 & B3). fold s' k in B1, B2, B3.
  pose proof (oend_b old text ins b e Hbe Hen prev next oend Hp2 Hn Ho) as (C1 & C2). fold s in C1, C2.
  pose proof (ends_agree old text ins b e visible Es Hbe Hen prev next oend Hp2 Hn Ho) as (D1 & D2). fold s s' k in D1, D2.
  rewrite !(br_count_ok old (ln_breaks ln) hs Ws El) by (fold s; lia). cbn [bind]. fold bits.
  pose proof (rk_mono bits prev oend ltac:(lia)) as Mr. replace (rank (firstn prev bits) <=? rank (firstn oend bits)) with true by lia. cbn [check].
  destruct (add_no_break_ok bb_new k (proj1 bb_new_ok)) as (bb & -> & Hbb & Cbb). cbn [bind]. rewrite (proj2 bb_new_ok) in Cbb. cbn [app] in Cbb.
  destruct (bb_build_ok bb Hbb) as (nw & hw & -> & Ww & Cw). cbn [bind]. rewrite Cbb in Cw.
  destruct (edit_tree_ok br_ops blc bV bcut rank br_leaf_spec hs (ln_breaks ln) b e hw nw Ws Ww Hbe ltac:(fold bits; lia) Logic.I Logic.I) as (soft' & hs' & -> & Ws' & Cs'). cbn [bind]. fold bits in Cs'. rewrite Cw in Cs'.
  pose proof (edit_shape ln old text ins b e Hi hn Wn Es Hbe Hen Ce Ui prev next oend Hp2 Hn Ho soft' hs' Ws' Cs') as Sh'.
  destruct (patch_some (ln_work ln) b e k Hbe) as (pl & Epl).
  assert (Epw : exists work, patchup_tasks (ln_work ln) (b, e) k = Some work) by (unfold patchup_tasks; rewrite Epl; cbn; eauto).
  destruct Epw as (work & Ew). rewrite Ew. cbn [bind].
  (* the prefix and the rest *)
  assert (Fp : firstn prev s = firstn prev s') by (rewrite <- (Nat.min_l prev b A1), <- !firstn_firstn; now rewrite Epre).
  assert (Fb : firstn prev bits = firstn prev (content blc soft')).
  { rewrite Cs', firstn_app, firstn_firstn, firstn_length, (Nat.min_l b), (Nat.min_l prev b) by lia. replace (prev - b) with 0 by lia. cbn [firstn]. now rewrite app_nil_r. }
  assert (Fs : skipn oend s = skipn next s').
  { apply nth_error_ext. intros i. rewrite !nth_error_skipn, Es. rewrite <- (nth_post s ins b e Hbe Hen (oend + i)) by lia. f_equal. fold k. lia. }
  assert (Fsb : skipn oend bits = skipn next (content blc soft')).
  { apply nth_error_ext. intros i. rewrite !nth_error_skipn, Cs'. rewrite app_assoc, nth_error_app2 by (rewrite app_length, firstn_length, repeat_length; lia). rewrite app_length, firstn_length, repeat_length, nth_error_skipn. f_equal. lia. }
  assert (Hoend : exists c, newlines (firstn e s) + 1 = newlines (firstn oend s) + c /\ newlines (firstn (b + k) s') + 1 = newlines (firstn next s') + c /\ c <= 1 /\ (c = 0 -> line_break s oend /\ line_break s' next)).
  { destruct C2 as [[C2 C3]|[C2 C3]].
    - exists 0. destruct (proj1 D2 (conj C3 C2)) as [D3 D4]. destruct Ho as [[_ Ho]|[Ho1 Ho2]].
      + destruct Hn as [[_ Hn]|[Hn1 Hn2]]; [split; [lia|]; split; [lia|]; split; [lia|auto]|]. exfalso. pose proof (nl_brk _ _ D3). pose proof (nl_mono s' (b + k) (next - 1) ltac:(lia)). pose proof (nl_total s' next). lia.
      + exfalso. pose proof (nl_brk _ _ C3). pose proof (nl_mono s e (oend - 1) ltac:(lia)). pose proof (nl_total s oend). lia.
    - exists 1. rewrite C2, firstn_all. assert (Hnx : next = length s'). { lia. } rewrite Hnx, firstn_all. split; [lia|]. split; [|split; lia].
      destruct Hn as [[Hn1 Hn2]|[Hn1 Hn2]]; [|lia]. exfalso. destruct (start_after s' next (b + k) Hn1 Hn2) as (X1 & X2 & _). destruct (proj2 D2 (conj X2 X1)) as [Y1 Y2]. pose proof (nl_brk _ _ Y1). pose proof (nl_mono s e (oend - 1) ltac:(lia)). pose proof (nl_total s oend). lia. }
  destruct Hoend as (c & G1 & G2 & G4 & G3).
  destruct (is_wnone (ln_wrap ln)) eqn:Wm.
  - apply (is_none of_nat) in Wm. rewrite Wm in Hi2. eexists _, _. split; [reflexivity|]. cbn [ln_breaks ln_wrap]. split.
    { split; auto. cbn [ln_breaks ln_wrap]. split; auto. rewrite Wm. intros o Hb. rewrite Cs' in Hb. apply breaks_edit in Hb; [|auto|fold bits; lia]. destruct Hb as [[_ Hb]|[_ Hb]]; now apply Hi2 in Hb. }
    split; auto. intros v Ev _. injection Ev as <-.
    assert (R0 : forall l o, (forall o, ~ at_break l o) -> rank (firstn o l) = 0).
    { intros l o Hl. unfold rank. destruct (count_occ bool_dec (firstn o l) true) eqn:Z; auto. exfalso. assert (In true (firstn o l)) by (apply (count_occ_In bool_dec); lia).
      apply In_nth_error in H as (i & Hi0). apply (Hl (S i)). split; [lia|]. rewrite Nat.sub_succ, Nat.sub_0_r. rewrite nth_error_firstn in Hi0. destruct (i <? o); congruence. }
    assert (Hi3 : forall o, ~ at_break (content blc soft') o). { intros o Hb. rewrite Cs' in Hb. apply breaks_edit in Hb; [|auto|fold bits; lia]. destruct Hb as [[_ Hb]|[_ Hb]]; now apply Hi2 in Hb. }
    apply (kept_intro old (ln_breaks ln) text soft' _ b e prev oend next c); auto; fold s s' bits; cbn [in_start in_old in_new]; try lia; unfold vrank; fold s s' bits; rewrite ?(R0 bits _ Hi2), ?(R0 (content blc soft') _ Hi3); try lia.
    + rewrite Fp, Hp2, Epre. lia.
    + intros Z. destruct (G3 Z). split; now left.
  - destruct (max_of (ln_wrap ln)) as [max|] eqn:Em; [|apply (is_none of_nat) in Em; congruence].
    destruct Hw as [Hw|Hord]; [rewrite Hw in Wm; discriminate|].
    pose proof (edit_done ln old text ins b e Hi hn Wn Hk Es Hbe Hen Ce Ui prev next oend Hp1 Hp2 Hn Ho soft' hs' Ws' Cs' max work Em Hord Ew) as Hi1.
    set (ln1 := Lines soft' (ln_wrap ln) (add_task work (prev, next))) in *.
    destruct (ln_work ln1) as [|t0 ts0] eqn:Ewk.
    { eexists _, _. split; [reflexivity|]. split; auto. split; auto. discriminate. }
    assert (Ewk' : add_task work (prev, next) = t0 :: ts0) by exact Ewk.
    destruct (do_wrap_ok MAX_LINES_PER_BATCH ln1 text visible max Hi1 Em ltac:(rewrite Ewk; discriminate) Hv)
      as (sm & ln2 & t & a & e2 & new & E2 & Hi' & Ewr & T1 & T2 & T3 & T4 & T5 & T6 & T7 & T8 & T9 & T10 & T11 & T12 & T13 & T14 & T15 & T16).
    rewrite E2. cbn [bind].
    destruct (is_converged ln2) eqn:Cv.
    + eexists _, _. split; [reflexivity|]. split; auto. split; auto. intros v Ev Cv0. injection Ev as <-.
      assert (Ewe : ln_work ln = []). { unfold is_converged in Cv0. rewrite Wm in Cv0. cbn [orb] in Cv0. destruct (ln_work ln); [auto|discriminate]. }
      rewrite Ewe in Ew. cbn in Ew. injection Ew as <-. cbn [ln_work ln1] in T4, T7. unfold add_task, iv_is_empty in Ewk'. cbn [fst snd] in Ewk'. destruct (Nat.leb_spec next prev) as [Z|Z]; [discriminate|]. cbn [add_work] in Ewk'.
      assert (Eat : add_task [] (prev, next) = [(prev, next)]) by (unfold add_task, iv_is_empty; cbn [fst snd]; destruct (Nat.leb_spec next prev); [lia|reflexivity]). rewrite Eat in T4, T7. destruct T4 as [<-|[]]. cbn [fst snd] in T5, T6.
      assert (Hae : a = prev /\ e2 = next).
      { unfold is_converged in Cv. rewrite Ewr in Cv. cbn [ln1 ln_wrap] in Cv. rewrite Wm in Cv. cbn [orb] in Cv. rewrite T7 in Cv. unfold update_tasks_after_wrap in Cv. cbn [flat_map] in Cv. rewrite app_nil_r in Cv.
        unfold iv_is_before, iv_is_after in Cv. cbn [fst snd] in Cv. destruct ((next <=? a) || (e2 <? prev)); [discriminate|].
        destruct (Nat.ltb_spec prev a) as [?|?]; [discriminate|]. destruct (Nat.ltb_spec e2 next) as [?|?]; [discriminate|]. lia. }
      destruct Hae as [-> ->]. cbn [ln1 ln_breaks] in *.
      assert (L1 : length (content blc soft') = length s') by apply (sh_len _ _ Sh').
      assert (K1 : firstn prev (content blc (ln_breaks ln2)) = firstn prev bits).
      { rewrite T8, firstn_app, firstn_firstn, firstn_length, Nat.min_id. rewrite (Nat.min_l prev) by lia. rewrite Nat.sub_diag. cbn [firstn]. rewrite app_nil_r. now symmetry. }
      assert (K2 : skipn next (content blc (ln_breaks ln2)) = skipn oend bits).
      { rewrite T8, app_assoc, skipn_app, skipn_all2 by (rewrite app_length, firstn_length; lia). cbn [app]. rewrite app_length, firstn_length, T9, (Nat.min_l prev) by lia. replace (next - (prev + (next - prev))) with 0 by lia. now symmetry. }
      assert (K3 : rank (firstn next (content blc (ln_breaks ln2))) = rank (firstn prev bits) + rank new).
      { rewrite T8, app_assoc, firstn_app, app_length, firstn_length, T9, (Nat.min_l prev) by lia. replace (next - (prev + (next - prev))) with 0 by lia. cbn [firstn]. rewrite app_nil_r, firstn_all2 by (rewrite app_length, firstn_length; lia). rewrite rank_app. now rewrite Fb. }
      apply (kept_intro old (ln_breaks ln) text (ln_breaks ln2) _ b e prev oend next c); auto; fold s s' bits; cbn [in_start in_old in_new]; try lia; try (now symmetry).
      * apply (proj1 (proj2 Hi')).
      * rewrite T10. unfold vrank. fold s s' bits. rewrite Fp, Fb. reflexivity.
      * rewrite T10. unfold vrank. fold s s' bits. rewrite <- Fb, Hp2, Epre. lia.
      * rewrite T10. unfold vrank. fold s s' bits. rewrite <- Fb, K3, T14, Hp2, Epre. lia.
      * intros Y. destruct (G3 Y). split; now left.
    + eexists _, _. split; [reflexivity|]. split; auto. split; auto. discriminate.
Qed.
End Steps.
