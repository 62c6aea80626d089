(** C28: comparing two ropes finds what they have in common at the start and at the end. *)
From Coq Require Import List Arith Lia Bool ZifyBool.
From Verif Require Import Base ListLib MultisetProofs TreeModel TreeSpec TreeProofs MetricProofs CursorModel CursorProofs CursorBoundary
  RopeModel RopeSpec RopeProofs RopeMetric RopeIterModel RopeCursor RopeIterProofs FindModel FindProofs WordProofs PropertiesWord CompareModel CompareProofs.
Import ListNotations.
Local Notation concat := List.concat.
Local Notation clen cs := (length (concat cs)).

(** ** Specification *)
(** [w] begins, or ends, both texts and cuts neither inside a character. *)
Definition common_prefix (s t w : list nat) : Prop := exists x y, s = w ++ x /\ t = w ++ y /\ utf8 w /\ utf8 x /\ utf8 y.
Definition common_suffix (s t w : list nat) : Prop := exists x y, s = x ++ w /\ t = y ++ w /\ utf8 w /\ utf8 x /\ utf8 y.
(** The length of the longest. *)
Definition prefix_len (s t : list nat) (n : nat) : Prop := (exists w, common_prefix s t w /\ length w = n) /\ forall w, common_prefix s t w -> length w <= n.
Definition suffix_len (s t : list nat) (n : nat) : Prop := (exists w, common_suffix s t w /\ length w = n) /\ forall w, common_suffix s t w -> length w <= n.
(** Before their common suffix the texts have two different characters with the same last
    byte. *)
Definition near_miss (s t : list nat) : Prop :=
  exists a b w u v z, s = a ++ (u ++ [z]) ++ w /\ t = b ++ (v ++ [z]) ++ w /\ u <> v /\
    utf8 a /\ utf8 b /\ utf8 w /\ utf8_char (u ++ [z]) = true /\ utf8_char (v ++ [z]) = true.
Definition at_most (stop : option nat) (n : nat) : nat := match stop with None => n | Some k => Nat.min k n end.
(** The first byte that differs, if any. *)
Definition first_difference (s t : list nat) (k : option nat) : Prop :=
  match k with
  | Some k => exists p a b x y, s = p ++ a :: x /\ t = p ++ b :: y /\ a <> b /\ length p = k
  | None => exists x, s = t ++ x \/ t = s ++ x
  end.
(** A scanner that has been used for any number of comparisons. *)
Inductive used (base target : rope) : scanner -> Prop :=
| used_new s : scanner_new base target = Some s -> used base target s
| used_forward s p q stop n s' : used base target s -> char_boundary (rcontent base) p -> char_boundary (rcontent target) q ->
    find_ne_char base target s p q stop = Some (n, s') -> used base target s'
| used_back s p q stop n s' : used base target s -> char_boundary (rcontent base) p -> char_boundary (rcontent target) q ->
    find_ne_char_back base target s p q stop = Some (n, s') -> used base target s'.

(** ** Proofs *)
Lemma differ_first s t : first_difference s t (ne_idx_fallback s t).
Proof.
  revert t. induction s as [|a s IH]; intros [|b t]; cbn [ne_idx_fallback]; try (eexists; cbn; eauto; fail).
  destruct (Nat.eqb_spec a b) as [<-|N].
  - specialize (IH t). destruct (ne_idx_fallback s t) as [k|]; cbn [option_map first_difference] in *.
    + destruct IH as (p & a' & b' & x & y & -> & -> & H & <-). exists (a :: p), a', b', x, y. auto.
    + destruct IH as (x & [->| ->]); exists x; auto.
  - exists [], a, b, s, t. auto.
Qed.
Lemma first_unique s t j k : first_difference s t j -> first_difference s t k -> j = k.
Proof.
  assert (N1 : forall k, first_difference s t k -> ne_idx_fallback s t = k).
  { intros [i|] H; cbn in H.
    - destruct H as (p & a & b & x & y & -> & -> & N & <-). rewrite ne_shift. cbn [ne_idx_fallback]. destruct (Nat.eqb_spec a b); [congruence|]. cbn. f_equal. lia.
    - destruct H as (x & [->| ->]); [rewrite <- (app_nil_r t) at 2|rewrite <- (app_nil_r s) at 1]; rewrite ne_shift; [destruct x|]; reflexivity. }
  intros H1 H2. apply N1 in H1, H2. congruence.
Qed.
(** The vector loops find the first byte that differs, whatever the memory after the texts
    holds. *)
Theorem C28_bytes : forall one two after1 after2, 32 <= length after1 -> 32 <= length after2 ->
  exists k, first_difference one two k /\ ne_idx_fallback one two = k /\ ne_idx_sse one two after1 after2 = Some k /\ ne_idx_avx one two after1 after2 = Some k.
Proof.
  intros one two a1 a2 H1 H2. exists (ne_idx_fallback one two). split; [apply differ_first|]. split; auto.
  split; apply ne_loop_ok; unfold SSE_STRIDE, AVX_STRIDE; try lia; reflexivity.
Qed.
Print Assumptions C28_bytes.
Theorem C28_bytes_back : forall one two,
  exists k, first_difference (rev one) (rev two) k /\ ne_idx_rev_fallback one two = k /\ ne_idx_rev_sse one two = Some k.
Proof.
  intros one two. exists (ne_idx_rev_fallback one two). split; [apply differ_first|]. split; auto. unfold ne_idx_rev_sse. set (m := Nat.min (length one) (length two)).
  set (o := skipn (length one - m) one). set (t := skipn (length two - m) two). assert (Lo : length o = m) by (unfold o; rewrite skipn_length; lia). assert (Lt : length t = m) by (unfold t; rewrite skipn_length; lia).
  rewrite (rev_loop_ok (length one) o t m Lo Lt m) by (try lia; rewrite !skipn_all2 by lia; reflexivity). f_equal.
  apply (first_unique (rev one) (rev two)); [|apply differ_first]. pose proof (differ_first (rev o) (rev t)) as D.
  assert (E1 : rev one = rev o ++ rev (firstn (length one - m) one)) by (rewrite <- rev_app_distr; unfold o; now rewrite firstn_skipn).
  assert (E2 : rev two = rev t ++ rev (firstn (length two - m) two)) by (rewrite <- rev_app_distr; unfold t; now rewrite firstn_skipn).
  rewrite E1, E2. destruct (ne_idx_fallback (rev o) (rev t)) as [k|]; cbn [first_difference] in *.
  - destruct D as (p & a & b & x & y & -> & -> & N & E). rewrite <- !app_assoc. cbn [app]. eexists p, a, b, _, _. split; [reflexivity|]. split; [reflexivity|]. auto.
  - assert (Eot : rev o = rev t). { destruct D as (x & D). assert (length x = 0) by (destruct D as [D|D]; apply (f_equal (@length nat)) in D; rewrite app_length, !rev_length in D; lia). destruct x; [|discriminate]. rewrite !app_nil_r in D. destruct D; auto. }
    rewrite Eot. unfold m. destruct (Nat.min_dec (length one) (length two)) as [E|E]; rewrite E, Nat.sub_diag; cbn [firstn rev]; rewrite app_nil_r; eexists; eauto.
Qed.
Print Assumptions C28_bytes_back.
Example C28_bytes_case : let w := repeat 97 40 in
  ne_idx_avx (w ++ [98]) (w ++ [99]) (repeat 0 32) (repeat 1 32) = Some (Some 40) /\ ne_idx_sse (w ++ [98]) w (repeat 0 32) (repeat 1 32) = Some None /\
  ne_idx_rev_sse (98 :: w) (99 :: 100 :: w) = Some (Some 40) /\ ne_idx_rev_sse (97 :: w) w = Some None.
Proof. vm_compute. repeat split. Qed.

Lemma boundary_split s p : char_boundary s p -> exists a b, Forall uchar a /\ Forall uchar b /\ s = concat a ++ concat b /\ p = clen a /\ firstn p s = concat a /\ skipn p s = concat b.
Proof.
  intros (a & b & F & -> & ->). apply Forall_app in F as [Fa Fb]. exists a, b. rewrite concat_app, firstn_app_exact, skipn_app_exact; auto 10.
Qed.
Lemma used_ready base target hb ht s : rope_wf hb base -> rope_wf ht target -> used base target s -> ready base target s.
Proof.
  intros Wb Wt. induction 1 as [s E|s p q stop n s' U IH Hp Hq E|s p q stop n s' U IH Hp Hq E].
  - destruct (scanner_new_ok base target hb ht Wb Wt) as (s0 & E0 & R). congruence.
  - destruct (boundary_split _ _ Hp) as (a & cs & Fa & Fc & Eb & -> & _), (boundary_split _ _ Hq) as (b & ds & Fb & Fd & Et & -> & _).
    destruct (find_ne_char_ok base target hb ht Wb Wt s a b cs ds stop IH Fa Fb Fc Fd Eb Et) as (s1 & E1 & R). congruence.
  - destruct (boundary_split _ _ Hp) as (a & cs & Fa & Fc & Eb & -> & _), (boundary_split _ _ Hq) as (b & ds & Fb & Fd & Et & -> & _).
    destruct (find_ne_char_back_ok base target hb ht Wb Wt s a b cs ds stop IH Fa Fb Fc Fd Eb Et) as (res & s1 & E1 & R & _). congruence.
Qed.
Lemma ucs cs : Forall uchar cs -> utf8 (concat cs). Proof. intros F. exists cs. split; auto. Qed.
Lemma prefix_cs cs ds w : Forall uchar cs -> Forall uchar ds ->
  (common_prefix (concat cs) (concat ds) w <-> exists cw x y, w = concat cw /\ cs = cw ++ x /\ ds = cw ++ y).
Proof.
  intros Fc Fd. split.
  - intros (x & y & E1 & E2 & (cw & Fw & ->) & (cx & Fx & ->) & (cy & Fy & ->)). exists cw, cx, cy. split; auto.
    split; (eapply chars_of_unique; [split; [|reflexivity]; auto|split; [now apply Forall_app|now rewrite concat_app]]).
  - intros (cw & x & y & -> & -> & ->). apply Forall_app in Fc as [Fw Fx], Fd as [_ Fy]. exists (concat x), (concat y). rewrite !concat_app. repeat split; auto using ucs.
Qed.
Lemma suffix_cs cs ds w : Forall uchar cs -> Forall uchar ds ->
  (common_suffix (concat cs) (concat ds) w <-> exists cw x y, w = concat cw /\ cs = x ++ cw /\ ds = y ++ cw).
Proof.
  intros Fc Fd. split.
  - intros (x & y & E1 & E2 & (cw & Fw & ->) & (cx & Fx & ->) & (cy & Fy & ->)). exists cw, cx, cy. split; auto.
    split; (eapply chars_of_unique; [split; [|reflexivity]; auto|split; [now apply Forall_app|now rewrite concat_app]]).
  - intros (cw & x & y & -> & -> & ->). apply Forall_app in Fc as [Fx Fw], Fd as [Fy _]. exists (concat x), (concat y). rewrite !concat_app. repeat split; auto using ucs.
Qed.
Lemma lcp_len cs ds : Forall uchar cs -> Forall uchar ds -> prefix_len (concat cs) (concat ds) (lcp cs ds).
Proof.
  intros Fc Fd. split.
  - destruct (lcp_split cs ds) as (w & x & y & E1 & E2 & -> & _). exists (concat w). split; auto. apply prefix_cs; auto. exists w, x, y. auto.
  - intros w H. apply prefix_cs in H as (cw & x & y & -> & -> & ->); auto. rewrite lcp_app. lia.
Qed.
Lemma lcs_len cs ds : Forall uchar cs -> Forall uchar ds -> suffix_len (concat cs) (concat ds) (lcs cs ds).
Proof.
  intros Fc Fd. split.
  - destruct (lcs_split cs ds) as (w & x & y & E1 & E2 & -> & _). exists (concat w). split; auto. apply suffix_cs; auto. exists w, x, y. auto.
  - intros w H. apply suffix_cs in H as (cw & x & y & -> & -> & ->); auto. rewrite lcs_app. lia.
Qed.
Lemma near_near cs ds : Forall uchar cs -> Forall uchar ds -> near cs ds -> near_miss (concat cs) (concat ds).
Proof.
  intros Fc Fd (a & x & b & y & w & u & v & z & -> & -> & N & -> & ->). apply Forall_app in Fc as [Fa Fc], Fd as [Fb Fd]. inversion Fc; inversion Fd; subst.
  exists (concat a), (concat b), (concat w), u, v, z. rewrite !concat_app. cbn [concat]. repeat split; auto using ucs. congruence.
Qed.

(** From any two character boundaries the scan forwards gives the length of the longest common
    prefix of what follows, and never panics. *)
Theorem C28_forward : forall base target hb ht s p q stop, rope_wf hb base -> rope_wf ht target -> used base target s ->
  char_boundary (rcontent base) p -> char_boundary (rcontent target) q ->
  exists m s', find_ne_char base target s p q stop = Some (at_most stop m, s') /\ prefix_len (skipn p (rcontent base)) (skipn q (rcontent target)) m.
Proof.
  intros base target hb ht s p q stop Wb Wt U Hp Hq. pose proof (used_ready _ _ _ _ _ Wb Wt U) as R.
  destruct (boundary_split _ _ Hp) as (a & cs & Fa & Fc & Eb & -> & _ & ->), (boundary_split _ _ Hq) as (b & ds & Fb & Fd & Et & -> & _ & ->).
  destruct (find_ne_char_ok base target hb ht Wb Wt s a b cs ds stop R Fa Fb Fc Fd Eb Et) as (s1 & E1 & _). exists (lcp cs ds), s1. split; [exact E1|now apply lcp_len].
Qed.
Print Assumptions C28_forward.

(** The scan backwards gives the length of the longest common suffix of what comes before,
    except that after a near miss it may give one byte more.
    Missing: that it gives the length of the longest common suffix; see below. *)
Theorem C28_backward_partial : forall base target hb ht s p q stop, rope_wf hb base -> rope_wf ht target -> used base target s ->
  char_boundary (rcontent base) p -> char_boundary (rcontent target) q ->
  exists m k s', find_ne_char_back base target s p q stop = Some (at_most stop (m + k), s') /\ suffix_len (firstn p (rcontent base)) (firstn q (rcontent target)) m /\
    (k = 0 \/ k = 1 /\ near_miss (firstn p (rcontent base)) (firstn q (rcontent target))).
Proof.
  intros base target hb ht s p q stop Wb Wt U Hp Hq. pose proof (used_ready _ _ _ _ _ Wb Wt U) as R.
  destruct (boundary_split _ _ Hp) as (a & cs & Fa & Fc & Eb & -> & -> & _), (boundary_split _ _ Hq) as (b & ds & Fb & Fd & Et & -> & -> & _).
  destruct (find_ne_char_back_ok base target hb ht Wb Wt s a b cs ds stop R Fa Fb Fc Fd Eb Et) as (res & s1 & E1 & _ & Hr). destruct Hr as [->|[-> Hn]].
  - exists (lcs a b), 0, s1. rewrite Nat.add_0_r. split; [exact E1|]. split; [now apply lcs_len|auto].
  - exists (lcs a b), 1, s1. split; [exact E1|]. split; [now apply lcs_len|]. right. split; auto. now apply near_near.
Qed.
Print Assumptions C28_backward_partial.

(** The range of the difference: what comes before it is the longest common prefix, what comes
    after it the longest common suffix that does not overlap the prefix, unless the texts are a
    near miss.
    Missing: near misses; see below. *)
Theorem C28_range_partial : forall base target hb ht s, rope_wf hb base -> rope_wf ht target -> used base target s ->
  ~ near_miss (rcontent base) (rcontent target) ->
  exists start end_ s', find_min_diff_range base target s = Some (start, end_, s') /\
    prefix_len (rcontent base) (rcontent target) start /\
    start + end_ <= length (rcontent base) /\ start + end_ <= length (rcontent target) /\
    (exists w, common_suffix (rcontent base) (rcontent target) w /\ length w = end_) /\
    (forall w, common_suffix (rcontent base) (rcontent target) w -> start + length w <= length (rcontent base) -> start + length w <= length (rcontent target) -> length w <= end_).
Proof.
  intros base target hb ht s Wb Wt U Hn. pose proof (used_ready _ _ _ _ _ Wb Wt U) as R. unfold find_min_diff_range.
  rewrite (len_r base hb Wb), (len_r target ht Wt).
  destruct (rope_utf8 _ _ Wb) as (cs & Fc & Eb), (rope_utf8 _ _ Wt) as (ds & Fd & Et). change (rcontent base) with (content (fun s => s) base) in *. change (rcontent target) with (content (fun s => s) target) in *. rewrite Eb, Et in *.
  destruct (find_ne_char_ok base target hb ht Wb Wt s [] [] cs ds None R ltac:(auto) ltac:(auto) Fc Fd Eb Et) as (s1 & E1 & R1).
  change (clen []) with 0 in E1. rewrite E1. cbn [bind smin]. pose proof (lcp_le cs ds) as [L1 L2]. replace (Nat.min (clen cs) (clen ds) <? lcp cs ds) with false by lia.
  destruct (Nat.min (clen cs) (clen ds) - lcp cs ds) as [|n] eqn:En.
  - exists (lcp cs ds), 0, s1. split; auto. split; [now apply lcp_len|]. split; [lia|]. split; [lia|]. split; [|intros; lia].
    exists []. split; auto. exists (concat cs), (concat ds). rewrite !app_nil_r. split; auto. split; auto. split; [apply utf8_nil|]. split; now apply ucs.
  - destruct (find_ne_char_back_ok base target hb ht Wb Wt s1 cs ds [] [] (Some (S n)) R1 Fc Fd ltac:(auto) ltac:(auto)) as (res & s2 & -> & _ & Hr); [now rewrite app_nil_r|now rewrite app_nil_r|].
    cbn [bind smin]. destruct Hr as [->|[_ Hr]]; [|exfalso; apply Hn; now apply near_near].
    exists (lcp cs ds), (Nat.min (S n) (lcs cs ds)), s2. split; auto. split; [now apply lcp_len|]. split; [lia|]. split; [lia|].
    pose proof (lcs_len cs ds Fc Fd) as [(w0 & Hw0 & Lw0) Hmax].
    split; [|intros w Hw H1 H2; specialize (Hmax w Hw); lia].
    destruct (Nat.le_gt_cases (lcs cs ds) (S n)) as [H|H]; [rewrite Nat.min_r by lia; eauto|]. rewrite Nat.min_l by lia.
    destruct (lcp_split cs ds) as (p & x & y & Ec & Ed & Ep & _). destruct (lcs_split cs ds) as (w & a & b & Ec' & Ed' & Ew & _). rewrite Ep in *. rewrite Ew in *.
    assert (Lc : clen cs = clen p + clen x) by (rewrite Ec; apply clen_app). assert (Ld : clen ds = clen p + clen y) by (rewrite Ed; apply clen_app).
    assert (Lc' : clen cs = clen a + clen w) by (rewrite Ec'; apply clen_app). assert (Ld' : clen ds = clen b + clen w) by (rewrite Ed'; apply clen_app).
    destruct (Nat.le_gt_cases (clen x) (clen y)).
    + destruct (app_cmp a w p x) as (d & -> & ->); [now rewrite <- Ec'|congruence|lia|]. exists (concat x). split; [|lia]. apply suffix_cs; auto.
      exists x, (a ++ d), (b ++ d). rewrite <- !app_assoc. auto.
    + destruct (app_cmp b w p y) as (d & -> & ->); [now rewrite <- Ed'|congruence|lia|]. exists (concat y). split; [|lia]. apply suffix_cs; auto.
      exists y, (a ++ d), (b ++ d). rewrite <- !app_assoc. auto.
Qed.
Print Assumptions C28_range_partial.

(** "é" and "ĩ" have nothing in common, but the scan backwards says that their last byte is, in
    the middle of a character. *)
Theorem C28_backward_refuted : exists base target s s', rope_from [195; 169] = Some base /\ rope_from [196; 169] = Some target /\ used base target s /\
  find_ne_char_back base target s 2 2 None = Some (1, s') /\ (exists s2, find_min_diff_range base target s = Some (0, 1, s2)) /\
  suffix_len (rcontent base) (rcontent target) 0 /\ ~ char_boundary (rcontent base) 1.
Proof.
  eexists _, _, _, _. split; [vm_compute; reflexivity|]. split; [vm_compute; reflexivity|]. split; [apply used_new; vm_compute; reflexivity|]. split; [vm_compute; reflexivity|].
  split; [eexists; vm_compute; reflexivity|].
  assert (F1 : Forall uchar [[195; 169]]) by (constructor; auto; reflexivity). assert (F2 : Forall uchar [[196; 169]]) by (constructor; auto; reflexivity). split.
  - exact (lcs_len _ _ F1 F2).
  - intros H. apply boundary_iff in H; [discriminate|]. exists [[195; 169]]. split; auto.
Qed.
Print Assumptions C28_backward_refuted.

(** Texts of several leaves with a change in the middle, and a scan from other offsets. *)
Definition cmp_base : list nat := repeat 97 1500 ++ [195; 169] ++ repeat 98 1500.
Definition cmp_target : list nat := repeat 97 1500 ++ [195; 170] ++ repeat 98 1499.
Definition cmp_opt := (let? b := rope_from cmp_base in let? t := rope_from cmp_target in let? s := scanner_new b t in
  let? (st, en, s1) := find_min_diff_range b t s in let? (x, s2) := find_ne_char b t s1 1502 1502 None in let? (y, s3) := find_ne_char_back b t s2 1400 1300 (Some 700) in
  Some (n_height b, n_height t, (st, en, x, y))).
Example C28_case : cmp_opt = Some (1, 1, (1500, 1499, 1499, 700)) /\ (exists r h, rope_from cmp_base = Some r /\ rope_wf h r) /\ char_boundary cmp_base 1502 /\ ~ near_miss [97; 98] [97; 99].
Proof.
  assert (R : forall n b, b <=? 127 = true -> Forall uchar (repeat [b] n) /\ concat (repeat [b] n) = repeat b n).
  { intros n b H. split; [apply Forall_forall; intros c Hc; apply repeat_spec in Hc as ->; exact H|]. induction n as [|n IH]; auto. cbn. now rewrite IH. }
  split; [vm_compute; reflexivity|]. destruct (R 1500 97 eq_refl) as [F1 E1], (R 1500 98 eq_refl) as [F2 E2]. assert (F : Forall uchar ((repeat [97] 1500 ++ [[195; 169]]) ++ repeat [98] 1500)).
  { apply Forall_app. split; auto. apply Forall_app. split; auto. }
  split; [|split].
  - destruct (rope_from_ok cmp_base) as (r & h & E & W & _); [|eauto]. exists ((repeat [97] 1500 ++ [[195; 169]]) ++ repeat [98] 1500). split; auto.
  - exists (repeat [97] 1500 ++ [[195; 169]]), (repeat [98] 1500). split; auto.
  - intros (a & b & w & u & v & z & E1' & E2' & N & _).
    destruct w as [|w0 w1] using rev_ind.
    + rewrite !app_nil_r, !app_assoc in E1', E2'. change [97; 98] with ([97] ++ [98]) in E1'. change [97; 99] with ([97] ++ [99]) in E2'. apply app_inj_tail in E1' as [_ <-]. apply app_inj_tail in E2' as [_ E]. discriminate.
    + rewrite !app_assoc in E1', E2'. change [97; 98] with ([97] ++ [98]) in E1'. change [97; 99] with ([97] ++ [99]) in E2'. apply app_inj_tail in E1' as [_ <-]. apply app_inj_tail in E2' as [_ E]. discriminate.
Qed.
