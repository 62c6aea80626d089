(** Proofs about comparing ropes. *)
From Coq Require Import List Arith Lia Bool ZifyBool.
From Verif Require Import Base ListLib MultisetProofs TreeModel TreeSpec TreeProofs MetricProofs CursorModel CursorProofs CursorBoundary
  RopeModel RopeSpec RopeProofs RopeMetric RopeIterModel RopeCursor RopeIterProofs FindModel FindProofs WordProofs CompareModel.
Import ListNotations.
Local Notation concat := List.concat.
Local Notation idl := (fun s : list nat => s).
Local Notation clen cs := (length (concat cs)).

Lemma nth_first {A} (l : list A) n i : i < n -> nth_error (firstn n l) i = nth_error l i.
Proof. intros H. rewrite ListLib.nth_error_firstn. now replace (i <? n) with true by lia. Qed.

(** ** Bytes *)
(** [k] is the first difference. *)
Definition differ_at (one two : list nat) (k : nat) : Prop :=
  firstn k one = firstn k two /\ exists a b, nth_error one k = Some a /\ nth_error two k = Some b /\ a <> b.
Lemma differ_unique one two j k : differ_at one two j -> differ_at one two k -> j = k.
Proof.
  intros (E1 & a & b & A1 & B1 & N1) (E2 & a' & b' & A2 & B2 & N2). destruct (Nat.lt_trichotomy j k) as [H|[H|H]]; auto; exfalso.
  - apply N1. assert (nth_error (firstn k one) j = nth_error (firstn k two) j) by congruence. rewrite !nth_first in H0 by auto. congruence.
  - apply N2. assert (nth_error (firstn j one) k = nth_error (firstn j two) k) by congruence. rewrite !nth_first in H0 by auto. congruence.
Qed.
Lemma ne_ok one : forall two,
  match ne_idx_fallback one two with
  | Some k => differ_at one two k
  | None => let n := Nat.min (length one) (length two) in firstn n one = firstn n two
  end.
Proof.
  induction one as [|a one IH]; intros [|b two]; cbn [ne_idx_fallback]; try reflexivity.
  destruct (Nat.eqb_spec a b) as [->|Hne].
  - specialize (IH two). destruct (ne_idx_fallback one two) as [k|]; cbn [option_map].
    + destruct IH as (E & x & y & H). split; [cbn; congruence|]. exists x, y. exact H.
    + cbn zeta in *. cbn [length Nat.min firstn]. congruence.
  - split; auto. exists a, b. auto.
Qed.
Lemma differ_lt one two k : differ_at one two k -> k < length one /\ k < length two.
Proof. intros (_ & a & b & A & B & _). split; apply nth_error_Some; congruence. Qed.
Lemma ne_some one two k : differ_at one two k -> ne_idx_fallback one two = Some k.
Proof.
  intros H. pose proof (ne_ok one two) as N. destruct (ne_idx_fallback one two) as [j|]; [f_equal; eapply differ_unique; eauto|].
  exfalso. destruct (differ_lt _ _ _ H). destruct H as (_ & a & b & A & B & Hne). apply Hne. cbn zeta in N.
  assert (E : nth_error (firstn (Nat.min (length one) (length two)) one) k = nth_error (firstn (Nat.min (length one) (length two)) two) k) by congruence.
  rewrite !nth_first in E by lia. congruence.
Qed.
Lemma ne_none one two : (let n := Nat.min (length one) (length two) in firstn n one = firstn n two) -> ne_idx_fallback one two = None.
Proof.
  intros E. pose proof (ne_ok one two) as N. destruct (ne_idx_fallback one two) as [k|]; auto. exfalso. destruct (differ_lt _ _ _ N).
  destruct N as (_ & a & b & A & B & Hne). apply Hne. cbn zeta in E.
  assert (E' : nth_error (firstn (Nat.min (length one) (length two)) one) k = nth_error (firstn (Nat.min (length one) (length two)) two) k) by congruence.
  rewrite !nth_first in E' by lia. congruence.
Qed.

(** *** Vectors *)
Lemma mask_ok a : forall b, length a = length b ->
  if mask_zero (compare_mask a b) then a = b /\ trailing_zeros (compare_mask a b) = length a else differ_at a b (trailing_zeros (compare_mask a b)).
Proof.
  induction a as [|x a IH]; intros [|y b] H; try discriminate; [split; reflexivity|].
  injection H as H. specialize (IH b H). unfold mask_zero in *. cbn [compare_mask combine map existsb trailing_zeros] in *. fold (compare_mask a b) in *.
  destruct (Nat.eqb_spec x y) as [->|Hne]; cbn [negb orb].
  - destruct (existsb (fun b => b) (compare_mask a b)) eqn:Ex; cbn [negb] in *.
    + destruct IH as (E & u & v & Hu). split; [cbn; congruence|]. exists u, v. exact Hu.
    + destruct IH as [-> IH]. split; auto. cbn. auto.
  - split; auto. exists x, y. auto.
Qed.
Lemma load_len stride s after idx : idx <= length s -> stride <= length after -> length (load stride s after idx) = stride.
Proof. intros H1 H2. unfold load. rewrite firstn_length, skipn_length, app_length. lia. Qed.
Lemma load_nth stride s after idx k : k < stride -> idx + k < length s -> nth_error (load stride s after idx) k = nth_error s (idx + k).
Proof. intros H1 H2. unfold load. rewrite nth_first by auto. rewrite nth_error_skipn, nth_error_app1; auto. Qed.

Lemma ne_loop_ok fuel stride one two after1 after2 : 0 < stride -> stride <= length after1 -> stride <= length after2 ->
  forall idx, Nat.min (length one) (length two) <= idx + fuel -> (let n := Nat.min idx (Nat.min (length one) (length two)) in firstn n one = firstn n two) ->
  ne_idx_loop fuel stride one two after1 after2 idx = Some (ne_idx_fallback one two).
Proof.
  intros Hs H1 H2. induction fuel as [|fuel IH]; intros idx Hf E; cbn [ne_idx_loop]; set (m := Nat.min (length one) (length two)) in *.
  - replace (idx <? m) with false by lia. f_equal. symmetry. apply ne_none. fold m. cbn zeta in *. replace (Nat.min idx m) with m in E by lia. exact E.
  - destruct (Nat.ltb_spec idx m) as [Hlt|Hge].
    2: { f_equal. symmetry. apply ne_none. fold m. cbn zeta in *. replace (Nat.min idx m) with m in E by lia. exact E. }
    cbn zeta in E. replace (Nat.min idx m) with idx in E by lia.
    set (L1 := load stride one after1 idx). set (L2 := load stride two after2 idx).
    assert (Hl1 : length L1 = stride) by (apply load_len; lia). assert (Hl2 : length L2 = stride) by (apply load_len; lia).
    pose proof (mask_ok L1 L2 ltac:(congruence)) as M. set (z := trailing_zeros (compare_mask L1 L2)) in *.
    assert (Hpre : forall k, firstn k L1 = firstn k L2 -> k <= stride -> forall i, i < idx + k -> i < m -> nth_error one i = nth_error two i).
    { intros k Ek Hk i Hi Him. destruct (Nat.lt_ge_cases i idx) as [Hii|Hii].
      - assert (nth_error (firstn idx one) i = nth_error (firstn idx two) i) by congruence. now rewrite !nth_first in H by auto.
      - assert (nth_error (firstn k L1) (i - idx) = nth_error (firstn k L2) (i - idx)) by congruence. rewrite !nth_first in H by lia.
        unfold L1, L2 in H. rewrite !load_nth in H by lia. replace (idx + (i - idx)) with i in H by lia. exact H. }
    assert (Hext : forall n, n <= m -> (forall i, i < n -> nth_error one i = nth_error two i) -> firstn n one = firstn n two).
    { intros n Hn Hi. apply nth_error_ext. intros i. destruct (Nat.lt_ge_cases i n) as [Hin|Hin]; [rewrite !nth_first by auto; auto|].
      transitivity (@None nat); [|symmetry]; apply nth_error_None; rewrite firstn_length; lia. }
    destruct (mask_zero (compare_mask L1 L2)); cbn [negb andb].
    + destruct M as [M _]. apply IH; [lia|]. fold m. cbn zeta. apply Hext; [lia|]. intros i Hi. apply (Hpre stride); try lia. rewrite M. reflexivity.
    + destruct (Nat.ltb_spec (idx + z) m) as [Hz|Hz].
      * f_equal. symmetry. apply ne_some. pose proof (differ_lt _ _ _ M) as [Z1 Z2]. destruct M as (Ez & a & b & A & B & Hab). rewrite Hl1 in Z1.
        split; [apply Hext; [lia|]; intros i Hi; apply (Hpre z); auto; lia|]. exists a, b. unfold L1, L2 in A, B. rewrite load_nth in A, B by lia. auto.
      * apply IH; [lia|]. fold m. cbn zeta. pose proof (differ_lt _ _ _ M) as [Z1 Z2]. destruct M as (Ez & _). rewrite Hl1 in Z1. apply Hext; [lia|]. intros i Hi. apply (Hpre z); auto; lia.
Qed.

(** The same from the end. *)
Lemma rev_slice_nth (l : list nat) n i : n <= length l -> i < n -> nth_error (rev (firstn n l)) i = nth_error l (n - 1 - i).
Proof.
  intros Hn Hi. assert (Hl : length (firstn n l) = n) by (rewrite firstn_length; lia).
  rewrite <- (nth_first l n (n - 1 - i)) by lia.
  rewrite (nth_error_nth' (rev (firstn n l)) 0) by (rewrite rev_length; lia). rewrite rev_nth by lia. rewrite Hl. replace (n - S i) with (n - 1 - i) by lia.
  symmetry. apply nth_error_nth'. lia.
Qed.
Lemma mask_rev a b : length a = length b -> rev (compare_mask a b) = compare_mask (rev a) (rev b).
Proof.
  revert b. induction a as [|x a IH]; intros [|y b] H; try discriminate; auto. injection H as H. cbn [compare_mask combine map rev]. fold (compare_mask a b). rewrite IH by auto.
  unfold compare_mask. rewrite <- (rev_length a), <- (rev_length b) in H. clear IH. revert H. generalize (rev a) (rev b). induction l as [|u l IH]; intros [|v l'] H; try discriminate; auto.
  injection H as H. cbn. f_equal. now apply IH.
Qed.
Lemma rev_loop_ok fuel one two m : length one = m -> length two = m -> forall idx, idx <= m -> idx <= 16 * fuel ->
  skipn idx one = skipn idx two -> ne_idx_rev_loop fuel one two m idx = Some (ne_idx_fallback (rev one) (rev two)).
Proof.
  intros L1 L2. induction fuel as [|fuel IH]; intros idx Hm Hf E; cbn [ne_idx_rev_loop]; unfold SSE_STRIDE.
  - (* nothing is left *) assert (idx = 0) as -> by lia. cbn [Nat.ltb Nat.leb Nat.sub firstn].
    assert (Ez : leading_zeros (compare_mask (repeat 0 16 ++ []) (repeat 0 16 ++ [])) = 16) by reflexivity. rewrite Ez. cbn [Nat.eqb negb]. f_equal. symmetry. apply ne_none.
    cbn [skipn] in E. subst two. reflexivity.
  - set (A := if idx <? 16 then repeat 0 (16 - idx) ++ firstn idx one else slice one (idx - 16) idx).
    set (B := if idx <? 16 then repeat 0 (16 - idx) ++ firstn idx two else slice two (idx - 16) idx).
    assert (Em : (if idx <? 16 then compare_mask (repeat 0 (16 - idx) ++ firstn idx one) (repeat 0 (16 - idx) ++ firstn idx two) else compare_mask (slice one (idx - 16) idx) (slice two (idx - 16) idx)) = compare_mask A B)
      by (unfold A, B; destruct (idx <? 16); auto). rewrite Em. clear Em.
    assert (La : length A = 16 /\ length B = 16).
    { unfold A, B, slice. destruct (Nat.ltb_spec idx 16); rewrite ?app_length, ?repeat_length, ?firstn_length, ?skipn_length; lia. }
    destruct La as [La Lb].
    assert (Na : forall i, i < Nat.min 16 idx -> nth_error (rev A) i = nth_error (rev one) (m - idx + i) /\ nth_error (rev B) i = nth_error (rev two) (m - idx + i)).
    { intros i Hi. assert (Gen : forall l, length l = m -> nth_error (rev (if idx <? 16 then repeat 0 (16 - idx) ++ firstn idx l else slice l (idx - 16) idx)) i = nth_error (rev l) (m - idx + i)).
      { intros l Hl. replace (rev l) with (rev (firstn m l)) by (now rewrite firstn_all2 by lia). rewrite rev_slice_nth by lia. replace (m - 1 - (m - idx + i)) with (idx - 1 - i) by lia.
        destruct (Nat.ltb_spec idx 16).
        - rewrite rev_app_distr, nth_error_app1 by (rewrite rev_length, firstn_length; lia). apply rev_slice_nth; lia.
        - unfold slice. replace (idx - (idx - 16)) with 16 by lia. rewrite rev_slice_nth by (rewrite ?skipn_length; lia). rewrite nth_error_skipn. f_equal. lia. }
      split; [now apply Gen|now apply Gen]. }
    assert (Nz : forall i, Nat.min 16 idx <= i < 16 -> nth_error (rev A) i = Some 0 /\ nth_error (rev B) i = Some 0).
    { intros i Hi. destruct (Nat.ltb_spec idx 16); [|lia].
      assert (Gen : forall l, length l = m -> nth_error (rev (repeat 0 (16 - idx) ++ firstn idx l)) i = Some 0).
      { intros l Hl. rewrite rev_app_distr, nth_error_app2 by (rewrite rev_length, firstn_length; lia). rewrite rev_length, firstn_length.
        assert (Hr : rev (repeat 0 (16 - idx)) = repeat 0 (16 - idx)).
        { apply nth_error_ext. intros j. destruct (Nat.lt_ge_cases j (16 - idx)).
          - rewrite (nth_error_nth' _ 0) by (rewrite rev_length, repeat_length; lia). rewrite (nth_error_nth' _ 0) by (rewrite repeat_length; lia). rewrite rev_nth by (rewrite repeat_length; lia). now rewrite !nth_repeat.
          - transitivity (@None nat); [|symmetry]; apply nth_error_None; rewrite ?rev_length, repeat_length; lia. }
        rewrite Hr. rewrite (nth_error_nth' _ 0) by (rewrite repeat_length; lia). now rewrite nth_repeat. }
      split; now apply Gen. }
    unfold leading_zeros. rewrite mask_rev by congruence.
    pose proof (mask_ok (rev A) (rev B) ltac:(rewrite !rev_length; congruence)) as M. set (z := trailing_zeros (compare_mask (rev A) (rev B))) in *.
    assert (Hone : forall i, i < m - idx -> nth_error (rev one) i = nth_error (rev two) i).
    { intros i Hi. rewrite <- (firstn_skipn idx one), <- (firstn_skipn idx two), E, !rev_app_distr.
      rewrite !nth_error_app1 by (rewrite rev_length, skipn_length; lia). reflexivity. }
    assert (Hext : forall n, n <= m -> (forall i, i < n -> nth_error (rev one) i = nth_error (rev two) i) -> firstn n (rev one) = firstn n (rev two)).
    { intros n Hn Hi. apply nth_error_ext. intros i. destruct (Nat.lt_ge_cases i n) as [Hin|Hin]; [rewrite !nth_first by auto; auto|].
      transitivity (@None nat); [|symmetry]; apply nth_error_None; rewrite firstn_length, rev_length; lia. }
    destruct (mask_zero (compare_mask (rev A) (rev B))).
    + destruct M as [M Mz]. rewrite rev_length, La in Mz. rewrite Mz. cbn [Nat.eqb negb].
      assert (Heq : forall i, i < m - idx + Nat.min 16 idx -> nth_error (rev one) i = nth_error (rev two) i).
      { intros i Hi. destruct (Nat.lt_ge_cases i (m - idx)); [auto|]. destruct (Na (i - (m - idx)) ltac:(lia)) as [A1 B1]. replace (m - idx + (i - (m - idx))) with i in A1, B1 by lia. congruence. }
      destruct (Nat.ltb_spec idx 16).
      * f_equal. symmetry. apply ne_none. cbn zeta. rewrite !rev_length, L1, L2, Nat.min_id. apply Hext; auto. intros i Hi. apply Heq. lia.
      * apply IH; [lia|lia|]. apply nth_error_ext. intros i. rewrite !nth_error_skipn. destruct (Nat.lt_ge_cases (idx - 16 + i) m) as [Hi|Hi].
        -- specialize (Heq (m - 1 - (idx - 16 + i)) ltac:(lia)).
           replace (rev one) with (rev (firstn m one)) in Heq by (now rewrite firstn_all2 by lia). replace (rev two) with (rev (firstn m two)) in Heq by (now rewrite firstn_all2 by lia).
           rewrite !rev_slice_nth in Heq by lia. replace (m - 1 - (m - 1 - (idx - 16 + i))) with (idx - 16 + i) in Heq by lia. exact Heq.
        -- transitivity (@None nat); [|symmetry]; apply nth_error_None; lia.
    + pose proof (differ_lt _ _ _ M) as [Z1 _]. rewrite rev_length, La in Z1. destruct (Nat.eqb_spec z 16); [lia|]. cbn [negb].
      destruct M as (Ez & a & b & Ha & Hb & Hab). assert (Hzi : z < Nat.min 16 idx).
      { destruct (Nat.lt_ge_cases z (Nat.min 16 idx)); auto. exfalso. destruct (Nz z ltac:(lia)). congruence. }
      replace (z <=? idx) with true by lia. f_equal. symmetry. apply ne_some. replace (m - (idx - z)) with (m - idx + z) by lia.
      destruct (Na z Hzi) as [A1 B1]. split; [|exists a, b; rewrite <- A1, <- B1; auto]. apply Hext; [lia|]. intros i Hi. destruct (Nat.lt_ge_cases i (m - idx)); [auto|].
      destruct (Na (i - (m - idx)) ltac:(lia)) as [A2 B2]. replace (m - idx + (i - (m - idx))) with i in A2, B2 by lia.
      assert (nth_error (firstn z (rev A)) (i - (m - idx)) = nth_error (firstn z (rev B)) (i - (m - idx))) by congruence. rewrite !nth_first in H0 by lia. congruence.
Qed.

(** ** Characters *)
(** The bytes of the common prefix, and of the common suffix, of two lists of characters. *)
Fixpoint lcp (cs ds : list (list nat)) : nat :=
  match cs, ds with
  | c :: cs', d :: ds' => if list_eq_dec Nat.eq_dec c d then length c + lcp cs' ds' else 0
  | _, _ => 0
  end.
Lemma lcp_app w cs ds : lcp (w ++ cs) (w ++ ds) = clen w + lcp cs ds.
Proof. induction w as [|c w IH]; auto. cbn [app lcp concat]. destruct (list_eq_dec Nat.eq_dec c c); [|congruence]. rewrite IH, app_length. lia. Qed.
Lemma lcp_le cs : forall ds, lcp cs ds <= clen cs /\ lcp cs ds <= clen ds.
Proof.
  induction cs as [|c cs IH]; intros [|d ds]; cbn [lcp]; try (cbn; lia). destruct (list_eq_dec Nat.eq_dec c d) as [<-|]; [|lia].
  cbn [concat]. rewrite !app_length. specialize (IH ds). lia.
Qed.
Lemma snap_char c rest i : uchar c -> i < length c -> snap (c ++ rest) i = 0.
Proof.
  intros Hc. destruct (char_shape c Hc) as (b & t & -> & _ & Ht & _). induction i as [|i IH]; intros Hi; auto. cbn [snap].
  rewrite cb_left by auto. unfold is_char_boundary. cbn [Nat.eqb]. destruct (nth_error (b :: t) (S i)) eqn:E; [|apply nth_error_None in E; lia].
  cbn [nth_error] in E. rewrite Forall_forall in Ht. rewrite (Ht n) by (eapply nth_error_In; eauto). apply IH. lia.
Qed.
Lemma snap_at c cs i : uchar c -> Forall uchar cs -> snap (c ++ concat cs) (length c + i) = length c + snap (concat cs) i.
Proof.
  intros Hc F. induction i as [|i IH].
  - rewrite Nat.add_0_r. cbn [snap]. pose proof (char_pos c Hc). destruct (length c) as [|n] eqn:El; [lia|]. cbn [snap]. rewrite <- El.
    pose proof (cb_start [c] cs F) as B. cbn [app concat] in B. rewrite app_nil_r in B. rewrite B. lia.
  - rewrite Nat.add_succ_r. cbn [snap]. rewrite <- Nat.add_succ_r, cb_shift by lia. destruct (is_char_boundary (concat cs) (S i)); auto.
Qed.
(** Two characters that differ differ within both. *)
Lemma chars_differ c d x y : uchar c -> uchar d -> c <> d -> exists k, differ_at (c ++ x) (d ++ y) k /\ k < length c /\ k < length d.
Proof.
  intros Hc Hd Hne. pose proof (ne_ok c d) as N. destruct (ne_idx_fallback c d) as [k|].
  - exists k. destruct (differ_lt _ _ _ N) as [K1 K2]. split; auto. destruct N as (E & a & b & A & B & H). split; [|exists a, b; rewrite !nth_error_app1 by auto; auto].
    rewrite !firstn_app. replace (k - length c) with 0 by lia. replace (k - length d) with 0 by lia. cbn [firstn]. now rewrite !app_nil_r.
  - exfalso. apply Hne. cbn zeta in N. destruct (Nat.le_gt_cases (length c) (length d)) as [H|H].
    + rewrite Nat.min_l in N by auto. rewrite firstn_all in N. apply (char_head c d (skipn (length c) d) []); auto. rewrite app_nil_r. rewrite N at 1. apply firstn_skipn.
    + rewrite Nat.min_r in N by lia. rewrite firstn_all in N. apply (char_head c d [] (skipn (length d) c)); auto. rewrite app_nil_r. rewrite <- N at 1. symmetry. apply firstn_skipn.
Qed.
Lemma ne_shift c x y : ne_idx_fallback (c ++ x) (c ++ y) = option_map (Nat.add (length c)) (ne_idx_fallback x y).
Proof.
  induction c as [|a c IH]; cbn [app ne_idx_fallback length]; [now destruct (ne_idx_fallback x y)|]. rewrite Nat.eqb_refl, IH. now destruct (ne_idx_fallback x y).
Qed.
(** Comparing two chunks. *)
Lemma chunk_cmp cs : forall ds, Forall uchar cs -> Forall uchar ds ->
  match ne_idx_fallback (concat cs) (concat ds) with
  | Some k => snap (concat cs) k = lcp cs ds /\ forall u v, lcp (cs ++ u) (ds ++ v) = lcp cs ds
  | None => exists w, cs = ds ++ w \/ ds = cs ++ w
  end.
Proof.
  induction cs as [|c cs IH]; intros ds Fc Fd; [exists ds; auto|]. destruct ds as [|d ds]; [cbn [concat]; destruct (c ++ concat cs); exists (c :: cs); auto|].
  inversion Fc as [|? ? Hc Fc']; inversion Fd as [|? ? Hd Fd']; subst. cbn [concat lcp app]. destruct (list_eq_dec Nat.eq_dec c d) as [<-|Hne].
  - rewrite ne_shift. specialize (IH ds Fc' Fd'). destruct (ne_idx_fallback (concat cs) (concat ds)) as [k|]; cbn [option_map].
    + destruct IH as [IH1 IH2]. split; [rewrite snap_at by auto; lia|]. intros u v. now rewrite IH2.
    + destruct IH as (w & [->| ->]); exists w; auto.
  - destruct (chars_differ c d (concat cs) (concat ds) Hc Hd Hne) as (k & Hk & K1 & K2). rewrite (ne_some _ _ _ Hk). split; auto. now apply snap_char.
Qed.

(** *** Backwards *)
Definition lcs (cs ds : list (list nat)) : nat := lcp (rev cs) (rev ds).
(** The characters just before the common suffix end with the same byte. *)
Definition near (cs ds : list (list nat)) : Prop :=
  exists a x b y w u v z, cs = a ++ x :: w /\ ds = b ++ y :: w /\ x <> y /\ x = u ++ [z] /\ y = v ++ [z].
Lemma lcs_app w cs ds : lcs (cs ++ w) (ds ++ w) = lcs cs ds + clen w.
Proof.
  unfold lcs. rewrite !rev_app_distr, lcp_app. assert (clen (rev w) = clen w); [|lia]. induction w as [|c w IH]; auto. cbn [rev]. rewrite clen_app, clen_1, IH. cbn [concat]. rewrite app_length. lia.
Qed.
Lemma near_app w cs ds : near cs ds -> near (cs ++ w) (ds ++ w).
Proof. intros (a & x & b & y & w0 & u & v & z & -> & -> & H). exists a, x, b, y, (w0 ++ w), u, v, z. rewrite <- !app_assoc. auto. Qed.
Lemma near_pre p q cs ds : near cs ds -> near (p ++ cs) (q ++ ds).
Proof. intros (a & x & b & y & w0 & u & v & z & -> & -> & H). exists (p ++ a), x, (q ++ b), y, w0, u, v, z. rewrite <- !app_assoc. auto. Qed.
Lemma lcs_snoc cs c ds d : lcs (cs ++ [c]) (ds ++ [d]) = if list_eq_dec Nat.eq_dec c d then length c + lcs cs ds else 0.
Proof. unfold lcs. now rewrite !rev_unit. Qed.

Lemma snap_back_spec chunk i : let j := snap_back chunk i in
  j <= i /\ (0 < i -> 0 < j) /\ (j <= 1 \/ is_char_boundary chunk (length chunk - j) = true) /\
  forall k, j < k <= i -> is_char_boundary chunk (length chunk - k) = false.
Proof.
  cbn zeta. induction i as [|i IH]; [cbn; repeat split; intros; lia|]. cbn [snap_back]. destruct i as [|i]; [repeat split; intros; try lia|].
  destruct (is_char_boundary chunk (length chunk - S (S i))) eqn:E.
  - repeat split; auto; intros; lia.
  - destruct IH as (H1 & H2 & H3 & H4). repeat split; auto; try lia. intros k Hk. destruct (Nat.eq_dec k (S (S i))) as [->|]; auto. apply H4. lia.
Qed.
(** Two lists of characters from the end. *)
Lemma suffix_cases (cs ds : list (list nat)) :
  (exists w, cs = w ++ ds \/ ds = w ++ cs) \/ exists a x b y w, cs = a ++ x :: w /\ ds = b ++ y :: w /\ x <> y.
Proof.
  revert ds. induction cs as [|c cs IH] using rev_ind; intros ds; [left; exists ds; right; now rewrite app_nil_r|].
  destruct ds as [|d ds _] using rev_ind; [left; exists (cs ++ [c]); left; now rewrite app_nil_r|].
  destruct (list_eq_dec Nat.eq_dec c d) as [<-|Hne].
  - destruct (IH ds) as [(w & [->| ->])|(a & x & b & y & w & -> & -> & H)].
    + left. exists w. left. now rewrite app_assoc.
    + left. exists w. right. now rewrite app_assoc.
    + right. exists a, x, b, y, (w ++ [c]). rewrite <- !app_assoc. auto.
  - right. exists cs, c, ds, d, []. auto.
Qed.
Lemma ne_rev_shift w x y : ne_idx_rev_fallback (x ++ w) (y ++ w) = option_map (Nat.add (length w)) (ne_idx_rev_fallback x y).
Proof. unfold ne_idx_rev_fallback. rewrite !rev_app_distr, ne_shift, rev_length. reflexivity. Qed.
(** Two characters that differ differ within both, from the end too. *)
Lemma chars_differ_back c d x y : uchar c -> uchar d -> c <> d ->
  exists k, ne_idx_rev_fallback (x ++ c) (y ++ d) = Some k /\ k < length c /\ k < length d /\ (0 < k -> exists u v z, c = u ++ [z] /\ d = v ++ [z]).
Proof.
  intros Hc Hd Hne. unfold ne_idx_rev_fallback. rewrite !rev_app_distr. pose proof (ne_ok (rev c) (rev d)) as N. destruct (ne_idx_fallback (rev c) (rev d)) as [k|].
  - exists k. destruct (differ_lt _ _ _ N) as [K1 K2]. rewrite rev_length in K1, K2. destruct N as (E & a & b & A & B & H). split; [|split; [auto|split; [auto|]]].
    + apply ne_some. split; [|exists a, b; rewrite !nth_error_app1 by (rewrite rev_length; auto); auto].
      rewrite !firstn_app, !rev_length. replace (k - length c) with 0 by lia. replace (k - length d) with 0 by lia. cbn [firstn]. now rewrite !app_nil_r.
    + intros Hk. destruct c as [|z u _] using rev_ind; [cbn in K1; lia|]. destruct d as [|z' v _] using rev_ind; [cbn in K2; lia|]. rewrite !rev_unit in E. destruct k as [|k]; [lia|].
      cbn [firstn] in E. injection E as <- _. eauto.
  - exfalso. apply Hne. cbn zeta in N. rewrite !rev_length in N.
    destruct (char_shape c Hc) as (b1 & t1 & E1 & S1 & T1 & _). destruct (char_shape d Hd) as (b2 & t2 & E2 & S2 & T2 & _).
    assert (Gen : forall (c d : list nat) b1 t1 t2 b2, length c <= length d -> firstn (length c) (rev c) = firstn (length c) (rev d) -> c = b1 :: t1 -> RopeModel.is_start b1 = true -> d = b2 :: t2 ->
      Forall (fun x => RopeModel.is_start x = false) t2 -> c = d).
    { clear. intros c d b1 t1 t2 b2 Hl N -> S1 -> T2. rewrite (firstn_all2 (n := length (b1 :: t1)) (rev (b1 :: t1))) in N by (rewrite rev_length; auto).
      assert (Ed : exists p, b2 :: t2 = p ++ b1 :: t1).
      { remember (length (b1 :: t1)) as n. exists (rev (skipn n (rev (b2 :: t2)))). rewrite <- (rev_involutive (b1 :: t1)), N, <- rev_app_distr, firstn_skipn. now rewrite rev_involutive. }
      destruct Ed as ([|p0 p] & Ed); [auto|]. exfalso. injection Ed as -> ->. apply Forall_app in T2 as [_ T2]. inversion T2. congruence. }
    destruct (Nat.le_gt_cases (length c) (length d)) as [H|H].
    + rewrite Nat.min_l in N by auto. eapply Gen; eauto.
    + rewrite Nat.min_r in N by lia. symmetry. symmetry in N. eapply (Gen d c); eauto. lia.
Qed.
(** Comparing two chunks backwards. *)
Lemma chunk_cmp_back cs ds : Forall uchar cs -> Forall uchar ds ->
  match ne_idx_rev_fallback (concat cs) (concat ds) with
  | Some k => (snap_back (concat cs) k = lcs cs ds \/ snap_back (concat cs) k = lcs cs ds + 1 /\ near cs ds) /\ forall u v, lcs (u ++ cs) (v ++ ds) = lcs cs ds
  | None => exists w, cs = w ++ ds \/ ds = w ++ cs
  end.
Proof.
  intros Fc Fd. destruct (suffix_cases cs ds) as [Hs|(a & x & b & y & w & Ec & Ed & Hne)].
  - replace (ne_idx_rev_fallback (concat cs) (concat ds)) with (@None nat); auto. symmetry. unfold ne_idx_rev_fallback. apply ne_none. cbn zeta. rewrite !rev_length.
    destruct Hs as (w & [->| ->]); rewrite concat_app, rev_app_distr, app_length; [rewrite Nat.min_r by lia|rewrite Nat.min_l by lia]; rewrite <- rev_length, firstn_app, Nat.sub_diag, firstn_all; cbn [firstn]; now rewrite app_nil_r.
  - subst cs ds. apply Forall_app in Fc as [Fa Fc]. apply Forall_app in Fd as [Fb Fd]. inversion Fc as [|? ? Hx Fw]; inversion Fd as [|? ? Hy _]; subst.
    assert (El : forall a' b', lcs (a' ++ x :: w) (b' ++ y :: w) = clen w).
    { intros a' b'. change (x :: w) with ([x] ++ w). change (y :: w) with ([y] ++ w). rewrite !app_assoc, lcs_app, lcs_snoc. destruct (list_eq_dec Nat.eq_dec x y); [congruence|lia]. }
    destruct (chars_differ_back x y (concat a) (concat b) Hx Hy Hne) as (k & Ek & K1 & K2 & Kz).
    assert (Ex : concat (a ++ x :: w) = (concat a ++ x) ++ concat w) by (rewrite concat_app; cbn [concat]; now rewrite app_assoc).
    assert (Ey : concat (b ++ y :: w) = (concat b ++ y) ++ concat w) by (rewrite concat_app; cbn [concat]; now rewrite app_assoc).
    rewrite Ey. rewrite Ex, ne_rev_shift, Ek. cbn [option_map]. rewrite <- Ex. split.
    2: { intros u v. rewrite !app_assoc, !El. reflexivity. }
    rewrite El. destruct (snap_back_spec (concat (a ++ x :: w)) (clen w + k)) as (S1 & S2 & S3 & S4). set (j := snap_back (concat (a ++ x :: w)) (clen w + k)) in *.
    assert (Hlen : clen (a ++ x :: w) = clen a + length x + clen w) by (rewrite Ex, !app_length; lia).
    assert (B0 : is_char_boundary (concat (a ++ x :: w)) (clen (a ++ x :: w) - clen w) = true).
    { change (x :: w) with ([x] ++ w). rewrite app_assoc. pose proof (cb_start (a ++ [x]) w Fw) as B. replace (clen ((a ++ [x]) ++ w) - clen w) with (clen (a ++ [x])); [exact B|]. rewrite (clen_app (a ++ [x])). lia. }
    assert (Bn : forall i, 0 < i < length x -> is_char_boundary (concat (a ++ x :: w)) (clen (a ++ x :: w) - (clen w + i)) = false).
    { intros i Hi. rewrite Hlen, Ex. rewrite cb_left by (rewrite app_length; lia). replace (clen a + length x + clen w - (clen w + i)) with (clen a + (length x - i)) by lia. rewrite cb_shift by lia.
      destruct (char_shape x Hx) as (b0 & t & -> & _ & Ht & _). unfold is_char_boundary. cbn [length] in *. replace (S (length t) - i =? 0) with false by lia.
      replace (S (length t) - i) with (S (length t - i)) by lia. cbn [nth_error]. destruct (nth_error t (length t - i)) eqn:E; [|apply nth_error_None in E; lia].
      rewrite Forall_forall in Ht. apply Ht. eapply nth_error_In; eauto. }
    destruct (Nat.lt_trichotomy j (clen w)) as [H|[H|H]]; [|left; auto|].
    + exfalso. rewrite (S4 (clen w)) in B0 by lia. discriminate.
    + right. destruct S3 as [S3|S3].
      * assert (clen w = 0) by lia. split; [lia|]. destruct Kz as (u & v & z & -> & ->); [lia|]. exists a, (u ++ [z]), b, (v ++ [z]), w, u, v, z. auto.
      * exfalso. replace j with (clen w + (j - clen w)) in S3 by lia. rewrite Bn in S3 by lia. discriminate.
Qed.

(** ** The scanner *)
Lemma clen_nil cs : Forall uchar cs -> concat cs = [] -> cs = [].
Proof. intros [|c cs' H _]; auto. destruct (char_shape c H) as (b & t & -> & _). discriminate. Qed.
Lemma utf8_cs s : utf8 s -> exists cs, Forall uchar cs /\ s = concat cs. Proof. auto. Qed.

Section Load.
Context (r : rope) (h : nat) (W : rope_wf h r).
Notation s := (rcontent r).
Local Notation valid := (valid idl r).
Local Notation at_leaf := (at_leaf idl r).
(** The chunk [cs] has been loaded at the cursor, and [us] is still to come; forwards and backwards. *)
Definition fwd (c : rcursor) (cs us : list (list nat)) : Prop :=
  exists l pre post, at_leaf c l pre post /\ Forall uchar cs /\ Forall uchar us /\ concat us = flat_map idl post.
Definition bwd (c : rcursor) (us cs : list (list nat)) : Prop :=
  exists l pre post, at_leaf c l pre post /\ Forall uchar cs /\ Forall uchar us /\ concat us = flat_map idl pre.
Lemma fwd_settable c cs us : fwd c cs us -> settable r c.
Proof. intros (l & pre & post & H & _). left. eauto. Qed.
Lemma bwd_settable c us cs : bwd c us cs -> settable r c.
Proof. intros (l & pre & post & H & _). left. eauto. Qed.

Lemma at_leaf_u c l pre post : at_leaf c l pre post -> utf8 l /\ utf8 (flat_map idl pre) /\ utf8 (flat_map idl post) /\ (pre <> [] \/ post <> [] -> 0 < length l).
Proof.
  intros (p & R & _). pose proof (leaves_V rope_ops idl leafV compute_info h r W) as FV. rewrite (route_leaves _ _ _ _ _ R) in FV. apply Forall_app in FV as [F1 F2].
  inversion F2 as [|? ? [Ul _] F3]; subst. split; auto. split; [apply (T_ls rope_ops idl leafV scut utf8 rope_text_spec); auto|]. split; [apply (T_ls rope_ops idl leafV scut utf8 rope_text_spec); auto|].
  intros Hn. pose proof (leaves_pos rope_ops idl leafV scut compute_info utf8 rope_text_spec h r W) as FP.
  assert (0 < h) as Hh. { apply (H_pos rope_ops idl leafV compute_info r h W _ _ _ _ R). auto. }
  specialize (FP (or_introl Hh)). rewrite (route_leaves _ _ _ _ _ R) in FP. apply Forall_app in FP as [_ FP]. now inversion FP.
Qed.
Lemma get_at c l pre post : at_leaf c l pre post -> c_pos c = c_off c -> c_get_leaf c = Some (Some (l, 0)).
Proof. intros (p & R & El & Eo & Ec) Ep. unfold c_get_leaf. rewrite El. replace (c_pos c <? c_off c) with false by lia. now rewrite Ep, Nat.sub_diag. Qed.

Lemma load_next_ok c cs us : fwd c cs us -> exists c1 cs1 us1, load_next r c (concat cs) = Some (c1, concat cs1) /\ cs ++ us = cs1 ++ us1 /\
  (cs1 = [] /\ us1 = [] /\ settable r c1 \/ cs1 <> [] /\ fwd c1 cs1 us1).
Proof.
  intros F. destruct cs as [|c0 cs].
  2: { exists c, (c0 :: cs), us. pose proof F as (_ & _ & _ & _ & Fc & _). destruct (concat (c0 :: cs)) eqn:E; [apply clen_nil in E; [discriminate|auto]|]. cbn [load_next]. repeat split; auto. right. split; [discriminate|auto]. }
  destruct F as (l & pre & post & Ha & _ & Fu & Eu). cbn [concat load_next app]. pose proof (next_leaf_ok rope_ops idl leafV scut compute_info utf8 rope_leaf_spec rope_text_spec r h W c l pre post Ha) as Hn.
  destruct post as [|l2 post'].
  - destruct Hn as (c1 & -> & E1 & E2 & E3). cbn [bind]. exists c1, [], []. split; auto. cbn in Eu. split; [now apply clen_nil|]. left. split; auto. split; auto. right. split; auto.
    destruct Ha as (p & R & _ & _ & Ec). rewrite <- E3 in Ec. exists p, l, pre, []. auto.
  - destruct Hn as (c1 & -> & Ha1 & Ep). cbn [bind]. rewrite (get_at _ _ _ _ Ha1 Ep). cbn [bind]. destruct (at_leaf_u _ _ _ _ Ha1) as ((cs1 & F1 & El) & _ & (us1 & F2 & Eus) & Hl).
    exists c1, cs1, us1. rewrite <- El. split; auto. split.
    + apply (chars_of_unique (concat us)); [split; auto|]. split; [now apply Forall_app|]. rewrite concat_app, Eu. cbn [flat_map]. congruence.
    + right. split; [|exists l2, (pre ++ [l]), post'; auto]. intros ->. subst l2. cbn [concat length] in Hl. enough (0 < 0) by lia. apply Hl. left. destruct pre; discriminate.
Qed.
Lemma load_prev_ok c cs us : bwd c us cs -> exists c1 cs1 us1, load_prev r c (concat cs) = Some (c1, concat cs1) /\ us ++ cs = us1 ++ cs1 /\
  (cs1 = [] /\ us1 = [] /\ settable r c1 \/ cs1 <> [] /\ bwd c1 us1 cs1).
Proof.
  intros F. destruct cs as [|c0 cs].
  2: { exists c, (c0 :: cs), us. pose proof F as (_ & _ & _ & _ & Fc & _). destruct (concat (c0 :: cs)) eqn:E; [apply clen_nil in E; [discriminate|auto]|]. cbn [load_prev]. repeat split; auto. right. split; [discriminate|auto]. }
  destruct F as (l & pre & post & Ha & _ & Fu & Eu). cbn [concat load_prev]. rewrite app_nil_r. pose proof (prev_leaf_ok rope_ops idl leafV scut compute_info utf8 rope_leaf_spec rope_text_spec r h W c l pre post Ha) as Hn.
  destruct (rev pre) as [|l0 rpre] eqn:Er.
  - assert (pre = []) as -> by (rewrite <- (rev_involutive pre), Er; reflexivity).
    destruct Hn as (c1 & -> & E1 & E2 & E3). cbn [bind]. exists c1, [], []. split; auto. cbn in Eu. split; [now apply clen_nil|]. left. split; auto. split; auto. right. split; auto.
    destruct Ha as (p & R & _ & _ & Ec). rewrite <- E3 in Ec. exists p, l, [], post. auto.
  - assert (Ep : pre = rev rpre ++ [l0]) by (rewrite <- (rev_involutive pre), Er; reflexivity).
    destruct Hn as (c1 & -> & Ha1 & Epo). cbn [bind]. rewrite (get_at _ _ _ _ Ha1 Epo). cbn [bind]. destruct (at_leaf_u _ _ _ _ Ha1) as ((cs1 & F1 & El) & (us1 & F2 & Eus) & _ & Hl).
    exists c1, cs1, us1. rewrite <- El. split; auto. split.
    + apply (chars_of_unique (concat us)); [split; auto|]. split; [now apply Forall_app|]. rewrite concat_app, Eu, Ep, flat_map_app. cbn [flat_map]. rewrite app_nil_r. congruence.
    + right. split; [|exists l0, (rev rpre), (l :: post); auto]. intros ->. subst l0. cbn [concat length] in Hl. enough (0 < 0) by lia. apply Hl. right. discriminate.
Qed.

(** Where a scan starts. *)
Lemma start_ok c p cs ds : settable r c -> Forall uchar cs -> Forall uchar ds -> s = concat cs ++ concat ds -> p = clen cs ->
  exists c1 l q u c0 d0 v, c_set rope_ops r c p = Some c1 /\ c_get_leaf c1 = Some (Some (l, q)) /\ str_slice l q (length l) = Some (concat d0) /\ str_slice l 0 q = Some (concat c0) /\
    cs = u ++ c0 /\ ds = d0 ++ v /\ fwd c1 d0 v /\ bwd c1 u c0.
Proof.
  intros St Fc Fd Es ->. destruct (rset_ok r h W c (clen cs) St) as (c1 & E1 & Ep & (l & pre & post & Hv)); [rewrite Es, app_length; lia|].
  assert (Hcut : scut s (c_pos c1)). { rewrite Ep, Es. apply scut_app. exists ds. split; auto. }
  destruct (valid_leaf r h W _ _ _ _ Hv) as (Eg & Ul & Hp & Et & Upre & Upost & _). destruct (valid_sub r h W _ _ _ _ Hv Hcut) as [Cl Ek].
  set (q := c_pos c1 - llen idl pre) in *. destruct (utf8_cut l q Ul Cl) as [(c0 & F0 & E0) (d0 & F1 & Ed0)]. destruct Upre as (u & Fu & Eu), Upost as (v & Fv & Ev).
  exists c1, l, q, u, c0, d0, v. assert (Hq : q <= length l) by (unfold q; lia). split; auto. split; auto.
  split; [rewrite str_slice_some by (auto using cb_len); f_equal; unfold slice; rewrite firstn_all2 by (rewrite skipn_length; lia); auto|].
  split; [rewrite str_slice_some by (auto using cb_0; lia); f_equal; unfold slice; rewrite Nat.sub_0_r; auto|].
  destruct Hv as [Ha _].
  assert (Ecs : firstn (c_pos c1) s = concat cs) by (rewrite Ep, Es; now rewrite firstn_app_exact). assert (Eds : skipn (c_pos c1) s = concat ds) by (rewrite Ep, Es; now rewrite skipn_app_exact).
  split; [|split; [|split; [exists l, pre, post; auto|exists l, pre, post; auto]]].
  - apply (chars_of_unique (concat cs)); [split; auto|]. split; [now apply Forall_app|]. rewrite concat_app, <- Eu, <- E0, <- Ecs, Et.
    replace (c_pos c1) with (length (flat_map idl pre) + q) by (unfold q; change (length (flat_map idl pre)) with (llen idl pre); lia). rewrite firstn_app_2, firstn_app. replace (q - length l) with 0 by lia. cbn [firstn]. now rewrite app_nil_r.
  - apply (chars_of_unique (concat ds)); [split; auto|]. split; [now apply Forall_app|]. rewrite concat_app. congruence.
Qed.
End Load.

Section Scan.
Context (base target : rope) (hb ht : nat) (Wb : rope_wf hb base) (Wt : rope_wf ht target).
Definition ready (s : scanner) : Prop := settable base (sc_base s) /\ settable target (sc_target s).

Lemma smin_stop stop n m : stop_le stop n = true -> n <= m -> smin stop n = smin stop m.
Proof. destruct stop as [k|]; cbn; [lia|discriminate]. Qed.
Lemma is_nil_cs cs : Forall uchar cs -> is_nil (concat cs) = true -> cs = [].
Proof. intros F H. apply clen_nil; auto. now destruct (concat cs). Qed.

Lemma ne_char_loop_ok fuel : forall b t cs us ds vs n stop, fwd base b cs us -> fwd target t ds vs ->
  (clen (cs ++ us) + clen (ds ++ vs) <= fuel \/ clen (cs ++ us) + clen (ds ++ vs) <= S fuel /\ cs <> [] /\ ds <> []) ->
  exists s', ne_char_loop base target fuel (Scanner b t (concat cs) (concat ds) n) stop = Some (smin stop (n + lcp (cs ++ us) (ds ++ vs)), s') /\ ready s'.
Proof.
  induction fuel as [|fuel IH]; intros b t cs us ds vs n stop Fb Ft Hf; cbn [ne_char_loop sc_bchunk sc_tchunk sc_scanned sc_base sc_target];
    pose proof Fb as (_ & _ & _ & _ & Fcs & Fus & _); pose proof Ft as (_ & _ & _ & _ & Fds & Fvs & _);
    pose proof (chunk_cmp cs ds Fcs Fds) as Hc; (destruct (ne_idx_fallback (concat cs) (concat ds)) as [k|];
    [destruct Hc as [-> Hl]; rewrite Hl; eexists; split; [reflexivity|split; cbn; eapply fwd_settable; eauto]|]).
  all: assert (Hw : exists w cs' ds', cs = w ++ cs' /\ ds = w ++ ds' /\ Nat.min (clen ds) (clen cs) = clen w /\ (cs' = [] \/ ds' = []))
    by (destruct Hc as (w & [->| ->]); [exists ds, w, []; rewrite app_nil_r, clen_app|exists cs, [], w; rewrite app_nil_r, clen_app]; repeat split; auto; lia).
  all: destruct Hw as (w & cs' & ds' & -> & -> & -> & Hnil); apply Forall_app in Fcs as [Fw Fcs]; apply Forall_app in Fds as [_ Fds].
  all: assert (Sl : forall xs, Forall uchar xs -> str_slice (concat (w ++ xs)) (clen w) (clen (w ++ xs)) = Some (concat xs))
    by (intros xs Fx; rewrite str_slice_some; [f_equal; unfold slice; rewrite concat_app, skipn_app_exact, firstn_all2; auto; rewrite app_length; lia|rewrite clen_app; lia|rewrite concat_app; apply scut_app; exists xs; split; auto|apply cb_len]).
  all: rewrite !Sl by auto; cbn [bind]; rewrite <- !app_assoc, lcp_app, Nat.add_assoc; (destruct (stop_le stop (n + clen w)) eqn:Es;
    [eexists; split; [f_equal; f_equal; apply smin_stop; auto; lia|split; cbn; eapply fwd_settable; eauto]|]).
  all: assert (Fb' : fwd base b cs' us) by (destruct Fb as (l & pre & post & H1 & _ & H2); exists l, pre, post; auto).
  all: assert (Ft' : fwd target t ds' vs) by (destruct Ft as (l & pre & post & H1 & _ & H2); exists l, pre, post; auto).
  all: destruct (load_next_ok base hb Wb b cs' us Fb') as (b1 & cs1 & us1 & -> & Eb & Hb); destruct (load_next_ok target ht Wt t ds' vs Ft') as (t1 & ds1 & vs1 & -> & Et & Ht); cbn [bind].
  all: rewrite Eb, Et; rewrite <- !app_assoc, !(clen_app w), Eb, Et in Hf.
  all: assert (Sb : settable base b1) by (destruct Hb as [(_ & _ & Hb)|(_ & Hb)]; auto; eapply fwd_settable; eauto).
  all: assert (St : settable target t1) by (destruct Ht as [(_ & _ & Ht)|(_ & Ht)]; auto; eapply fwd_settable; eauto).
  all: destruct Hb as [(-> & -> & _)|(Nb & Hb)]; [cbn [concat is_nil orb]; eexists; split; [f_equal; f_equal; cbn [app lcp]; f_equal; lia|split; auto]|].
  all: destruct Ht as [(-> & -> & _)|(Nt & Ht)]; [cbn [concat is_nil]; rewrite orb_true_r; eexists; split; [f_equal; f_equal; f_equal; destruct (cs1 ++ us1); cbn [app lcp]; lia|split; auto]|].
  all: pose proof Hb as (_ & _ & _ & _ & Fc1 & _); pose proof Ht as (_ & _ & _ & _ & Fd1 & _).
  all: assert (is_nil (concat cs1) = false) as -> by (destruct (is_nil (concat cs1)) eqn:E; auto; apply is_nil_cs in E; auto; congruence).
  all: assert (is_nil (concat ds1) = false) as -> by (destruct (is_nil (concat ds1)) eqn:E; auto; apply is_nil_cs in E; auto; congruence).
  all: cbn [orb]; assert (P1 : 0 < clen (cs1 ++ us1)) by (rewrite clen_app; destruct cs1 as [|x cs1]; [congruence|]; inversion Fc1; pose proof (char_pos x ltac:(auto)); cbn [concat]; rewrite app_length; lia).
  all: assert (P2 : 0 < clen (ds1 ++ vs1)) by (rewrite clen_app; destruct ds1 as [|x ds1]; [congruence|]; inversion Fd1; pose proof (char_pos x ltac:(auto)); cbn [concat]; rewrite app_length; lia).
  all: assert (Pw : w ++ cs' <> [] -> w ++ ds' <> [] -> 0 < clen w) by (intros N1 N2; destruct w as [|x w]; [cbn [app] in N1, N2; destruct Hnil; congruence|]; inversion Fw; pose proof (char_pos x ltac:(auto)); cbn [concat]; rewrite app_length; lia).
  - exfalso. destruct Hf as [Hf|(Hf & N1 & N2)]; [lia|]. specialize (Pw N1 N2). lia.
  - apply IH; auto. right. split; auto. destruct Hf as [Hf|(Hf & N1 & N2)]; [lia|]. specialize (Pw N1 N2). lia.
Qed.

Lemma lcs_le cs ds : lcs cs ds <= clen cs /\ lcs cs ds <= clen ds.
Proof.
  assert (R : forall l : list (list nat), clen (rev l) = clen l) by (induction l as [|c l IH]; auto; cbn [rev]; rewrite clen_app, clen_1, IH; cbn [concat]; rewrite app_length; lia).
  unfold lcs. rewrite <- (R cs), <- (R ds). apply lcp_le.
Qed.
Lemma ne_char_back_loop_ok fuel : forall b t cs us ds vs n stop, bwd base b us cs -> bwd target t vs ds ->
  (clen (us ++ cs) + clen (vs ++ ds) <= fuel \/ clen (us ++ cs) + clen (vs ++ ds) <= S fuel /\ cs <> [] /\ ds <> []) ->
  exists res s', ne_char_back_loop base target fuel (Scanner b t (concat cs) (concat ds) n) stop = Some (smin stop (n + res), s') /\ ready s' /\
    (res = lcs (us ++ cs) (vs ++ ds) \/ res = lcs (us ++ cs) (vs ++ ds) + 1 /\ near (us ++ cs) (vs ++ ds)).
Proof.
  induction fuel as [|fuel IH]; intros b t cs us ds vs n stop Fb Ft Hf; cbn [ne_char_back_loop sc_bchunk sc_tchunk sc_scanned sc_base sc_target];
    pose proof Fb as (_ & _ & _ & _ & Fcs & Fus & _); pose proof Ft as (_ & _ & _ & _ & Fds & Fvs & _);
    pose proof (chunk_cmp_back cs ds Fcs Fds) as Hc; (destruct (ne_idx_rev_fallback (concat cs) (concat ds)) as [k|];
    [destruct Hc as [Hk Hl]; rewrite Hl; eexists _, _; split; [reflexivity|split; [split; cbn; eapply bwd_settable; eauto|destruct Hk as [Hk|[Hk Hn]]; [left; auto|right; split; [auto|now apply near_pre]]]]|]).
  all: assert (Hw : exists w cs' ds', cs = cs' ++ w /\ ds = ds' ++ w /\ Nat.min (clen ds) (clen cs) = clen w /\ (cs' = [] \/ ds' = []))
    by (destruct Hc as (w & [->| ->]); [exists ds, w, []; rewrite clen_app|exists cs, [], w; rewrite clen_app]; repeat split; auto; lia).
  all: destruct Hw as (w & cs' & ds' & -> & -> & -> & Hnil); apply Forall_app in Fcs as [Fcs Fw]; apply Forall_app in Fds as [Fds _].
  all: assert (Sl : forall xs, Forall uchar xs -> str_slice (concat (xs ++ w)) 0 (clen (xs ++ w) - clen w) = Some (concat xs))
    by (intros xs Fx; rewrite clen_app; replace (clen xs + clen w - clen w) with (clen xs) by lia; rewrite concat_app; rewrite str_slice_some; [f_equal; unfold slice; cbn [skipn]; rewrite Nat.sub_0_r; now rewrite firstn_app_exact|lia|apply cb_0|apply scut_app; exists w; split; auto]).
  all: rewrite !Sl by auto; cbn [bind]; rewrite !app_assoc, lcs_app; (destruct (stop_le stop (n + clen w)) eqn:Es;
    [exists (lcs (us ++ cs') (vs ++ ds') + clen w); eexists; split; [f_equal; f_equal; apply smin_stop; auto; lia|split; [split; cbn; eapply bwd_settable; eauto|left; auto]]|]).
  all: assert (Fb' : bwd base b us cs') by (destruct Fb as (l & pre & post & H1 & _ & H2); exists l, pre, post; auto).
  all: assert (Ft' : bwd target t vs ds') by (destruct Ft as (l & pre & post & H1 & _ & H2); exists l, pre, post; auto).
  all: destruct (load_prev_ok base hb Wb b cs' us Fb') as (b1 & cs1 & us1 & -> & Eb & Hb); destruct (load_prev_ok target ht Wt t ds' vs Ft') as (t1 & ds1 & vs1 & -> & Et & Ht); cbn [bind].
  all: rewrite Eb, Et; rewrite !app_assoc, !(clen_app _ w), Eb, Et in Hf.
  all: assert (Sb : settable base b1) by (destruct Hb as [(_ & _ & Hb)|(_ & Hb)]; auto; eapply bwd_settable; eauto).
  all: assert (St : settable target t1) by (destruct Ht as [(_ & _ & Ht)|(_ & Ht)]; auto; eapply bwd_settable; eauto).
  all: pose proof (lcs_le (us1 ++ cs1) (vs1 ++ ds1)) as [L1 L2].
  all: destruct Hb as [(-> & -> & _)|(Nb & Hb)]; [cbn [concat is_nil orb]; exists (clen w); eexists; split; [reflexivity|split; [split; auto|left; cbn [app concat length] in L1; cbn [app]; lia]]|].
  all: destruct Ht as [(-> & -> & _)|(Nt & Ht)]; [cbn [concat is_nil]; rewrite orb_true_r; exists (clen w); eexists; split; [reflexivity|split; [split; auto|left; cbn [app concat length] in L2; cbn [app]; lia]]|].
  all: pose proof Hb as (_ & _ & _ & _ & Fc1 & _); pose proof Ht as (_ & _ & _ & _ & Fd1 & _).
  all: assert (is_nil (concat cs1) = false) as -> by (destruct (is_nil (concat cs1)) eqn:E; auto; apply is_nil_cs in E; auto; congruence).
  all: assert (is_nil (concat ds1) = false) as -> by (destruct (is_nil (concat ds1)) eqn:E; auto; apply is_nil_cs in E; auto; congruence).
  all: cbn [orb]; assert (P1 : 0 < clen (us1 ++ cs1)) by (rewrite clen_app; destruct cs1 as [|x cs1]; [congruence|]; inversion Fc1; pose proof (char_pos x ltac:(auto)); cbn [concat]; rewrite app_length; lia).
  all: assert (P2 : 0 < clen (vs1 ++ ds1)) by (rewrite clen_app; destruct ds1 as [|x ds1]; [congruence|]; inversion Fd1; pose proof (char_pos x ltac:(auto)); cbn [concat]; rewrite app_length; lia).
  all: assert (Pw : cs' ++ w <> [] -> ds' ++ w <> [] -> 0 < clen w) by (intros N1 N2; destruct w as [|x w]; [rewrite app_nil_r in N1, N2; destruct Hnil; congruence|]; inversion Fw; pose proof (char_pos x ltac:(auto)); cbn [concat]; rewrite app_length; lia).
  - exfalso. destruct Hf as [Hf|(Hf & N1 & N2)]; [lia|]. specialize (Pw N1 N2). lia.
  - destruct (IH b1 t1 cs1 us1 ds1 vs1 (n + clen w) stop Hb Ht) as (res & s' & -> & R & Hr).
    { right. split; auto. destruct Hf as [Hf|(Hf & N1 & N2)]; [lia|]. specialize (Pw N1 N2). lia. }
    exists (clen w + res), s'. split; [f_equal; f_equal; f_equal; lia|]. split; auto. destruct Hr as [->|[-> Hn]]; [left; lia|]. right. split; [lia|]. now apply near_app.
Qed.

Lemma find_ne_char_ok s a b cs ds stop : ready s -> Forall uchar a -> Forall uchar b -> Forall uchar cs -> Forall uchar ds ->
  rcontent base = concat a ++ concat cs -> rcontent target = concat b ++ concat ds ->
  exists s', find_ne_char base target s (clen a) (clen b) stop = Some (smin stop (lcp cs ds), s') /\ ready s'.
Proof.
  intros [Rb Rt] Fa Fb Fc Fd Eb Et.
  destruct (start_ok base hb Wb (sc_base s) (clen a) a cs Rb Fa Fc Eb eq_refl) as (cb & lb & qb & ub & cb0 & db0 & vb & E1 & E2 & E3 & _ & _ & -> & Hb & _).
  destruct (start_ok target ht Wt (sc_target s) (clen b) b ds Rt Fb Fd Et eq_refl) as (ct & lt & qt & ut & ct0 & dt0 & vt & E1' & E2' & E3' & _ & _ & -> & Ht & _).
  unfold find_ne_char. rewrite E1. cbn [bind]. rewrite E1'. cbn [bind]. rewrite E2. cbn [bind]. rewrite E2'. cbn [bind]. rewrite E3. cbn [bind]. rewrite E3'. cbn [bind].
  apply (ne_char_loop_ok _ _ _ _ _ _ _ 0 stop Hb Ht). left. rewrite (len_r base hb Wb), (len_r target ht Wt), Eb, Et, !(app_length (concat _)). lia.
Qed.
Lemma find_ne_char_back_ok s a b cs ds stop : ready s -> Forall uchar a -> Forall uchar b -> Forall uchar cs -> Forall uchar ds ->
  rcontent base = concat a ++ concat cs -> rcontent target = concat b ++ concat ds ->
  exists res s', find_ne_char_back base target s (clen a) (clen b) stop = Some (smin stop res, s') /\ ready s' /\ (res = lcs a b \/ res = lcs a b + 1 /\ near a b).
Proof.
  intros [Rb Rt] Fa Fb Fc Fd Eb Et.
  destruct (start_ok base hb Wb (sc_base s) (clen a) a cs Rb Fa Fc Eb eq_refl) as (cb & lb & qb & ub & cb0 & db0 & vb & E1 & E2 & _ & E3 & -> & _ & _ & Hb).
  destruct (start_ok target ht Wt (sc_target s) (clen b) b ds Rt Fb Fd Et eq_refl) as (ct & lt & qt & ut & ct0 & dt0 & vt & E1' & E2' & _ & E3' & -> & _ & _ & Ht).
  unfold find_ne_char_back. rewrite E1. cbn [bind]. rewrite E1'. cbn [bind]. rewrite E2. cbn [bind]. rewrite E2'. cbn [bind]. rewrite E3. cbn [bind]. rewrite E3'. cbn [bind].
  apply (ne_char_back_loop_ok _ _ _ _ _ _ _ 0 stop Hb Ht). left. rewrite (len_r base hb Wb), (len_r target ht Wt), Eb, Et, !(app_length (concat _)). lia.
Qed.
Lemma scanner_new_ok : exists s, scanner_new base target = Some s /\ ready s.
Proof.
  unfold scanner_new. destruct (rnew_ok hb base 0 Wb ltac:(lia)) as (b & -> & _ & Vb). destruct (rnew_ok ht target 0 Wt ltac:(lia)) as (t & -> & _ & Vt). cbn [bind].
  eexists. split; [reflexivity|]. split; cbn; now apply valid_settable.
Qed.
End Scan.

(** ** The longest common prefix and suffix, by bytes *)
Lemma lcp_split cs : forall ds, exists w x y, cs = w ++ x /\ ds = w ++ y /\ lcp cs ds = clen w /\ (x = [] \/ y = [] \/ exists c x' d y', x = c :: x' /\ y = d :: y' /\ c <> d).
Proof.
  induction cs as [|c cs IH]; intros ds; [exists [], [], ds; cbn; auto|]. destruct ds as [|d ds]; [exists [], (c :: cs), []; cbn; repeat split; auto|]. cbn [lcp].
  destruct (list_eq_dec Nat.eq_dec c d) as [<-|N].
  - destruct (IH ds) as (w & x & y & -> & -> & E & H). exists (c :: w), x, y. cbn [app concat]. rewrite app_length. rewrite E. auto.
  - exists [], (c :: cs), (d :: ds). cbn. repeat split; auto. right. right. exists c, cs, d, ds. auto.
Qed.
Lemma lcs_split cs ds : exists w x y, cs = x ++ w /\ ds = y ++ w /\ lcs cs ds = clen w /\ (x = [] \/ y = [] \/ exists c x' d y', x = x' ++ [c] /\ y = y' ++ [d] /\ c <> d).
Proof.
  destruct (lcp_split (rev cs) (rev ds)) as (w & x & y & E1 & E2 & E3 & H). exists (rev w), (rev x), (rev y).
  rewrite <- !rev_app_distr, <- E1, <- E2, !rev_involutive. split; auto. split; auto. split.
  - unfold lcs. rewrite E3. clear. induction w as [|c w IH]; auto. cbn [rev]. rewrite clen_app, clen_1, <- IH. cbn [concat]. rewrite app_length. lia.
  - destruct H as [->|[->|(c & x' & d & y' & -> & -> & N)]]; auto. right. right. exists c, (rev x'), d, (rev y'). auto.
Qed.
