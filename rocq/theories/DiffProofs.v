(** Proofs about the difference of two texts. *)
From Coq Require Import List Arith Lia Bool ZifyBool.
From Verif Require Import Base ListLib MultisetProofs TreeModel TreeSpec TreeProofs MetricProofs CursorModel CursorProofs CursorBoundary
  RopeModel RopeSpec RopeProofs RopeMetric RopeIterModel RopeCursor RopeIterProofs FindModel FindProofs WordProofs CompareModel CompareProofs PropertiesCompare
  DeltaModel DeltaSpec DiffModel DiffSpec.
Import ListNotations.
Local Notation concat := List.concat.
Local Notation clen cs := (length (concat cs)).

(** ** The longest increasing subsequence *)
Section Lis.
Context (items : list (nat * nat)).
Definition val (j x : nat) : Prop := exists t, nth_error items j = Some (t, x).
(** The items of the indices increase. *)
Fixpoint increasing (lo : option nat) (result : list nat) : Prop :=
  match result with
  | [] => True
  | j :: r => exists x, val j x /\ (match lo with Some y => y < x | None => True end) /\ increasing (Some x) r
  end.
Lemma val_fun j x y : val j x -> val j y -> x = y. Proof. intros [t E] [u F]. congruence. Qed.
Lemma increasing_app lo a b : increasing lo (a ++ b) -> increasing lo a.
Proof. revert lo. induction a as [|j a IH]; intros lo; cbn; auto. intros (x & H1 & H2 & H3). exists x. auto. Qed.
Lemma increasing_snoc a : forall lo j i x y, increasing lo (a ++ [j]) -> val j x -> val i y -> x < y -> increasing lo ((a ++ [j]) ++ [i]).
Proof.
  induction a as [|k a IH]; intros lo j i x y H Vj Vi L; cbn [app increasing] in *.
  - destruct H as (z & Vz & Hz & _). exists z. split; auto. split; auto. exists y. rewrite (val_fun _ _ _ Vz Vj). auto.
  - destruct H as (z & Vz & Hz & H). exists z. split; auto. split; auto. eapply IH; eauto.
Qed.
(** The linear search of the model is what a binary search finds: the indices before are less,
    those from there on are not. *)
Lemma search_ok result : forall lo x, increasing lo result -> exists i b, search items result x = Some (i, b) /\ i <= length result /\
  (forall k j y, k < i -> nth_error result k = Some j -> val j y -> y < x) /\
  (forall k j y, i <= k -> nth_error result k = Some j -> val j y -> x <= y) /\
  (b = true <-> exists j, nth_error result i = Some j /\ val j x).
Proof.
  induction result as [|j r IH]; intros lo x H; cbn [search].
  - exists 0, false. split; auto. split; auto. split; [intros; lia|]. split; [intros [|k] ? ? _ E; discriminate|]. split; [discriminate|]. intros (j & E & _). discriminate.
  - destruct H as (y & [t Ey] & Hlo & H). rewrite Ey. cbn [bind snd]. destruct (Nat.ltb_spec y x) as [L|L].
    + destruct (IH _ x H) as (i & b & -> & Hi & H1 & H2 & H3). cbn [bind]. exists (S i), b. split; auto. cbn [length]. split; [lia|]. split; [|split].
      * intros [|k] j' y' Hk E V; cbn in E; [injection E as <-; rewrite (val_fun _ _ _ V (ex_intro _ t Ey)); auto|]. eapply H1; eauto. lia.
      * intros [|k] j' y' Hk E V; [lia|]. cbn in E. eapply (H2 k); eauto. lia.
      * exact H3.
    + exists 0, (y =? x). split; auto. split; [lia|]. split; [intros; lia|]. split.
      * assert (Inc : forall r lo, increasing (Some lo) r -> forall k j y, nth_error r k = Some j -> val j y -> lo < y).
        { clear. induction r as [|j r IH]; intros lo H k j' y' E V; [destruct k; discriminate|]. destruct H as (z & Vz & Hz & H). destruct k as [|k]; cbn in E.
          - injection E as <-. now rewrite (val_fun _ _ _ V Vz).
          - specialize (IH _ H _ _ _ E V). lia. }
        intros [|k] j' y' _ E V; cbn in E; [injection E as <-; rewrite (val_fun _ _ _ V (ex_intro _ t Ey)); auto|]. specialize (Inc _ _ H _ _ _ E V). lia.
      * cbn [nth_error]. split; [intros E; apply Nat.eqb_eq in E as <-; exists j; split; auto; now exists t|]. intros (j' & E & V). injection E as <-. apply Nat.eqb_eq. eapply val_fun; eauto. now exists t.
Qed.
Definition idxs (l : list nat) : Prop := Forall (fun j => j < length items) l.
Lemma set_nth_ok {A} (l : list A) i x : i < length l -> set_nth l i x = Some (firstn i l ++ x :: skipn (S i) l) /\ length (firstn i l ++ x :: skipn (S i) l) = length l.
Proof. intros H. unfold set_nth, check. replace (i <? length l) with true by lia. split; auto. rewrite app_length, firstn_length. cbn [length]. rewrite skipn_length. lia. Qed.
Lemma idxs_set l i x : idxs l -> x < length items -> idxs (firstn i l ++ x :: skipn (S i) l).
Proof.
  intros H Hx. unfold idxs in *. rewrite <- (firstn_skipn i l) in H. apply Forall_app in H as [H1 H2]. apply Forall_app. split; auto. constructor; auto.
  clear H1. assert (E : forall z, In z (skipn (S i) l) -> In z (skipn i l)).
  { clear. revert l. induction i as [|i IH]; intros [|y l] z; cbn [skipn]; intros H; try (apply IH; exact H); cbn; auto. }
  rewrite Forall_forall in H2 |- *. auto.
Qed.
Lemma increasing_set r : forall lo i x y, increasing lo r -> val i y -> x < length r -> match lo with Some z => z < y | None => True end ->
  (forall k j v, k < x -> nth_error r k = Some j -> val j v -> v < y) -> (forall j v, nth_error r x = Some j -> val j v -> y < v) ->
  increasing lo (firstn x r ++ i :: skipn (S x) r).
Proof.
  induction r as [|j r IH]; intros lo i x y H V Hx Hlo H1 H2; [cbn in Hx; lia|]. destruct H as (z & Vz & Hz & H). destruct x as [|x]; cbn [firstn skipn app increasing].
  - exists y. split; auto. split; auto. specialize (H2 j z eq_refl Vz). destruct r as [|k r]; auto. destruct H as (w & Vw & Hw & H). exists w. split; auto. split; [lia|auto].
  - exists z. split; auto. split; auto. apply (IH _ i x y); auto.
    + cbn in Hx. lia.
    + apply (H1 0 j z); auto. lia.
    + intros k j' v Hk E V'. apply (H1 (S k) j' v); auto. lia.
Qed.
Lemma lis_loop_ok n : forall i result pc, increasing None result -> result <> [] -> idxs result -> idxs pc -> length pc = length items -> i + n <= length items -> 
  exists result' pc', lis_loop items n i result pc = Some (result', pc') /\ increasing None result' /\ result' <> [] /\ idxs result' /\ idxs pc' /\ length pc' = length items.
Proof.
  induction n as [|n IH]; intros i result pc Hi Hne Ir Ip Lp Hn; cbn [lis_loop]; [exists result, pc; auto 10|].
  destruct result as [|last_idx result0 _] using rev_ind; [congruence|]. rewrite rev_unit. cbn [nth_error bind].
  assert (Hl : last_idx < length items) by (apply Forall_app in Ir as [_ Ir]; now inversion Ir).
  destruct (nth_error items last_idx) as [[lt lv]|] eqn:El; [|apply nth_error_None in El; lia]. cbn [bind snd].
  destruct (nth_error items i) as [[it iv]|] eqn:Ei; [|apply nth_error_None in Ei; lia]. cbn [bind snd]. destruct (Nat.ltb_spec lv iv) as [L|L].
  - destruct (set_nth_ok pc i last_idx) as [-> Ls]; [lia|]. cbn [bind]. apply IH; try lia; auto.
    + eapply increasing_snoc; eauto; eexists; eauto.
    + destruct (result0 ++ [last_idx]); discriminate.
    + apply Forall_app. split; auto. constructor; auto. lia.
    + now apply idxs_set.
  - destruct (search_ok (result0 ++ [last_idx]) None iv Hi) as (x & b & -> & Hx & H1 & H2 & H3). cbn [bind]. destruct b; [apply IH; auto; lia|].
    assert (Hx' : x < length (result0 ++ [last_idx])).
    { destruct (Nat.eq_dec x (length (result0 ++ [last_idx]))) as [E|]; [|lia]. exfalso. rewrite app_length in *. cbn [length] in *.
      assert (lv < iv); [|lia]. apply (H1 (length result0) last_idx lv); [lia| |eexists; eauto]. rewrite nth_error_app2, Nat.sub_diag; auto. }
    destruct (nth_error (result0 ++ [last_idx]) x) as [j|] eqn:Ej; [|apply nth_error_None in Ej; lia]. cbn [bind].
    assert (Hj : j < length items) by (unfold idxs in Ir; rewrite Forall_forall in Ir; apply Ir; eapply nth_error_In; eauto).
    destruct (nth_error items j) as [[jt jv]|] eqn:Ejt; [|apply nth_error_None in Ejt; lia]. cbn [bind snd]. destruct (Nat.ltb_spec iv jv) as [L2|L2]; [|apply IH; auto; lia].
    assert (Hpc : exists pc', (if 0 <? x then let? p := nth_error (result0 ++ [last_idx]) (x - 1) in set_nth pc i p else Some pc) = Some pc' /\ idxs pc' /\ length pc' = length items).
    { destruct (Nat.ltb_spec 0 x); [|eauto]. destruct (nth_error (result0 ++ [last_idx]) (x - 1)) as [p|] eqn:Epp; [|apply nth_error_None in Epp; lia]. cbn [bind].
      destruct (set_nth_ok pc i p) as [-> Ls]; [lia|]. eexists. split; [reflexivity|]. split; [|lia]. apply idxs_set; auto. unfold idxs in Ir. rewrite Forall_forall in Ir. apply Ir. eapply nth_error_In; eauto. }
    destruct Hpc as (pc' & -> & Ip' & Lp'). cbn [bind]. destruct (set_nth_ok (result0 ++ [last_idx]) x i Hx') as [-> Ls]. cbn [bind]. apply IH; auto; try lia.
    + eapply increasing_set; eauto; [now exists it|]. intros j' v E V. rewrite Ej in E. injection E as <-. now rewrite (val_fun _ _ _ V (ex_intro _ jt Ejt)).
    + destruct (firstn x (result0 ++ [last_idx])); discriminate.
    + apply idxs_set; auto. lia.
Qed.
Lemma walk_back_ok pc : idxs pc -> length pc = length items -> forall u v acc, v < length items -> exists r, walk_back items pc u v acc = Some (r ++ acc) /\ incl r items.
Proof.
  intros Ip Lp. induction u as [|u IH]; intros v acc Hv; cbn [walk_back]; [exists []; split; auto; intros z []|].
  destruct (nth_error items v) as [it|] eqn:Ei; [|apply nth_error_None in Ei; lia]. cbn [bind]. destruct (nth_error pc v) as [v'|] eqn:Ev; [|apply nth_error_None in Ev; lia]. cbn [bind].
  destruct (IH v' (it :: acc)) as (r & -> & Hr); [unfold idxs in Ip; rewrite Forall_forall in Ip; apply Ip; eapply nth_error_In; eauto|].
  exists (r ++ [it]). rewrite <- app_assoc. split; auto. apply incl_app; auto. intros z [<-|[]]. eapply nth_error_In; eauto.
Qed.
Lemma lis_ok : items <> [] -> exists r, longest_increasing_region_set items = Some r /\ incl r items.
Proof.
  intros Hne. unfold longest_increasing_region_set. assert (0 < length items) by (destruct (length items) eqn:E; [apply length_zero_iff_nil in E; congruence|lia]).
  destruct (lis_loop_ok (length items - 1) 1 [0] (repeat 0 (length items))) as (result & pc & -> & _ & Nr & Ir & Ip & Lp).
  - cbn [increasing]. destruct (nth_error items 0) as [[t x]|] eqn:E; [|apply nth_error_None in E; lia]. exists x. split; [now exists t|]. auto.
  - discriminate.
  - constructor; auto.
  - apply Forall_forall. intros z Hz. apply repeat_spec in Hz as ->. auto.
  - apply repeat_length.
  - lia.
  - cbn [bind]. destruct result as [|v result0 _] using rev_ind; [congruence|]. rewrite rev_unit. cbn [nth_error bind].
    destruct (walk_back_ok pc Ip Lp (length (result0 ++ [v])) v []) as (r & -> & Hr); [apply Forall_app in Ir as [_ Ir]; now inversion Ir|]. exists r. now rewrite app_nil_r.
Qed.
End Lis.

(** ** Texts *)
Lemma ascii_cut s p b : utf8 s -> nth_error s p = Some b -> b < 128 -> scut s (S p).
Proof.
  intros (cs & F & ->). revert p. induction F as [|c cs H F IH]; intros p E Hb; [destruct p; discriminate|]. cbn [concat] in *.
  destruct (char_shape c H) as (b0 & t & Ec & Hs & Ht & Hlen & _). destruct (Nat.lt_ge_cases p (length c)) as [Hp|Hp].
  - rewrite nth_error_app1 in E by auto. subst c. destruct p as [|p]; cbn [nth_error] in E.
    + injection E as ->. assert (t = []) as ->. { assert (length (b :: t) = 1). { rewrite Hlen. unfold len_utf8_from_first_byte. now replace (b <? 128) with true by lia. } destruct t; [auto|discriminate]. }
      apply (cb_start [[b]] cs F).
    + exfalso. apply nth_error_In in E. rewrite Forall_forall in Ht. apply Ht in E. unfold RopeModel.is_start in E. lia.
  - rewrite nth_error_app2 in E by auto. replace (S p) with (length c + S (p - length c)) by lia. unfold scut. rewrite cb_shift by lia. now apply IH.
Qed.
Lemma scut_byte s i b : utf8 s -> scut s i -> nth_error s i = Some b -> RopeModel.is_start b = true.
Proof.
  intros U H E. unfold scut, is_char_boundary in H. destruct (Nat.eqb_spec i 0) as [->|]; [|now rewrite E in H].
  destruct U as ([|c cs] & F & ->); [discriminate|]. inversion F as [|? ? Hc _]. destruct (char_shape c Hc) as (b0 & t & -> & Hs & _). cbn in E. congruence.
Qed.
Lemma nth_slice {A} (l : list A) a n i : i < n -> nth_error (slice l a (a + n)) i = nth_error l (a + i).
Proof. intros H. unfold slice. replace (a + n - a) with n by lia. now rewrite nth_first, nth_error_skipn by lia. Qed.
Lemma cut_carry s s' a b n i : utf8 s -> slice s a (a + n) = slice s' b (b + n) -> a + n <= length s -> i < n -> scut s (a + i) -> scut s' (b + i).
Proof.
  intros U E H Hi Hc. destruct (nth_error s (a + i)) as [x|] eqn:Ex; [|apply nth_error_None in Ex; lia].
  assert (Ex' : nth_error s' (b + i) = Some x) by (rewrite <- (nth_slice s' b n i) by auto; rewrite <- E, nth_slice by auto; auto).
  unfold scut, is_char_boundary. rewrite Ex'. destruct (b + i =? 0); auto. eapply scut_byte; eauto.
Qed.
Lemma slice_cat {A} (l : list A) a b c : a <= b -> b <= c -> slice l a c = slice l a b ++ slice l b c.
Proof.
  intros H1 H2. unfold slice. replace (c - a) with ((b - a) + (c - b)) by lia. replace (skipn b l) with (skipn (b - a) (skipn a l)) by (rewrite skipn_skipn; f_equal; lia).
  set (k := skipn a l). rewrite <- (firstn_skipn (b - a) k) at 1. rewrite firstn_app. rewrite firstn_firstn, firstn_length.
  destruct (Nat.le_gt_cases (b - a) (length k)).
  - f_equal; f_equal; lia.
  - rewrite (skipn_all2 k) by lia. rewrite !firstn_nil, !app_nil_r. f_equal. lia.
Qed.
Lemma prefix_slice (s t : list nat) p q w x y k : skipn p s = w ++ x -> skipn q t = w ++ y -> k <= length w -> slice s p (p + k) = slice t q (q + k).
Proof.
  intros E1 E2 H. unfold slice. replace (p + k - p) with k by lia. replace (q + k - q) with k by lia. rewrite E1, E2, !firstn_app. replace (k - length w) with 0 by lia. reflexivity.
Qed.
Lemma suffix_slice {A} (s : list A) p x w k : firstn p s = x ++ w -> p <= length s -> k <= length w -> slice s (p - k) p = skipn (length w - k) w.
Proof.
  intros E Hp H. assert (Lp : p = length x + length w). { apply (f_equal (@length A)) in E. rewrite firstn_length, app_length in E. lia. }
  unfold slice. rewrite firstn_skipn_comm. replace (p - k + (p - (p - k))) with p by lia. rewrite E, skipn_app, skipn_all2 by lia. cbn [app]. f_equal. lia.
Qed.

Lemma utf8_app a b : utf8 a -> utf8 b -> utf8 (a ++ b).
Proof. intros (ca & H1) (cb & H2). exists (ca ++ cb). now apply chars_of_app. Qed.
Lemma not_near s t p q : utf8 s -> utf8 t -> distinct_tails s t -> scut s p -> scut t q -> ~ near_miss (firstn p s) (firstn q t).
Proof.
  intros Us Ut D Hp Hq (a & b & w & u & v & z & E1 & E2 & N & Ua & Ub & Uw & Cu & Cv). apply N, (D u v z).
  - exists a, (w ++ skipn p s). destruct (utf8_cut s p Us Hp) as [_ U2]. split; [|auto using utf8_app]. rewrite <- (firstn_skipn p s) at 1. rewrite E1, <- !app_assoc. reflexivity.
  - exists b, (w ++ skipn q t). destruct (utf8_cut t q Ut Hq) as [_ U2]. split; [|auto using utf8_app]. rewrite <- (firstn_skipn q t) at 1. rewrite E2, <- !app_assoc. reflexivity.
Qed.

Section Diff.
Context (base target : rope) (hb ht : nat) (Wb : rope_wf hb base) (Wt : rope_wf ht target).
Notation B := (rcontent base).
Notation T := (rcontent target).
Lemma UB : utf8 B. Proof. eapply rope_utf8; eauto. Qed.
Lemma UT : utf8 T. Proof. eapply rope_utf8; eauto. Qed.
Lemma cutB i : scut B i <-> char_boundary B i. Proof. apply boundary_iff, UB. Qed.
Lemma cutT i : scut T i <-> char_boundary T i. Proof. apply boundary_iff, UT. Qed.

(** A copy that may be made. *)
Definition copy_ok (b t n : nat) : Prop :=
  b + n <= length B /\ t + n <= length T /\ slice B b (b + n) = slice T t (t + n) /\ scut B b /\ scut B (b + n) /\ scut T t /\ scut T (t + n).

Lemma expand_ok bo tO pe : distinct_tails B T -> scut B bo -> scut T tO -> scut T pe -> pe < tO ->
  exists l r, expand_match base target bo tO pe = Some (l, r) /\ l <= tO - pe /\ l <= bo /\ copy_ok (bo - l) (tO - l) l /\ copy_ok bo tO r.
Proof.
  intros D Hb Ht Hp Hlt. pose proof (cb_le _ _ Hb) as Lb. pose proof (cb_le _ _ Ht) as Lt. unfold expand_match.
  destruct (scanner_new_ok base target hb ht Wb Wt) as (s & Es & _). rewrite Es. cbn [bind]. pose proof (used_new base target s Es) as U0. unfold check. replace (pe <=? tO) with true by lia.
  pose proof (proj1 (cutB bo) Hb) as Hb'. pose proof (proj1 (cutT tO) Ht) as Ht'.
  destruct (C28_backward_partial base target hb ht s bo tO (Some (tO - pe)) Wb Wt U0 Hb' Ht') as (m & k & s1 & E1 & Hm & Hk). rewrite E1. cbn [bind].
  pose proof (used_back base target s bo tO _ _ s1 U0 Hb' Ht' E1) as U1.
  assert (k = 0) as ->. { destruct Hk as [|[_ Hk]]; auto. exfalso. exact (not_near B T bo tO UB UT D Hb Ht Hk). }
  destruct (C28_forward base target hb ht s1 bo tO None Wb Wt U1 Hb' Ht') as (r & s2 & -> & Hr). cbn [bind at_most].
  destruct Hm as [(w & (x & y & Ew1 & Ew2 & Uw & Ux & Uy) & Lw) _]. destruct Hr as [(w' & (x' & y' & Er1 & Er2 & Uw' & Ux' & Uy') & Lw') _]. rewrite Nat.add_0_r in *.
  assert (L1 : bo = length x + length w). { apply (f_equal (@length nat)) in Ew1. rewrite firstn_length, app_length in Ew1. lia. }
  assert (L2 : tO = length y + length w). { apply (f_equal (@length nat)) in Ew2. rewrite firstn_length, app_length in Ew2. lia. }
  assert (L3 : length B - bo = length w' + length x') by (rewrite <- app_length, <- Er1, skipn_length; auto).
  assert (L4 : length T - tO = length w' + length y') by (rewrite <- app_length, <- Er2, skipn_length; auto).
  set (l := Nat.min (Nat.min (tO - pe) m) (tO - pe)). exists l, r. split; auto. assert (Hl : l <= length w) by (unfold l; lia). split; [unfold l; lia|]. split; [lia|].
  assert (Sl : slice B (bo - l) (bo - l + l) = slice T (tO - l) (tO - l + l)).
  { replace (bo - l + l) with bo by lia. replace (tO - l + l) with tO by lia. rewrite (suffix_slice B bo x w l Ew1 Lb Hl), (suffix_slice T tO y w l Ew2 Lt Hl). reflexivity. }
  assert (Cw : scut B (bo - m) /\ scut T (tO - m)).
  { split; (rewrite <- (firstn_skipn bo B)||rewrite <- (firstn_skipn tO T)).
    - rewrite Ew1, <- app_assoc. replace (bo - m) with (length x) by lia. apply scut_app. apply utf8_app; auto. apply utf8_cut; auto using UB.
    - rewrite Ew2, <- app_assoc. replace (tO - m) with (length y) by lia. apply scut_app. apply utf8_app; auto. apply utf8_cut; auto using UT. }
  assert (Ct : scut T (tO - l)). { destruct (Nat.le_gt_cases m (tO - pe)); [replace l with m by (unfold l; lia); tauto|]. replace (tO - l) with pe by (unfold l; lia). auto. }
  split.
  - split; [lia|]. split; [lia|]. split; [exact Sl|]. replace (bo - l + l) with bo by lia. replace (tO - l + l) with tO by lia. split; [|auto].
    destruct (Nat.eq_dec l 0) as [E0|]; [rewrite E0, Nat.sub_0_r; auto|]. rewrite <- (Nat.add_0_r (bo - l)). apply (cut_carry T B (tO - l) (bo - l) l 0); auto using UT; try lia. rewrite Nat.add_0_r. auto.
  - split; [lia|]. split; [lia|]. split; [eapply prefix_slice; eauto; lia|]. split; auto. split; [|split; auto].
    + rewrite <- (firstn_skipn bo B), Er1, app_assoc. replace (bo + r) with (length (firstn bo B ++ w')) by (rewrite app_length, firstn_length; lia). now apply scut_app.
    + rewrite <- (firstn_skipn tO T), Er2, app_assoc. replace (tO + r) with (length (firstn tO T ++ w')) by (rewrite app_length, firstn_length; lia). now apply scut_app.
Qed.
(** A copy may be cut short at a character boundary of the target, and continued. *)
Lemma copy_short b t n k : copy_ok b t n -> k <= n -> scut T (t + k) -> copy_ok b t k.
Proof.
  intros (H1 & H2 & H3 & H4 & H5 & H6 & H7) Hk Hc. split; [lia|]. split; [lia|]. split.
  - apply (f_equal (firstn k)) in H3. unfold slice in *. rewrite !firstn_firstn in H3. replace (Nat.min k (b + n - b)) with (b + k - b) in H3 by lia. replace (Nat.min k (t + n - t)) with (t + k - t) in H3 by lia. exact H3.
  - split; auto. split; [|auto]. destruct (Nat.eq_dec k n) as [->|]; auto. apply (cut_carry T B t b n k); auto using UT. lia.
Qed.
Lemma copy_join b t n k : copy_ok b t n -> copy_ok (b + n) (t + n) k -> copy_ok b t (n + k).
Proof.
  intros (H1 & H2 & H3 & H4 & H5 & H6 & H7) (G1 & G2 & G3 & G4 & G5 & G6 & G7). rewrite <- !Nat.add_assoc in *. split; [lia|]. split; [lia|]. split; [|auto].
  rewrite (slice_cat B b (b + n)), (slice_cat T t (t + n)) by lia. congruence.
Qed.

(** The copies so far, the last first, end at most at [e]. *)
Fixpoint chain (ops : list diff_op) (e : nat) : Prop :=
  match ops with
  | [] => True
  | op :: ops' => copy_ok (base_idx op) (target_idx op) (op_len op) /\ target_idx op + op_len op <= e /\ chain ops' (target_idx op)
  end.
Lemma chain_le ops e e' : chain ops e -> e <= e' -> chain ops e'.
Proof. destruct ops as [|op ops]; cbn; auto. intros (H1 & H2 & H3) L. split; auto. split; auto. lia. Qed.
Lemma db_copy_ok ops b t n e : chain ops e -> e <= t -> copy_ok b t n -> exists ops', db_copy ops b t n = Some ops' /\ chain ops' (t + n).
Proof.
  intros H L C. unfold db_copy. destruct ops as [|op ops]; [eexists; split; [reflexivity|cbn; auto]|]. pose proof H as (H1 & H2 & H3). unfold check. replace (target_idx op + op_len op <=? t) with true by lia.
  destruct ((target_idx op + op_len op =? t) && (base_idx op + op_len op =? b)) eqn:E.
  - eexists. split; [reflexivity|]. cbn [chain target_idx base_idx op_len]. apply andb_prop in E as [E1 E2]. apply Nat.eqb_eq in E1, E2. subst t b. split; [now apply copy_join|]. split; [lia|auto].
  - eexists. split; [reflexivity|]. cbn [chain target_idx base_idx op_len]. split; auto. split; auto. split; auto. split; auto. lia.
Qed.
Lemma extend_ok te ms : distinct_tails B T -> scut T te -> Forall (fun m => fst m <= te /\ scut T (fst m) /\ scut B (snd m)) ms -> forall pe ops, scut T pe -> pe <= te -> chain ops pe ->
  exists ops', extend_loop base target te ms pe ops = Some ops' /\ chain ops' te.
Proof.
  intros D Hte. induction 1 as [|[tO bo] ms (H1 & H2 & H3) F IH]; intros pe ops Hp Hle Hc; cbn [extend_loop]; [exists ops; split; auto; eapply chain_le; eauto|].
  cbn [fst snd] in *. destruct (Nat.leb_spec tO pe) as [L|L]; [now apply IH|].
  destruct (expand_ok bo tO pe D H3 H2 Hp L) as (l & r & -> & L1 & L2 & C1 & C2). cbn [bind]. unfold check. replace (tO <=? te) with true by lia. replace ((l <=? tO) && (l <=? bo)) with true by lia.
  set (r' := Nat.min r (te - tO)).
  assert (Cr : scut T (tO + r')). { destruct (Nat.le_gt_cases r (te - tO)); [replace r' with r by lia; apply C2|]. replace (tO + r') with te by lia. auto. }
  assert (C2' : copy_ok bo tO r') by (apply (copy_short _ _ r); auto; lia).
  assert (C : copy_ok (bo - l) (tO - l) (l + r')). { apply copy_join; auto. replace (bo - l + l) with bo by lia. replace (tO - l + l) with tO by lia. auto. }
  destruct (db_copy_ok ops (bo - l) (tO - l) (l + r') pe Hc ltac:(lia) C) as (ops1 & -> & Hc1). cbn [bind]. apply IH; auto; [|lia]. apply C.
Qed.

(** ** The delta *)
Fixpoint fchain (pos : nat) (ops : list diff_op) : Prop :=
  match ops with
  | [] => True
  | op :: ops' => pos <= target_idx op /\ copy_ok (base_idx op) (target_idx op) (op_len op) /\ fchain (target_idx op + op_len op) ops'
  end.
Lemma chain_rev ops : forall e tail, chain ops e -> fchain e tail -> fchain 0 (rev ops ++ tail).
Proof.
  induction ops as [|op ops IH]; intros e tail H Ht; cbn [rev app].
  - destruct tail; cbn in *; auto. destruct Ht as (_ & H2 & H3). split; auto. lia.
  - destruct H as (H1 & H2 & H3). rewrite <- app_assoc. apply (IH (target_idx op)); auto. cbn [app fchain]. split; auto. split; auto.
    destruct tail as [|op' tail]; cbn in *; auto. destruct Ht as (G1 & G2 & G3). split; [lia|auto].
Qed.
Lemma to_delta_loop_ok ops : forall pos, fchain pos ops -> pos <= length T -> scut T pos ->
  exists els, to_delta_loop target ops pos = Some els /\ Forall (rel_ok B) els /\ apply_els (map abs_el els) B = Some (skipn pos T) /\ no_empty_insert (map abs_el els).
Proof.
  induction ops as [|op ops IH]; intros pos H Hp Hc; cbn [to_delta_loop].
  - rewrite (len_r target ht Wt). destruct (Nat.ltb_spec pos (length T)) as [L|L].
    + destruct (rope_slice_ok ht target pos (length T) Wt ltac:(lia) Hc (cb_len T)) as (r & h' & -> & W' & E). cbn [bind]. eexists. split; [reflexivity|].
      split; [constructor; auto; cbn; eauto|]. cbn [map abs_el apply_els bind]. rewrite E, app_nil_r. unfold slice. rewrite firstn_all2 by (rewrite skipn_length; lia). split; auto. constructor; [|constructor].
      intros E0. apply (f_equal (@length nat)) in E0. rewrite skipn_length in E0. cbn in E0. lia.
    + eexists. split; [reflexivity|]. split; auto. cbn. rewrite skipn_all2 by lia. split; auto. constructor.
  - destruct H as (H1 & C & H2). pose proof C as (C1 & C2 & C3 & C4 & C5 & C6 & C7). destruct (IH _ H2 ltac:(lia) C7) as (els & -> & F & A & N). cbn [bind].
    assert (F1 : Forall (rel_ok B) (RCopy (base_idx op) (base_idx op + op_len op) :: els)) by (constructor; auto; cbn; auto).
    assert (A1 : apply_els (map abs_el (RCopy (base_idx op) (base_idx op + op_len op) :: els)) B = Some (skipn (target_idx op) T)).
    { cbn [map abs_el apply_els]. rewrite A. replace ((base_idx op <=? base_idx op + op_len op) && (base_idx op + op_len op <=? length B)) with true by lia.
      cbn [bind]. rewrite C3. f_equal. unfold slice. replace (target_idx op + op_len op - target_idx op) with (op_len op) by lia.
      replace (skipn (target_idx op + op_len op) T) with (skipn (op_len op) (skipn (target_idx op) T)) by (rewrite skipn_skipn; f_equal; lia). apply firstn_skipn. }
    assert (N1 : no_empty_insert (map abs_el (RCopy (base_idx op) (base_idx op + op_len op) :: els))) by (constructor; cbn; auto).
    destruct (Nat.ltb_spec pos (target_idx op)) as [L|L]; [|replace (target_idx op) with pos in A1 by lia; eauto].
    destruct (rope_slice_ok ht target pos (target_idx op) Wt ltac:(lia) Hc C6) as (r & h' & -> & W' & E). cbn [bind]. eexists. split; [reflexivity|].
    split; [constructor; auto; cbn; eauto|]. set (els1 := RCopy _ _ :: els) in *. cbn [map abs_el apply_els]. rewrite A1. cbn [bind]. rewrite E. split.
    + f_equal. unfold slice. replace (skipn (target_idx op) T) with (skipn (target_idx op - pos) (skipn pos T)) by (rewrite skipn_skipn; f_equal; lia). apply firstn_skipn.
    + constructor; auto. intros E0. apply (f_equal (@length nat)) in E0. unfold slice in E0. rewrite firstn_length, skipn_length in E0. cbn in E0. lia.
Qed.
Definition good (d : list relement * nat) : Prop :=
  snd d = length B /\ Forall (rel_ok B) (fst d) /\ apply_els (map abs_el (fst d)) B = Some T /\ no_empty_insert (map abs_el (fst d)).
Lemma to_delta_ok ops e : chain ops e -> exists d, to_delta ops base target = Some d /\ good d.
Proof.
  intros H. unfold to_delta. destruct (to_delta_loop_ok (rev ops) 0) as (els & -> & F & A & N); [rewrite <- (app_nil_r (rev ops)); eapply chain_rev; cbn; eauto|lia|apply cb_0|].
  cbn [bind]. eexists. split; [reflexivity|]. unfold good. cbn [fst snd]. rewrite (len_r base hb Wb). auto.
Qed.

(** ** Matching lines *)
Lemma non_ws_le line : non_ws_offset line <= length line.
Proof. induction line as [|b line IH]; cbn [non_ws_offset length]; [lia|]. destruct (_ || _); lia. Qed.
Lemma skipn_cons {A} (s : list A) i b t : skipn i s = b :: t -> nth_error s i = Some b /\ skipn (S i) s = t.
Proof.
  intros E. split; [rewrite <- (Nat.add_0_r i), <- nth_error_skipn, E; reflexivity|]. replace (S i) with (i + 1) by lia. rewrite <- skipn_skipn, E. reflexivity.
Qed.
Lemma ws_cut s line : forall off rest, utf8 s -> scut s off -> skipn off s = line ++ rest -> scut s (off + non_ws_offset line).
Proof.
  induction line as [|b line IH]; intros off rest U H E; cbn [non_ws_offset]; [now rewrite Nat.add_0_r|]. destruct (_ || _) eqn:Eb; [|now rewrite Nat.add_0_r].
  apply skipn_cons in E as [E1 E2]. rewrite <- Nat.add_succ_comm. eapply IH; eauto. eapply ascii_cut; eauto. lia.
Qed.
Lemma newline_cut s off l rest : utf8 s -> skipn off s = (l ++ [10]) ++ rest -> scut s (off + length (l ++ [10])) /\ skipn (off + length (l ++ [10])) s = rest.
Proof.
  intros U E. rewrite app_length. cbn [length]. assert (E1 : skipn (off + length l) s = 10 :: rest). { rewrite <- skipn_skipn, E, <- app_assoc. now rewrite skipn_app_exact. }
  apply skipn_cons in E1 as [E1 E2]. replace (off + (length l + 1)) with (S (off + length l)) by lia. split; auto. eapply ascii_cut; eauto. lia.
Qed.
Lemma hash_lines_ok r ls : raw_lines r ls -> forall ms off m rest, skipn off B = r ++ rest -> scut B off -> Forall (fun e => scut B (snd e)) m ->
  Forall (fun e => scut B (snd e)) (hash_lines ls ms off m).
Proof.
  induction 1 as [|s N1 N2|l t ls N H IH]; intros ms off m rest E Hc F; cbn [hash_lines]; auto.
  - destruct (ms <=? _); auto. constructor; auto. cbn. eapply ws_cut; eauto using UB.
  - rewrite app_assoc, <- app_assoc in E. destruct (newline_cut B off l _ UB E) as [H1 H2]. eapply IH; eauto. destruct (ms <=? _); auto. constructor; auto. cbn [snd]. eapply ws_cut; eauto using UB.
Qed.
Lemma lookup_In m k v : lookup m k = Some v -> exists k', In (k', v) m.
Proof. induction m as [|[k' v'] m IH]; cbn; [discriminate|]. destruct (str_eqb k k'); [injection 1 as <-; eauto|]. intros E. destruct (IH E); eauto. Qed.
Lemma match_lines_ok hashes st te : Forall (fun e => scut B (snd e)) hashes -> forall r ls, raw_lines r ls -> forall tl pb ms ns rest,
  skipn (st + tl) T = r ++ rest -> scut T (st + tl) -> st + tl + length r <= te ->
  Forall (fun m => fst m <= te /\ scut T (fst m) /\ scut B (snd m)) ms ->
  Forall (fun m => fst m <= te /\ scut T (fst m) /\ scut B (snd m)) (fst (match_lines hashes st ls tl pb ms ns)).
Proof.
  intros Fh. assert (P : forall line rest tl ms v, skipn (st + tl) T = line ++ rest -> scut T (st + tl) -> st + tl + length line <= te ->
    lookup hashes (skipn (non_ws_offset line) line) = Some v -> Forall (fun m => fst m <= te /\ scut T (fst m) /\ scut B (snd m)) ms ->
    Forall (fun m => fst m <= te /\ scut T (fst m) /\ scut B (snd m)) ((st + (tl + non_ws_offset line), v) :: ms)).
  { intros line rest tl ms v E Hc L El F. constructor; auto. cbn [fst snd]. pose proof (non_ws_le line). split; [lia|]. rewrite Nat.add_assoc. split; [eapply ws_cut; eauto using UT|].
    apply lookup_In in El as [k El]. rewrite Forall_forall in Fh. exact (Fh _ El). }
  induction 1 as [|s N1 N2|l t ls N H IH]; intros tl pb ms ns rest E Hc L F; cbn [match_lines].
  - cbn [fst]. now apply Forall_rev.
  - destruct (if _ <=? _ then _ else _) as [v|] eqn:El; cbn [fst]; apply Forall_rev; auto. destruct (_ <=? _); [|discriminate]. eapply P; eauto.
  - rewrite !app_length in L. cbn [length] in L. rewrite app_assoc, <- app_assoc in E. destruct (newline_cut T (st + tl) l _ UT E) as [H1 H2]. rewrite <- Nat.add_assoc in H1, H2.
    assert (L' : st + (tl + length (l ++ [10])) + length t <= te) by (rewrite app_length; cbn [length]; lia).
    destruct (if _ <=? _ then _ else _) as [v|] eqn:El; [|eapply IH; eauto]. eapply IH; eauto. destruct (_ <=? _); [|discriminate]. eapply P; eauto. rewrite app_length. cbn [length]. lia.
Qed.
Lemma match_nonempty hashes st ls : forall tl pb ms ns, fst (match_lines hashes st ls tl pb ms ns) = [] -> ms = [] /\ snd (match_lines hashes st ls tl pb ms ns) = ns.
Proof.
  induction ls as [|line ls IH]; intros tl pb ms ns; cbn [match_lines fst snd].
  - intros E. split; auto. apply (f_equal (@rev _)) in E. now rewrite rev_involutive in E.
  - destruct (if _ <=? _ then _ else _); [|apply IH]. intros E. apply IH in E as [E _]. discriminate.
Qed.

(** ** The difference *)
Theorem diff_ok : distinct_tails B T -> exists d, compute_delta base target = Some d /\ good d.
Proof.
  intros D. unfold compute_delta. destruct (scanner_new_ok base target hb ht Wb Wt) as (s & Es & _). rewrite Es. cbn [bind]. pose proof (used_new base target s Es) as U0.
  assert (NN : ~ near_miss B T). { rewrite <- (firstn_all B), <- (firstn_all T). apply not_near; auto using UB, UT; apply cb_len. }
  destruct (C28_range_partial base target hb ht s Wb Wt U0 NN) as (start & en & s1 & -> & [(w & (x & y & Ew1 & Ew2 & Uw & Ux & Uy) & Lw) Hmax] & L1 & L2 & (w' & (x' & y' & Er1 & Er2 & Uw' & Ux' & Uy') & Lw') & _).
  cbn [bind]. rewrite (len_r base hb Wb), (len_r target ht Wt). unfold check. replace (en <=? length T) with true by lia. set (te := length T - en).
  assert (Cs : copy_ok 0 0 start).
  { subst start. split; [lia|]. split; [lia|]. split; [apply (prefix_slice B T 0 0 w x y); auto|]. split; [apply cb_0|]. cbn [Nat.add]. split; [rewrite Ew1; now apply scut_app|]. split; [apply cb_0|rewrite Ew2; now apply scut_app]. }
  assert (L3 : length B = length x' + length w') by (rewrite <- app_length; congruence). assert (L4 : length T = length y' + length w') by (rewrite <- app_length; congruence).
  assert (Ce : copy_ok (length B - en) te en).
  { unfold te. split; [lia|]. split; [lia|]. replace (length B - en + en) with (length B) by lia. replace (length T - en + en) with (length T) by lia.
    split; [|split; [|split; [apply cb_len|split; [|apply cb_len]]]].
    - rewrite (suffix_slice B (length B) x' w' en), (suffix_slice T (length T) y' w' en); auto; try lia; rewrite firstn_all; auto.
    - replace (length B - en) with (length x') by lia. rewrite Er1. now apply scut_app.
    - replace (length T - en) with (length y') by lia. rewrite Er2. now apply scut_app. }
  assert (C0 : exists ops, (if 0 <? start then db_copy [] 0 0 start else Some []) = Some ops /\ chain ops start).
  { destruct (0 <? start); [|exists []; cbn; auto]. apply (db_copy_ok [] 0 0 start 0); cbn; auto. }
  destruct C0 as (ops & -> & Hops). cbn [bind].
  destruct ((start =? length B) && (length T =? length B)) eqn:Eq; [eapply to_delta_ok; eauto|].
  destruct ((length T <? length B) && (start + en =? length T) || (length B <? length T) && (start + en =? length B)) eqn:Eg.
  { replace (en <=? length B) with true by lia. destruct (db_copy_ok ops (length B - en) te en start Hops ltac:(lia) Ce) as (ops1 & -> & H1). cbn [bind]. eapply to_delta_ok; eauto. }
  unfold make_line_hashes. rewrite (len_r base hb Wb). destruct (lines_raw_ok base hb Wb 0 (length B) ltac:(lia) (cb_0 _) (cb_len _)) as (bl & -> & Hbl). cbn [bind].
  destruct (lines_raw_ok target ht Wt start te ltac:(lia)) as (tls & -> & Htl); [apply Cs|apply Ce|]. cbn [bind].
  assert (Fh : Forall (fun e => scut B (snd e)) (hash_lines bl MIN_SIZE 0 [])).
  { eapply (hash_lines_ok _ _ Hbl _ 0 [] []); auto; [|apply cb_0]. rewrite app_nil_r. unfold slice. rewrite Nat.sub_0_r. cbn [skipn]. now rewrite firstn_all. }
  assert (Hst : scut T (start + 0)) by (rewrite Nat.add_0_r; apply Cs).
  assert (Esl : skipn (start + 0) T = slice T start te ++ skipn te T).
  { rewrite Nat.add_0_r. unfold slice. rewrite <- (firstn_skipn (te - start) (skipn start T)) at 1. rewrite skipn_skipn. do 2 f_equal. lia. }
  assert (Lsl : start + 0 + length (slice T start te) <= te) by (unfold slice; rewrite firstn_length; lia).
  pose proof (match_lines_ok _ start te Fh _ _ Htl 0 0 [] false _ Esl Hst Lsl ltac:(constructor)) as Hm.
  pose proof (match_nonempty (hash_lines bl MIN_SIZE 0 []) start tls 0 0 [] false) as Hne.
  destruct (match_lines _ start tls 0 0 [] false) as [ms ns]. cbn [fst snd] in Hm, Hne.
  assert (Cl : exists ls, (if ns then longest_increasing_region_set ms else Some ms) = Some ls /\ incl ls ms).
  { destruct ns; [|exists ms; split; auto using incl_refl]. apply lis_ok. intros E. destruct (Hne E); discriminate. }
  destruct Cl as (ls & -> & Hi). cbn [bind].
  assert (Hls : Forall (fun m => fst m <= te /\ scut T (fst m) /\ scut B (snd m)) ls) by (rewrite Forall_forall in *; auto).
  destruct (extend_ok te ls D ltac:(apply Ce) Hls start ops ltac:(apply Cs) ltac:(lia) Hops) as (ops1 & -> & H1). cbn [bind].
  destruct (0 <? en) eqn:E0; [|cbn [bind]; eapply to_delta_ok; eauto]. replace (en <=? length B) with true by lia.
  destruct (db_copy_ok ops1 (length B - en) te en te H1 ltac:(lia) Ce) as (ops2 & E2 & H2). rewrite E2. cbn [bind]. eapply to_delta_ok; eauto.
Qed.

(** ** Small differences *)
Fixpoint bsorted (pos : nat) (ops : list diff_op) (n : nat) : Prop :=
  match ops with [] => pos <= n | op :: ops' => pos <= base_idx op /\ bsorted (base_idx op + op_len op) ops' n end.
Lemma to_delta_sorted ops : forall pos bp els n, to_delta_loop target ops pos = Some els -> bsorted bp ops n -> sorted_copies bp (map abs_el els) n.
Proof.
  induction ops as [|op ops IH]; intros pos bp els n E H; cbn [to_delta_loop bsorted] in *.
  - destruct (pos <? n_len target); [|injection E as <-; auto]. destruct (rope_slice target pos (n_len target)) as [r|]; [|discriminate]. injection E as <-. auto.
  - destruct (to_delta_loop target ops (target_idx op + op_len op)) as [els1|] eqn:E1; [|discriminate]. cbn [bind] in E. destruct H as [H1 H2].
    assert (G : sorted_copies bp (map abs_el (RCopy (base_idx op) (base_idx op + op_len op) :: els1)) n) by (cbn; split; auto; split; [lia|eauto]).
    destruct (pos <? target_idx op); [|injection E as <-; auto]. destruct (rope_slice target pos (target_idx op)) as [r|]; [|discriminate]. injection E as <-. exact G.
Qed.
Lemma short_lines hashes st ls : Forall (fun l => length l < 32) ls -> forall tl pb ns, match_lines hashes st ls tl pb [] ns = ([], ns).
Proof.
  induction 1 as [|l ls H F IH]; intros tl pb ns; cbn [match_lines]; auto. replace (MIN_SIZE <=? length l - non_ws_offset l) with false by (unfold MIN_SIZE; lia). apply IH.
Qed.
Lemma raw_lines_short s ls n : raw_lines s ls -> length s < n -> Forall (fun l => length l < n) ls.
Proof.
  induction 1 as [|s N1 N2|l t ls N H IH]; intros L; [constructor|constructor; auto|]. rewrite !app_length in L. cbn [length] in L. constructor; [rewrite app_length; cbn [length]; lia|]. apply IH. lia.
Qed.
(** When one stretch of the text was changed, and nothing was deleted there or less than 32
    bytes were put there, the delta goes through the base from left to right. *)
Theorem one_change p x y q : B = p ++ y ++ q -> T = p ++ x ++ q -> utf8 p -> utf8 x -> utf8 y -> utf8 q -> ~ near_miss B T -> y = [] \/ length x < 32 ->
  exists d, compute_delta base target = Some d /\ good d /\ sorted_copies 0 (map abs_el (fst d)) (snd d).
Proof.
  intros EB ET Up Ux Uy Uq NN Hs. unfold compute_delta. destruct (scanner_new_ok base target hb ht Wb Wt) as (s & Es & _). rewrite Es. cbn [bind]. pose proof (used_new base target s Es) as U0.
  destruct (C28_range_partial base target hb ht s Wb Wt U0 NN) as (start & en & s1 & -> & [(w & (xx & yy & Ew1 & Ew2 & Uw & Uxx & Uyy) & Lw) Hmax] & L1 & L2 & (w' & (x' & y' & Er1 & Er2 & Uw' & Ux' & Uy') & Lw') & Hsuf).
  cbn [bind]. rewrite (len_r base hb Wb), (len_r target ht Wt). unfold check. replace (en <=? length T) with true by lia. set (te := length T - en).
  assert (LB : length B = length p + length y + length q) by (rewrite EB, !app_length; lia). assert (LT : length T = length p + length x + length q) by (rewrite ET, !app_length; lia).
  assert (Hst : length p <= start) by (apply Hmax; exists (y ++ q), (x ++ q); repeat split; auto using utf8_app).
  assert (Cs : copy_ok 0 0 start).
  { subst start. split; [lia|]. split; [lia|]. split; [apply (prefix_slice B T 0 0 w xx yy); auto|]. split; [apply cb_0|]. cbn [Nat.add]. split; [rewrite Ew1; now apply scut_app|]. split; [apply cb_0|rewrite Ew2; now apply scut_app]. }
  assert (L3 : length B = length x' + length w') by (rewrite <- app_length; congruence). assert (L4 : length T = length y' + length w') by (rewrite <- app_length; congruence).
  assert (Ce : copy_ok (length B - en) te en).
  { unfold te. split; [lia|]. split; [lia|]. replace (length B - en + en) with (length B) by lia. replace (length T - en + en) with (length T) by lia.
    split; [|split; [|split; [apply cb_len|split; [|apply cb_len]]]].
    - rewrite (suffix_slice B (length B) x' w' en), (suffix_slice T (length T) y' w' en); auto; try lia; rewrite firstn_all; auto.
    - replace (length B - en) with (length x') by lia. rewrite Er1. now apply scut_app.
    - replace (length T - en) with (length y') by lia. rewrite Er2. now apply scut_app. }
  (* the ends of the texts from any boundary of the unchanged end on agree *)
  assert (Hq : forall i, scut q i -> start <= length p + length y + i -> start <= length p + length x + i -> length q - i <= en).
  { intros i Hi H1 H2. pose proof (cb_le _ _ Hi). destruct (utf8_cut q i Uq Hi) as [U1 U2]. rewrite <- (skipn_length i q). apply Hsuf; try (rewrite skipn_length; lia).
    exists (p ++ y ++ firstn i q), (p ++ x ++ firstn i q). rewrite <- !app_assoc, firstn_skipn. repeat split; auto using utf8_app. }
  assert (Hgap : length B = start + en \/ length T = start + en \/ length q <= en /\ length T - (start + en) <= length x).
  { destruct (Nat.le_gt_cases start (length p + length y)) as [Ha|Ha]; [destruct (Nat.le_gt_cases start (length p + length x)) as [Hb|Hb]|].
    - right. right. pose proof (Hq 0 (cb_0 _) ltac:(lia) ltac:(lia)). lia.
    - destruct (Nat.le_gt_cases (length x) (length y)).
      + right. left. assert (C : scut q (start - length (p ++ x))). { unfold scut. rewrite <- (cb_shift (p ++ x)) by (rewrite app_length; lia). rewrite <- app_assoc, <- ET. replace (length (p ++ x) + _) with start by (rewrite app_length; lia). apply Cs. }
        rewrite app_length in C. pose proof (Hq _ C ltac:(lia) ltac:(lia)). lia.
      + left. lia.
    - destruct (Nat.le_gt_cases (length x) (length y)) as [Hxy|Hxy].
      + right. left. assert (C : scut q (start - length (p ++ x))). { unfold scut. rewrite <- (cb_shift (p ++ x)) by (rewrite app_length; lia). rewrite <- app_assoc, <- ET. replace (length (p ++ x) + _) with start by (rewrite app_length; lia). apply Cs. }
        rewrite app_length in C. pose proof (Hq _ C ltac:(lia) ltac:(lia)). lia.
      + left. assert (C : scut q (start - length (p ++ y))). { unfold scut. rewrite <- (cb_shift (p ++ y)) by (rewrite app_length; lia). rewrite <- app_assoc, <- EB. replace (length (p ++ y) + _) with start by (rewrite app_length; lia). apply Cs. }
        rewrite app_length in C. pose proof (Hq _ C ltac:(lia) ltac:(lia)). lia. }
  assert (Hops : exists ops, (if 0 <? start then db_copy [] 0 0 start else Some []) = Some ops /\ chain ops start /\ (ops = [] \/ ops = [DiffOp 0 0 start])).
  { destruct (0 <? start); [|exists []; cbn; auto]. exists [DiffOp 0 0 start]. cbn. auto. }
  destruct Hops as (ops & -> & Hops & Hsh). cbn [bind].
  assert (Done : forall ops' e, chain ops' e -> bsorted 0 (rev ops') (length B) -> exists d, to_delta ops' base target = Some d /\ good d /\ sorted_copies 0 (map abs_el (fst d)) (snd d)).
  { intros ops' e H Hb. destruct (to_delta_ok ops' e H) as (d & E & G). exists d. split; auto. split; auto. unfold to_delta in E. destruct (to_delta_loop target (rev ops') 0) as [els|] eqn:El; [|discriminate]. injection E as <-. cbn [fst snd].
    rewrite (len_r base hb Wb). eapply to_delta_sorted; eauto. }
  assert (Last : exists ops1, db_copy ops (length B - en) te en = Some ops1 /\ exists d, to_delta ops1 base target = Some d /\ good d /\ sorted_copies 0 (map abs_el (fst d)) (snd d)).
  { destruct (db_copy_ok ops (length B - en) te en start Hops ltac:(lia) Ce) as (ops1 & E1 & H1). exists ops1. split; auto. eapply Done; eauto.
    destruct Hsh as [->| ->]; cbn [db_copy target_idx base_idx op_len] in E1.
    - injection E1 as <-. cbn. lia.
    - unfold check in E1. replace (0 + start <=? te) with true in E1 by lia. destruct (_ && _); injection E1 as <-; cbn; lia. }
  destruct ((start =? length B) && (length T =? length B)) eqn:Eq; [apply (Done ops start Hops); destruct Hsh as [->| ->]; cbn; lia|].
  destruct ((length T <? length B) && (start + en =? length T) || (length B <? length T) && (start + en =? length B)) eqn:Eg.
  { replace (en <=? length B) with true by lia. destruct Last as (ops1 & -> & H1). exact H1. }
  unfold make_line_hashes. rewrite (len_r base hb Wb). destruct (lines_raw_ok base hb Wb 0 (length B) ltac:(lia) (cb_0 _) (cb_len _)) as (bl & -> & Hbl). cbn [bind].
  destruct (lines_raw_ok target ht Wt start te ltac:(lia)) as (tls & -> & Htl); [apply Cs|apply Ce|]. cbn [bind].
  assert (Lsl : length (slice T start te) < 32). { unfold slice. rewrite firstn_length, skipn_length. destruct Hs as [->|Hs]; [cbn [length] in *|]; lia. }
  rewrite (short_lines _ _ _ (raw_lines_short _ _ 32 Htl Lsl)). cbn [bind extend_loop].
  destruct (0 <? en) eqn:E0; [|cbn [bind]; apply (Done ops start Hops); destruct Hsh as [->| ->]; cbn; lia]. replace (en <=? length B) with true by lia.
  destruct Last as (ops1 & E1 & H1). rewrite E1. exact H1.
Qed.
End Diff.

(** When one of the texts is ASCII, a byte that ends a character of both is the character. *)
Lemma char_tail u z : utf8_char (u ++ [z]) = true -> z < 128 -> u = [].
Proof.
  intros H L. destruct (char_shape _ H) as (b & t & E & Hs & Ht & _). destruct u as [|b' u]; auto. exfalso. injection E as -> <-. apply Forall_app in Ht as [_ Ht]. inversion Ht as [|? ? Hz _]. unfold RopeModel.is_start in Hz. lia.
Qed.
Lemma ascii_distinct s t : Forall (fun b => b < 128) s \/ Forall (fun b => b < 128) t -> distinct_tails s t.
Proof.
  intros H u v z (a & b & E1 & _ & C1 & _) (a' & b' & E2 & _ & C2 & _). assert (L : z < 128).
  { destruct H as [H|H]; rewrite Forall_forall in H; apply H; [rewrite E1|rewrite E2]; rewrite !in_app_iff; cbn; auto. }
  now rewrite (char_tail u z C1 L), (char_tail v z C2 L).
Qed.
