(** Text ropes: characters, leaves, and the b-tree of strings. *)
From Coq Require Import List Arith Lia Bool ZifyBool.
From Verif Require Import Base ListLib TreeModel TreeSpec TreeProofs RopeModel RopeSpec.
Import ListNotations.

Local Notation concat := List.concat.
Notation uchar := (fun c : list nat => utf8_char c = true).

Lemma char_shape c : utf8_char c = true ->
  exists b t, c = b :: t /\ is_start b = true /\ Forall (fun x => is_start x = false) t /\
    length c = len_utf8_from_first_byte b /\ 1 <= length c <= 4 /\ (240 <=? b) = (length c =? 4) /\ (b = 10 -> t = []) /\
    Forall (fun x => x <> 10) t.
Proof.
  intros H.
  destruct c as [|a [|b [|c [|d [|e r]]]]]; try discriminate; unfold utf8_char, cont, in_range in H; exists a; eexists;
    (split; [reflexivity|]); unfold is_start, len_utf8_from_first_byte; cbn [length].
  - split; [lia|]. split; [constructor|]. destruct (a <? 128) eqn:E; repeat split; auto; lia.
  - split; [lia|]. split; [repeat constructor; lia|].
    destruct (a <? 128) eqn:E, (a <? 224) eqn:E2; repeat split; try lia. repeat constructor; lia.
  - split; [lia|]. split; [repeat constructor; lia|].
    destruct (a <? 128) eqn:E, (a <? 224) eqn:E2, (a <? 240) eqn:E3; repeat split; try lia. repeat constructor; lia.
  - split; [lia|]. split; [repeat constructor; lia|].
    destruct (a <? 128) eqn:E, (a <? 224) eqn:E2, (a <? 240) eqn:E3; repeat split; try lia. repeat constructor; lia.
Qed.

Lemma utf8_nil : utf8 [].
Proof. exists []. split; auto. Qed.
Lemma utf8_app a b : utf8 a -> utf8 b -> utf8 (a ++ b).
Proof.
  intros (x & Fx & ->) (y & Fy & ->). exists (x ++ y). split; [now apply Forall_app|]. now rewrite concat_app.
Qed.

Lemma cb_0 s : is_char_boundary s 0 = true.
Proof. reflexivity. Qed.
Lemma cb_len s : is_char_boundary s (length s) = true.
Proof.
  unfold is_char_boundary. destruct (length s =? 0); auto. rewrite (proj2 (nth_error_None s (length s))) by lia. apply Nat.eqb_refl.
Qed.
Lemma cb_le s i : is_char_boundary s i = true -> i <= length s.
Proof.
  unfold is_char_boundary. destruct (Nat.eqb_spec i 0); [lia|]. destruct (nth_error s i) eqn:E.
  - intros _. assert (i < length s); [|lia]. apply nth_error_Some. congruence.
  - intros H. lia.
Qed.
Lemma cb_shift a b i : 0 < i -> is_char_boundary (a ++ b) (length a + i) = is_char_boundary b i.
Proof.
  intros H. unfold is_char_boundary. replace (length a + i =? 0) with false by lia. replace (i =? 0) with false by lia.
  rewrite nth_error_app2 by lia. replace (length a + i - length a) with i by lia.
  destruct (nth_error b i); auto. rewrite app_length. lia.
Qed.
Lemma cb_left a b i : i < length a -> is_char_boundary (a ++ b) i = is_char_boundary a i.
Proof.
  intros H. unfold is_char_boundary. destruct (i =? 0); auto. rewrite nth_error_app1 by lia.
  destruct (nth_error a i) eqn:E; auto. apply nth_error_None in E. lia.
Qed.

Lemma cb_chars cs : Forall uchar cs -> forall i, is_char_boundary (concat cs) i = true ->
  exists cs1 cs2, cs = cs1 ++ cs2 /\ i = length (concat cs1).
Proof.
  induction 1 as [|c cs Hc HF IH]; intros i Hi.
  - exists [], []. split; auto. apply cb_le in Hi. cbn in *. lia.
  - destruct (Nat.eq_dec i 0) as [->|Hn]; [exists [], (c :: cs); auto|]. cbn [concat] in Hi.
    destruct (char_shape c Hc) as (b & t & -> & Hb & Ht & _).
    destruct (Nat.le_gt_cases (length (b :: t)) i) as [Hle|Hgt].
    + destruct (IH (i - length (b :: t))) as (cs1 & cs2 & -> & E).
      { destruct (Nat.eq_dec (i - length (b :: t)) 0) as [->|]; [reflexivity|].
        rewrite <- (cb_shift (b :: t)) by lia. replace (length (b :: t) + (i - length (b :: t))) with i by lia. exact Hi. }
      exists ((b :: t) :: cs1), cs2. split; auto. cbn [concat]. rewrite app_length. lia.
    + exfalso. rewrite cb_left in Hi by auto. unfold is_char_boundary in Hi. replace (i =? 0) with false in Hi by lia.
      destruct i as [|i]; [lia|]. cbn [nth_error] in Hi. destruct (nth_error t i) eqn:E.
      * rewrite Forall_forall in Ht. rewrite (Ht _ (nth_error_In _ _ E)) in Hi. discriminate.
      * apply nth_error_None in E. cbn [length] in Hgt. lia.
Qed.

Lemma cb_start cs1 cs2 : Forall uchar cs2 -> is_char_boundary (concat (cs1 ++ cs2)) (length (concat cs1)) = true.
Proof.
  intros F. rewrite concat_app. destruct cs2 as [|c cs2].
  - cbn. rewrite app_nil_r. apply cb_len.
  - inversion F; subst. destruct (char_shape c) as (b & t & -> & Hb & _); auto.
    unfold is_char_boundary. destruct (length (concat cs1) =? 0); auto. rewrite nth_error_app2, Nat.sub_diag; auto.
Qed.

Lemma boundary_iff s i : utf8 s -> (is_char_boundary s i = true <-> char_boundary s i).
Proof.
  intros (cs & F & ->). split.
  - intros H. destruct (cb_chars cs F i H) as (a & b & -> & E). exists a, b. auto.
  - intros (a & b & F' & E & ->). rewrite E. apply cb_start. apply Forall_app in F'. tauto.
Qed.

Lemma utf8_cut s i : utf8 s -> is_char_boundary s i = true -> utf8 (firstn i s) /\ utf8 (skipn i s).
Proof.
  intros (cs & F & ->) H. destruct (cb_chars cs F i H) as (a & b & -> & ->). rewrite concat_app.
  rewrite firstn_app_exact, skipn_app_exact by auto. apply Forall_app in F as [Fa Fb]. split; [exists a|exists b]; split; auto.
Qed.

Lemma utf8_slice s i j : utf8 s -> i <= j -> is_char_boundary s i = true -> is_char_boundary s j = true -> utf8 (slice s i j).
Proof.
  intros U H Hi Hj. destruct (utf8_cut s i U Hi) as [_ U2]. unfold slice.
  apply utf8_cut; auto. destruct (Nat.eq_dec (j - i) 0) as [->|]; [reflexivity|].
  rewrite <- (cb_shift (firstn i s)) by lia. rewrite firstn_skipn. rewrite firstn_length_le by (apply cb_le; auto).
  now replace (i + (j - i)) with j by lia.
Qed.

(** Going back to a character boundary takes at most three steps. *)
Lemma back_spec s : forall k, is_char_boundary s (back_to_boundary s k) = true /\ back_to_boundary s k <= k /\
  forall j, back_to_boundary s k < j <= k -> is_char_boundary s j = false.
Proof.
  induction k; cbn [back_to_boundary].
  - rewrite cb_0. repeat split; auto. lia.
  - destruct (is_char_boundary s (S k)) eqn:E; [repeat split; auto; lia|]. destruct IHk as (A & B & C). repeat split; auto.
    intros j Hj. destruct (Nat.eq_dec j (S k)) as [->|]; auto. apply C. lia.
Qed.

Lemma back_le3 s k : utf8 s -> k <= length s -> k - 3 <= back_to_boundary s k.
Proof.
  intros (cs & F & ->) Hk. destruct (back_spec (concat cs) k) as (A & B & C).
  set (r := back_to_boundary (concat cs) k) in *. clearbody r.
  destruct (cb_chars cs F r A) as (a & b & -> & E). apply Forall_app in F as [Fa Fb].
  destruct b as [|c b].
  { rewrite app_nil_r in Hk. lia. }
  assert (Fc := Forall_inv Fb). assert (Fb' := Forall_inv_tail Fb). destruct (char_shape c Fc) as (x & t & Ec & _ & _ & _ & L & _).
  destruct (Nat.le_gt_cases k (r + 3)); [lia|]. exfalso.
  assert (is_char_boundary (concat (a ++ c :: b)) (r + length c) = false) by (apply C; lia).
  replace (a ++ c :: b) with ((a ++ [c]) ++ b) in H0 by (now rewrite <- app_assoc).
  rewrite E in H0. replace (length (concat a) + length c) with (length (concat (a ++ [c]))) in H0.
  2: { rewrite concat_app, app_length. cbn. now rewrite app_nil_r. }
  rewrite cb_start in H0; auto. discriminate.
Qed.

Lemma memrchr_some x s p : memrchr x s = Some p -> nth_error s p = Some x /\ forall j, p < j -> nth_error s j <> Some x.
Proof.
  revert p. induction s as [|b s IH]; intros p; cbn [memrchr]; [discriminate|].
  destruct (memrchr x s) as [q|] eqn:E.
  - intros [= <-]. destruct (IH q eq_refl) as [A B]. split; auto. intros [|j] Hj; [lia|]. apply B. lia.
  - destruct (Nat.eqb_spec b x); [|discriminate]. intros [= <-]. subst. split; auto. intros [|j] Hj; [lia|]. cbn.
    intros H. assert (forall j, nth_error s j <> Some x) as N; [|now apply (N j)].
    clear -E. induction s as [|b s IH]; intros [|j]; cbn in *; try discriminate.
    + destruct (memrchr x s); [discriminate|]. destruct (Nat.eqb_spec b x); [discriminate|]. congruence.
    + destruct (memrchr x s); [discriminate|]. destruct (Nat.eqb_spec b x); [discriminate|]. now apply IH.
Qed.
Lemma memrchr_none x s : memrchr x s = None -> forall j, nth_error s j <> Some x.
Proof.
  induction s as [|b s IH]; cbn [memrchr]; intros E [|j]; cbn; try discriminate.
  - destruct (memrchr x s); [discriminate|]. destruct (Nat.eqb_spec b x); [discriminate|]. congruence.
  - destruct (memrchr x s); [discriminate|]. destruct (Nat.eqb_spec b x); [discriminate|]. now apply IH.
Qed.
Lemma memchr_some x s p : memchr x s = Some p -> nth_error s p = Some x /\ forall j, j < p -> nth_error s j <> Some x.
Proof.
  revert p. induction s as [|b s IH]; intros p; cbn [memchr]; [discriminate|].
  destruct (Nat.eqb_spec b x) as [->|N].
  - intros [= <-]. split; auto. lia.
  - destruct (memchr x s) as [q|] eqn:E; [|discriminate]. intros [= <-]. destruct (IH q eq_refl) as [A B]. split; auto.
    intros [|j] Hj; cbn; [congruence|]. apply B. lia.
Qed.
Lemma memchr_none x s : memchr x s = None -> forall j, nth_error s j <> Some x.
Proof.
  induction s as [|b s IH]; cbn [memchr]; intros E [|j]; cbn; try discriminate.
  - destruct (Nat.eqb_spec b x); [discriminate|]. congruence.
  - destruct (Nat.eqb_spec b x); [discriminate|]. destruct (memchr x s); [discriminate|]. now apply IH.
Qed.

Lemma nth_slice {T} (l : list T) b e i : nth_error (slice l b e) i = if i <? e - b then nth_error l (b + i) else None.
Proof. unfold slice. now rewrite nth_error_firstn, nth_error_skipn. Qed.

(** After a newline there is a character boundary. *)
Lemma cb_after_nl s p : utf8 s -> nth_error s p = Some NL -> is_char_boundary s (S p) = true.
Proof.
  intros (cs & F & ->). revert p. induction F as [|c cs Hc HF IH]; intros p Hp; [destruct p; discriminate|].
  cbn [concat] in *. destruct (char_shape c Hc) as (b & t & -> & Hb & Ht & _ & _ & _ & Hnl & Hnt).
  destruct (Nat.le_gt_cases (length (b :: t)) p) as [Hle|Hgt].
  - rewrite nth_error_app2 in Hp by lia. apply IH in Hp.
    replace (S p) with (length (b :: t) + S (p - length (b :: t))) by lia. now rewrite cb_shift by lia.
  - rewrite nth_error_app1 in Hp by auto. destruct p as [|p].
    + injection Hp as ->. specialize (Hnl eq_refl). subst t. cbn [app].
      destruct cs as [|c cs]; [reflexivity|]. inversion HF; subst. destruct (char_shape c) as (b' & t' & -> & Hb' & _); auto.
    + cbn in Hp. rewrite Forall_forall in Hnt. apply nth_error_In, Hnt in Hp. now elim Hp.
Qed.

(** The split point of a leaf that is too long. *)
Lemma split_spec s minsplit : utf8 s -> MAX_LEAF < length s -> MIN_LEAF <= minsplit ->
  length s <= minsplit + MAX_LEAF \/ minsplit = MIN_LEAF ->
  minsplit <= Nat.min MAX_LEAF (length s - MIN_LEAF) ->
  exists k, find_leaf_split s minsplit = Some k /\ is_char_boundary s k = true /\ MIN_LEAF <= k <= MAX_LEAF /\ MIN_LEAF <= length s - k /\
    (length s <= minsplit + MAX_LEAF -> length s <= MAX_LEAF + MIN_LEAF -> length s - k <= MAX_LEAF).
Proof.
  intros U HL Hm _ Hsp. unfold find_leaf_split. unfold MIN_LEAF, MAX_LEAF in *.
  replace ((length s <? 511) || (minsplit =? 0)) with false by lia. cbv zeta.
  set (sp := Nat.min 1024 (length s - 511)) in *. replace (sp <? minsplit - 1) with false by lia.
  destruct (memrchr NL (slice s (minsplit - 1) sp)) as [p|] eqn:E.
  - exists (minsplit + p). split; auto. destruct (memrchr_some _ _ _ E) as [A _]. rewrite nth_slice in A.
    destruct (p <? sp - (minsplit - 1)) eqn:Ep; [|discriminate]. split; [|split; [lia|split; lia]].
    replace (minsplit + p) with (S (minsplit - 1 + p)) by lia. now apply cb_after_nl.
  - exists (back_to_boundary s sp). split; auto. destruct (back_spec s sp) as (A & B & C).
    pose proof (back_le3 s sp U ltac:(lia)). split; auto. repeat split; lia.
Qed.

Definition leafV (s : str) : Prop := utf8 s /\ length s <= MAX_LEAF.
Definition scut (s : str) (i : nat) : Prop := is_char_boundary s i = true.

Lemma count_newlines_app a b : count_newlines (a ++ b) = count_newlines a + count_newlines b.
Proof. induction a; cbn; auto. rewrite IHa. lia. Qed.
Lemma count_utf16_app a b : count_utf16 (a ++ b) = count_utf16 a + count_utf16 b.
Proof. induction a; cbn [app count_utf16]; auto. rewrite IHa. lia. Qed.
Lemma compute_info_app a b : compute_info (a ++ b) = ri_acc (compute_info a) (compute_info b).
Proof. unfold compute_info, ri_acc. cbn [ri_lines ri_utf16]. now rewrite count_newlines_app, count_utf16_app. Qed.

Lemma str_slice_some s b e : b <= e -> is_char_boundary s b = true -> is_char_boundary s e = true ->
  str_slice s b e = Some (slice s b e).
Proof. intros H H1 H2. unfold str_slice. rewrite H1, H2. now replace (b <=? e) with true by lia. Qed.

Lemma rope_leaf_spec : leaf_spec rope_ops (fun s => s) leafV scut compute_info.
Proof.
  constructor; cbn [rope_ops l_len l_default i_of i_acc l_ok l_push].
  - reflexivity.
  - split; auto. split; [apply utf8_nil|cbn; lia].
  - reflexivity.
  - apply compute_info_app.
  - intros a b [Ua La] [Ub Lb] Hn. unfold push_maybe_split.
    rewrite (str_slice_some b 0 (length b)); auto using cb_len; [|lia]. cbn [bind].
    replace (slice b 0 (length b)) with b by (symmetry; apply slice_all; lia).
    pose proof (utf8_app a b Ua Ub) as U. pose proof (app_length a b) as EL. set (s := a ++ b) in *.
    destruct (length s <=? MAX_LEAF) eqn:Em.
    + eexists s, None. split; auto. split; [split; auto; lia|]. split; auto. unfold MIN_LEAF. lia.
    + unfold find_leaf_split_for_merge. unfold MAX_LEAF, MIN_LEAF in *. replace (length s <? 1024) with false by lia.
      destruct (split_spec s (Nat.max 511 (length s - 1024)) U) as (k & Ek & Bk & K1 & K2 & K3); unfold MIN_LEAF, MAX_LEAF in *; try lia.
      rewrite Ek. cbn [bind]. rewrite (str_slice_some s k (length s)); auto using cb_len; try lia. cbn [bind].
      destruct (utf8_cut s k U Bk) as [U1 U2]. assert (Es : slice s k (length s) = skipn k s).
      { unfold slice. apply firstn_all2. rewrite skipn_length. lia. }
      rewrite Es. eexists _, _. split; [reflexivity|]. split; [split; auto; rewrite firstn_length; unfold MAX_LEAF; lia|].
      split; [split; auto; rewrite skipn_length; unfold MAX_LEAF; lia|]. split; [apply firstn_skipn|].
      rewrite firstn_length, skipn_length. lia.
  - intros l i j [U HL] Hij Hj H1 H2. unfold push_maybe_split. rewrite str_slice_some by auto. cbn [bind app].
    assert (Ls : length (slice l i j) <= length l) by (unfold slice; rewrite firstn_length, skipn_length; lia).
    replace (length (slice l i j) <=? MAX_LEAF) with true by lia. eexists. split; [reflexivity|].
    split; auto. split; [now apply utf8_slice|lia].
  - intros s. split; [reflexivity|apply cb_len].
  - unfold scut. intros a b c i H Hi. destruct (Nat.eq_dec i 0) as [->|]; [reflexivity|].
    rewrite cb_shift in H by lia. destruct (Nat.eq_dec i (length b)) as [->|]; [apply cb_len|]. rewrite cb_left in H by lia. auto.
Qed.

(** A well-formed text rope. *)
Definition rcontent : rope -> str := content (fun s => s).
Definition rope_wf (h : nat) (r : rope) : Prop := wf rope_ops (fun s => s) leafV compute_info h r.

Lemma push_str_loop_ok f : forall b lo s, stack_ok rope_ops (fun s => s) leafV compute_info lo b -> utf8 s -> length s <= f ->
  exists b', push_str_loop f b s = Some b' /\ stack_ok rope_ops (fun s => s) leafV compute_info 0 b' /\
    b_content (fun s => s) b' = b_content (fun s => s) b ++ s.
Proof.
  induction f as [|f IH]; intros b lo s HS U Hf.
  - destruct s; [|cbn in Hf; lia]. exists b. cbn. rewrite app_nil_r. split; auto. split; auto. eapply stack0; eauto.
  - cbn [push_str_loop]. destruct s as [|x0 s0] eqn:Es0.
    { exists b. rewrite app_nil_r. split; auto. split; auto. eapply stack0; eauto. }
    rewrite <- Es0 in *. assert (H0 : 0 < length s) by (subst; cbn; lia). clear Es0 x0 s0.
    assert (exists k, (if MAX_LEAF <? length s then find_leaf_split_for_bulk s else Some (length s)) = Some k /\
              0 < k <= length s /\ k <= MAX_LEAF /\ is_char_boundary s k = true) as (k & -> & Hk & Hk2 & Bk).
    { destruct (MAX_LEAF <? length s) eqn:E.
      - unfold find_leaf_split_for_bulk. destruct (split_spec s MIN_LEAF U) as (k & Ek & Bk & K1 & K2 & _);
          unfold MAX_LEAF, MIN_LEAF in *; try lia. exists k. split; auto. repeat split; auto; lia.
      - exists (length s). repeat split; auto; try lia. apply cb_len. }
    cbn [bind]. rewrite str_slice_some by (auto; lia). cbn [bind]. destruct (utf8_cut s k U Bk) as [U1 U2].
    assert (E1 : slice s 0 k = firstn k s) by (unfold slice; cbn; now rewrite Nat.sub_0_r).
    rewrite E1. unfold push_leaf.
    destruct (from_leaf_wf rope_ops (fun s => s) leafV scut compute_info rope_leaf_spec (firstn k s)) as [Wl Cl].
    { split; auto. rewrite firstn_length. lia. }
    destruct (b_push_ok _ _ _ _ _ rope_leaf_spec b lo 0 _ HS Wl) as (b1 & -> & S1 & C1). cbn [bind].
    rewrite str_slice_some by (auto using cb_len; lia). cbn [bind].
    assert (E2 : slice s k (length s) = skipn k s) by (unfold slice; apply firstn_all2; rewrite skipn_length; lia). rewrite E2.
    destruct (IH b1 _ (skipn k s) S1 U2) as (b2 & E & S2 & C2).
    { rewrite skipn_length. lia. }
    exists b2. split; auto. split; auto. rewrite C2, C1, Cl, <- app_assoc. now rewrite firstn_skipn.
Qed.

Lemma push_str_ok b lo s : stack_ok rope_ops (fun s => s) leafV compute_info lo b -> utf8 s ->
  exists b', push_str b s = Some b' /\ stack_ok rope_ops (fun s => s) leafV compute_info 0 b' /\
    b_content (fun s => s) b' = b_content (fun s => s) b ++ s.
Proof.
  intros HS U. unfold push_str. destruct (length s <=? MAX_LEAF) eqn:E; [|eapply push_str_loop_ok; eauto].
  destruct s as [|x s0] eqn:Es. { exists b. rewrite app_nil_r. split; auto. split; auto. eapply stack0; eauto. }
  rewrite <- Es in *. clear Es. unfold push_leaf.
  destruct (from_leaf_wf rope_ops (fun s => s) leafV scut compute_info rope_leaf_spec s) as [Wl Cl].
  { split; auto. lia. }
  destruct (b_push_ok _ _ _ _ _ rope_leaf_spec b lo 0 _ HS Wl) as (b1 & -> & S1 & C1).
  exists b1. split; auto. split; [eapply stack0; eauto|]. now rewrite C1, Cl.
Qed.

Theorem rope_from_ok s : utf8 s -> exists r h, rope_from s = Some r /\ rope_wf h r /\ rcontent r = s.
Proof.
  intros U. unfold rope_from. destruct (push_str_ok b_new 0 s Logic.I U) as (b & -> & S & C). cbn [bind].
  destruct (build_ok _ _ _ _ _ rope_leaf_spec b 0 S) as (n & h & -> & W & C'). exists n, h. split; auto. split; auto.
  unfold rcontent. now rewrite C', C.
Qed.

Theorem rope_add_ok h1 h2 a b : rope_wf h1 a -> rope_wf h2 b ->
  exists r h, rope_add a b = Some r /\ rope_wf h r /\ rcontent r = rcontent a ++ rcontent b.
Proof.
  intros W1 W2. unfold rope_add, b_new. destruct (b_push_ok _ _ _ _ _ rope_leaf_spec [] 0 h1 a Logic.I W1) as (b1 & -> & S1 & C1). cbn [bind].
  destruct (b_push_ok _ _ _ _ _ rope_leaf_spec b1 _ h2 b S1 W2) as (b2 & -> & S2 & C2). cbn [bind].
  destruct (build_ok _ _ _ _ _ rope_leaf_spec b2 _ S2) as (n & h & -> & W & C'). exists n, h. split; auto. split; auto.
  unfold rcontent. now rewrite C', C2, C1.
Qed.

Theorem rope_slice_ok h r i j : rope_wf h r -> i <= j -> scut (rcontent r) i -> scut (rcontent r) j ->
  exists r' h', rope_slice r i j = Some r' /\ rope_wf h' r' /\ rcontent r' = slice (rcontent r) i j.
Proof.
  intros W H1 H2 H3. unfold rope_slice. eapply subseq_ok; eauto using rope_leaf_spec. now apply cb_le.
Qed.

Theorem rope_edit_ok h r i j s : rope_wf h r -> utf8 s -> i <= j -> scut (rcontent r) i -> scut (rcontent r) j ->
  exists r' h', rope_edit r i j s = Some r' /\ rope_wf h' r' /\
    rcontent r' = firstn i (rcontent r) ++ s ++ skipn j (rcontent r).
Proof.
  intros W U H1 H2 H3. unfold rope_edit. destruct (rope_from_ok s U) as (n & hn & -> & Wn & Cn). cbn [bind].
  rewrite <- Cn. eapply edit_tree_ok; eauto using rope_leaf_spec. now apply cb_le.
Qed.

(** The text of a rope is well-formed. *)
Lemma rope_utf8 h : forall r, rope_wf h r -> utf8 (rcontent r).
Proof.
  induction h as [|h IH]; intros [k i l|hh k i cs] W; try (now destruct W).
  - destruct W as ([U _] & _). exact U.
  - destruct W as (_ & _ & _ & F & _). unfold rcontent. cbn [content]. clear -F IH.
    induction F; cbn; [apply utf8_nil|]. apply utf8_app; auto.
Qed.
