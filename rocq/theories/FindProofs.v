(** Searching a rope: the cursor, the matchers and the search loop. *)
From Coq Require Import List Arith Lia Bool ZifyBool.
From Verif Require Import Base ListLib MultisetProofs TreeModel TreeSpec TreeProofs MetricProofs CursorModel CursorProofs CursorBoundary
  RopeModel RopeSpec RopeProofs RopeMetric RopeIterModel RopeCursor RopeIterProofs FindModel.
Import ListNotations.
Local Notation concat := List.concat.
Local Notation idl := (fun s : list nat => s).

(** ** Characters *)
Lemma first_char_of c rest : utf8_char c = true -> exists b t, c = b :: t /\ firstn (len_utf8_from_first_byte b) (c ++ rest) = c /\ skipn (len_utf8_from_first_byte b) (c ++ rest) = rest.
Proof.
  intros H. destruct (char_shape c H) as (b & t & -> & _ & _ & E & _). exists b, t. split; auto. rewrite <- E. now rewrite firstn_app_exact, skipn_app_exact.
Qed.
Lemma chars_f_ok cs : Forall uchar cs -> forall f, length (concat cs) <= f -> chars_f f (concat cs) = cs.
Proof.
  induction 1 as [|c cs H F IH]; intros f Hf; [now destruct f|]. cbn [concat] in *. destruct (first_char_of c (concat cs) H) as (b & t & E & E1 & E2).
  rewrite app_length in Hf. assert (0 < length c) by (subst; cbn; lia). destruct f as [|f]; [lia|].
  rewrite E at 1. cbn [app chars_f]. change (b :: t ++ concat cs) with ((b :: t) ++ concat cs). rewrite <- E. rewrite E1, E2. f_equal. apply IH. lia.
Qed.
Lemma chars_ok s cs : chars_of s cs -> chars s = cs.
Proof. intros [F ->]. unfold chars. now apply chars_f_ok. Qed.
Lemma chars_of_unique s a b : chars_of s a -> chars_of s b -> a = b.
Proof. intros H1 H2. apply chars_ok in H1, H2. congruence. Qed.
Lemma chars_is s : utf8 s -> chars_of s (chars s).
Proof. intros (cs & H). now rewrite (chars_ok _ _ H). Qed.
Lemma chars_of_app s t a b : chars_of s a -> chars_of t b -> chars_of (s ++ t) (a ++ b).
Proof. intros [F ->] [G ->]. split; [now apply Forall_app|now rewrite concat_app]. Qed.
Lemma char_head c c' x y : utf8_char c = true -> utf8_char c' = true -> c ++ x = c' ++ y -> c = c' /\ x = y.
Proof.
  intros H H' E. destruct (first_char_of c x H) as (b & t & Ec & E1 & E2). destruct (first_char_of c' y H') as (b' & t' & Ec' & E1' & E2').
  assert (b = b') as <-. { rewrite Ec, Ec' in E. cbn in E. congruence. }
  rewrite E in E1, E2. split; congruence.
Qed.
Lemma utf8_rest a b : utf8 a -> utf8 (a ++ b) -> utf8 b.
Proof.
  intros (ca & F & ->). induction F as [|c ca H F IH]; intros U; [exact U|]. apply IH. cbn [concat] in U. rewrite <- app_assoc in U.
  destruct U as (cs & G & E). destruct G as [|c' cs H' G].
  - destruct (char_shape c H) as (b0 & t & -> & _). discriminate.
  - cbn [concat] in E. destruct (char_head _ _ _ _ H H' E) as [_ ->]. now exists cs.
Qed.
Lemma scut_app a b : utf8 b -> scut (a ++ b) (length a).
Proof.
  intros (cs & F & ->). destruct F as [|c cs H F]; [cbn; rewrite app_nil_r; apply cb_len|]. unfold scut, is_char_boundary. destruct (length a =? 0); auto.
  cbn [concat]. destruct (char_shape c H) as (b & t & -> & Hb & _). now rewrite nth_error_app2, Nat.sub_diag by lia.
Qed.
Lemma scut_prefix a b : utf8 a -> utf8 (a ++ b) -> scut (a ++ b) (length a).
Proof. intros Ua U. apply scut_app. exact (utf8_rest a b Ua U). Qed.
Lemma bytes_eqb_ok a : forall b, bytes_eqb a b = true <-> a = b.
Proof.
  induction a as [|x a IH]; intros [|y b]; cbn; try (split; [discriminate|discriminate]); [tauto|].
  rewrite andb_true_iff, IH, Nat.eqb_eq. split; [intros [-> ->]; auto|]. intros [= -> ->]. auto.
Qed.
Lemma memchrs_ok bs s : match memchrs bs s with
  | Some i => (exists b, nth_error s i = Some b /\ In b bs) /\ forall j b, j < i -> nth_error s j = Some b -> ~ In b bs
  | None => forall j b, nth_error s j = Some b -> ~ In b bs
  end.
Proof.
  induction s as [|x s IH]; cbn [memchrs].
  - intros [|j] b E; discriminate.
  - destruct (existsb (Nat.eqb x) bs) eqn:E.
    + apply existsb_exists in E as (y & Hy & Ey). apply Nat.eqb_eq in Ey as <-. split; [exists x; auto|]. intros; lia.
    + assert (Hx : ~ In x bs). { intros Hin. assert (existsb (Nat.eqb x) bs = true); [|congruence]. apply existsb_exists. exists x. split; auto. apply Nat.eqb_refl. }
      destruct (memchrs bs s) as [i|].
      * destruct IH as [(b & Eb & Hb) Hj]. split; [exists b; auto|]. intros [|j] b' Hlt Eb'; cbn in Eb'; [congruence|]. eapply Hj; [|eauto]. lia.
      * intros [|j] b' Eb'; cbn in Eb'; [congruence|]. eapply IH; eauto.
Qed.
Lemma skipn_app_plus {A} (a b : list A) n : skipn (length a + n) (a ++ b) = skipn n b.
Proof. rewrite <- skipn_skipn. now rewrite skipn_app_exact. Qed.

Section Rope.
Context (r : rope) (h : nat) (W : rope_wf h r).
Notation s := (rcontent r).
Local Notation valid := (valid idl r).
Local Notation at_leaf := (at_leaf idl r).

(** ** Cursors *)
Definition settable (c : rcursor) : Prop := (exists l pre post, at_leaf c l pre post) \/ c_leaf c = None /\ cache_ok r c.
(** A cursor a search may be at: at a character, in a leaf or past the last one. *)
Definition cok (c : rcursor) : Prop := scut s (c_pos c) /\ (rvalid r c \/ c_leaf c = None /\ cache_ok r c /\ c_pos c = length s).

Lemma valid_settable c : rvalid r c -> settable c.
Proof. intros (l & pre & post & Ha & _). left. eauto. Qed.
Lemma rset_ok c p : settable c -> p <= length s -> exists c', c_set rope_ops r c p = Some c' /\ c_pos c' = p /\ rvalid r c'.
Proof.
  intros Hc Hp. destruct (set_ok rope_ops idl leafV scut compute_info rope_leaf_spec r h W c p Hc Hp) as (c' & l & pre & post & E & Ep & Hv).
  exists c'. split; auto. split; auto. now exists l, pre, post.
Qed.
Lemma cnext_ok c : rvalid r c -> scut s (c_pos c) -> exists x c', c_next rope_ops r base_metric c = Some (x, c') /\
  match x with
  | Some p => c_pos c' = p /\ c_pos c < p <= length s /\ scut s p /\ (forall y, c_pos c < y < p -> ~ scut s y) /\ rvalid r c'
  | None => c_pos c = length s /\ settable c'
  end.
Proof.
  intros Hv Hc. destruct (next_ok rope_ops _ _ _ _ _ rope_leaf_spec rope_text_spec _ _ _ base_bound r h W c Hv (or_intror Hc)) as (x & c' & -> & Hx).
  exists x, c'. split; auto. destruct x as [p|].
  - destruct Hx as (H0 & H1 & H2 & H3 & H4). split; auto. split; auto. split; auto. split; auto. intros y Hy. apply H3. lia.
  - destruct Hx as (E & Hk & H3). split; [|right; auto]. pose proof (cb_le _ _ Hc). destruct (Nat.eq_dec (c_pos c) (length s)); auto.
    exfalso. apply (H3 (length s)); [|apply cb_len]. change (content idl r) with s in *. lia.
Qed.
Lemma fail_ok c i : settable c -> scut s i -> i < length s ->
  exists c', fail_at r c i = Some (None, c') /\ rvalid r c' /\ i < c_pos c' <= length s /\ scut s (c_pos c') /\ forall x, i < x < c_pos c' -> ~ scut s x.
Proof.
  intros Hc Hi Hl. unfold fail_at. destruct (rset_ok c i Hc ltac:(lia)) as (c1 & -> & Ep & Hv). cbn [bind].
  destruct (cnext_ok c1 Hv) as (x & c2 & -> & Hx); [now rewrite Ep|]. cbn [bind]. rewrite Ep in Hx. exists c2. split; auto.
  destruct x as [p|]; [|lia]. destruct Hx as (<- & H1 & H2 & H3 & H4). auto.
Qed.

(** The leaf at a valid cursor. *)
Lemma valid_leaf c l pre post : valid c l pre post ->
  c_get_leaf c = Some (Some (l, c_pos c - llen idl pre)) /\ utf8 l /\ llen idl pre <= c_pos c <= llen idl pre + length l /\
  s = flat_map idl pre ++ l ++ flat_map idl post /\ utf8 (flat_map idl pre) /\ utf8 (flat_map idl post) /\
  (c_pos c < length s -> c_pos c < llen idl pre + length l).
Proof.
  intros (Ha & H1 & H2). pose proof Ha as (p & R & El & Eo & Ec). unfold c_get_leaf. rewrite El. replace (c_pos c <? c_off c) with false by lia. rewrite Eo in *.
  pose proof (route_content rope_ops idl leafV compute_info r h W _ _ _ _ R) as Es. change (content idl r) with s in Es.
  pose proof (leaves_V rope_ops idl leafV compute_info h r W) as FV. rewrite (route_leaves _ _ _ _ _ R) in FV. apply Forall_app in FV as [F1 F2]. inversion F2 as [|? ? [Ul _] F3]; subst.
  split; auto. split; auto. split; [lia|]. split; auto. split; [apply (T_ls rope_ops idl leafV scut utf8 rope_text_spec); auto|]. split; [apply (T_ls rope_ops idl leafV scut utf8 rope_text_spec); auto|].
  intros Hlt. destruct H2 as [H2|[H2 ->]]; auto. exfalso. rewrite Es in Hlt. cbn [flat_map] in Hlt. rewrite app_nil_r, app_length in Hlt. change (length (flat_map idl pre)) with (llen idl pre) in Hlt. lia.
Qed.
Lemma valid_sub c l pre post : valid c l pre post -> scut s (c_pos c) -> scut l (c_pos c - llen idl pre) /\ skipn (c_pos c) s = skipn (c_pos c - llen idl pre) l ++ flat_map idl post.
Proof.
  intros Hv Hc. destruct (valid_leaf _ _ _ _ Hv) as (_ & Ul & Hp & Es & U1 & U2 & _). set (q := c_pos c - llen idl pre). split.
  - replace (c_pos c) with (llen idl pre + q) in Hc by lia. rewrite Es in Hc. eapply (t_cut_sub _ _ _ _ _ rope_text_spec); eauto. unfold q. lia.
  - replace (c_pos c) with (length (flat_map idl pre) + q) by (change (length (flat_map idl pre)) with (llen idl pre); lia).
    rewrite Es, skipn_app_plus, skipn_app. replace (q - length l) with 0 by lia. reflexivity.
Qed.
Lemma next_leaf_valid c l pre post : valid c l pre post ->
  match post with
  | [] => exists c', next_leaf rope_ops r c = Some (false, c') /\ c_leaf c' = None /\ cache_ok r c' /\ c_pos c' = length s
  | l2 :: post' => exists c', next_leaf rope_ops r c = Some (true, c') /\ valid c' l2 (pre ++ [l]) post' /\ c_pos c' = llen idl pre + length l /\ scut s (c_pos c') /\ c_pos c < c_pos c'
  end.
Proof.
  intros Hv. pose proof Hv as (Ha & Hp & Hp2). pose proof Ha as (p & R & El & Eo & Ec).
  pose proof (next_leaf_ok rope_ops idl leafV scut compute_info utf8 rope_leaf_spec rope_text_spec r h W c l pre post Ha) as Hn. destruct post as [|l2 post'].
  - destruct Hn as (c' & E & E1 & E2 & E3). exists c'. split; auto. split; auto. split; [|exact E2]. rewrite <- E3 in Ec. exists p, l, pre, []. auto.
  - destruct Hn as (c' & E & Ha' & Ep'). pose proof Ha' as (p' & R' & El' & Eo' & Ec'). rewrite llen_app, llen_one in Eo'. exists c'. split; auto.
    assert (0 < length l2).
    { pose proof (leaves_pos rope_ops idl leafV scut compute_info utf8 rope_text_spec h r W) as FP.
      assert (0 < h) as Hh. { apply (H_pos rope_ops idl leafV compute_info r h W _ _ _ _ R). right. discriminate. }
      specialize (FP (or_introl Hh)). rewrite (route_leaves _ _ _ _ _ R') in FP. apply Forall_app in FP as [_ FP]. now inversion FP. }
    split; [split; auto; split; [lia|left; lia]|]. split; [lia|]. split; [|destruct Hp2 as [|[_ ?]]; [lia|discriminate]].
    destruct (valid_leaf _ _ _ _ Hv) as (_ & Ul & _ & Es & U1 & U2 & _). rewrite Ep', Eo', Es.
    rewrite app_assoc. replace (llen idl pre + length l) with (length (flat_map idl pre ++ l)) by now rewrite app_length. now apply scut_app.
Qed.

(** ** The exact matcher *)
Definition occ (pat : list nat) (i : nat) : Prop := exists u, skipn i s = pat ++ u.
Lemma occ_len pat i : pat <> [] -> occ pat i -> i + length pat <= length s.
Proof.
  intros Hp (u & E). apply (f_equal (@length nat)) in E. rewrite skipn_length, app_length in E. destruct pat; [congruence|]. cbn [length] in *. lia.
Qed.

Lemma compare_loop_ok fuel : forall c pat start success, rvalid r c -> scut s (c_pos c) -> pat <> [] -> utf8 pat -> length pat + 2 <= fuel ->
  success = c_pos c + length pat ->
  (occ pat (c_pos c) -> exists c', compare_loop r fuel c pat start success = Some (Some start, c') /\ rvalid r c' /\ c_pos c' = success) /\
  (~ occ pat (c_pos c) -> exists c', settable c' /\ compare_loop r fuel c pat start success = fail_at r c' start).
Proof.
  induction fuel as [|f IH]; intros c pat start success Hv Hc Hne Up Hf Hs; [lia|].
  destruct Hv as (l & pre & post & Hv). destruct (valid_leaf _ _ _ _ Hv) as (Eg & Ul & Hp & Es & U1 & U2 & Hlt).
  destruct (valid_sub _ _ _ _ Hv Hc) as [Cl Ek]. set (q := c_pos c - llen idl pre) in *.
  cbn [compare_loop]. rewrite Eg. cbn [bind]. replace (length l <? q) with false by lia.
  set (n := Nat.min (length pat) (length l - q)).
  assert (St : settable c) by (left; destruct Hv; eauto).
  assert (En : slice l q (q + n) = firstn n (skipn q l)) by (unfold slice; f_equal; lia).
  assert (Ep0 : slice pat 0 n = firstn n pat) by (unfold slice; rewrite Nat.sub_0_r; reflexivity). rewrite En, Ep0. clear En Ep0.
  destruct (bytes_eqb (firstn n (skipn q l)) (firstn n pat)) eqn:Eb; cbn [negb].
  2: { split; [|eauto]. intros (u & Eu). exfalso. assert (firstn n (skipn q l) = firstn n pat); [|apply bytes_eqb_ok in H; congruence].
       rewrite Ek in Eu. apply (f_equal (firstn n)) in Eu. rewrite !firstn_app in Eu. rewrite skipn_length in Eu.
       replace (n - (length l - q)) with 0 in Eu by lia. replace (n - length pat) with 0 in Eu by lia. cbn [firstn] in Eu. now rewrite !app_nil_r in Eu. }
  apply bytes_eqb_ok in Eb. destruct (Nat.le_gt_cases (length pat) (length l - q)) as [Hle|Hgt].
  - (* the pattern ends in this leaf *)
    assert (n = length pat) as En by lia. rewrite En, firstn_all in *.
    rewrite str_slice_some by (auto; apply cb_len). cbn [bind]. unfold slice. rewrite Nat.sub_diag. cbn [firstn].
    assert (Ho : occ pat (c_pos c)).
    { exists (skipn (length pat) (skipn q l) ++ flat_map idl post). rewrite Ek. rewrite app_assoc. f_equal. rewrite <- Eb at 1. now rewrite firstn_skipn. }
    split; [intros _|tauto]. destruct (rset_ok c success St) as (c' & -> & E & V'); [rewrite Hs; now apply occ_len|]. cbn [bind]. eauto.
  - (* it goes on *)
    assert (n = length l - q) as En by lia. rewrite firstn_all2 in Eb by (rewrite skipn_length; lia).
    assert (Us : utf8 (skipn q l)) by (apply utf8_cut; auto).
    set (pat' := skipn n pat). assert (Epat : pat = skipn q l ++ pat') by (unfold pat'; rewrite Eb; now rewrite firstn_skipn).
    assert (Ln : length (skipn q l) = n) by (rewrite skipn_length; lia).
    assert (Up' : utf8 pat') by (eapply utf8_rest; [exact Us|now rewrite <- Epat]).
    assert (Cn : scut pat n). { rewrite <- Ln, Epat at 1. rewrite Ln. rewrite <- Ln. now apply scut_app. }
    rewrite str_slice_some by (auto using cb_len; lia). cbn [bind].
    replace (slice pat n (length pat)) with pat' by (unfold slice, pat'; rewrite firstn_all2; auto; rewrite skipn_length; lia).
    assert (Hp' : pat' <> []). { intros E. apply (f_equal (@length nat)) in E. unfold pat' in E. rewrite skipn_length in E. cbn in E. lia. }
    destruct pat' as [|b0 p0] eqn:Ep'; [congruence|]. rewrite <- Ep' in *. clear Ep' b0 p0.
    pose proof (next_leaf_valid _ _ _ _ Hv) as Hn. destruct post as [|l2 post'].
    + destruct Hn as (c1 & -> & E1 & K1 & P1). cbn [bind]. split.
      * intros (u & Eu). exfalso. rewrite Ek, Epat in Eu. cbn [flat_map] in Eu. rewrite app_nil_r in Eu. rewrite <- !app_assoc in Eu.
        rewrite <- (app_nil_r (skipn q l)) in Eu at 1. apply app_inv_head in Eu. destruct pat'; [congruence|discriminate].
      * intros _. destruct f as [|f]; [lia|]. cbn [compare_loop]. unfold c_get_leaf. rewrite E1. cbn [bind]. exists c1. split; auto. right. auto.
    + destruct Hn as (c1 & -> & V1 & P1 & C1 & Hadv). cbn [bind].
      assert (Lp : length pat' = length pat - n) by (unfold pat'; rewrite skipn_length; reflexivity).
      assert (Hiff : occ pat' (c_pos c1) <-> occ pat (c_pos c)).
      { assert (Ek1 : skipn (c_pos c1) s = flat_map idl (l2 :: post')).
        { rewrite P1, Es, app_assoc. replace (llen idl pre + length l) with (length (flat_map idl pre ++ l)) by now rewrite app_length. now rewrite skipn_app_exact. }
        unfold occ. rewrite Ek1, Ek. split; intros (u & Eu); exists u.
        - rewrite Eu, Epat at 1. now rewrite <- app_assoc.
        - rewrite Epat, <- app_assoc in Eu. now apply app_inv_head in Eu. }
      destruct (IH c1 pat' start success) as [I1 I2]; auto; [eexists _, _, _; exact V1|lia|lia|].
      split; intros Ho; [apply I1|apply I2]; tauto.
Qed.
Lemma occ_dec pat i : {occ pat i} + {~ occ pat i}.
Proof.
  destruct (bytes_eqb (firstn (length pat) (skipn i s)) pat) eqn:E.
  - left. apply bytes_eqb_ok in E. exists (skipn (length pat) (skipn i s)). rewrite <- E at 1. now rewrite firstn_skipn.
  - right. intros (u & Eu). rewrite Eu, firstn_app_exact in E by auto. rewrite (proj2 (bytes_eqb_ok _ _)) in E; congruence.
Qed.
Lemma utf8_s : utf8 s. Proof. eapply rope_utf8; eauto. Qed.
Lemma occ_cut pat i : pat <> [] -> utf8 pat -> occ pat i -> scut s i /\ scut s (i + length pat).
Proof.
  intros Hne U Ho. pose proof (occ_len _ _ Hne Ho) as Hl. destruct Ho as (u & E).
  assert (Es : s = firstn i s ++ pat ++ u) by now rewrite <- E, firstn_skipn.
  assert (Li : length (firstn i s) = i) by (rewrite firstn_length; lia).
  assert (C : scut s i).
  { destruct (Nat.eq_dec i 0) as [->|]; [apply cb_0|]. rewrite Es. unfold scut, is_char_boundary. replace (i =? 0) with false by lia.
    rewrite nth_error_app2 by lia. rewrite Li, Nat.sub_diag. destruct U as (cs & F & ->). destruct F as [|c cs H F]; [now destruct Hne|].
    cbn [concat]. destruct (char_shape c H) as (b & t & -> & Hb & _). exact Hb. }
  split; auto. destruct (utf8_cut s i utf8_s C) as [U1 U2]. rewrite Es, app_assoc.
  replace (i + length pat) with (length (firstn i s ++ pat)) by (rewrite app_length; lia). apply scut_app. rewrite E in U2. exact (utf8_rest pat u U U2).
Qed.

(** What a matcher does: it tells whether there is an occurrence at the cursor, and moves the
    cursor to its end or to the next character. *)
Definition mat_spec (occ : nat -> Prop) (fin : nat -> nat -> Prop) (mat : rcursor -> option (option nat * rcursor)) : Prop :=
  forall c, rvalid r c -> scut s (c_pos c) -> c_pos c < length s -> exists m c', mat c = Some (m, c') /\ rvalid r c' /\ scut s (c_pos c') /\
    match m with
    | Some p => p = c_pos c /\ occ p /\ fin p (c_pos c')
    | None => ~ occ (c_pos c) /\ c_pos c < c_pos c' /\ forall x, c_pos c < x < c_pos c' -> ~ scut s x
    end.
(** What a scanner does in a part of the text: it gives the first place there where an
    occurrence may start. *)
Definition scan_spec (occ : nat -> Prop) (scan : scanner) : Prop :=
  forall a t b, s = a ++ t ++ b -> utf8 a -> utf8 t -> utf8 b ->
    match scan t with
    | None => False
    | Some None => forall q, q < length t -> ~ occ (length a + q)
    | Some (Some off) => off < length t /\ scut t off /\ forall q, q < off -> ~ occ (length a + q)
    end.

Lemma exact_mat pat : pat <> [] -> utf8 pat ->
  mat_spec (occ pat) (fun i e => e = i + length pat) (fun c => compare_loop r (length pat + 2) c pat (c_pos c) (c_pos c + length pat)).
Proof.
  intros Hne U c Hv Hc Hl. destruct (compare_loop_ok (length pat + 2) c pat (c_pos c) (c_pos c + length pat)) as [H1 H2]; auto.
  destruct (occ_dec pat (c_pos c)) as [Ho|Ho].
  - destruct (H1 Ho) as (c' & E & V' & P'). exists (Some (c_pos c)), c'. split; auto. split; auto. rewrite P'. split; [now apply occ_cut|]. auto.
  - destruct (H2 Ho) as (c1 & S1 & E). destruct (fail_ok c1 (c_pos c) S1 Hc Hl) as (c' & E' & V' & H3 & H4 & H5).
    exists None, c'. rewrite E. split; auto. split; auto. split; auto. split; auto. split; [lia|auto].
Qed.
Lemma memchr_scan (occ : nat -> Prop) bs : Forall (fun b => is_start b = true) bs ->
  (forall i, occ i -> exists b, nth_error s i = Some b /\ In b bs) -> scan_spec occ (fun t => Some (memchrs bs t)).
Proof.
  intros Hbs Hocc a t b Es Ua Ut Ub. pose proof (memchrs_ok bs t) as Hm.
  assert (Hn : forall q, q < length t -> nth_error s (length a + q) = nth_error t q).
  { intros q Hq. rewrite Es. rewrite nth_error_app2 by lia. rewrite nth_error_app1 by lia. f_equal. lia. }
  destruct (memchrs bs t) as [off|].
  - destruct Hm as [(x & Ex & Hx) Hm]. assert (off < length t) by (apply nth_error_Some; congruence). split; auto. split.
    + unfold scut, is_char_boundary. destruct (off =? 0); auto. rewrite Ex. rewrite Forall_forall in Hbs. now apply Hbs.
    + intros q Hq Ho. destruct (Hocc _ Ho) as (y & Ey & Hy). rewrite Hn in Ey by lia. eapply Hm; eauto.
  - intros q Hq Ho. destruct (Hocc _ Ho) as (y & Ey & Hy). rewrite Hn in Ey by lia. eapply Hm; eauto.
Qed.
Lemma exact_scan b p : utf8 (b :: p) -> scan_spec (occ (b :: p)) (fun t => Some (memchrs [b] t)).
Proof.
  intros U. apply memchr_scan.
  - constructor; auto. destruct U as (cs & F & E). destruct F as [|c cs H F]; [discriminate|]. destruct (char_shape c H) as (b0 & t & -> & Hb & _).
    cbn [concat app] in E. congruence.
  - intros i (u & E). exists b. split; [|now left]. rewrite <- (Nat.add_0_r i), <- nth_error_skipn, E. reflexivity.
Qed.

(** ** The search *)
Section Search.
Context (occ : nat -> Prop) (fin : nat -> nat -> Prop) (mat : rcursor -> option (option nat * rcursor)) (scan : scanner) (pat : list nat).
Context (HM : mat_spec occ fin mat) (HS : scan_spec occ scan) (Hocc : forall i, occ i -> scut s i /\ i < length s).
Definition mat_l : matcher := fun c ls _ => let? (m, c1) := mat c in Some (m, c1, ls).
Definition no_occ a b := forall i, a <= i < b -> ~ occ i.

Definition core_post (c : rcursor) (x : find_result) (c' : rcursor) : Prop :=
  match x with
  | FFound p => c_pos c <= p /\ occ p /\ no_occ (c_pos c) p /\ fin p (c_pos c')
  | FNotFound => forall i, c_pos c <= i -> ~ occ i
  | FTryAgain => c_pos c < c_pos c' /\ no_occ (c_pos c) (c_pos c')
  end.
Lemma find_core_ok c ls : cok c -> exists x c', find_core r c ls pat scan mat_l = Some (x, c', ls) /\ cok c' /\ core_post c x c'.
Proof.
  intros [Hc Hv]. pose proof (cb_le _ _ Hc) as Hle. unfold find_core. rewrite (len_r r h W). destruct (Nat.eqb_spec (c_pos c) (length s)) as [E|Hne].
  { exists FNotFound, c. split; auto. split; [split; auto|]. intros i Hi Ho. apply Hocc in Ho. lia. }
  destruct Hv as [Hv|(_ & _ & Hv)]; [|lia]. assert (Hlt : c_pos c < length s) by lia. pose proof (valid_settable c Hv) as St.
  destruct Hv as (l & pre & post & Hv). destruct (valid_leaf _ _ _ _ Hv) as (Eg & Ul & Hp & Es & U1 & U2 & Hltl).
  destruct (valid_sub _ _ _ _ Hv Hc) as [Cl Ek]. set (q := c_pos c - llen idl pre) in *. specialize (Hltl Hlt).
  rewrite Eg. cbn [bind]. rewrite str_slice_some by (auto using cb_len; lia). cbn [bind].
  replace (slice l q (length l)) with (skipn q l) by (unfold slice; rewrite firstn_all2; auto; rewrite skipn_length; lia).
  pose proof (utf8_cut l q Ul Cl) as [Ul1 Ul2]. pose proof (utf8_cut s (c_pos c) utf8_s Hc) as [Us1 Us2].
  assert (La : length (firstn (c_pos c) s) = c_pos c) by (rewrite firstn_length; lia).
  assert (Es3 : s = firstn (c_pos c) s ++ skipn q l ++ flat_map idl post) by now rewrite <- Ek, firstn_skipn.
  assert (Ll : c_pos c + (length l - q) <= length s). { apply (f_equal (@length nat)) in Ek. rewrite app_length, !skipn_length in Ek. lia. }
  pose proof (HS _ _ _ Es3 Us1 Ul2 U2) as Hs. rewrite La, skipn_length in Hs. destruct (scan (skipn q l)) as [[off|]|]; [| |tauto]; cbn [bind].
  - destruct Hs as (Ho & Co & Hno).
    destruct (rset_ok c (c_pos c + off) St) as (c1 & -> & P1 & V1); [lia|]. cbn [bind].
    assert (C1 : scut s (c_pos c1)).
    { rewrite P1. destruct (Nat.eq_dec off 0) as [->|]; [now rewrite Nat.add_0_r|]. rewrite Es3. rewrite <- La at 2. unfold scut. rewrite cb_shift by lia. rewrite cb_left; auto. now rewrite skipn_length. }
    assert (L1 : c_pos c1 < length s). { rewrite P1. lia. }
    unfold mat_l. destruct (HM c1 V1 C1 L1) as (m & c2 & -> & V2 & C2 & Hm). cbn [bind].
    assert (Hno1 : no_occ (c_pos c) (c_pos c1)). { intros i Hi. replace i with (c_pos c + (i - c_pos c)) by lia. apply Hno. lia. }
    destruct m as [p|].
    + destruct Hm as (-> & Hop & Hf). exists (FFound (c_pos c1)), c2. split; auto. split; [split; auto|]. cbn. split; [lia|]. auto.
    + destruct Hm as (Hn & Hadv & Hb). exists FTryAgain, c2. split; auto. split; [split; auto|]. cbn. split; [lia|]. intros i Hi Hoi.
      destruct (Nat.lt_ge_cases i (c_pos c1)); [eapply Hno1; eauto; lia|]. destruct (Nat.eq_dec i (c_pos c1)) as [->|]; [tauto|].
      apply (Hb i); [lia|]. now apply Hocc.
  - pose proof (next_leaf_valid _ _ _ _ Hv) as Hn. destruct post as [|l2 post'].
    + destruct Hn as (c1 & -> & E1 & K1 & P1). cbn [bind]. exists FTryAgain, c1. split; auto.
      assert (L3 : length s = c_pos c + (length l - q)). { rewrite Es3 at 1. cbn [flat_map]. rewrite app_nil_r, app_length, La, skipn_length. reflexivity. }
      split; [split; auto; rewrite P1; apply cb_len|]. cbn. split; [lia|]. intros i Hi. replace i with (c_pos c + (i - c_pos c)) by lia. apply Hs. lia.
    + destruct Hn as (c1 & -> & V1 & P1 & C1 & Hadv). cbn [bind]. exists FTryAgain, c1. split; auto.
      split; [split; auto; left; eexists _, _, _; exact V1|]. cbn. split; [lia|]. intros i Hi. replace i with (c_pos c + (i - c_pos c)) by lia. apply Hs. lia.
Qed.
Lemma search_ok n : forall c ls, cok c -> exists x c', find_progress_iter r n c ls pat scan mat_l = Some (x, c', ls) /\ cok c' /\
  match x with
  | FFound p => c_pos c <= p /\ occ p /\ no_occ (c_pos c) p /\ fin p (c_pos c')
  | FNotFound => forall i, c_pos c <= i -> ~ occ i
  | FTryAgain => c_pos c + n <= c_pos c' /\ no_occ (c_pos c) (c_pos c')
  end.
Proof.
  induction n as [|n IH]; intros c ls Hc; cbn [find_progress_iter].
  { exists FTryAgain, c. split; auto. split; auto. split; [lia|]. intros i Hi. lia. }
  destruct (find_core_ok c ls Hc) as (x & c1 & -> & C1 & Hx). cbn [bind]. destruct x as [p| |].
  - exists (FFound p), c1. auto.
  - exists FNotFound, c1. auto.
  - destruct Hx as [Hadv Hno]. destruct (IH c1 ls C1) as (x & c2 & -> & C2 & Hx). exists x, c2. split; auto. split; auto. destruct x as [p| |].
    + destruct Hx as (H1 & H2 & H3 & H4). split; [lia|]. split; auto. split; auto. intros i Hi. destruct (Nat.lt_ge_cases i (c_pos c1)); [apply Hno|apply H3]; lia.
    + intros i Hi. destruct (Nat.lt_ge_cases i (c_pos c1)); [apply Hno|apply Hx]; lia.
    + destruct Hx as [H1 H2]. split; [lia|]. intros i Hi. destruct (Nat.lt_ge_cases i (c_pos c1)); [apply Hno|apply H2]; lia.
Qed.
End Search.

(** ** Characters under a cursor *)
Lemma scut_chars p cs : p <= length s -> chars_of (skipn p s) cs -> forall k, scut s p -> scut s (p + length (concat (firstn k cs))).
Proof.
  intros Hp [F E] k C. assert (Es : s = firstn p s ++ concat (firstn k cs) ++ concat (skipn k cs)).
  { rewrite <- concat_app, firstn_skipn, <- E. now rewrite firstn_skipn. }
  rewrite Es, app_assoc. replace (p + _) with (length (firstn p s ++ concat (firstn k cs))) by (rewrite app_length, firstn_length; lia).
  apply scut_app. exists (skipn k cs). split; auto. now apply Forall_skipn.
Qed.
Lemma scut_in_char p ch cs x : p <= length s -> chars_of (skipn p s) (ch :: cs) -> p < x < p + length ch -> ~ scut s x.
Proof.
  intros Hp [F E] Hx C. inversion F as [|? ? H F']; subst. destruct (char_shape ch H) as (b & t & Ech & _ & Ht & _).
  assert (Es : s = firstn p s ++ ch ++ concat cs) by (cbn [concat] in E; now rewrite <- E, firstn_skipn).
  assert (La : length (firstn p s) = p) by (rewrite firstn_length; lia). revert C. unfold scut, is_char_boundary. replace (x =? 0) with false by lia.
  rewrite Es, nth_error_app2, La, nth_error_app1 by lia. rewrite Ech. replace (x - p) with (S (x - p - 1)) by lia. cbn [nth_error].
  destruct (nth_error t (x - p - 1)) eqn:En; [|apply nth_error_None in En; rewrite Ech in Hx; cbn in Hx; lia].
  apply nth_error_In in En. rewrite Forall_forall in Ht. rewrite Ht by auto. discriminate.
Qed.
Lemma next_codepoint_ok c cs : rvalid r c -> scut s (c_pos c) -> chars_of (skipn (c_pos c) s) cs ->
  match cs with
  | [] => exists c', next_codepoint r c = Some (None, c') /\ settable c'
  | ch :: _ => exists c', next_codepoint r c = Some (Some ch, c') /\ rvalid r c' /\ c_pos c' = c_pos c + length ch
  end.
Proof.
  intros Hv Hc Hcs. pose proof (cb_le _ _ Hc) as Hle. destruct (cnext_ok c Hv Hc) as (x & c' & En & Hx).
  destruct Hv as (l & pre & post & Hv). destruct (valid_leaf _ _ _ _ Hv) as (Eg & Ul & Hp & Es & U1 & U2 & Hltl).
  destruct (valid_sub _ _ _ _ Hv Hc) as [Cl Ek]. set (q := c_pos c - llen idl pre) in *.
  unfold next_codepoint. rewrite Eg. cbn [bind]. rewrite En. cbn [bind]. unfold first_char. rewrite str_slice_some by (auto using cb_len; lia). cbn [bind].
  replace (slice l q (length l)) with (skipn q l) by (unfold slice; rewrite firstn_all2; auto; rewrite skipn_length; lia).
  pose proof Hcs as [F E]. destruct cs as [|ch cs].
  - cbn in E. rewrite E in Ek. symmetry in Ek. apply app_eq_nil in Ek as [-> _]. exists c'. split; auto. apply (f_equal (@length nat)) in E. rewrite skipn_length in E. cbn in E.
    destruct x as [p|]; [|tauto]. lia.
  - inversion F as [|? ? H F']; subst. assert (Hl : c_pos c + length ch <= length s). { apply (f_equal (@length nat)) in E. cbn [concat] in E. rewrite app_length, skipn_length in E. lia. }
    destruct (char_shape ch H) as (b & t & Ech & _ & _ & Hlen & Hl14 & _). cbn [concat] in E.
    destruct (utf8_cut l q Ul Cl) as [_ (cl & Fl & El)]. rewrite E, El in Ek. destruct Fl as [|c1 cl H1 Fl].
    { (* the leaf cannot be used up *) exfalso. cbn in El. apply (f_equal (@length nat)) in El. rewrite skipn_length in El. cbn in El. lia. }
    cbn [concat] in Ek. rewrite <- app_assoc in Ek. destruct (char_head _ _ _ _ H H1 Ek) as [<- _]. rewrite El. cbn [concat].
    destruct (first_char_of ch (concat cl) H) as (b' & t' & Ech' & Ef & _). rewrite Ech' in Ef |- *. cbn [app] in Ef |- *. rewrite Ef. cbn [bind]. rewrite <- Ech'.
    exists c'. split; auto. assert (Cn : scut s (c_pos c + length ch)).
    { pose proof (scut_chars (c_pos c) (ch :: cs) Hle Hcs 1 Hc) as C1. cbn [firstn concat] in C1. now rewrite app_nil_r in C1. }
    destruct x as [p|]; [|lia]. destruct Hx as (Ep & H2 & H3 & H4 & H5). split; auto. rewrite Ep.
    destruct (Nat.lt_trichotomy p (c_pos c + length ch)) as [Hlt|[->|Hgt]]; auto.
    + exfalso. eapply (scut_in_char (c_pos c) ch cs p); eauto. lia.
    + exfalso. apply (H4 (c_pos c + length ch)); auto. lia.
Qed.

(** ** The case-insensitive matcher *)
Section CaseI.
Context (lower : list nat -> list (list nat)).
Definition pre (P X : list (list nat)) : Prop := exists u, X = P ++ u.
Lemma pre_dec P X : {pre P X} + {~ pre P X}.
Proof.
  destruct (list_eq_dec (list_eq_dec Nat.eq_dec) (firstn (length P) X) P) as [E|E].
  - left. exists (skipn (length P) X). rewrite <- E at 1. now rewrite firstn_skipn.
  - right. intros (u & ->). apply E. now rewrite firstn_app_exact.
Qed.
Definition lowers (cs : list (list nat)) := flat_map lower cs.
Lemma casei_inner_ok lcs : forall c rest, match casei_inner lcs c rest with
  | Differs => forall Y, ~ pre (c :: rest) (lcs ++ Y)
  | Matched => pre (c :: rest) lcs
  | More c' rest' => c :: rest = lcs ++ c' :: rest'
  end.
Proof.
  induction lcs as [|lc lcs IH]; intros c rest; cbn [casei_inner]; [reflexivity|].
  destruct (bytes_eqb c lc) eqn:E; cbn [negb].
  - apply bytes_eqb_ok in E as ->. destruct rest as [|c' rest]; [exists lcs; reflexivity|]. specialize (IH c' rest). destruct (casei_inner lcs c' rest).
    + intros Y (u & Eu). cbn [app] in Eu. injection Eu as Eu. apply (IH Y). exists u. exact Eu.
    + destruct IH as (u & ->). exists u. reflexivity.
    + cbn [app]. now rewrite <- IH.
  - intros Y (u & Eu). cbn [app] in Eu. injection Eu as <- _. rewrite (proj2 (bytes_eqb_ok lc lc)) in E; congruence.
Qed.
Lemma casei_loop_ok cs : forall fuel cur c rest start, rvalid r cur -> scut s (c_pos cur) -> chars_of (skipn (c_pos cur) s) cs -> length cs + 1 <= fuel ->
  (forall k, k <= length cs -> pre (c :: rest) (lowers (firstn k cs)) -> (forall j, j < k -> ~ pre (c :: rest) (lowers (firstn j cs))) ->
     exists cur', casei_loop lower r fuel cur c rest start = Some (Some start, cur') /\ rvalid r cur' /\ c_pos cur' = c_pos cur + length (concat (firstn k cs))) /\
  (~ pre (c :: rest) (lowers cs) -> exists cur', settable cur' /\ casei_loop lower r fuel cur c rest start = fail_at r cur' start).
Proof.
  induction cs as [|ch cs IH]; intros [|f] cur c rest start Hv Hc Hcs Hf; try lia; cbn [casei_loop];
    pose proof (next_codepoint_ok cur _ Hv Hc Hcs) as Hn; cbn [length] in Hf.
  - destruct Hn as (c' & -> & S'). cbn [bind]. split; [|eauto]. intros k _ (u & Eu) _. destruct k; discriminate.
  - destruct Hn as (c' & -> & V' & P'). cbn [bind]. pose proof (casei_inner_ok (lower ch) c rest) as Hi. destruct (casei_inner (lower ch) c rest) as [| |c2 rest2].
    + split.
      * intros k Hk (u & Eu) _. exfalso. destruct k as [|k]; [discriminate|]. cbn in Eu. apply (Hi (lowers (firstn k cs))). exists u. exact Eu.
      * intros _. exists c'. split; auto. now apply valid_settable.
    + assert (Hp1 : forall Y, pre (c :: rest) (lower ch ++ Y)). { intros Y. destruct Hi as (u & ->). exists (u ++ Y). now rewrite app_assoc. } split.
      * intros k Hk Hpk Hj. exists c'. split; auto. split; auto. assert (k = 1) as ->; [|cbn [firstn concat]; now rewrite app_nil_r].
        destruct k as [|[|k]]; auto; [destruct Hpk as (u & Eu); discriminate|]. exfalso. apply (Hj 1); [lia|]. apply (Hp1 []).
      * intros Hn. exfalso. apply Hn. apply (Hp1 (lowers cs)).
    + pose proof Hcs as [F E]. inversion F as [|? ? H F']; subst.
      assert (Hcs' : chars_of (skipn (c_pos c') s) cs). { split; auto. rewrite P', <- skipn_skipn, E. cbn [concat]. now rewrite skipn_app_exact. }
      assert (C' : scut s (c_pos c')).
      { rewrite P'. pose proof (scut_chars (c_pos cur) (ch :: cs) (cb_le _ _ Hc) Hcs 1 Hc) as C1. cbn [firstn concat] in C1. now rewrite app_nil_r in C1. }
      destruct (IH f c' c2 rest2 start V' C' Hcs' ltac:(lia)) as [I1 I2].
      assert (Hiff : forall Y, pre (c :: rest) (lower ch ++ Y) <-> pre (c2 :: rest2) Y).
      { intros Y. rewrite Hi. split; intros (u & Eu); exists u; [rewrite <- app_assoc in Eu; now apply app_inv_head in Eu|rewrite Eu; now rewrite <- app_assoc]. }
      split.
      * intros k Hk Hpk Hj. destruct k as [|k]; [destruct Hpk as (u & Eu); discriminate|]. cbn [firstn lowers flat_map] in Hpk.
        destruct (I1 k) as (c3 & E3 & V3 & P3).
        -- cbn [length] in Hk. lia.
        -- now apply Hiff.
        -- intros j Hjk Hpj. apply (Hj (S j)); [lia|]. now apply Hiff.
        -- exists c3. split; auto. split; auto. rewrite P3, P'. cbn [firstn concat]. rewrite app_length. lia.
      * intros Hn. destruct I2 as (c3 & S3 & E3); eauto. intros Hpre. apply Hn. now apply Hiff.
Qed.
Lemma least {P : nat -> Prop} (D : forall k, {P k} + {~ P k}) n : P n -> exists k, k <= n /\ P k /\ forall j, j < k -> ~ P j.
Proof.
  induction n as [n IH] using (well_founded_induction lt_wf). intros Hn.
  assert (Hd : (exists j, j < n /\ P j) \/ forall j, j < n -> ~ P j).
  { clear IH Hn. induction n as [|n [(j & Hj & Hp)|Hn]]; [right; lia|left; exists j; split; auto; lia|]. destruct (D n) as [Hp|Hp]; [left; exists n; auto|].
    right. intros j Hj. destruct (Nat.eq_dec j n) as [->|]; auto. apply Hn. lia. }
  destruct Hd as [(j & Hj & Hp)|Hno]; [|exists n; auto]. destruct (IH j Hj Hp) as (k & Hk & Hpk & Hjk). exists k. split; [lia|auto].
Qed.

(** The text from [i] to [e] is, in lowercase, the pattern, or starts with it. *)
Definition imatch (pl : list nat) (i e : nat) : Prop := scut s i /\ scut s e /\ i <= e /\ pre (chars pl) (lowers (chars (slice s i e))).
Definition iocc pl i := exists e, imatch pl i e.
Definition ifin pl i e := imatch pl i e /\ forall e', imatch pl i e' -> e <= e'.
Lemma imatch_chars pl i cs : scut s i -> chars_of (skipn i s) cs -> forall e,
  imatch pl i e <-> exists k, k <= length cs /\ e = i + length (concat (firstn k cs)) /\ pre (chars pl) (lowers (firstn k cs)).
Proof.
  intros Ci Hcs e. pose proof (cb_le _ _ Ci) as Hi. pose proof Hcs as [F E].
  assert (Hsl : forall k, slice s i (i + length (concat (firstn k cs))) = concat (firstn k cs)).
  { intros k. unfold slice. rewrite E. replace (i + _ - i) with (length (concat (firstn k cs))) by lia. rewrite <- (firstn_skipn k cs) at 2. rewrite concat_app. now rewrite firstn_app_exact. }
  assert (Hch : forall k, chars (slice s i (i + length (concat (firstn k cs)))) = firstn k cs).
  { intros k. rewrite Hsl. apply chars_ok. split; auto. now apply Forall_firstn. }
  split.
  - intros (_ & Ce & Hie & Hp). assert (Ce' : scut (concat cs) (e - i)).
    { rewrite <- E. destruct (Nat.eq_dec e i) as [->|]; [rewrite Nat.sub_diag; apply cb_0|]. unfold scut in *. rewrite <- (firstn_skipn i s) in Ce.
      replace e with (length (firstn i s) + (e - i)) in Ce by (rewrite firstn_length; lia). now rewrite cb_shift in Ce by lia. }
    destruct (cb_chars cs F _ Ce') as (a & b & -> & El). exists (length a). rewrite firstn_app_exact by auto. rewrite app_length.
    assert (e = i + length (concat a)) as -> by lia. split; [lia|]. split; auto.
    specialize (Hch (length a)). rewrite firstn_app_exact in Hch by auto. now rewrite Hch in Hp.
  - intros (k & Hk & -> & Hp). split; auto. split; [now apply scut_chars|]. split; [lia|]. now rewrite Hch.
Qed.
Lemma casei_mat pl c0 rest0 : chars pl = c0 :: rest0 -> mat_spec (iocc pl) (ifin pl) (fun c => casei_loop lower r (n_len r + 2) c c0 rest0 (c_pos c)).
Proof.
  intros Epl c Hv Hc Hl. destruct (utf8_cut s (c_pos c) utf8_s Hc) as [_ Ur]. pose proof (chars_is _ Ur) as Hcs. set (cs := chars (skipn (c_pos c) s)) in *.
  pose proof (imatch_chars pl (c_pos c) cs Hc Hcs) as Him. rewrite Epl in Him.
  assert (Hf : length cs + 1 <= n_len r + 2).
  { rewrite (len_r r h W). pose proof Hcs as [F E]. apply (f_equal (@length nat)) in E. rewrite skipn_length in E.
    assert (length cs <= length (concat cs)); [|lia]. clearbody cs. clear -F. induction F as [|c1 cs H F IH]; cbn; [lia|]. destruct (char_shape c1 H) as (b & t & -> & _).
    rewrite app_length. cbn. lia. }
  destruct (casei_loop_ok cs (n_len r + 2) c c0 rest0 (c_pos c) Hv Hc Hcs Hf) as [H1 H2].
  destruct (pre_dec (c0 :: rest0) (lowers cs)) as [Hp|Hp].
  - assert (Hp' : pre (c0 :: rest0) (lowers (firstn (length cs) cs))) by now rewrite firstn_all.
    destruct (least (fun k => pre_dec (c0 :: rest0) (lowers (firstn k cs))) (length cs) Hp') as (k & Hk & Hpk & Hj).
    destruct (H1 k Hk Hpk Hj) as (c' & E & V' & P'). exists (Some (c_pos c)), c'. split; auto. split; auto. rewrite P'.
    split; [apply scut_chars; auto; now apply cb_le|]. split; auto.
    assert (Hm : imatch pl (c_pos c) (c_pos c + length (concat (firstn k cs)))) by (apply Him; exists k; auto).
    split; [now exists (c_pos c + length (concat (firstn k cs)))|]. split; auto. intros e' He'. apply Him in He' as (k' & Hk' & -> & Hpk').
    assert (k <= k'). { destruct (Nat.le_gt_cases k k'); auto. exfalso. now apply (Hj k'). }
    rewrite <- (firstn_skipn k (firstn k' cs)), concat_app, app_length, firstn_firstn. replace (Nat.min k k') with k by lia. lia.
  - destruct (H2 Hp) as (c1 & S1 & E). destruct (fail_ok c1 (c_pos c) S1 Hc Hl) as (c' & E' & V' & H3 & H4 & H5).
    exists None, c'. rewrite E. split; auto. split; auto. split; auto. split; [|split; [lia|auto]]. intros (e & He). apply Him in He as (k & Hk & -> & (u & Eu)).
    apply Hp. exists (u ++ lowers (skipn k cs)). rewrite <- (firstn_skipn k cs) at 1. unfold lowers in *. rewrite flat_map_app, Eu. now rewrite <- app_assoc.
Qed.
(** The first character of an occurrence. *)
Lemma iocc_head pl c0 rest0 i : chars pl = c0 :: rest0 -> (forall c, lower c <> []) -> iocc pl i ->
  scut s i /\ i < length s /\ exists ch u, utf8_char ch = true /\ skipn i s = ch ++ u /\ nth_error (lower ch) 0 = Some c0.
Proof.
  intros Epl Hne (e & He). pose proof He as (Ci & _). destruct (utf8_cut s i utf8_s Ci) as [_ Ur]. pose proof (chars_is _ Ur) as Hcs.
  apply (imatch_chars pl i _ Ci Hcs) in He as (k & Hk & -> & (u & Eu)). rewrite Epl in Eu. destruct (chars (skipn i s)) as [|ch cs]; [destruct k; discriminate|].
  destruct k as [|k]; [discriminate|]. destruct Hcs as [F E]. inversion F as [|? ? H F']; subst. split; auto.
  destruct (char_shape ch H) as (b & t & Ech & _). split.
  - apply (f_equal (@length nat)) in E. cbn [concat] in E. rewrite app_length, skipn_length, Ech in E. cbn in E. lia.
  - exists ch, (concat cs). split; auto. split; auto. cbn in Eu. specialize (Hne ch). destruct (lower ch); [congruence|]. cbn in *. congruence.
Qed.
Lemma scan_chars_ok probe : (forall c, lower c <> []) -> forall cs i, match scan_chars lower probe cs i with
  | None => False
  | Some None => forall c, In c cs -> nth_error (lower c) 0 <> Some probe
  | Some (Some off) => exists a ch b, cs = a ++ ch :: b /\ off = i + length (concat a) /\ forall c, In c a -> nth_error (lower c) 0 <> Some probe
  end.
Proof.
  intros Hne. induction cs as [|c cs IH]; intros i; cbn [scan_chars]; [intros c []|]. specialize (Hne c). destruct (lower c) as [|l ls] eqn:El; [congruence|].
  destruct (bytes_eqb l probe) eqn:Eb.
  - exists [], c, cs. split; [reflexivity|]. split; [cbn; lia|]. intros x [].
  - assert (Hl : nth_error (lower c) 0 <> Some probe). { rewrite El. cbn. intros [= ->]. rewrite (proj2 (bytes_eqb_ok probe probe)) in Eb; congruence. }
    specialize (IH (i + length c)). destruct (scan_chars lower probe cs (i + length c)) as [[off|]|]; auto.
    + destruct IH as (a & ch & b & -> & -> & Ha). exists (c :: a), ch, b. cbn [concat app]. rewrite app_length. split; auto. split; [lia|]. intros x [<-|Hx]; auto.
    + intros x [<-|Hx]; auto.
Qed.
Lemma lowercase_scan pl c0 rest0 : chars pl = c0 :: rest0 -> (forall c, lower c <> []) -> scan_spec (iocc pl) (scan_lowercase lower c0).
Proof.
  intros Epl Hne a t b Es Ua Ut Ub. unfold scan_lowercase. pose proof (chars_is _ Ut) as [F E]. set (ct := chars t) in *.
  clearbody ct. pose proof (scan_chars_ok c0 Hne ct 0) as Hs.
  (* an occurrence is at a character of this part *)
  assert (Hch : forall q, q < length t -> iocc pl (length a + q) -> exists c1 ch c2, ct = c1 ++ ch :: c2 /\ q = length (concat c1) /\ nth_error (lower ch) 0 = Some c0).
  { intros q Hq Ho. destruct (iocc_head pl c0 rest0 _ Epl Hne Ho) as (Ci & _ & ch & u & Hc & Eu & Hh).
    assert (Cq : scut t q). { rewrite Es in Ci. eapply (t_cut_sub _ _ _ _ _ rope_text_spec); eauto. lia. }
    rewrite E in Cq. destruct (cb_chars ct F q Cq) as (c1 & c2 & Ec & Eq). rewrite Ec in F, E. apply Forall_app in F as [F1 F2].
    destruct F2 as [|ch' c2 H' F2]; [exfalso; rewrite E, app_nil_r in Hq; lia|]. exists c1, ch', c2. split; auto. split; auto.
    rewrite Es, skipn_app_plus, skipn_app in Eu. replace (q - length t) with 0 in Eu by lia. cbn [skipn] in Eu. rewrite E, concat_app, Eq, skipn_app_exact in Eu by auto.
    cbn [concat] in Eu. rewrite <- app_assoc in Eu. destruct (char_head _ _ _ _ H' Hc Eu) as [-> _]. exact Hh. }
  destruct (scan_chars lower c0 ct 0) as [[off|]|]; [| |tauto].
  - destruct Hs as (c1 & ch & c2 & Ec & -> & Hc1). cbn [Nat.add].
    assert (length (concat c1) < length t).
    { rewrite E, Ec, concat_app, app_length. cbn [concat]. rewrite app_length. rewrite Ec in F. apply Forall_app in F as [_ F]. inversion F as [|? ? H ?]; subst.
      destruct (char_shape ch H) as (b0 & t0 & -> & _). cbn. lia. }
    split; auto. split; [rewrite E, Ec; apply cb_start; rewrite Ec in F; now apply Forall_app in F|].
    intros q Hq Ho. destruct (Hch q ltac:(lia) Ho) as (d1 & dh & d2 & Ed & Eq & Hh). apply (Hc1 dh); auto.
    rewrite Ed in Ec. apply app_eq_app in Ec as (w & [[-> Ew]|[-> Ew]]).
    + exfalso. rewrite Eq, concat_app, app_length in Hq. lia.
    + destruct w as [|w0 w]; [rewrite app_nil_r in Hq; lia|]. injection Ew as <- _. apply in_or_app. right. now left.
  - intros q Hq Ho. destruct (Hch q Hq Ho) as (d1 & dh & d2 & Ed & Eq & Hh). apply (Hs dh); auto. rewrite Ed. apply in_or_app. right. now left.
Qed.
Lemma casei_memchr pl c0 rest0 bs : chars pl = c0 :: rest0 -> (forall c, lower c <> []) -> Forall (fun b => is_start b = true) bs ->
  (forall c, utf8_char c = true -> nth_error (lower c) 0 = Some c0 -> exists b t, c = b :: t /\ In b bs) ->
  scan_spec (iocc pl) (fun t => Some (memchrs bs t)).
Proof.
  intros Epl Hne Hbs Htab. apply memchr_scan; auto. intros i Ho. destruct (iocc_head pl c0 rest0 i Epl Hne Ho) as (_ & _ & ch & u & Hc & Eu & Hh).
  destruct (Htab ch Hc Hh) as (b & t & -> & Hb). exists b. split; auto. rewrite <- (Nat.add_0_r i), <- nth_error_skipn, Eu. reflexivity.
Qed.
End CaseI.

(** ** Regular expressions *)
Section Regex.
Context (rl : rope) (hl : nat) (Wl : rope_wf hl rl).
Context (rx : list nat -> option (nat * nat)) (pat : list nat) (Hpat : pat <> []).
(** What a regular expression engine gives: a part of the text, at characters. *)
Definition rx_ok : Prop := forall x, utf8 x -> match rx x with Some (a, b) => a <= b <= length x /\ scut x a /\ scut x b | None => True end.
Context (Hrx : rx_ok).

Lemma lines_next_ok it t : lr_ok rl it t ->
  (t = [] /\ exists it', lines_raw_next (n_len rl + 2) rl it = Some (None, it')) \/
  (exists line it' t', lines_raw_next (n_len rl + 2) rl it = Some (Some line, it') /\ lr_ok rl it' t' /\ t = line ++ t' /\
    ((exists l, line = l ++ [NL] /\ ~ In NL l) \/ (line <> [] /\ ~ In NL line /\ t' = []))).
Proof.
  intros Hok. unfold lines_raw_next. apply (lines_raw_loop_ok rl hl Wl (n_len rl + 2) it t []); auto.
  rewrite (len_r rl hl Wl). destruct Hok as (rem & Hi & Et & U). exists rem. repeat split; auto. pose proof (ci_len rl _ _ Hi). destruct (lr_fragment it); lia.
Qed.
Lemma raw_lines_concat t ls : raw_lines t ls -> concat ls = t.
Proof. induction 1; cbn [concat]; auto; [apply app_nil_r|]. rewrite IHraw_lines. now rewrite <- app_assoc. Qed.
Definition mat_r : matcher := compare_cursor_regex r rl rx.
Notation any := (fun _ => Some (Some 0)).

Lemma regex_core c it : cok c -> c_pos c < length s ->
  exists c1, c_pos c1 = c_pos c /\ rvalid r c1 /\
    find_core r c it pat any mat_r = (let? (m, c2, ls2) := mat_r c1 it pat in match m with Some p => Some (FFound p, c2, ls2) | None => Some (FTryAgain, c2, ls2) end).
Proof.
  intros [Hc Hv] Hlt. unfold find_core. rewrite (len_r r h W). replace (c_pos c =? length s) with false by lia. destruct Hv as [Hv|(_ & _ & E)]; [|lia].
  pose proof (valid_settable c Hv) as St. destruct Hv as (l & pre & post & Hv). destruct (valid_leaf _ _ _ _ Hv) as (Eg & Ul & Hp & Es & U1 & U2 & _).
  destruct (valid_sub _ _ _ _ Hv Hc) as [Cl _]. rewrite Eg. cbn [bind]. rewrite str_slice_some by (auto using cb_len; lia). cbn [bind].
  destruct (rset_ok c (c_pos c + 0) St) as (c1 & -> & P1 & V1); [lia|]. cbn [bind]. exists c1. rewrite Nat.add_0_r in P1. auto.
Qed.
Lemma regex_end n c it : c_pos c = length s -> find_progress_iter r (S n) c it pat any mat_r = Some (FNotFound, c, it).
Proof. intros E. cbn [find_progress_iter]. unfold find_core. rewrite (len_r r h W), E, Nat.eqb_refl. reflexivity. Qed.

Lemma regex_lines (Hml : is_multiline_regex pat = false) n : forall c it t, cok c -> skipn (c_pos c) s = t -> lr_ok rl it t -> length t < n ->
  exists ls x c' it', raw_lines t ls /\ find_progress_iter r n c it pat any mat_r = Some (x, c', it') /\
  match x with
  | FFound p => exists l1 l l2 a b, ls = l1 ++ l :: l2 /\ Forall (fun l => rx l = None) l1 /\ rx l = Some (a, b) /\
      p = c_pos c + length (concat l1) + a /\ c_pos c' = c_pos c + length (concat l1) + b /\ cok c'
  | FNotFound => Forall (fun l => rx l = None) ls
  | FTryAgain => False
  end.
Proof.
  induction n as [|n IH]; intros c it t Hc Et Hok Hn; [lia|]. pose proof Hc as [Cc _]. pose proof (cb_le _ _ Cc) as Hle.
  destruct (Nat.eq_dec (c_pos c) (length s)) as [E|Hne].
  { exists [], FNotFound, c, it. rewrite E, skipn_all in Et. subst t. split; [constructor|]. split; [now apply regex_end|constructor]. }
  destruct (regex_core c it Hc ltac:(lia)) as (c1 & P1 & V1 & Ecore). cbn [find_progress_iter]. rewrite Ecore. unfold mat_r at 1, compare_cursor_regex.
  destruct pat as [|p0 pat'] eqn:Ep; [congruence|]. rewrite <- Ep in *. clear Ep p0 pat'. rewrite Hml.
  destruct (lines_next_ok it t Hok) as [[Et0 _]|(line & it' & t' & -> & Hok' & Et' & Hline)].
  { exfalso. apply (f_equal (@length nat)) in Et. rewrite skipn_length, Et0 in Et. cbn in Et. lia. }
  cbn [bind]. rewrite P1.
  assert (Hl1 : line <> []) by (destruct Hline as [(l & -> & _)|(H & _)]; [destruct l; discriminate|auto]).
  assert (Lt : length s = c_pos c + length line + length t'). { apply (f_equal (@length nat)) in Et. rewrite skipn_length, Et', app_length in Et. lia. }
  assert (Ut : utf8 t) by (rewrite <- Et; now apply utf8_cut; [apply utf8_s|]).
  assert (Cl : scut t (length line)).
  { destruct Hline as [(l & -> & _)|(_ & _ & ->)].
    - rewrite app_length. cbn. rewrite Nat.add_1_r. apply cb_after_nl; auto. rewrite Et', <- app_assoc, nth_error_app2, Nat.sub_diag by lia. reflexivity.
    - rewrite Et', app_nil_r. apply cb_len. }
  assert (Hcut : forall q, scut t q -> scut s (c_pos c + q)).
  { intros q Hq. destruct (Nat.eq_dec q 0) as [->|]; [now rewrite Nat.add_0_r|]. rewrite <- (firstn_skipn (c_pos c) s), Et.
    replace (c_pos c) with (length (firstn (c_pos c) s)) at 2 by (rewrite firstn_length; lia). unfold scut. now rewrite cb_shift by lia. }
  assert (Ul : utf8 line). { pose proof (utf8_cut t _ Ut Cl) as [U1 _]. now rewrite Et', firstn_app_exact in U1. }
  pose proof (Hrx line Ul) as Hm. destruct (rx line) as [[a b]|] eqn:Erx.
  - destruct Hm as (Hab & Ca & Cb). destruct (rset_ok c1 (c_pos c + b) (valid_settable _ V1)) as (c2 & -> & P2 & V2); [lia|]. cbn [bind].
    assert (exists ls, raw_lines t ls /\ exists l2, ls = line :: l2) as (ls & Rl & l2 & ->).
    { destruct Hline as [(l & -> & Hnl)|(_ & Hnl & ->)].
      - destruct (lines_raw_rest_ok rl hl Wl (length t') it' t' Hok' ltac:(lia)) as (ls & _ & R). exists ((l ++ [NL]) :: ls). split; [|eauto]. rewrite Et', <- app_assoc. now apply (rl_cons l t' ls).
      - exists [line]. rewrite Et', app_nil_r. split; [now apply rl_last|eauto]. }
    exists (line :: l2), (FFound (c_pos c + a)), c2, it'. split; auto. split; auto. exists [], line, l2, a, b. cbn. rewrite Nat.add_0_r. repeat split; auto.
    rewrite P2. apply Hcut. rewrite Et'. destruct (Nat.eq_dec b (length line)) as [->|]; [now rewrite <- Et'|]. unfold scut. rewrite cb_left; auto. lia.
  - destruct (rset_ok c1 (c_pos c + length line) (valid_settable _ V1)) as (c2 & -> & P2 & V2); [lia|]. cbn [bind].
    destruct (IH c2 it' t') as (ls & x & c' & it2 & Rl & E & Hx).
    + split; auto. rewrite P2. now apply Hcut.
    + rewrite P2, <- skipn_skipn, Et, Et'. now rewrite skipn_app_exact.
    + exact Hok'.
    + rewrite Et', app_length in Hn. destruct line; [congruence|]. cbn in Hn. lia.
    + exists (line :: ls), x, c', it2. split; [|split; auto].
      * rewrite Et'. destruct Hline as [(l & -> & Hnl)|(_ & Hnl & ->)]; [rewrite <- app_assoc; now apply (rl_cons l t' ls)|].
        rewrite app_nil_r. inversion Rl; subst; [now apply rl_last|congruence|destruct l; discriminate].
      * destruct x as [p| |]; auto. destruct Hx as (l1 & l & l2 & a & b & -> & Hl & Eb & Ep & Ec' & Hc'). exists (line :: l1), l, l2, a, b. cbn [concat app].
        rewrite app_length. repeat split; auto; try lia; try apply Hc'.
Qed.
Lemma regex_multi (Hml : is_multiline_regex pat = true) n : forall c it t, cok c -> c_pos c < length s -> skipn (c_pos c) s = t -> lr_ok rl it t -> length t <= n_len rl ->
  exists x c' it', find_progress_iter r (S (S n)) c it pat any mat_r = Some (x, c', it') /\
  match x with
  | FFound p => exists a b, rx t = Some (a, b) /\ p = c_pos c + a /\ c_pos c' = c_pos c + b /\ cok c'
  | FNotFound => rx t = None
  | FTryAgain => False
  end.
Proof.
  intros c it t Hc Hlt Et Hok Hn. pose proof Hc as [Cc _]. destruct (regex_core c it Hc Hlt) as (c1 & P1 & V1 & Ecore). cbn [find_progress_iter]. rewrite Ecore. unfold mat_r at 1, compare_cursor_regex.
  destruct pat as [|p0 pat'] eqn:Ep; [congruence|]. rewrite <- Ep in *. clear Ep p0 pat'. rewrite Hml.
  destruct (lines_raw_rest_ok rl hl Wl (n_len rl + 1) it t Hok ltac:(lia)) as (ls & -> & R). cbn [bind]. rewrite (raw_lines_concat _ _ R). rewrite P1.
  assert (Ut : utf8 t) by (rewrite <- Et; now apply utf8_cut; [apply utf8_s|]).
  assert (Lt : length s = c_pos c + length t). { apply (f_equal (@length nat)) in Et. rewrite skipn_length in Et. lia. }
  pose proof (Hrx t Ut) as Hm. destruct (rx t) as [[a b]|] eqn:Erx.
  - destruct Hm as (Hab & Ca & Cb). destruct (rset_ok c1 (c_pos c + b) (valid_settable _ V1)) as (c2 & -> & P2 & V2); [lia|]. cbn [bind].
    exists (FFound (c_pos c + a)), c2, (LinesRaw (ChunkIter (ci_cursor (lr_inner it)) 0) []). split; auto. exists a, b. repeat split; auto.
    rewrite P2. destruct (Nat.eq_dec b 0) as [->|]; [now rewrite Nat.add_0_r|]. rewrite <- (firstn_skipn (c_pos c) s), Et.
    replace (c_pos c) with (length (firstn (c_pos c) s)) at 2 by (rewrite firstn_length; lia). unfold scut. now rewrite cb_shift by lia.
  - destruct (rset_ok c1 (c_pos c + length t) (valid_settable _ V1)) as (c2 & -> & P2 & V2); [lia|]. cbn [bind].
    unfold find_core. rewrite (len_r r h W), P2, <- Lt, Nat.eqb_refl. cbn [bind]. exists FNotFound, c2, (LinesRaw (ChunkIter (ci_cursor (lr_inner it)) 0) []). auto.
Qed.
End Regex.
End Rope.
