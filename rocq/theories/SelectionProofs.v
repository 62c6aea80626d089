(** Selections: the invariant, and what a selection is determined by. *)
From Coq Require Import List Arith Lia Bool ZifyBool.
From Verif Require Import Base ListLib DeltaModel DeltaSpec DeltaProofs2 IndexSetModel IndexSetProofs SelectionModel.
Import ListNotations.

(** [a] lies before [b], and does not touch it if one of them is a caret. *)
Definition ilt (a b : region) : Prop :=
  rmax a <= rmin b /\ (rmin a = rmax a \/ rmin b = rmax b -> rmax a < rmin b).
Fixpoint sok (rs : list region) : Prop :=
  match rs with [] => True | r :: rs' => Forall (ilt r) rs' /\ sok rs' end.

(** The three kinds of point of a region: units inside, offsets it touches, offsets strictly inside. *)
Inductive kind := KCov | KTouch | KIn.
Definition has (k : kind) (lo hi p : nat) : Prop :=
  match k with KCov => lo <= p < hi | KTouch => lo <= p <= hi | KIn => lo < p < hi end.
Definition pts (k : kind) (rs : list region) (p : nat) : Prop := exists r, In r rs /\ has k (rmin r) (rmax r) p.

Lemma min_le_max r : rmin r <= rmax r.
Proof. unfold rmin, rmax. lia. Qed.
Lemma is_caret_ok r : is_caret r = (rmin r =? rmax r).
Proof. unfold is_caret, rmin, rmax. lia. Qed.
Lemma merge_min a b : rmin (merge_with a b) = Nat.min (rmin a) (rmin b).
Proof. pose proof (min_le_max a). pose proof (min_le_max b). unfold merge_with. destruct (r_start a <=? r_end a); unfold rmin at 1; cbn [r_start r_end region_new]; lia. Qed.
Lemma merge_max a b : rmax (merge_with a b) = Nat.max (rmax a) (rmax b).
Proof. pose proof (min_le_max a). pose proof (min_le_max b). unfold merge_with. destruct (r_start a <=? r_end a); unfold rmax at 1; cbn [r_start r_end region_new]; lia. Qed.

Lemma pts_nil k p : ~ pts k [] p.
Proof. intros (r & [] & _). Qed.
Lemma pts_cons k r rs p : pts k (r :: rs) p <-> has k (rmin r) (rmax r) p \/ pts k rs p.
Proof.
  split.
  - intros (q & [->|H] & Hp); [auto|]. right. now exists q.
  - intros [H|(q & H & Hp)]; [exists r; split; [now left|auto]|exists q; split; [now right|auto]].
Qed.
Lemma pts_app k a b p : pts k (a ++ b) p <-> pts k a p \/ pts k b p.
Proof. induction a as [|r a IH]; cbn [app]; [split; [auto|intros [H|H]; [now apply pts_nil in H|auto]]|]. rewrite !pts_cons, IH. tauto. Qed.

Lemma sok_app a b : sok (a ++ b) <-> sok a /\ sok b /\ forall x y, In x a -> In y b -> ilt x y.
Proof.
  induction a as [|r a IH]; cbn [app sok]; [split; [intros H; split; [exact Logic.I|split; [auto|intros ? ? []]]|tauto]|].
  rewrite IH, Forall_app. rewrite !Forall_forall. split.
  - intros ((H1 & H2) & H3 & H4 & H5). split; [split; auto|]. split; [auto|]. intros x y [<-|H]; auto.
  - intros ((H1 & H2) & H3 & H4). split; [split; [auto|intros x Hx; apply H4; [now left|auto]]|]. split; [auto|]. split; [auto|]. intros x y Hx Hy. apply H4; [now right|auto].
Qed.

Lemma search_ok rs off : sok rs -> search rs off <= length rs /\
  Forall (fun r => rmax r < off) (firstn (search rs off) rs) /\ Forall (fun r => off <= rmax r) (skipn (search rs off) rs).
Proof.
  induction rs as [|r rs IH]; intros S; cbn [search]. { repeat constructor. }
  destruct S as (S1 & S2). destruct (IH S2) as (I1 & I2 & I3). destruct (rmax r <? off) eqn:E.
  - cbn [length firstn skipn]. split; [lia|]. split; auto. constructor; auto. lia.
  - cbn [length firstn skipn]. split; [lia|]. split; [constructor|]. constructor; [lia|]. rewrite Forall_forall in *. intros x Hx. destruct (S1 x Hx) as [Hx' _]. pose proof (min_le_max x). lia.
Qed.

Lemma should_merge_ok a b : should_merge a b = true <-> rmin b < rmax a \/ ((rmin a = rmax a \/ rmin b = rmax b) /\ rmin b = rmax a).
Proof. unfold should_merge. rewrite !is_caret_ok. lia. Qed.

(** Merging keeps the points. *)
Lemma merge_pts k a b p : rmin a <= rmin b \/ rmin b <= rmin a ->
  (rmin a <= rmin b -> rmin b < rmax a \/ ((rmin a = rmax a \/ rmin b = rmax b) /\ rmin b = rmax a)) ->
  (rmin b <= rmin a -> rmin a < rmax b \/ ((rmin a = rmax a \/ rmin b = rmax b) /\ rmin a = rmax b)) ->
  (has k (rmin (merge_with a b)) (rmax (merge_with a b)) p <-> has k (rmin a) (rmax a) p \/ has k (rmin b) (rmax b) p).
Proof.
  intros _ H1 H2. rewrite merge_min, merge_max. pose proof (min_le_max a). pose proof (min_le_max b).
  destruct (Nat.le_ge_cases (rmin a) (rmin b)) as [L|L]; [specialize (H1 L); clear H2|specialize (H2 L); clear H1]; destruct k; cbn [has]; lia.
Qed.

Lemma merge_loop_ok rs : forall r, sok rs -> Forall (fun o => rmin r <= rmin o) rs ->
  let (n, r') := merge_loop r rs in
  n <= length rs /\ rmin r' = rmin r /\ rmax r <= rmax r' /\ Forall (ilt r') (skipn n rs) /\
  forall k p, has k (rmin r') (rmax r') p <-> has k (rmin r) (rmax r) p \/ pts k (firstn n rs) p.
Proof.
  induction rs as [|o rs IH]; intros r S Hm; cbn [merge_loop].
  - cbn [length skipn firstn]. repeat split; auto. intros [H|H]; [auto|now apply pts_nil in H].
  - destruct S as (S1 & S2). inversion_clear Hm as [|? ? Ho Hm']. pose proof (min_le_max r) as Lr. pose proof (min_le_max o) as Lo. destruct (should_merge r o) eqn:E.
    + specialize (IH (merge_with r o) S2). rewrite merge_min in IH. replace (Nat.min (rmin r) (rmin o)) with (rmin r) in IH by lia.
      specialize (IH Hm'). destruct (merge_loop (merge_with r o) rs) as [n r']. destruct IH as (I1 & I2 & I3 & I4 & I5). rewrite merge_max in I3.
      cbn [length skipn firstn]. repeat split; auto; try lia.
      * intros H. rewrite I5 in H. rewrite pts_cons, <- or_assoc. destruct H as [H|H]; [left|auto]. apply should_merge_ok in E.
        assert (K := merge_pts k r o p ltac:(lia) ltac:(lia)). rewrite merge_min, merge_max in K. rewrite <- K; [replace (Nat.min (rmin r) (rmin o)) with (rmin r) by lia; rewrite merge_max in H; exact H|lia].
      * intros H. rewrite I5. rewrite pts_cons, <- or_assoc in H. destruct H as [H|H]; [left|auto]. apply should_merge_ok in E.
        assert (K := merge_pts k r o p ltac:(lia) ltac:(lia)). rewrite merge_min, merge_max in K. rewrite <- K in H; [replace (Nat.min (rmin r) (rmin o)) with (rmin r) in H by lia; rewrite merge_max; exact H|lia].
    + cbn [skipn firstn]. split; [lia|]. split; auto. split; auto. split; [|intros k p; split; [auto|intros [H|H]; [auto|now apply pts_nil in H]]].
      assert (Eo : ~ (rmin o < rmax r \/ ((rmin r = rmax r \/ rmin o = rmax o) /\ rmin o = rmax r))) by (rewrite <- should_merge_ok; congruence).
      constructor; [split; lia|]. rewrite Forall_forall in *. intros x Hx. destruct (S1 x Hx) as [X1 X2]. pose proof (min_le_max o). pose proof (min_le_max x). split; lia.
Qed.

Lemma nth_skipn_cons {T} (l : list T) : forall i x, nth_error l i = Some x -> skipn i l = x :: skipn (S i) l.
Proof. induction l as [|y l IH]; intros [|i] x E; try discriminate; cbn in *; [congruence|]. now apply IH. Qed.

Theorem add_region_ok rs r : sok rs -> exists rs', add_region rs r = Some rs' /\ sok rs' /\
  forall k p, pts k rs' p <-> pts k rs p \/ has k (rmin r) (rmax r) p.
Proof.
  intros Hs. unfold add_region. destruct (search_ok rs (rmin r) Hs) as (S1 & S2 & S3). set (ix := search rs (rmin r)) in *.
  pose proof Hs as SS. rewrite <- (firstn_skipn ix rs) in SS. apply sok_app in SS as (P1 & P2 & P3). rewrite Forall_forall in S2.
  pose proof (min_le_max r) as Hr.
  destruct (nth_error rs ix) as [o|] eqn:En.
  2:{ exists (rs ++ [r]). split; auto. apply nth_error_None in En. rewrite (firstn_all2 rs) in S2 by auto. split.
      - apply sok_app. split; auto. split; [cbn; auto|]. intros x y Hx [<-|[]]. specialize (S2 x Hx). split; lia.
      - intros k p. rewrite pts_app, pts_cons. split; [|tauto]. intros [H|[H|H]]; auto. now apply pts_nil in H. }
  assert (Es := nth_skipn_cons rs ix o En).
  rewrite Es in P2, P3, S3. set (rest := skipn (S ix) rs) in *. set (pre := firstn ix rs) in *.
  assert (Ers : rs = pre ++ o :: rest) by (rewrite <- Es; symmetry; apply firstn_skipn).
  assert (Lpre : length pre = ix) by (apply firstn_length_le; auto). destruct P2 as (Q1 & Q2).
  inversion_clear S3 as [|? ? S3o S3r]. pose proof (min_le_max o) as Ho. rewrite Forall_forall in Q1, S3r.
  assert (Len : length rs = ix + S (length rest)) by (rewrite Ers, app_length, Lpre; reflexivity).
  assert (Hput : forall i n x tl, i <= length rs -> i + n <= length rs -> firstn i rs ++ x :: skipn (i + n) rs = tl -> put_region rs i (i + n) x = Some tl).
  { intros i n x tl L1 L2 <-. unfold put_region. destruct (Nat.eqb_spec i (i + n)) as [E|E]; [replace (i + n) with i by lia; reflexivity|].
    replace (i <? length rs) with true by lia. cbn [check].
    assert (Li : length (firstn i rs) = i) by (apply firstn_length_le; lia).
    assert (Lk : length (skipn (S i) rs) = length rs - S i) by apply skipn_length.
    rewrite remove_n_at_ok; [|rewrite app_length; cbn [length]; rewrite Li, Lk; lia].
    f_equal. rewrite firstn_app, skipn_app, Li. rewrite (firstn_all2 (firstn i rs)) by lia. rewrite (skipn_all2 (firstn i rs)) by lia. cbn [app].
    replace (i + 1 - i) with 1 by lia. replace (i + 1 + (i + n - i - 1) - i) with (S (n - 1)) by lia. rewrite skipn_cons, firstn_cons, firstn_O, <- app_assoc. cbn [app].
    rewrite skipn_skipn. do 3 f_equal. lia. }
  destruct (rmin o <=? rmin r) eqn:Eo.
  - destruct (should_merge o r) eqn:Em.
    + apply should_merge_ok in Em.
      pose proof (merge_loop_ok rest (merge_with r o) Q2) as M. fold rest. rewrite merge_min in M. replace (Nat.min (rmin r) (rmin o)) with (rmin o) in M by lia.
      specialize (M ltac:(apply Forall_forall; intros x Hx; destruct (Q1 x Hx); lia)).
      destruct (merge_loop (merge_with r o) rest) as [n r']. destruct M as (M1 & M2 & M3 & M4 & M5). rewrite merge_max in M3. rewrite Forall_forall in M4.
      exists (pre ++ r' :: skipn n rest). split.
      { replace (S ix + n) with (ix + S n) by lia. apply Hput; [lia..|]. fold pre. do 2 f_equal. unfold rest. rewrite skipn_skipn. f_equal. lia. }
      split.
      * apply sok_app. split; auto. split.
        -- cbn [sok]. split; [now apply Forall_forall|]. rewrite <- (firstn_skipn n rest) in Q2. now apply sok_app in Q2.
        -- intros x y Hx [<-|Hy].
           ++ destruct (P3 x o Hx ltac:(now left)) as [X1 X2]. specialize (S2 x Hx). split; lia.
           ++ apply P3; auto. right. rewrite <- (firstn_skipn n rest). apply in_or_app. now right.
      * intros k p. rewrite Ers, !pts_app, !pts_cons, M5. assert (Er := pts_app k (firstn n rest) (skipn n rest) p). rewrite firstn_skipn in Er. rewrite Er.
        assert (K := merge_pts k r o p ltac:(lia) ltac:(lia) ltac:(lia)). rewrite merge_min in K. replace (Nat.min (rmin r) (rmin o)) with (rmin o) in K by lia. tauto.
    + assert (Em' : ~ (rmin r < rmax o \/ ((rmin o = rmax o \/ rmin r = rmax r) /\ rmin r = rmax o))) by (rewrite <- should_merge_ok; congruence).
      pose proof (merge_loop_ok rest r Q2) as M. fold rest.
      specialize (M ltac:(apply Forall_forall; intros x Hx; destruct (Q1 x Hx); lia)).
      destruct (merge_loop r rest) as [n r']. destruct M as (M1 & M2 & M3 & M4 & M5). rewrite Forall_forall in M4.
      exists (pre ++ o :: r' :: skipn n rest). split.
      { apply Hput; [lia..|]. rewrite Ers. rewrite firstn_app, Lpre. rewrite firstn_all2 by lia. replace (S ix - ix) with 1 by lia. cbn [firstn].
        rewrite <- app_assoc. cbn [app]. do 3 f_equal. rewrite <- Ers. unfold rest. rewrite skipn_skipn. reflexivity. }
      assert (Hsk : forall y, In y (skipn n rest) -> In y rest) by (intros y Hy; rewrite <- (firstn_skipn n rest); apply in_or_app; now right).
      split.
      * apply sok_app. split; auto. split.
        -- cbn [sok]. split; [|split; [now apply Forall_forall|]].
           ++ apply Forall_forall. intros y [<-|Hy]; [split; lia|]. apply Q1. auto.
           ++ rewrite <- (firstn_skipn n rest) in Q2. now apply sok_app in Q2.
        -- intros x y Hx [<-|[<-|Hy]].
           ++ apply P3; auto. now left.
           ++ specialize (S2 x Hx). split; lia.
           ++ apply P3; auto. right. auto.
      * intros k p. rewrite Ers, !pts_app, !pts_cons, M5. assert (Er := pts_app k (firstn n rest) (skipn n rest) p). rewrite firstn_skipn in Er. rewrite Er. tauto.
  - assert (So : sok (o :: rest)) by (split; [now apply Forall_forall|auto]). pose proof (merge_loop_ok (o :: rest) r So) as M. rewrite Es. 
    specialize (M ltac:(apply Forall_forall; intros x [<-|Hx]; [lia|destruct (Q1 x Hx); lia])).
    destruct (merge_loop r (o :: rest)) as [n r']. destruct M as (M1 & M2 & M3 & M4 & M5). rewrite Forall_forall in M4. cbn [length] in M1.
    exists (pre ++ r' :: skipn n (o :: rest)). split.
    { apply Hput; [lia..|]. fold pre. do 2 f_equal. rewrite <- Es. rewrite skipn_skipn. reflexivity. }
    assert (Hsk : forall y, In y (skipn n (o :: rest)) -> In y (o :: rest)) by (intros y Hy; rewrite <- (firstn_skipn n (o :: rest)); apply in_or_app; now right).
    split.
    + apply sok_app. split; auto. split.
      * cbn [sok]. split; [now apply Forall_forall|]. assert (Q : sok (o :: rest)) by (split; [now apply Forall_forall|auto]). rewrite <- (firstn_skipn n (o :: rest)) in Q. now apply sok_app in Q.
      * intros x y Hx [<-|Hy]; [specialize (S2 x Hx); split; lia|]. apply P3; auto.
    + intros k p. rewrite Ers at 1. rewrite !pts_app. rewrite pts_cons at 1. rewrite M5. assert (Er := pts_app k (firstn n (o :: rest)) (skipn n (o :: rest)) p). rewrite firstn_skipn in Er. rewrite Er. tauto.
Qed.

(** The points determine where the regions lie. *)
Definition ext (r : region) : nat * nat := (rmin r, rmax r).
Lemma sok_unique rs : forall qs, sok rs -> sok qs -> (forall k p, pts k rs p <-> pts k qs p) -> map ext rs = map ext qs.
Proof.
  induction rs as [|r rs IH]; intros [|q qs] S1 S2 H; auto.
  - exfalso. apply (pts_nil KTouch (rmin q)). apply H, pts_cons. left. cbn. pose proof (min_le_max q). lia.
  - exfalso. apply (pts_nil KTouch (rmin r)). apply H, pts_cons. left. cbn. pose proof (min_le_max r). lia.
  - assert (G : forall a la b lb, sok (a :: la) -> sok (b :: lb) -> (forall k p, pts k (a :: la) p -> pts k (b :: lb) p) -> rmin b <= rmin a /\ (rmin a = rmin b -> rmax a <= rmax b)).
    { clear. intros a la b lb [A1 A2] [B1 B2] H. pose proof (min_le_max a). pose proof (min_le_max b). rewrite Forall_forall in B1. split.
      - assert (K : pts KTouch (b :: lb) (rmin a)) by (apply H, pts_cons; left; cbn; lia). apply pts_cons in K as [K|(x & Hx & K)]; cbn in K; [lia|]. destruct (B1 x Hx). lia.
      - intros E. destruct (Nat.le_gt_cases (rmax a) (rmax b)) as [|L]; auto. exfalso. destruct (Nat.eq_dec (rmin b) (rmax b)) as [C|C].
        + assert (K : pts KCov (b :: lb) (rmax b)) by (apply H, pts_cons; left; cbn; lia). apply pts_cons in K as [K|(x & Hx & K)]; cbn in K; [lia|]. destruct (B1 x Hx). lia.
        + assert (K : pts KIn (b :: lb) (rmax b)) by (apply H, pts_cons; left; cbn; lia). apply pts_cons in K as [K|(x & Hx & K)]; cbn in K; [lia|]. destruct (B1 x Hx). lia. }
    destruct (G r rs q qs S1 S2 ltac:(intros; now apply H)) as [G1 G2]. destruct (G q qs r rs S2 S1 ltac:(intros; now apply H)) as [G3 G4].
    assert (E1 : rmin r = rmin q) by lia. assert (E2 : rmax r = rmax q) by (specialize (G2 E1); specialize (G4 (eq_sym E1)); lia). clear G G1 G2 G3 G4.
    cbn [map]. f_equal; [unfold ext; congruence|]. apply IH; [apply S1|apply S2|].
    assert (G : forall a la lb, rmin a = rmin a -> forall b, rmin a = rmin b -> rmax a = rmax b -> sok (a :: la) -> sok (b :: lb) -> (forall k p, pts k (a :: la) p -> pts k (b :: lb) p) -> forall k p, pts k la p -> pts k lb p).
    { clear. intros a la lb _ b E1 E2 [A1 A2] [B1 B2] H k p (x & Hx & K). rewrite Forall_forall in A1. destruct (A1 x Hx) as [X1 X2]. pose proof (min_le_max x). pose proof (min_le_max a).
      destruct (Nat.eq_dec p (rmax a)) as [->|N].
      - destruct k; cbn in K; [| |lia].
        + assert (Q : pts KCov (b :: lb) (rmax a)) by (apply H, pts_cons; right; exists x; auto). apply pts_cons in Q as [Q|Q]; [cbn in Q; lia|auto].
        + assert (Q : pts KCov (b :: lb) (rmax a)). { apply H, pts_cons. right. exists x. split; auto. cbn. lia. } apply pts_cons in Q as [Q|Q]; [cbn in Q; lia|]. destruct Q as (y & Hy & Q). exists y. cbn in *. split; auto. lia.
      - assert (Q : pts k (b :: lb) p) by (apply H, pts_cons; right; exists x; auto). apply pts_cons in Q as [Q|Q]; [|auto]. destruct k; cbn in *; lia. }
    intros k p. split; [apply (G r rs qs eq_refl q)|apply (G q qs rs eq_refl r)]; auto; intros; now apply H.
Qed.

(** Windows. *)
Lemma filter_none {T} (f : T -> bool) l : (forall x, In x l -> f x = false) -> filter f l = [].
Proof. induction l as [|x l IH]; intros H; cbn; auto. rewrite (H x) by now left. apply IH. intros y Hy. apply H. now right. Qed.
Lemma filter_all {T} (f : T -> bool) l : (forall x, In x l -> f x = true) -> filter f l = l.
Proof. induction l as [|x l IH]; intros H; cbn; auto. rewrite (H x) by now left. f_equal. apply IH. intros y Hy. apply H. now right. Qed.
Lemma window {T} (f : T -> bool) (l : list T) a b : a <= b ->
  (forall i x, nth_error l i = Some x -> f x = ((a <=? i) && (i <? b))) ->
  filter f l = firstn (b - a) (skipn a l) /\ filter (fun x => negb (f x)) l = firstn a l ++ skipn b l.
Proof.
  intros Hab H.
  assert (E : l = firstn a l ++ firstn (b - a) (skipn a l) ++ skipn b l).
  { rewrite <- (firstn_skipn a l) at 1. f_equal. rewrite <- (firstn_skipn (b - a) (skipn a l)) at 1. f_equal. rewrite skipn_skipn. f_equal. lia. }
  assert (A1 : forall x, In x (firstn a l) -> f x = false).
  { intros x Hx. apply In_nth_error in Hx as [i Hi]. assert (L : i < length (firstn a l)) by (apply nth_error_Some; congruence). rewrite firstn_length in L.
    rewrite nth_error_firstn in Hi. replace (i <? a) with true in Hi by lia. rewrite (H _ _ Hi). lia. }
  assert (A2 : forall x, In x (firstn (b - a) (skipn a l)) -> f x = true).
  { intros x Hx. apply In_nth_error in Hx as [i Hi]. assert (L : i < length (firstn (b - a) (skipn a l))) by (apply nth_error_Some; congruence). rewrite firstn_length in L.
    rewrite nth_error_firstn in Hi. replace (i <? b - a) with true in Hi by lia. rewrite nth_error_skipn in Hi. rewrite (H _ _ Hi). lia. }
  assert (A3 : forall x, In x (skipn b l) -> f x = false).
  { intros x Hx. apply In_nth_error in Hx as [i Hi]. rewrite nth_error_skipn in Hi. rewrite (H _ _ Hi). lia. }
  split.
  - rewrite E at 1. rewrite !filter_app, (filter_none f (firstn a l)), (filter_none f (skipn b l)), (filter_all f) by auto. now rewrite app_nil_r.
  - rewrite E at 1. rewrite !filter_app, (filter_all _ (firstn a l)), (filter_all _ (skipn b l)), (filter_none (fun x => negb (f x)) (firstn (b - a) (skipn a l))); auto;
    intros x Hx; rewrite ?A1, ?A2, ?A3 by auto; auto.
Qed.

Lemma sok_nth rs i j a b : sok rs -> i < j -> nth_error rs i = Some a -> nth_error rs j = Some b -> ilt a b.
Proof.
  revert i j. induction rs as [|r rs IH]; intros i j Hs Hij Hi Hj; [destruct i; discriminate|]. destruct Hs as [S1 S2].
  destruct j; [lia|]. cbn in Hj. destruct i; cbn in Hi; [|apply (IH i j); auto; lia].
  injection Hi as <-. rewrite Forall_forall in S1. apply S1. eapply nth_error_In; eauto.
Qed.
Lemma search_nth rs off i x : sok rs -> nth_error rs i = Some x -> (i <? search rs off) = (rmax x <? off).
Proof.
  intros Hs Hx. destruct (search_ok rs off Hs) as (S1 & S2 & S3). rewrite Forall_forall in S2, S3. destruct (i <? search rs off) eqn:E.
  - symmetry. apply Nat.ltb_lt, S2. apply (nth_error_In _ i). rewrite nth_error_firstn. now rewrite E.
  - symmetry. apply Nat.ltb_ge, S3. apply (nth_error_In _ (i - search rs off)). rewrite nth_error_skipn. now replace (search rs off + (i - search rs off)) with i by lia.
Qed.
Lemma search_mono rs a b : a <= b -> search rs a <= search rs b.
Proof. intros H. induction rs as [|r rs IH]; cbn [search]; auto. destruct (rmax r <? a) eqn:E, (rmax r <? b) eqn:F; lia. Qed.
Lemma search_le rs a : search rs a <= length rs.
Proof. induction rs as [|r rs IH]; cbn [search length]; [lia|]. destruct (rmax r <? a); lia. Qed.

(** The index after the last region that starts before (or at) [e]. *)
Lemma last_lt rs e i x : sok rs -> nth_error rs i = Some x ->
  (i <? match nth_error rs (search rs e) with Some o => if rmin o <? e then S (search rs e) else search rs e | None => search rs e end) = (rmin x <? e).
Proof.
  intros Hs Hx. pose proof (search_nth rs e i x Hs Hx) as N. pose proof (min_le_max x). set (l := search rs e) in *.
  destruct (nth_error rs l) as [o|] eqn:El.
  - pose proof (search_nth rs e l o Hs El) as No. fold l in No. destruct (lt_eq_lt_dec i l) as [[L|L]|L].
    + destruct (rmin o <? e); lia.
    + subst i. rewrite Hx in El. injection El as ->. destruct (rmin o <? e); lia.
    + destruct (sok_nth rs l i o x Hs L El Hx). destruct (rmin o <? e); lia.
  - apply nth_error_None in El. assert (i < length rs) by (apply nth_error_Some; congruence). lia.
Qed.
Definition no_meeting (rs : list region) (e : nat) : Prop := forall a b, In a rs -> In b rs -> rmax a = e -> rmin b = e -> rmin a = e.
Lemma last_le rs e i x : sok rs -> no_meeting rs e -> nth_error rs i = Some x ->
  (i <? match nth_error rs (search rs e) with Some o => if rmin o <=? e then S (search rs e) else search rs e | None => search rs e end) = (rmin x <=? e).
Proof.
  intros Hs Hn Hx. pose proof (search_nth rs e i x Hs Hx) as N. pose proof (min_le_max x). set (l := search rs e) in *.
  destruct (nth_error rs l) as [o|] eqn:El.
  - pose proof (search_nth rs e l o Hs El) as No. fold l in No. destruct (lt_eq_lt_dec i l) as [[L|L]|L].
    + destruct (rmin o <=? e); lia.
    + subst i. rewrite Hx in El. injection El as ->. destruct (rmin o <=? e); lia.
    + destruct (sok_nth rs l i o x Hs L El Hx) as [O1 O2]. pose proof (min_le_max o).
      assert (rmin x <> e). { intros E. specialize (Hn o x (nth_error_In _ _ El) (nth_error_In _ _ Hx)). lia. }
      destruct (rmin o <=? e); lia.
  - apply nth_error_None in El. assert (i < length rs) by (apply nth_error_Some; congruence). lia.
Qed.
Lemma last_bounds rs s e (f : region -> bool) : s <= e ->
  search rs s <= match nth_error rs (search rs e) with Some o => if f o then S (search rs e) else search rs e | None => search rs e end <= length rs.
Proof.
  intros H. pose proof (search_mono rs s e H). pose proof (search_le rs e). destruct (nth_error rs (search rs e)) as [o|] eqn:E; [|lia].
  assert (search rs e < length rs) by (apply nth_error_Some; congruence). destruct (f o); lia.
Qed.

Theorem regions_in_range_ok rs s e : sok rs -> s <= e ->
  exists out, regions_in_range rs s e = Some out /\
    (no_meeting rs e -> out = filter (fun r => (s <=? rmax r) && (rmin r <=? e)) rs) /\
    (forall r, In r out -> In r rs /\ s <= rmax r /\ rmin r <= e) /\
    (forall r, In r rs -> s <= rmax r -> rmin r < e -> In r out).
Proof.
  intros Hs He. unfold regions_in_range. pose proof (last_bounds rs s e (fun o => rmin o <=? e) He) as B. cbn beta in B.
  pose proof (fun i x => last_le rs e i x Hs) as L1. pose proof (fun i x => last_lt rs e i x Hs) as L2.
  set (l := match nth_error rs (search rs e) with Some o => if rmin o <=? e then S (search rs e) else search rs e | None => search rs e end) in *.
  replace ((search rs s <=? l) && (l <=? length rs)) with true by lia. cbn [check]. eexists. split; [reflexivity|].
  assert (Hsn := fun i x => search_nth rs s i x Hs).
  assert (Hle : forall i x, nth_error rs i = Some x -> i < l -> rmin x <= e).
  { intros i x Hx Hi. pose proof (min_le_max x). pose proof (search_nth rs e i x Hs Hx) as N. unfold l in Hi. destruct (nth_error rs (search rs e)) as [o|] eqn:El; [|lia].
    destruct (rmin o <=? e) eqn:Eo; [|lia]. destruct (Nat.eq_dec i (search rs e)) as [->|]; [|lia]. rewrite El in Hx. injection Hx as ->. lia. }
  split; [|split].
  - intros Hn. symmetry. apply window; [lia|]. intros i x Hx. specialize (L1 i x Hn Hx). specialize (Hsn i x Hx). lia.
  - intros r Hr. apply In_nth_error in Hr as [i Hi]. assert (L : i < l - search rs s). { destruct (Nat.lt_ge_cases i (l - search rs s)); auto. rewrite nth_error_firstn in Hi. replace (i <? l - search rs s) with false in Hi by lia. discriminate. }
    rewrite nth_error_firstn in Hi. replace (i <? l - search rs s) with true in Hi by lia. rewrite nth_error_skipn in Hi.
    split; [eapply nth_error_In; eauto|]. split; [specialize (Hsn _ _ Hi); lia|]. eapply Hle; eauto. lia.
  - intros r Hr H1 H2. apply In_nth_error in Hr as [i Hi]. specialize (Hsn _ _ Hi). specialize (L2 _ _ Hi).
    assert (Hl : i < l). { unfold l. destruct (nth_error rs (search rs e)) as [o|]; [|lia]. destruct (rmin o <=? e) eqn:Ea, (rmin o <? e) eqn:Eb; lia. }
    apply (nth_error_In _ (i - search rs s)). rewrite nth_error_firstn. replace (i - search rs s <? l - search rs s) with true by lia.
    rewrite nth_error_skipn. now replace (search rs s + (i - search rs s)) with i by lia.
Qed.

Theorem delete_touching_ok rs s e : sok rs -> s <= e -> no_meeting rs e ->
  sel_delete_range rs s e true = Some (filter (fun r => negb ((s <=? rmax r) && (rmin r <=? e))) rs).
Proof.
  intros Hs He Hn. unfold sel_delete_range. cbn [negb andb orb]. pose proof (last_bounds rs s e (fun o => rmin o <=? e) He) as B. cbn beta in B.
  destruct (nth_error rs (search rs s)) as [f|] eqn:Ef.
  2:{ f_equal. symmetry. apply filter_all. intros x Hx. apply In_nth_error in Hx as [i Hi]. apply nth_error_None in Ef.
      assert (i < length rs) by (apply nth_error_Some; congruence). pose proof (search_nth rs s i x Hs Hi). lia. }
  pose proof (fun i x => last_le rs e i x Hs Hn) as L1.
  replace (match nth_error rs (search rs e) with Some o => if (rmin o <=? e) || false then S (search rs e) else search rs e | None => search rs e end)
    with (match nth_error rs (search rs e) with Some o => if rmin o <=? e then S (search rs e) else search rs e | None => search rs e end)
    by (destruct (nth_error rs (search rs e)); [now rewrite orb_false_r|auto]).
  set (l := match nth_error rs (search rs e) with Some o => if rmin o <=? e then S (search rs e) else search rs e | None => search rs e end) in *.
  replace (search rs s <=? l) with true by lia. cbn [check]. rewrite remove_n_at_ok by lia. f_equal.
  replace (search rs s + (l - search rs s)) with l by lia. symmetry. apply (window (fun r => (s <=? rmax r) && (rmin r <=? e))); [lia|]. intros i x Hx.
  specialize (L1 i x Hx). pose proof (search_nth rs s i x Hs Hx). lia.
Qed.

Theorem delete_intersecting_ok rs s e : sok rs -> s < e \/ (s = e /\ forall r, In r rs -> ~ (rmin r = s /\ rmax r = s)) ->
  sel_delete_range rs s e false = Some (filter (fun r => negb ((s <? rmax r) && (rmin r <? e))) rs).
Proof.
  intros Hs He. unfold sel_delete_range. cbn [negb andb orb].
  destruct (nth_error rs (search rs s)) as [f|] eqn:Ef.
  2:{ f_equal. symmetry. apply filter_all. intros x Hx. apply In_nth_error in Hx as [i Hi]. apply nth_error_None in Ef.
      assert (i < length rs) by (apply nth_error_Some; congruence). pose proof (search_nth rs s i x Hs Hi). lia. }
  pose proof (last_bounds rs s e (fun o => rmin o <? e) ltac:(lia)) as B. cbn beta in B.
  pose proof (fun i x => last_lt rs e i x Hs) as L1. pose proof (L1 _ _ Ef) as Lf. pose proof (min_le_max f) as Mf.
  assert (Hf := search_nth rs s _ f Hs Ef). assert (Hif := nth_error_In _ _ Ef).
  set (l := match nth_error rs (search rs e) with Some o => if rmin o <? e then S (search rs e) else search rs e | None => search rs e end) in *.
  set (a := if rmax f =? s then S (search rs s) else search rs s).
  assert (Ha : a <= l). { unfold a. destruct (rmax f =? s) eqn:E; [|lia]. destruct He as [He|[-> He]]; [lia|]. specialize (He f Hif). lia. }
  replace (a <=? l) with true by lia. cbn [check]. rewrite remove_n_at_ok by lia. f_equal.
  replace (a + (l - a)) with l by lia. symmetry. apply (window (fun r => (s <? rmax r) && (rmin r <? e))); [lia|]. intros i x Hx.
  specialize (L1 i x Hx). pose proof (search_nth rs s i x Hs Hx) as N. rewrite <- L1. f_equal. unfold a.
  destruct (lt_eq_lt_dec i (search rs s)) as [[L|L]|L].
  - destruct (rmax f =? s); lia.
  - subst i. rewrite Ef in Hx. injection Hx as ->. destruct (rmax x =? s) eqn:E; lia.
  - destruct (sok_nth rs _ i f x Hs L Ef Hx) as [X1 X2]. pose proof (min_le_max x). destruct (rmax f =? s) eqn:E; lia.
Qed.

Lemma sok_filter f rs : sok rs -> sok (filter f rs).
Proof.
  induction rs as [|r rs IH]; intros S; cbn [filter]; auto. destruct S as [S1 S2]. destruct (f r); auto. split; auto.
  rewrite Forall_forall in *. intros x Hx. apply filter_In in Hx. now apply S1.
Qed.

(** Adding without merging, for regions that are not carets. *)
Definition wide (r : region) : Prop := rmin r < rmax r.
Lemma app_window {T} (l : list T) (f : T -> bool) a : (forall i x, nth_error l i = Some x -> f x = (i <? a)) -> a <= length l ->
  filter f l = firstn a l /\ filter (fun x => negb (f x)) l = skipn a l.
Proof.
  intros H La. destruct (window f l 0 a ltac:(lia)) as [W1 W2].
  - intros i x Hx. rewrite (H i x Hx). lia.
  - rewrite W1, W2. cbn [skipn firstn app]. now rewrite Nat.sub_0_r.
Qed.
Theorem add_range_distinct_ok rs r : sok rs -> Forall wide rs -> wide r ->
  (exists o, In o rs /\ rmin o <= rmin r < rmax o /\ add_range_distinct rs r = Some (rs, ext o)) \/
  ((forall o, In o rs -> ~ rmin o <= rmin r < rmax o) /\
   add_range_distinct rs r = Some (filter (fun o => rmax o <=? rmin r) rs ++ r :: filter (fun o => rmax r <=? rmin o) rs, ext r)).
Proof.
  intros Hs Hw Hr. unfold add_range_distinct. unfold wide in *. rewrite Forall_forall in Hw.
  set (ix := match nth_error rs (search rs (rmin r)) with Some o => if rmax o =? rmin r then S (search rs (rmin r)) else search rs (rmin r) | None => search rs (rmin r) end).
  assert (Hix : ix <= length rs /\ forall i x, nth_error rs i = Some x -> (i <? ix) = (rmax x <=? rmin r)).
  { unfold ix. destruct (nth_error rs (search rs (rmin r))) as [o|] eqn:E.
    - assert (search rs (rmin r) < length rs) by (apply nth_error_Some; congruence). split; [destruct (rmax o =? rmin r); lia|]. intros i x Hx.
      pose proof (search_nth rs (rmin r) i x Hs Hx). pose proof (search_nth rs (rmin r) _ o Hs E).
      destruct (lt_eq_lt_dec i (search rs (rmin r))) as [[L|L]|L].
      + destruct (rmax o =? rmin r); lia.
      + rewrite L, E in Hx. injection Hx as ->. destruct (rmax x =? rmin r) eqn:E'; lia.
      + destruct (sok_nth rs _ i o x Hs L E Hx) as [X1 X2]. pose proof (Hw x (nth_error_In _ _ Hx)). pose proof (Hw o (nth_error_In _ _ E)). destruct (rmax o =? rmin r) eqn:E'; lia.
    - apply nth_error_None in E. pose proof (search_le rs (rmin r)). split; auto. intros i x Hx. assert (i < length rs) by (apply nth_error_Some; congruence).
      pose proof (search_nth rs (rmin r) i x Hs Hx). lia. }
  destruct Hix as [Lix Hix]. clearbody ix.
  destruct (app_window rs (fun o => rmax o <=? rmin r) ix) as [F1 _]; auto. { intros i x Hx. symmetry. now apply Hix. }
  assert (Hrest : (forall i o, nth_error rs i = Some o -> ix <= i -> rmin r < rmin o) ->
    check (ix <=? match nth_error rs (search rs (rmax r)) with Some o => if rmin o <? rmax r then S (search rs (rmax r)) else search rs (rmax r) | None => search rs (rmax r) end)
        (let? rs1 := remove_n_at rs ix ((match nth_error rs (search rs (rmax r)) with Some o => if rmin o <? rmax r then S (search rs (rmax r)) else search rs (rmax r) | None => search rs (rmax r) end) - ix) in
         check (ix <=? length rs1) (Some (firstn ix rs1 ++ r :: skipn ix rs1, (rmin r, rmax r)))) =
    Some (filter (fun o => rmax o <=? rmin r) rs ++ r :: filter (fun o => rmax r <=? rmin o) rs, ext r)).
  { intros Hgt. pose proof (last_bounds rs (rmin r) (rmax r) (fun o => rmin o <? rmax r) ltac:(lia)) as B. cbn beta in B.
    pose proof (fun i x => last_lt rs (rmax r) i x Hs) as L1.
    set (l := match nth_error rs (search rs (rmax r)) with Some o => if rmin o <? rmax r then S (search rs (rmax r)) else search rs (rmax r) | None => search rs (rmax r) end) in *.
    assert (Hl : ix <= l). { destruct (Nat.le_gt_cases ix l) as [|G]; auto. exfalso. destruct (nth_error rs l) as [x|] eqn:Ex; [|apply nth_error_None in Ex; lia].
      specialize (L1 l x Ex). specialize (Hix l x Ex). pose proof (Hw x (nth_error_In _ _ Ex)). lia. }
    replace (ix <=? l) with true by lia. cbn [check]. rewrite remove_n_at_ok by lia. cbn [bind]. replace (ix + (l - ix)) with l by lia.
    assert (Li : length (firstn ix rs) = ix) by (apply firstn_length_le; auto).
    rewrite app_length, Li. replace (ix <=? ix + length (skipn l rs)) with true by lia. cbn [check]. rewrite (firstn_app_exact _ _ ix), (skipn_app_exact _ _ ix) by auto.
    destruct (app_window rs (fun o => rmin o <? rmax r) l) as [_ F2]; [intros i x Hx; symmetry; now apply L1|lia|]. rewrite F1, <- F2. unfold ext. do 4 f_equal.
    apply filter_ext. intros x. lia. }
  destruct (nth_error rs ix) as [occ|] eqn:Eo.
  - pose proof (Hix _ _ Eo) as Ho. pose proof (Hw occ (nth_error_In _ _ Eo)).
    destruct ((rmin occ =? rmin r) && (rmax occ =? rmax r) || (rmin occ <=? rmin r) && (rmin r <? rmax occ)) eqn:E.
    + left. exists occ. split; [eapply nth_error_In; eauto|]. split; [lia|reflexivity].
    + assert (Hgt : forall i o, nth_error rs i = Some o -> ix <= i -> rmin r < rmin o).
      { intros i o Hi L. destruct (Nat.eq_dec i ix) as [->|N]; [rewrite Eo in Hi; injection Hi as ->; lia|]. destruct (sok_nth rs ix i occ o Hs ltac:(lia) Eo Hi). lia. }
      right. split; [|now apply Hrest]. intros o Hi. apply In_nth_error in Hi as [i Hi]. specialize (Hix i o Hi). specialize (Hgt i o Hi). lia.
  - apply nth_error_None in Eo. assert (Hgt : forall i o, nth_error rs i = Some o -> ix <= i -> rmin r < rmin o).
    { intros i o Hi L. assert (i < length rs) by (apply nth_error_Some; congruence). lia. }
    right. split; [|now apply Hrest]. intros o Hi. apply In_nth_error in Hi as [i Hi]. specialize (Hix i o Hi). specialize (Hgt i o Hi). lia.
Qed.
Lemma distinct_sok rs r : sok rs -> Forall wide rs -> wide r -> 
  sok (filter (fun o => rmax o <=? rmin r) rs ++ r :: filter (fun o => rmax r <=? rmin o) rs) /\
  Forall wide (filter (fun o => rmax o <=? rmin r) rs ++ r :: filter (fun o => rmax r <=? rmin o) rs).
Proof.
  intros Hs Hw Hr. rewrite Forall_forall in Hw. unfold wide in *. split.
  - apply sok_app. split; [now apply sok_filter|]. split.
    + split; [|now apply sok_filter]. apply Forall_forall. intros x Hx. apply filter_In in Hx as [Hx E]. specialize (Hw x Hx). split; lia.
    + intros x y Hx [<-|Hy]; apply filter_In in Hx as [Hx E]; pose proof (Hw x Hx); [split; lia|].
      apply filter_In in Hy as [Hy E2]. pose proof (Hw y Hy). split; lia.
  - apply Forall_app. split; [|constructor; auto]; apply Forall_forall; intros x Hx; apply filter_In in Hx as [Hx _]; auto.
Qed.

(** Edits. *)
Lemma transform_region_ok {A} (d : delta A) after dr r : wf_delta d ->
  exists a b, rmin (transform_region d after dr r) = transform_ix d (rmin r) a /\ rmax (transform_region d after dr r) = transform_ix d (rmax r) b /\
    (is_caret r = true -> a = after /\ b = after).
Proof.
  intros Hw. unfold transform_region. destruct (is_caret r) eqn:Ec.
  - unfold is_caret in Ec. assert (Ee : r_start r = r_end r) by lia. destruct dr; unfold rmin, rmax; cbn [with_affinity region_new r_start r_end]; rewrite Ee, !Nat.min_id, !Nat.max_id; exists after, after; auto.
  - unfold is_caret in Ec. assert (G : forall sa ea, (r_start r < r_end r /\ transform_ix d (r_start r) sa <= transform_ix d (r_end r) ea) \/ (r_end r < r_start r /\ transform_ix d (r_end r) ea <= transform_ix d (r_start r) sa)).
    { intros sa ea. destruct (Nat.lt_ge_cases (r_start r) (r_end r)); [left|right]; (split; [lia|]); apply transform_ix_mono; auto; lia. }
    assert (K : forall sa ea, let r' := with_affinity (region_new (transform_ix d (r_start r) sa) (transform_ix d (r_end r) ea)) (r_aff r) in
      exists a b, rmin r' = transform_ix d (rmin r) a /\ rmax r' = transform_ix d (rmax r) b).
    { intros sa ea. cbv zeta. unfold rmin, rmax. cbn [with_affinity region_new r_start r_end]. destruct (G sa ea) as [[L1 L2]|[L1 L2]].
      - exists sa, ea. rewrite !Nat.min_l, !Nat.max_r by lia. auto.
      - exists ea, sa. rewrite !Nat.min_r, !Nat.max_l by lia. auto. }
    set (fw := r_start r <? r_end r).
    destruct dr; [destruct (K (negb fw) fw) as (a & b & K1 & K2)|destruct (K fw (negb fw)) as (a & b & K1 & K2)|destruct (K after after) as (a & b & K1 & K2)];
      exists a, b; (split; [exact K1|split; [exact K2|discriminate]]).
Qed.
Lemma apply_regions_ok {A} (d : delta A) after dr rs : forall acc, sok acc ->
  exists out, apply_regions d after dr rs acc = Some out /\ sok out /\
    forall k p, pts k out p <-> pts k acc p \/ pts k (map (transform_region d after dr) rs) p.
Proof.
  induction rs as [|r rs IH]; intros acc S; cbn [apply_regions map].
  - exists acc. split; auto. split; auto. intros k p. split; auto. intros [H|H]; [auto|now apply pts_nil in H].
  - destruct (add_region_ok acc (transform_region d after dr r) S) as (acc' & -> & S' & P). cbn [bind].
    destruct (IH acc' S') as (out & E & So & Po). exists out. split; auto. split; auto. intros k p. rewrite Po, P, pts_cons. tauto.
Qed.
Theorem sel_apply_delta_ok {A} (d : delta A) after dr rs : wf_delta d -> no_empty_copy (els d) ->
  exists out, sel_apply_delta rs d after dr = Some out /\ sok out /\
    (forall x j, nth_error (denote (els d)) j = Some (inl x) -> (pts KCov out j <-> pts KCov rs x)) /\
    (forall p, pts KTouch out p -> p <= new_document_len d) /\
    (forall r, In r rs -> is_caret r = true -> pts KTouch out (transform_ix d (rmin r) after)).
Proof.
  intros Hw Hc. unfold sel_apply_delta. destruct (apply_regions_ok d after dr rs [] Logic.I) as (out & E & So & P). exists out. split; auto. split; auto. split; [|split].
  - intros x j Hj. destruct (transform_ix_ok d x Hw Hc) as (T & _). apply T in Hj as [T1 T2]. clear T. rewrite P. split.
    + intros [H|(q & Hq & H)]; [now apply pts_nil in H|]. apply in_map_iff in Hq as (r & <- & Hr). destruct (transform_region_ok d after dr r Hw) as (a & b & E1 & E2 & _).
      cbn in H. rewrite E1, E2 in H. exists r. split; auto. cbn. split.
      * destruct (Nat.lt_ge_cases x (rmin r)) as [L|]; auto.
        assert (transform_ix d (S x) false <= transform_ix d (rmin r) a) by (apply transform_ix_mono; auto; destruct a; lia). lia.
      * destruct (Nat.lt_ge_cases x (rmax r)) as [L|L]; auto.
        assert (transform_ix d (rmax r) b <= transform_ix d x true) by (apply transform_ix_mono; auto; lia). lia.
    + intros (r & Hr & H). right. exists (transform_region d after dr r). split; [now apply in_map|]. destruct (transform_region_ok d after dr r Hw) as (a & b & E1 & E2 & _).
      cbn [has] in H |- *. rewrite E1, E2.
      assert (transform_ix d (rmin r) a <= transform_ix d x true) by (apply transform_ix_mono; auto; lia).
      assert (transform_ix d (S x) false <= transform_ix d (rmax r) b) by (apply transform_ix_mono; auto; destruct b; lia). lia.
  - intros p Hp. apply P in Hp as [H|(q & Hq & H)]; [now apply pts_nil in H|]. apply in_map_iff in Hq as (r & <- & Hr). destruct (transform_region_ok d after dr r Hw) as (a & b & E1 & E2 & _).
    cbn in H. pose proof (transform_ix_le d (rmax r) b Hw). lia.
  - intros r Hr Ec. apply P. right. exists (transform_region d after dr r). split; [now apply in_map|]. destruct (transform_region_ok d after dr r Hw) as (a & b & E1 & E2 & E3).
    destruct (E3 Ec) as [-> ->]. rewrite is_caret_ok in Ec. cbn. replace (rmax r) with (rmin r) in E2 by lia. lia.
Qed.
