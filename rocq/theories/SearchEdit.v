(** The occurrences of a query after an edit. *)
From Coq Require Import List Arith Lia Bool ZifyBool.
From Verif Require Import Base ListLib MultisetProofs TreeModel TreeSpec TreeProofs MetricProofs CursorModel CursorProofs CursorBoundary
  RopeModel RopeSpec RopeProofs RopeMetric RopeIterModel RopeCursor RopeIterProofs DiffProofs FindModel FindProofs PropertiesFind
  DeltaModel SelectionModel SelectionProofs PropertiesSelection WordModel ViewModel LinewrapMerged ViewProofs PropertiesRope PropertiesWord
  SearchModel SearchSpec SearchProofs PropertiesSearch.
Import ListNotations.
Local Notation region := SelectionModel.region.
Local Notation concat := List.concat.
Local Notation find := FindModel.find.
Local Notation lo := PropertiesSelection.lo.
Local Notation idl := (fun l : list nat => l).

(** ** Reading on *)
Section Turn.
Context (m : nat -> nat -> Prop).
Notation rt := (in_turn m any).
Lemma rt_nil p : rt p [] <-> forall i e, p <= i -> ~ m i e.
Proof. split; [|apply it_none]. intros H. inversion H as [? H1| |? i e ? H1 H2 H3 H4]; subst; auto. now destruct H4. Qed.
Lemma rt_cons p i e l : rt p ((i, e) :: l) <-> p <= i /\ m i e /\ (forall i' e', p <= i' < i -> ~ m i' e') /\ rt e l.
Proof.
  split.
  - intros H. inversion H as [| ? ? ? ? H1 H2 H3 H4 H5|? ? ? ? H1 H2 H3 H4]; subst; auto. now destruct H4.
  - intros (H1 & H2 & H3 & H4). apply it_some; auto. exact Logic.I.
Qed.
Lemma rt_weaken p x l : p <= x -> (forall i e, p <= i < x -> ~ m i e) -> rt x l -> rt p l.
Proof.
  intros Hp Hno. destruct l as [|[i e] l]; rewrite ?rt_nil, ?rt_cons.
  - intros H i e Hi. destruct (Nat.lt_ge_cases i x); [now apply Hno|now apply H].
  - intros (H1 & H2 & H3 & H4). split; [lia|]. split; auto. split; auto. intros i' e' Hi. destruct (Nat.lt_ge_cases i' x); [apply Hno; lia|apply H3; lia].
Qed.
Context (s : list nat) (L : match_laws s m).
Lemma rt_in p l i e : rt p l -> In (i, e) l -> p <= i /\ m i e.
Proof.
  revert p. induction l as [|[i0 e0] l IH]; intros p H Hi; [destruct Hi|]. apply rt_cons in H as (H1 & H2 & H3 & H4). destruct Hi as [[= <- <-]|Hi]; auto.
  destruct (IH e0 H4 Hi) as [H5 H6]. split; auto. pose proof (ml_range _ _ L _ _ H2). lia.
Qed.
Lemma rt_from p y l : rt p l -> p <= y -> (forall i e, m i e -> i < y -> e <= y) -> rt y (filter (fun x => y <=? fst x) l).
Proof.
  intros H Hp Hc. revert p H Hp. induction l as [|[i e] l IH]; intros p H Hp; cbn [filter fst].
  - rewrite rt_nil in *. intros i e Hi. apply H. lia.
  - pose proof H as H0. apply rt_cons in H as (H1 & H2 & H3 & H4). pose proof (ml_range _ _ L _ _ H2). destruct (Nat.leb_spec y i) as [Hy|Hy].
    + rewrite filter_all. 2: { intros [i' e'] Hin. destruct (rt_in _ _ _ _ H4 Hin). cbn [fst]. lia. }
      apply rt_cons. split; auto. split; auto. split; auto. intros i' e' Hi'. apply H3. lia.
    + apply (IH e); auto. now apply (Hc i e).
Qed.
End Turn.

Lemma last_cons {A} (x : A) l d : List.last (x :: l) d = List.last l x.
Proof. revert x d. induction l as [|y l IH]; intros x d; auto. change (List.last (x :: y :: l) d) with (List.last (y :: l) d). now rewrite !IH. Qed.
Lemma rt_prefix m m' s' (L' : match_laws s' m') a A B l : (forall i e, e <= a -> (m i e <-> m' i e)) -> (forall i e, In (i, e) A -> e <= a) ->
  forall p, in_turn m any p (A ++ B) -> in_turn m' any (List.last (map snd A) p) l -> in_turn m' any p (A ++ l).
Proof.
  intros Hm. induction A as [|[i e] A IH]; intros HA p H Hl; [exact Hl|]. cbn [app map snd] in *. rewrite last_cons in Hl. apply rt_cons in H as (H1 & H2 & H3 & H4).
  assert (He : e <= a) by (apply (HA i e); now left). assert (M : m' i e) by (apply Hm; auto). apply rt_cons. split; auto. split; auto. split.
  - intros i' e' Hi' H'. apply (H3 i' e' Hi'). apply Hm; auto. pose proof (ml_mono _ _ L' _ _ _ _ H' M ltac:(lia)). lia.
  - apply IH; auto. intros i' e' Hi'. apply (HA i' e'). now right.
Qed.
Lemma rt_shift m m' x y (g : nat -> nat) : (forall i, y <= i -> g i + y = i + x) -> (forall i e, y <= i -> y <= e -> (m i e <-> m' (g i) (g e))) ->
  (forall i e, m' i e -> i < e) -> (forall i e, m i e -> i < e) ->
  forall l p, y <= p -> in_turn m any p l -> in_turn m' any (g p) (map (fun z => (g (fst z), g (snd z))) l).
Proof.
  intros Hg Hm Hlt Hlt0. induction l as [|[i e] l IH]; intros p Hp; cbn [map fst snd]; rewrite ?rt_nil, ?rt_cons.
  - intros H i e Hi Hie. pose proof (Hlt _ _ Hie). pose proof (Hg p Hp). pose proof (Hg (i + y - x) ltac:(lia)). pose proof (Hg (e + y - x) ltac:(lia)).
    apply (H (i + y - x) (e + y - x)); [lia|]. apply Hm; [lia|lia|]. replace (g (i + y - x)) with i by lia. replace (g (e + y - x)) with e by lia. auto.
  - intros (H1 & H2 & H3 & H4). pose proof (Hlt0 _ _ H2). pose proof (Hg p Hp). pose proof (Hg i ltac:(lia)). split; [lia|]. split; [apply Hm; auto; lia|]. split; [|apply IH; auto; lia].
    intros i' e' Hi' Hie. pose proof (Hlt _ _ Hie). pose proof (Hg (i' + y - x) ltac:(lia)). pose proof (Hg (e' + y - x) ltac:(lia)).
    apply (H3 (i' + y - x) (e' + y - x)); [lia|]. apply Hm; [lia|lia|]. replace (g (i' + y - x)) with i' by lia. replace (g (e' + y - x)) with e' by lia. auto.
Qed.

(** ** The loop, up to what is known of the rest *)
Section Join.
Context (lower : list nat -> list (list nat)) (slow : list nat -> list nat).
Context (t : rope) (h : nat) (W : rope_wf h t) (sub : rope) (hs : nat) (Ws : rope_wf hs sub) (T : nat).
Context (Hsub : rcontent sub = firstn T (rcontent t)) (HT : scut (rcontent t) T).
Context (f : finder) (q : list nat) (m : nat -> nat -> Prop) (L : match_laws (rcontent t) m) (F : find_law lower slow f q t sub T m).
Context (Ew : fd_whole f = false).
Lemma no_whole : fd_whole f = true -> forall s e, m s e -> is_matching_whole_words t s e = Some true.
Proof. congruence. Qed.
Lemma loop_join to fuel : forall c ls A B x, cok sub c -> sok (A ++ B) -> (forall r, In r (A ++ B) -> m (rmin r) (rmax r)) -> T - c_pos c < fuel ->
  (forall r, In r A -> rmax r <= c_pos c) -> c_pos c <= x <= T -> (forall i e, m i e -> c_pos c <= i < x -> e <= x) -> in_turn m any x (places B) ->
  exists occ' l, find_loop lower slow fuel f q t sub to c ls (A ++ B) = Some occ' /\ places occ' = places A ++ l /\ in_turn m any (c_pos c) l.
Proof.
  induction fuel as [|fuel IH]; intros c ls A B x Hc Hs Hm Hf HA Hx Hno HB; [lia|]. cbn [find_loop]. cbv zeta.
  destruct (F c ls Hc) as (y & c1 & ls1 & E & Hc1 & Hy). rewrite E. cbn [bind]. destruct y as [st|].
  2: { exists (A ++ B), (places B). split; auto. split; [apply map_app|]. apply (rt_weaken _ _ x); auto; [lia|]. intros i e Hi H. apply (Hy i e); auto; [lia|]. pose proof (Hno i e H Hi). lia. }
  destruct Hy as (Hst & Hme & Hn). set (e := c_pos c1) in *. pose proof (cok_T t sub T Hsub HT f m (fun _ _ => true) no_whole (fun _ _ _ => eq_refl) c1 Hc1) as HeT. fold e in HeT.
  pose proof (ml_range _ _ L _ _ Hme) as Hr. rewrite Ew. cbn [bind negb].
  assert (Hn' : forall i b, c_pos c <= i < st -> ~ m i b).
  { intros i b Hi H. apply (Hn i b Hi); auto. pose proof (ml_mono _ _ L _ _ _ _ H Hme ltac:(lia)). lia. }
  assert (Wd : forall o, In o (A ++ B) -> wide o) by (intros o Ho; apply Hm in Ho; apply (ml_range _ _ L) in Ho; unfold wide; lia).
  assert (Er : rmin (region_new st e) = st /\ rmax (region_new st e) = e) by (unfold rmin, rmax; cbn; lia). destruct Er as [Er1 Er2].
  pose proof Hs as Hs0. apply sok_app in Hs0 as (SA & SB & SAB).
  assert (HBx : forall r, In r B -> x <= rmin r). { intros r Hr'. apply (rt_in m _ L x (places B) (rmin r) (rmax r)); auto. apply (in_map (fun r => (lo r, hi r)) _ _ Hr'). }
  destruct (iter_at t h W T HT f m (fun _ _ => true) no_whole (fun _ _ _ => eq_refl) e to HeT) as (it & Eit).
  destruct (add_range_distinct_ok (A ++ B) (region_new st e) Hs) as [(o & Ho & Hin & Ea)|[Hnone Ea]]; [now apply Forall_forall|unfold wide; lia| |]; rewrite Ea; cbn [bind ext]; rewrite ?Er1, ?Er2 in *.
  - unfold ext. assert (HoB : In o B). { apply in_app_or in Ho as [Ho|Ho]; auto. specialize (HA o Ho). lia. }
    (* the match is the first of the rest *)
    destruct B as [|o' B]; [destruct HoB|]. change (places (o' :: B)) with ((rmin o', rmax o') :: places B) in HB. apply rt_cons in HB as (B1 & B2 & B3 & B4).
    assert (Hxst : x <= st). { specialize (HBx o HoB). lia. }
    assert (Est : rmin o' = st).
    { destruct (Nat.lt_trichotomy (rmin o') st) as [Hl|[Hl|Hl]]; auto; [exfalso; apply (Hn' (rmin o') (rmax o')); auto; lia|exfalso; apply (B3 st e); auto; lia]. }
    assert (Eo' : rmax o' = e). { rewrite Est in B2. pose proof (ml_mono _ _ L _ _ _ _ Hme B2 (Nat.le_refl _)). pose proof (ml_mono _ _ L _ _ _ _ B2 Hme (Nat.le_refl _)). lia. }
    assert (o = o'). { destruct HoB as [|HoB]; auto. destruct SB as [FB _]. rewrite Forall_forall in FB. destruct (FB o HoB) as [FB1 _]. lia. } subst o.
    cbn [bind]. rewrite Eo', Nat.eqb_refl. cbn [negb]. replace (st =? e) with false by lia. rewrite Eit. cbn [bind].
    replace (A ++ o' :: B) with ((A ++ [o']) ++ B) in * by (now rewrite <- app_assoc).
    destruct (IH c1 (LinesRaw it []) (A ++ [o']) B e) as (occ' & l & E' & El & Hl); auto; try (fold e; intros; lia); [|now rewrite <- Eo'|].
    { intros r Hr'. fold e. apply in_app_or in Hr' as [Hr'|[<-|[]]]; [specialize (HA r Hr'); lia|lia]. }
    fold e in Hl. exists occ', ((st, e) :: l). split; auto. split; [|apply rt_cons; auto]. rewrite El. unfold places. rewrite map_app, <- app_assoc. cbn [map app]. do 3 f_equal; [exact Est|exact Eo'].
  - rewrite Nat.eqb_refl. cbn [negb]. replace (st =? e) with false by lia. rewrite Eit. cbn [bind].
    assert (Hsx : st < x).
    { destruct (Nat.lt_ge_cases st x) as [|Hge]; auto. exfalso. destruct B as [|o' B].
      - change (places []) with (@nil (nat * nat)) in HB. apply (proj1 (rt_nil m x) HB st e); auto.
      - change (places (o' :: B)) with ((rmin o', rmax o') :: places B) in HB. apply rt_cons in HB as (B1 & B2 & B3 & B4).
        destruct (Nat.lt_trichotomy (rmin o') st) as [Hl|[Hl|Hl]]; [apply (Hn' (rmin o') (rmax o')); auto; lia| |apply (B3 st e); auto; lia].
        pose proof (Hnone o'). rewrite Hl in B2. pose proof (ml_range _ _ L _ _ B2). assert (In o' (A ++ o' :: B)) by (apply in_or_app; right; now left). intuition lia. }
    pose proof (Hno st e Hme ltac:(lia)) as Hex.
    assert (Eocc : filter (fun o => rmax o <=? st) (A ++ B) ++ region_new st e :: filter (fun o => e <=? rmin o) (A ++ B) = (A ++ [region_new st e]) ++ B).
    { rewrite !filter_app. rewrite (filter_all _ A), (filter_none _ B), (filter_none _ A), (filter_all _ B).
      - now rewrite app_nil_r, <- app_assoc.
      - intros r Hr'. specialize (HBx r Hr'). lia.
      - intros r Hr'. specialize (HA r Hr'). assert (wide r) as Hw by (apply Wd, in_or_app; auto). unfold wide in Hw. lia.
      - intros r Hr'. specialize (HBx r Hr'). assert (wide r) as Hw by (apply Wd, in_or_app; auto). unfold wide in Hw. lia.
      - intros r Hr'. specialize (HA r Hr'). lia. }
    destruct (distinct_sok (A ++ B) (region_new st e) Hs) as [S1 _]; [now apply Forall_forall|unfold wide; lia|]. rewrite Er1, Er2 in S1. rewrite Eocc in *.
    destruct (IH c1 (LinesRaw it []) (A ++ [region_new st e]) B x) as (occ' & l & E' & El & Hl); auto; try (fold e; lia).
    + intros r Hr'. rewrite <- app_assoc in Hr'. apply in_app_or in Hr' as [Hr'|[<-|Hr']]; [apply Hm, in_or_app; auto|now rewrite Er1, Er2|apply Hm, in_or_app; auto].
    + intros r Hr'. fold e. apply in_app_or in Hr' as [Hr'|[<-|[]]]; [specialize (HA r Hr'); lia|lia].
    + fold e. intros i b Hib Hi. apply (Hno i b Hib). lia.
    + fold e in Hl. exists occ', ((st, e) :: l). split; auto. split; [|apply rt_cons; auto]. rewrite El. unfold places. rewrite map_app, <- app_assoc. cbn [map app]. do 2 f_equal.
      change (lo (region_new st e)) with (rmin (region_new st e)). change (hi (region_new st e)) with (rmax (region_new st e)). congruence.
Qed.
End Join.

Lemma update_join lower slow f q t h start x A B : rope_wf h t -> plain lower slow f q -> fd_whole f = false -> fd_occ f = A ++ B -> sok (A ++ B) ->
  (forall r, In r (A ++ B) -> matches lower slow f q t (rmin r) (rmax r)) -> char_boundary (rcontent t) start -> start <= x <= length (rcontent t) ->
  (forall r, In r A -> rmax r <= start) -> (forall i e, matches lower slow f q t i e -> i < x -> e <= x) -> in_turn (matches lower slow f q t) any x (places B) ->
  exists f' l, update_find lower slow f t start x false = Some f' /\ same_query f f' /\ sok (fd_occ f') /\ (forall r, In r (fd_occ f') -> In r (A ++ B) \/ r = region_new (rmin r) (rmax r)) /\
    places (fd_occ f') = places A ++ l /\ in_turn (matches lower slow f q t) any start l.
Proof.
  intros W P Ew Eo Hs Hm Cs Hx HA Hno HB. pose proof P as (Eq & Er & Hse). pose proof (laws_ok lower slow (fd_case f) q t h W Hse) as L. fold (matches lower slow f q t) in L.
  destruct (update_eq lower slow f q t h start x false W Eq) as (from & T & sub & hs & c & it & to & E & Hf & Hf' & HT & CT & Ws & Es & Hc & Pc); [lia|lia|].
  assert (Hz : slop_of f false = 0) by (unfold slop_of; now rewrite Eq). rewrite Hz, ?Nat.sub_0_r, ?Nat.add_0_r in *. rewrite Nat.min_l in HT by lia. specialize (Hf' Cs). subst from.
  pose proof (law_ok lower slow f q t sub T h hs W Ws Es CT Er Hse) as F. fold (matches lower slow f q t) in F.
  destruct (loop_join lower slow t h W sub T Es CT f q (matches lower slow f q t) L F Ew to (length (rcontent t) + 2) c (LinesRaw it []) A B x) as (occ' & l & E' & El & Hl); auto; try lia.
  { intros r Hr. specialize (HA r Hr). lia. }
  { intros i e Hie Hi. apply (Hno i e Hie). lia. }
  destruct (find_loop_ok lower slow t h W sub hs Ws T Es CT f q (matches lower slow f q t) L F (fun _ _ => true)) with (to := to) (fuel := length (rcontent t) + 2) (c := c) (ls := LinesRaw it []) (occ := A ++ B)
    as (occ2 & E2 & S2 & _ & P1 & _); auto; [congruence|lia|]. rewrite E' in E2. injection E2 as <-.
  rewrite Eo, E' in E. cbn [bind] in E. eexists _, l. split; [exact E|]. split; [apply with_same|]. cbn [fd_occ dirtied with_occ]. split; auto. split; [|split; auto; congruence].
  intros r Hr. destruct (P1 r Hr) as [|(_ & _ & ?)]; auto.
Qed.

(** ** Matches in a part of a text *)
Lemma slice_app_r {A} (u w : list A) i e : slice (u ++ w) (length u + i) (length u + e) = slice w i e.
Proof. unfold slice. rewrite skipn_app. replace (length u + i - length u) with i by lia. rewrite skipn_all2 by lia. cbn [app]. f_equal. lia. Qed.
Lemma cut_app_r u w i : utf8 w -> (scut (u ++ w) (length u + i) <-> scut w i).
Proof.
  intros U. destruct (Nat.eq_dec i 0) as [->|]; [|unfold scut; rewrite cb_shift by lia; reflexivity].
  rewrite Nat.add_0_r. split; intros _; [apply cb_0|now apply scut_app].
Qed.
Lemma occurs_app_r u w q i : occurs (u ++ w) q (length u + i) <-> occurs w q i.
Proof.
  split; intros H.
  - apply occurs_at in H as [H1 H2]. rewrite app_length in H1. rewrite <- Nat.add_assoc, slice_app_r in H2. apply at_occurs; auto. lia.
  - apply occurs_at in H as [H1 H2]. apply at_occurs; [rewrite app_length; lia|]. now rewrite <- Nat.add_assoc, slice_app_r.
Qed.
Lemma lower_app_r lower u w pl i e : utf8 u -> utf8 w -> (occurs_lower lower (u ++ w) pl (length u + i) (length u + e) <-> occurs_lower lower w pl i e).
Proof.
  intros Uu Uw. pose proof (DiffProofs.utf8_app u w Uu Uw) as U. unfold occurs_lower. rewrite <- !(boundary_iff _ _ U), <- !(boundary_iff _ _ Uw), slice_app_r.
  fold (scut (u ++ w) (length u + i)) (scut (u ++ w) (length u + e)) (scut w i) (scut w e). rewrite !cut_app_r by auto. assert (length u + i <= length u + e <-> i <= e) by lia. tauto.
Qed.
Lemma match_app_r lower slow cm q u w i e : utf8 u -> utf8 w -> (is_match lower slow cm q (u ++ w) (length u + i) (length u + e) <-> is_match lower slow cm q w i e).
Proof.
  intros Uu Uw. destruct cm; cbn [is_match].
  - rewrite occurs_app_r. intuition lia.
  - rewrite lower_app_r by auto. split; intros [H1 H2]; (split; [auto|]).
    + intros e' He' H. apply (H2 (length u + e')); [lia|]. now apply lower_app_r.
    + intros e' He' H. assert (Hi : length u + i <= e') by apply H. apply (H2 (e' - length u)); [lia|]. apply (lower_app_r lower u); auto. now replace (length u + (e' - length u)) with e' by lia.
Qed.

(** What is taken of a query that is one line, if case does not matter. *)
Definition one_line (lower : list nat -> list (list nat)) (slow : list nat -> list nat) (cm : case_matching) (q : list nat) : Prop :=
  match cm with Exact => True | CaseInsensitive => lower [10] = [[10]] /\ (In 10 (slow q) -> In 10 q) end.
Lemma nl_cut s x : utf8 s -> 0 < x -> nth_error s (x - 1) = Some 10 -> scut s (x - 1) /\ scut s x.
Proof.
  intros U Hx E. assert (C : scut s (x - 1)) by (unfold scut, is_char_boundary; destruct (x - 1 =? 0); auto; now rewrite E). split; auto.
  replace x with (S (x - 1)) by lia. apply (ascii_cut s (x - 1) 10); auto. lia.
Qed.
Lemma nth_slice s x : 0 < x -> nth_error s (x - 1) = Some 10 -> slice s (x - 1) x = [10].
Proof. intros Hx E. unfold slice. replace (x - (x - 1)) with 1 by lia. apply nth_error_split in E as (l1 & l2 & -> & <-). now rewrite skipn_app_exact by auto. Qed.
Lemma no_cross lower slow cm q s x : utf8 s -> searchable lower slow cm q -> one_line lower slow cm q -> ~ In 10 q -> 0 < x -> nth_error s (x - 1) = Some 10 ->
  forall i e, is_match lower slow cm q s i e -> i < x -> e <= x.
Proof.
  intros U Hse Ho Hq Hx E i e Hm Hi. destruct (Nat.le_gt_cases e x) as [|Hex]; auto. exfalso. destruct (nl_cut s x U Hx E) as [C1 C2]. destruct cm; cbn [is_match one_line searchable] in *.
  - destruct Hm as [Hm ->]. apply Hq. apply occurs_at in Hm as [Hm Es]. rewrite <- Es. rewrite (DiffProofs.slice_cat _ i (x - 1)), (DiffProofs.slice_cat _ (x - 1) x) by lia.
    rewrite (nth_slice _ _ Hx E). apply in_or_app. right. now left.
  - destruct Ho as [Ho1 Ho2]. destruct Hse as (_ & _ & _ & Us & _). destruct Hm as [(Bi & Be & Hie & cs & pcs & rest & Hcs & Hp & Ef) Hmin].
    pose proof Bi as Ci. pose proof Be as Ce. apply boundary_iff in Ci, Ce; auto. apply Hq, Ho2. clear Ho2.
    assert (K : forall a b, a <= b -> scut s a -> scut s b -> chars_of (slice s a b) (chars (slice s a b))) by (intros; apply chars_is, utf8_slice; auto).
    assert (Ecs : cs = chars (slice s i (x - 1)) ++ [[10]] ++ chars (slice s x e)).
    { rewrite <- (chars_ok _ _ Hcs). rewrite (chars_split s i (x - 1) e), (chars_split s (x - 1) x e) by (auto; lia). do 2 f_equal. rewrite (nth_slice _ _ Hx E). reflexivity. }
    set (P := flat_map lower (chars (slice s i (x - 1)))) in *.
    rewrite Ecs in Ef. rewrite !flat_map_app in Ef. fold P in Ef. cbn [flat_map] in Ef. rewrite Ho1, app_nil_r in Ef.
    destruct (Nat.le_gt_cases (length pcs) (length P + 1)) as [Hl|Hl].
    + exfalso. apply (Hmin x Hex). split; auto. split; [now apply boundary_iff|]. split; [lia|]. exists (chars (slice s i (x - 1)) ++ [[10]]), pcs, (skipn (length pcs) (P ++ [[10]])).
      split; [|split; auto].
      * rewrite (DiffProofs.slice_cat _ i (x - 1)) by lia. rewrite (nth_slice _ _ Hx E). apply chars_of_app; [apply K; auto; lia|]. split; [now repeat constructor|reflexivity].
      * rewrite flat_map_app. fold P. cbn [flat_map]. rewrite Ho1. cbn [app]. rewrite <- (firstn_skipn (length pcs) (P ++ [[10]])) at 1. f_equal.
        rewrite app_assoc in Ef. apply (f_equal (firstn (length pcs))) in Ef. rewrite (firstn_app_exact pcs) in Ef by auto. rewrite firstn_app in Ef. rewrite app_length in Ef. cbn [length] in Ef.
        replace (length pcs - (length P + 1)) with 0 in Ef by lia. cbn [firstn] in Ef. now rewrite app_nil_r in Ef.
    + assert (Hn : nth_error (pcs ++ rest) (length P) = Some [10]) by (rewrite <- Ef, nth_error_app2, Nat.sub_diag by lia; reflexivity).
      rewrite nth_error_app1 in Hn by lia. apply nth_error_In in Hn. destruct Hp as [_ ->]. apply in_concat. exists [10]. split; auto. now left.
Qed.

(** ** What an edit does to regions *)
Lemma apply_map {A} (d : delta A) after dr rs : forall acc, sok (acc ++ map (transform_region d after dr) rs) -> apply_regions d after dr rs acc = Some (acc ++ map (transform_region d after dr) rs).
Proof.
  induction rs as [|r rs IH]; intros acc So; cbn [apply_regions map]; [now rewrite app_nil_r|]. cbn [map] in So.
  replace (acc ++ transform_region d after dr r :: map (transform_region d after dr) rs) with ((acc ++ [transform_region d after dr r]) ++ map (transform_region d after dr) rs) in * by (now rewrite <- app_assoc).
  rewrite add_after by (now apply sok_app in So). cbn [bind]. now apply IH.
Qed.
Lemma sok_map (g : region -> region) rs : sok rs -> (forall r, In r rs -> wide (g r)) -> (forall x y, In x rs -> In y rs -> rmax x <= rmin y -> rmax (g x) <= rmin (g y)) -> sok (map g rs).
Proof.
  induction rs as [|r rs IH]; intros So Hw Hg; [exact Logic.I|]. cbn [map sok] in *. destruct So as [F So]. split.
  - apply Forall_forall. intros y Hy. apply in_map_iff in Hy as (x & <- & Hx). rewrite Forall_forall in F. destruct (F x Hx) as [F1 _].
    assert (wide (g r)) by (apply Hw; now left). assert (wide (g x)) by (apply Hw; now right). unfold wide in *. split; [apply Hg; auto; [now left|now right]|lia].
  - apply IH; auto; intros; [apply Hw; now right|apply Hg; auto; now right].
Qed.
Lemma sok_split3 a b rs : a <= b -> sok rs -> (forall r, In r rs -> wide r) -> exists A M B, rs = A ++ M ++ B /\ (forall r, In r A -> rmax r <= a) /\ (forall r, In r M -> a < rmax r /\ rmin r <= b) /\ (forall r, In r B -> b < rmin r).
Proof.
  intros Hab. induction rs as [|r rs IH]; intros So Hw; [exists [], [], []; repeat split; try (intros ? []); destruct H|]. destruct So as [F So]. rewrite Forall_forall in F.
  assert (Wr : wide r) by (apply Hw; now left). unfold wide in Wr. destruct IH as (A & M & B & -> & HA & HM & HB); auto; [intros; apply Hw; now right|].
  destruct (Nat.le_gt_cases (rmax r) a) as [H1|H1].
  - exists (r :: A), M, B. split; auto. split; auto. intros x [<-|Hx]; auto.
  - destruct (Nat.lt_ge_cases b (rmin r)) as [H2|H2].
    + exists [], [], (r :: A ++ M ++ B). split; auto. split; [intros ? []|]. split; [intros ? []|]. intros x [<-|Hx]; auto. destruct (F x Hx) as [F1 _]. lia.
    + assert (A = []). { destruct A as [|x A]; auto. exfalso. destruct (F x) as [F1 _]; [now left|]. assert (wide x) as Wx by (apply Hw; right; now left). unfold wide in Wx. specialize (HA x (or_introl eq_refl)). lia. } subst A.
      exists [], (r :: M), B. split; auto. split; [intros ? []|]. split; auto. intros x [<-|Hx]; auto.
Qed.

(** A pure insertion or a pure deletion. *)
Section Edit.
Context (a b n : nat) (ins : list nat) (d : delta nat) (Hab : a <= b <= n) (Hk : a = b /\ ins <> [] \/ a < b /\ ins = []) (Ed : simple_edit a b ins n = Some d).
Definition mv (p : nat) : nat := if p <=? a then p else if p <=? b then a else p - b + a + length ins.
Lemma edit_eq : (ins = [] /\ els d = (if 0 <? a then [Copy 0 a] else []) ++ (if b <? n then [Copy b n] else []) \/
  ins <> [] /\ els d = (if 0 <? a then [Copy 0 a] else []) ++ [Insert ins] ++ (if b <? n then [Copy b n] else [])) /\ base_len d = n.
Proof.
  revert Ed. unfold simple_edit, db_replace, db_delete, dbuilder_new, db_build. cbn [db_last db_base db_els]. change (a <? 0) with false.
  destruct ins as [|y ins'].
  - cbn [bind db_last db_base db_els]. intros [= <-]. cbn [els base_len]. split; auto. left. split; auto. destruct (0 <? a), (b <? n); reflexivity.
  - cbn [bind db_last db_base db_els]. intros [= <-]. cbn [els base_len]. split; auto. right. split; [discriminate|]. destruct (0 <? a), (b <? n); reflexivity.
Qed.
Lemma mv_ok p : p <= n -> transform_ix d p false = mv p.
Proof.
  intros Hp. destruct edit_eq as [[[E1 E2]|[E1 E2]] _]; unfold transform_ix, mv; rewrite E2; destruct (Nat.ltb_spec 0 a), (Nat.ltb_spec b n); cbn [app transform_els];
    repeat match goal with |- context [if ?c then _ else _] => destruct c eqn:?; cbn [transform_els] end; rewrite ?E1; cbn [length]; try lia; destruct Hk as [[? _]|[_ ?]]; try congruence; lia.
Qed.
Lemma summary_ok : summary d = ((a, b), length ins).
Proof.
  destruct edit_eq as [[[E1 E2]|[E1 E2]] E3]; unfold summary; rewrite E2, E3.
  - assert (a < b) by (destruct Hk as [[_ ?]|[? _]]; congruence || auto). rewrite E1. destruct (Nat.ltb_spec 0 a); destruct (Nat.ltb_spec b n); cbn [app rev total_element_len length]; rewrite ?Nat.eqb_refl; cbn [app rev total_element_len].
    + reflexivity.
    + repeat f_equal; lia.
    + destruct b as [|b']; [lia|]. cbn [rev app]. rewrite Nat.eqb_refl. cbn [rev app total_element_len]. repeat f_equal; lia.
    + repeat f_equal; lia.
  - assert (a = b) by (destruct Hk as [[? _]|[_ ?]]; congruence). destruct (Nat.ltb_spec 0 a); destruct (Nat.ltb_spec b n); cbn [app rev total_element_len length]; rewrite ?Nat.eqb_refl; cbn [app rev total_element_len]; repeat f_equal; lia.
Qed.
Lemma deletions_ok : iter_deletions d = match ins with [] => [(a, a, b - a)] | _ => [] end.
Proof.
  destruct edit_eq as [[[E1 E2]|[E1 E2]] E3]; unfold iter_deletions; rewrite E2, E3.
  - assert (a < b) by (destruct Hk as [[_ ?]|[? _]]; congruence || auto). rewrite E1. destruct (Nat.ltb_spec 0 a); destruct (Nat.ltb_spec b n); cbn [app deletions_from];
      repeat match goal with |- context [if ?c then _ else _] => destruct c eqn:?; try lia end; cbn [app]; repeat f_equal; lia.
  - assert (a = b) by (destruct Hk as [[? _]|[_ ?]]; congruence). destruct ins as [|y ins'] eqn:Ei; [congruence|]. rewrite <- Ei. assert (0 < length ins) by (rewrite Ei; cbn; lia).
    destruct (Nat.ltb_spec 0 a); destruct (Nat.ltb_spec b n); cbn [app deletions_from];
      repeat match goal with |- context [if ?c then _ else _] => destruct c eqn:?; try lia end; reflexivity.
Qed.
Lemma inserts_ok : iter_inserts d = match ins with [] => [] | _ => [(a, a, length ins)] end.
Proof.
  destruct edit_eq as [[[E1 E2]|[E1 E2]] E3]; unfold iter_inserts; rewrite E2.
  - rewrite E1. destruct (Nat.ltb_spec 0 a); destruct (Nat.ltb_spec b n); reflexivity.
  - destruct ins as [|y ins'] eqn:Ei; [congruence|]. rewrite <- Ei. destruct (Nat.ltb_spec 0 a); destruct (Nat.ltb_spec b n); cbn [app inserts_from]; repeat f_equal; lia.
Qed.
Lemma mv_mono p q : p <= q -> mv p <= mv q.
Proof. unfold mv. intros. destruct (Nat.leb_spec p a), (Nat.leb_spec q a), (Nat.leb_spec p b), (Nat.leb_spec q b); lia. Qed.
Definition mvr (r : region) : region := transform_region d false DefaultDrift r.
Definition within (r : region) : Prop := r_start r <= r_end r <= n.
Lemma mvr_ok r : within r -> mvr r = with_affinity (region_new (mv (rmin r)) (mv (rmax r))) (r_aff r) /\ rmin (mvr r) = mv (rmin r) /\ rmax (mvr r) = mv (rmax r) /\ r_start (mvr r) <= r_end (mvr r).
Proof.
  intros [H1 H2]. assert (E : mvr r = with_affinity (region_new (mv (r_start r)) (mv (r_end r))) (r_aff r)).
  { unfold mvr, transform_region. destruct (is_caret r); rewrite !mv_ok by lia; reflexivity. }
  assert (rmin r = r_start r /\ rmax r = r_end r) as [-> ->] by (unfold rmin, rmax; lia). pose proof (mv_mono _ _ H1). rewrite E. split; auto. unfold rmin, rmax. cbn [r_start r_end with_affinity region_new]. lia.
Qed.
End Edit.

Lemma last_end (rs : list region) : (forall r, In r rs -> r_start r <= r_end r) -> match last_region rs with Some r => r_end r | None => 0 end = List.last (map snd (places rs)) 0.
Proof.
  intros H. destruct rs as [|x rs _] using rev_ind; [reflexivity|]. unfold last_region. rewrite rev_unit. cbn [hd_error]. unfold places. rewrite !map_app. cbn [map]. rewrite last_last. cbn [snd].
  assert (r_start x <= r_end x) by (apply H, in_or_app; right; now left). unfold hi. lia.
Qed.
Lemma last_in (l : list nat) d : List.last l d = d \/ In (List.last l d) l.
Proof. destruct l as [|x l _] using rev_ind; auto. right. rewrite last_last. apply in_or_app. right. now left. Qed.
Lemma last_max rs r : sok rs -> In r rs -> rmax r <= List.last (map snd (places rs)) 0.
Proof.
  destruct rs as [|x rs _] using rev_ind; [intros _ []|]. unfold places. rewrite !map_app. cbn [map]. rewrite last_last. cbn [snd]. change (hi x) with (rmax x). intros So Hr.
  apply sok_app in So as (_ & _ & So). apply in_app_or in Hr as [Hr|[<-|[]]]; auto. destruct (So r x Hr (or_introl eq_refl)) as [H _]. pose proof (min_le_max x). lia.
Qed.
Lemma places_in rs r : In r rs -> In (rmin r, rmax r) (places rs).
Proof. apply (in_map (fun r => (lo r, hi r))). Qed.

Lemma highlights_ok lower slow h h' t t' f q a b ins d : rope_wf h t -> rope_wf h' t' -> plain lower slow f q -> fd_whole f = false -> one_line lower slow (fd_case f) q ->
  char_boundary (rcontent t) a -> char_boundary (rcontent t) b -> utf8 ins -> a = b /\ ins <> [] \/ a < b /\ ins = [] ->
  b + length ins <= length (rcontent t') -> (ins = [] -> forall e, ~ found (fd_occ f) b e) ->
  simple_edit a b ins (length (rcontent t)) = Some d -> rcontent t' = firstn a (rcontent t) ++ ins ++ skipn b (rcontent t) ->
  shows_all lower slow f q t -> (forall r, In r (fd_occ f) -> r_start r <= r_end r) ->
  exists f', update_highlights lower slow f t' d = Some f' /\ same_query f f' /\ shows_all lower slow f' q t' /\ (forall r, In r (fd_occ f') -> r_start r <= r_end r).
Proof.
  intros W W' P Ew Ho Ba Bb Ui Hk Hb Hnb Ed Et (Ds & Rt) Fw. pose proof P as (Eq & Er & Hse).
  pose proof (rope_utf8 h t W) as U. pose proof (rope_utf8 h' t' W') as U'.
  set (s := rcontent t) in *. set (s' := rcontent t') in *. set (n := length s) in *. set (m := matches lower slow f q t) in *. set (m' := matches lower slow f q t').
  pose proof (laws_ok lower slow (fd_case f) q t h W Hse) as L. pose proof (laws_ok lower slow (fd_case f) q t' h' W' Hse) as L'. fold (matches lower slow f q t) in L. fold (matches lower slow f q t') in L'. fold m in L. fold m' in L'. fold s in L. fold s' in L'.
  apply sok_order in Ds. set (occ := fd_occ f) in *.
  assert (Ca : scut s a) by (now apply boundary_iff). assert (Cb : scut s b) by (now apply boundary_iff). pose proof (cb_le _ _ Cb) as Hbn. fold n in Hbn.
  assert (Hab : a <= b <= n) by (destruct Hk as [[? _]|[? _]]; lia).
  assert (Hn' : length s' = a + length ins + (n - b)). { rewrite Et, !app_length, firstn_length, skipn_length. fold n. lia. }
  assert (Ub : utf8 (skipn b s)) by (apply (utf8_cut s b U Cb)). assert (Ua : utf8 (firstn a s)) by (apply (utf8_cut s a U Ca)).
  assert (Fa : firstn a s' = firstn a s) by (rewrite Et; apply firstn_app_exact; rewrite firstn_length; fold n; lia).
  assert (Ca' : scut s' a).
  { rewrite Et. replace a with (length (firstn a s)) at 2 by (rewrite firstn_length; fold n; lia). apply scut_app. now apply DiffProofs.utf8_app. }
  assert (Pre : forall i e, e <= a -> (m i e <-> m' i e)).
  { intros i e He. pose proof (match_firstn lower slow (fd_case f) q s a i e U Ca) as H1. pose proof (match_firstn lower slow (fd_case f) q s' a i e U' Ca') as H2. rewrite Fa in H2. unfold m, m', matches. fold s s'. tauto. }
  (* the regions *)
  assert (Hm : forall r, In r occ -> m (rmin r) (rmax r)) by (intros r Hr; apply (rt_in m s L 0 (places occ)); auto; now apply places_in).
  assert (Hw : forall r, In r occ -> wide r) by (intros r Hr; pose proof (ml_range _ _ L _ _ (Hm r Hr)); unfold wide; lia).
  assert (Hin : forall r, In r occ -> within n r). { intros r Hr. pose proof (ml_range _ _ L _ _ (Hm r Hr)) as H1. specialize (Fw r Hr). unfold within. unfold rmax in H1. fold n in H1. lia. }
  set (a0 := match ins with [] => a | _ => a - 1 end). assert (Ha0 : a0 <= a) by (unfold a0; destruct ins; lia).
  destruct (sok_split3 a0 b occ ltac:(lia) Ds Hw) as (A & M & B & Eocc & HA & HM & HB).
  set (g := mvr d) in *. assert (G : forall r, In r occ -> rmin (g r) = mv a b ins (rmin r) /\ rmax (g r) = mv a b ins (rmax r) /\ r_start (g r) <= r_end (g r)).
  { intros r Hr. now apply (mvr_ok a b n ins d Hab Hk Ed r (Hin r Hr)). }
  assert (IA : forall r, In r A -> In r occ) by (intros; rewrite Eocc; apply in_or_app; auto).
  assert (IM : forall r, In r M -> In r occ) by (intros; rewrite Eocc; apply in_or_app; right; apply in_or_app; auto).
  assert (IB : forall r, In r B -> In r occ) by (intros; rewrite Eocc; apply in_or_app; right; apply in_or_app; auto).
  assert (mvA : forall p, p <= a -> mv a b ins p = p) by (intros p Hp; unfold mv; now replace (p <=? a) with true by lia).
  assert (mvB : forall p, b < p -> mv a b ins p = p - b + a + length ins) by (intros p Hp; unfold mv; replace (p <=? a) with false by lia; now replace (p <=? b) with false by lia).
  assert (GA : forall r, In r A -> rmin (g r) = rmin r /\ rmax (g r) = rmax r).
  { intros r Hr. destruct (G r (IA r Hr)) as (-> & -> & _). specialize (HA r Hr). pose proof (Hw r (IA r Hr)) as Wr. unfold wide in Wr. rewrite !mvA by lia. auto. }
  assert (GB : forall r, In r B -> rmin (g r) = rmin r - b + a + length ins /\ rmax (g r) = rmax r - b + a + length ins).
  { intros r Hr. destruct (G r (IB r Hr)) as (-> & -> & _). specialize (HB r Hr). pose proof (Hw r (IB r Hr)) as Wr. unfold wide in Wr. rewrite !mvB by lia. auto. }
  assert (PA : places (map g A) = places A).
  { unfold places. rewrite map_map. apply map_ext_in. intros r Hr. destruct (GA r Hr) as [H1 H2]. unfold lo, hi. unfold rmin, rmax in *. congruence. }
  assert (So3 : sok (map g A ++ map g B)).
  { rewrite <- map_app. apply sok_map.
    - rewrite Eocc in Ds. apply sok_app in Ds as (S1 & S2 & S3). apply sok_app in S2 as (_ & S2 & _). apply sok_app. split; auto. split; auto. intros x y Hx Hy. apply S3; auto. apply in_or_app. auto.
    - intros r Hr. unfold wide. apply in_app_or in Hr as [Hr|Hr]; [destruct (GA r Hr) as [-> ->]; apply (Hw r (IA r Hr))|]. destruct (GB r Hr) as [-> ->]. pose proof (Hw r (IB r Hr)) as Wr. unfold wide in Wr. specialize (HB r Hr). lia.
    - intros x y Hx Hy Hxy. assert (Ix : In x occ) by (apply in_app_or in Hx as [?|?]; auto). assert (Iy : In y occ) by (apply in_app_or in Hy as [?|?]; auto).
      destruct (G x Ix) as (_ & -> & _). destruct (G y Iy) as (-> & _ & _). eapply mv_mono; eauto. }
  (* what is left of them *)
  assert (Hwide3 : forall r, In r (map g A ++ map g B) -> wide r).
  { intros r Hr. apply in_app_or in Hr as [Hr|Hr]; apply in_map_iff in Hr as (y & <- & Hy); unfold wide.
    - destruct (GA y Hy) as [-> ->]. apply (Hw y (IA y Hy)).
    - destruct (GB y Hy) as [-> ->]. pose proof (Hw y (IB y Hy)) as Wr. unfold wide in Wr. specialize (HB y Hy). lia. }
  assert (O3 : exists o1 o2, delete_ranges occ (map (fun '(old, _, len) => (old, old + len)) (iter_deletions d)) = Some o1 /\ sel_apply_delta o1 d false DefaultDrift = Some o2 /\
    delete_ranges o2 (map (fun '(_, new, len) => (new - 1, new + len)) (iter_inserts d)) = Some (map g A ++ map g B)).
  { pose proof (deletions_ok a b n ins d Hab Hk Ed) as D1. pose proof (inserts_ok a b n ins d Hab Hk Ed) as D2. assert (Hi : ins = [] \/ ins <> []) by (destruct ins; [left|right]; congruence). destruct Hi as [Ei|Ei].
    - rewrite Ei in D1, D2. rewrite D1, D2. cbn [map delete_ranges]. exists (A ++ B), (map g A ++ map g B). assert (a < b) by (destruct Hk as [[_ ?]|[? _]]; congruence || auto). split; [|split; auto].
      + replace (a + (b - a)) with b by lia. rewrite delete_intersecting_ok; auto. cbn [bind]. f_equal. rewrite Eocc, !filter_app. rewrite (filter_all _ A), (filter_none _ M), (filter_all _ B); auto.
        * intros r Hr. specialize (HB r Hr). lia.
        * intros r Hr. destruct (HM r Hr) as [H1 H2]. assert (rmin r <> b). { intros E. apply (Hnb Ei (rmax r)). exists r. split; [now apply IM|auto]. } unfold a0 in H1. rewrite Ei in H1. lia.
        * intros r Hr. specialize (HA r Hr). unfold a0 in HA. rewrite Ei in HA. lia.
      + unfold sel_apply_delta. rewrite apply_map; cbn [app]; rewrite map_app; auto.
    - assert (a = b) by (destruct Hk as [[? _]|[_ ?]]; congruence). assert (0 < length ins) by (destruct ins; [congruence|cbn; lia]). assert (Ea0 : a0 = a - 1) by (unfold a0; destruct ins; congruence).
      destruct ins as [|y0 ins0] eqn:Ei'; [congruence|]. rewrite <- Ei' in *. rewrite D1, D2.
      cbn [map delete_ranges].
      assert (Sg : sok (map g occ)).
      { apply sok_map; auto.
        - intros r Hr. destruct (G r Hr) as (E1 & E2 & _). unfold wide. rewrite E1, E2. pose proof (Hw r Hr) as Wr. unfold wide in Wr. unfold mv.
          destruct (Nat.leb_spec (rmin r) a), (Nat.leb_spec (rmax r) a), (Nat.leb_spec (rmin r) b), (Nat.leb_spec (rmax r) b); lia.
        - intros x y Hx Hy Hxy. destruct (G x Hx) as (_ & -> & _). destruct (G y Hy) as (-> & _ & _). eapply mv_mono; eauto. }
      exists occ, (map g occ). split; auto. split; [exact (apply_map d false DefaultDrift occ [] Sg)|]. rewrite delete_intersecting_ok; auto; [|left; lia]. cbn [bind]. f_equal. rewrite Eocc, !map_app, !filter_app.
      rewrite (filter_all _ (map g A)), (filter_none _ (map g M)), (filter_all _ (map g B)); auto.
      + intros r' Hr. apply in_map_iff in Hr as (r & <- & Hr). destruct (GB r Hr) as [E1 E2]. specialize (HB r Hr). lia.
      + intros r' Hr. apply in_map_iff in Hr as (r & <- & Hr). destruct (G r (IM r Hr)) as (E1 & E2 & _). destruct (HM r Hr) as [H1 H2]. rewrite E1, E2. rewrite (mvA (rmin r)) by lia.
        assert (rmax r <= mv a b ins (rmax r)) by (unfold mv; destruct (Nat.leb_spec (rmax r) a), (Nat.leb_spec (rmax r) b); lia). lia.
      + intros r' Hr. apply in_map_iff in Hr as (r & <- & Hr). destruct (GA r Hr) as [E1 E2]. specialize (HA r Hr). lia. }
  destruct O3 as (o1 & o2 & E1 & E2 & E3). set (o3 := map g A ++ map g B) in *.
  (* where the search starts *)
  assert (Mid : forall r, In r B -> a < rmin (g r)) by (intros r Hr; destruct (GB r Hr) as [-> _]; specialize (HB r Hr); lia).
  assert (Ein : regions_in_range o3 0 a = Some (map g A)).
  { destruct (regions_in_range_ok o3 0 a So3 (Nat.le_0_l _)) as (out & -> & Hout & _). f_equal. rewrite Hout.
    - unfold o3. rewrite filter_app, filter_all, filter_none, app_nil_r; auto.
      + intros r' Hr. apply in_map_iff in Hr as (r & <- & Hr). specialize (Mid r Hr). lia.
      + intros r' Hr. apply in_map_iff in Hr as (r & <- & Hr). destruct (GA r Hr) as [Q1 Q2]. specialize (HA r Hr). pose proof (Hw r (IA r Hr)) as Wr. unfold wide in Wr. lia.
    - intros x y Hx Hy Ex Ey. exfalso. apply in_app_or in Hy as [Hy|Hy]; apply in_map_iff in Hy as (r & <- & Hr).
      + destruct (GA r Hr) as [Q1 Q2]. specialize (HA r Hr). pose proof (Hw r (IA r Hr)) as Wr. unfold wide in Wr. lia.
      + specialize (Mid r Hr). lia. }
  set (start := List.last (map snd (places A)) 0).
  assert (Es : match last_region (map g A) with Some r => r_end r | None => 0 end = start).
  { rewrite last_end, PA; auto. intros r' Hr. apply in_map_iff in Hr as (r & <- & Hr). apply (G r (IA r Hr)). }
  assert (Hst : start <= a /\ scut s' start).
  { unfold start. destruct (last_in (map snd (places A)) 0) as [->|H]; [split; [lia|apply cb_0]|]. apply in_map_iff in H as ([i e] & <- & H). cbn [snd]. unfold places in H. apply in_map_iff in H as (r & [= <- <-] & Hr).
    specialize (HA r Hr). split; [unfold hi; unfold rmax in HA; lia|]. apply (ml_cut _ _ L' (rmin r) (rmax r)). apply Pre; [lia|]. apply Hm. now apply IA. }
  (* how far it has to go *)
  assert (Go : forall x, b + length ins <= x <= length s' -> (x = length s' \/ nth_error s' (x - 1) = Some 10 /\ ~ In 10 q /\ b + length ins < x) ->
    exists f', (let? o4 := sel_delete_range o3 a x false in update_find lower slow (with_occ f o4) t' start x false) = Some f' /\ same_query f f' /\ shows_all lower slow f' q t' /\ (forall r, In r (fd_occ f') -> r_start r <= r_end r)).
  { intros x Hx Hx'. rewrite delete_intersecting_ok; auto.
    2: { destruct (Nat.eq_dec a x); [right; split; auto|left; lia]. intros r Hr [Q1 Q2]. specialize (Hwide3 r Hr). unfold wide in Hwide3. lia. }
    cbn [bind]. set (B' := filter (fun r => x <=? rmin r) (map g B)).
    assert (E4 : filter (fun r => negb ((a <? rmax r) && (rmin r <? x))) o3 = map g A ++ B').
    { unfold o3, B'. rewrite filter_app, (filter_all _ (map g A)).
      - f_equal. apply filter_ext_in. intros r' Hr. apply in_map_iff in Hr as (r & <- & Hr). specialize (Mid r Hr). pose proof (Hwide3 (g r) ltac:(apply in_or_app; right; now apply in_map)) as Wr. unfold wide in Wr. lia.
      - intros r' Hr. apply in_map_iff in Hr as (r & <- & Hr). destruct (GA r Hr) as [Q1 Q2]. specialize (HA r Hr). lia. }
    rewrite E4. set (y := x - (a + length ins) + b). assert (Hy : y <= n) by (unfold y; lia).
    assert (Esk : skipn x s' = skipn y s).
    { rewrite Et, app_assoc, skipn_app, skipn_all2 by (rewrite app_length, firstn_length; fold n; lia). cbn [app]. rewrite skipn_skipn. f_equal. rewrite app_length, firstn_length. fold n. unfold y. lia. }
    assert (Hcut : scut s' x /\ scut s y /\ (forall i e, m' i e -> i < x -> e <= x) /\ (forall i e, m i e -> i < y -> e <= y)).
    { destruct Hx' as [->|(Hnl & Hq & Hxb)].
      - assert (y = n) as -> by (unfold y; lia). split; [apply cb_len|]. split; [apply cb_len|]. split; intros i e Hie _; [apply (ml_range _ _ L' _ _ Hie)|apply (ml_range _ _ L _ _ Hie)].
      - assert (Hnl' : nth_error s (y - 1) = Some 10).
        { rewrite Et, app_assoc, nth_error_app2 in Hnl by (rewrite app_length, firstn_length; fold n; lia). rewrite nth_error_skipn in Hnl. rewrite <- Hnl. f_equal. rewrite app_length, firstn_length. fold n. unfold y. lia. }
        assert (Hy0 : 0 < y) by (unfold y; lia). assert (Hx0 : 0 < x) by lia. split; [now apply nl_cut|]. split; [now apply nl_cut|]. split.
        + intros i e Hie. exact (no_cross lower slow (fd_case f) q s' x U' Hse Ho Hq Hx0 Hnl i e Hie).
        + intros i e Hie. exact (no_cross lower slow (fd_case f) q s y U Hse Ho Hq Hy0 Hnl' i e Hie). }
    destruct Hcut as (Cx & Cy & Nx & Ny). destruct (utf8_cut s y U Cy) as [U1 U2]. destruct (utf8_cut s' x U' Cx) as [U1' _].
    set (gg := fun i => i - b + a + length ins).
    assert (Suf : forall i e, y <= i -> y <= e -> (m i e <-> m' (gg i) (gg e))).
    { intros i e Hi He. unfold m, m', matches. fold s s'. pose proof (match_app_r lower slow (fd_case f) q (firstn y s) (skipn y s) (i - y) (e - y) U1 U2) as Q1.
      pose proof (match_app_r lower slow (fd_case f) q (firstn x s') (skipn y s) (i - y) (e - y) U1' U2) as Q2. rewrite <- Esk in Q2 at 1. rewrite !firstn_skipn in *.
      rewrite !firstn_length in *. fold n in Q1. rewrite Nat.min_l in Q1, Q2 by lia. unfold gg.
      replace (y + (i - y)) with i in Q1 by lia. replace (y + (e - y)) with e in Q1 by lia. replace (x + (i - y)) with (i - b + a + length ins) in Q2 by (unfold y in *; lia). replace (x + (e - y)) with (e - b + a + length ins) in Q2 by (unfold y in *; lia). tauto. }
    assert (Ry : in_turn m any y (places (filter (fun r => y <=? rmin r) B))).
    { pose proof (rt_from m s L 0 y (places occ) Rt (Nat.le_0_l _) Ny) as Q. assert (Ef : filter (fun x => y <=? fst x) (places occ) = places (filter (fun r => y <=? rmin r) B)); [|now rewrite <- Ef].
      assert (Ef : filter (fun x => y <=? fst x) (places occ) = places (filter (fun r => y <=? rmin r) occ)).
      { unfold places. clear. induction occ as [|r l IH]; auto. cbn [map filter fst]. change (lo r) with (rmin r). destruct (y <=? rmin r); cbn [map]; now rewrite IH. }
      rewrite Ef, Eocc, !filter_app. rewrite (filter_none _ A), (filter_none _ M); auto.
      - intros r Hr. destruct (HM r Hr) as [_ Q2]. pose proof (ml_range _ _ L _ _ (Hm r (IM r Hr))) as Q3. fold n in Q3. unfold y. destruct Hx' as [Hx'|(_ & _ & Hx')]; lia.
      - intros r Hr. specialize (HA r Hr). pose proof (Hw r (IA r Hr)) as Wr. unfold wide in Wr. unfold y. lia. }
    assert (Rx : in_turn m' any x (places B')).
    { assert (EB : places B' = map (fun z => (gg (fst z), gg (snd z))) (places (filter (fun r => y <=? rmin r) B))).
      { unfold B', places. rewrite map_map. assert (Ef : filter (fun r => x <=? rmin r) (map g B) = map g (filter (fun r => y <=? rmin r) B)).
        { clear - GB HB Hx. revert GB HB. induction B as [|r l IH]; intros GB HB; auto. cbn [map filter]. rewrite IH by (intros; (apply GB || apply HB); now right).
          destruct (GB r (or_introl eq_refl)) as [-> _]. specialize (HB r (or_introl eq_refl)). replace (x <=? rmin r - b + a + length ins) with (y <=? rmin r) by (unfold y; lia). now destruct (y <=? rmin r). }
        rewrite Ef, map_map. apply map_ext_in. intros r Hr. apply filter_In in Hr as [Hr _]. destruct (GB r Hr) as [Q1 Q2]. cbn [fst snd]. unfold gg. change (lo (g r)) with (rmin (g r)). change (hi (g r)) with (rmax (g r)). rewrite Q1, Q2. reflexivity. }
      rewrite EB. replace x with (gg y) by (unfold gg, y; lia).
      apply (rt_shift m m' x y gg); auto.
      - intros i Hi. unfold gg, y in *. lia.
      - intros i e Hie. apply (ml_range _ _ L' _ _ Hie).
      - intros i e Hie. apply (ml_range _ _ L _ _ Hie). }
    assert (Hm4 : forall r, In r (map g A ++ B') -> m' (rmin r) (rmax r)).
    { intros r Hr. apply in_app_or in Hr as [Hr|Hr].
      - apply in_map_iff in Hr as (z & <- & Hz). destruct (GA z Hz) as [-> ->]. specialize (HA z Hz). apply Pre; [lia|]. now apply Hm, IA.
      - apply (rt_in m' s' L' x (places B')); auto. now apply places_in. }
    assert (S4 : sok (map g A ++ B')). { rewrite <- E4. now apply sok_filter. }
    destruct (update_join lower slow (with_occ f (map g A ++ B')) q t' h' start x (map g A) B') as (f' & l & Eu & Sq & Sf & Pf & El & Hl); auto.
    - apply boundary_iff; auto. apply Hst.
    - fold s'. lia.
    - intros r Hr. unfold start. rewrite <- PA. apply last_max; auto. now apply sok_app in S4.
    - exists f'. split; auto. split; [exact (same_trans f _ _ ltac:(repeat split) Sq)|]. split; [split; [now apply sok_order|]|].
      + rewrite El, PA. destruct Sq as (_ & _ & Ec & _). unfold matches. rewrite Ec. cbn [fd_case with_occ].
        apply (rt_prefix m m' s' L' a (places A) (places (M ++ B))); auto.
        * intros i e Hie. unfold places in Hie. apply in_map_iff in Hie as (r & [= <- <-] & Hr). specialize (HA r Hr). unfold hi. unfold rmax in HA. lia.
        * unfold places. rewrite <- map_app, <- Eocc. exact Rt.
      + intros r Hr. destruct (Pf r Hr) as [Hr'|Hr'].
        * apply in_app_or in Hr' as [Hr'|Hr']; [|apply filter_In in Hr' as [Hr' _]]; apply in_map_iff in Hr' as (z & <- & Hz); apply G; auto.
        * rewrite Hr'. cbn [r_start r_end region_new]. apply min_le_max. }
  unfold update_highlights. rewrite Eq. fold occ. rewrite E1. cbn [bind]. rewrite E2. cbn [bind]. rewrite E3. cbn [bind]. rewrite (summary_ok a b n ins d Hab Hk Ed). rewrite Ein. cbn [bind]. rewrite Es. cbv zeta.
  assert (Em : multiline_regex f = false) by (unfold multiline_regex; now rewrite Er). rewrite Em, orb_false_r. rewrite (len_r t' h' W'). fold s'.
  destruct (existsb (Nat.eqb NL) q) eqn:Enl; [apply Go; [lia|auto]|].
  assert (Hq : ~ In 10 q). { intros H. assert (existsb (Nat.eqb NL) q = true) by (apply existsb_exists; exists 10; auto). congruence. }
  destruct (rnew_ok h' t' (b + length ins) W' Hb) as (c & -> & Pc & Vc). cbn [bind].
  destruct (CursorBoundary.next_ok _ _ _ _ _ _ rope_leaf_spec rope_text_spec _ _ _ lines_bound t' h' W' c Vc (or_introl eq_refl)) as (x & c' & En & Hx). rewrite En. cbn [bind]. destruct x as [x|].
  - destruct Hx as (_ & H1 & H2 & _). apply Go; [|right]; unfold line_break in H2; unfold s', rcontent in *; rewrite Pc in *; intuition (auto; lia).
  - pose proof (next_none_pos _ _ _ _ _ _ rope_leaf_spec rope_text_spec _ _ _ lines_bound eq_refl t' h' W' c c' Vc En) as Hp. change (length (content idl t')) with (length s') in Hp. rewrite Hp, Nat.eqb_refl. apply Go; [lia|auto].
Qed.
