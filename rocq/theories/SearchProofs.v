(** The occurrences of a query: the search loop and what it finds. *)
From Coq Require Import List Arith Lia Bool ZifyBool.
From Verif Require Import Base ListLib MultisetProofs TreeModel TreeSpec TreeProofs MetricProofs CursorModel CursorProofs CursorBoundary
  RopeModel RopeSpec RopeProofs RopeMetric RopeIterModel RopeCursor RopeIterProofs DiffProofs FindModel FindProofs PropertiesFind
  DeltaModel SelectionModel SelectionProofs PropertiesSelection WordModel ViewModel PropertiesRope PropertiesWord SearchModel SearchSpec.
Import ListNotations.
Local Notation region := SelectionModel.region.
Local Notation concat := List.concat.
Local Notation find := FindModel.find.
Local Notation idl := (fun l : list nat => l).

(** ** Prefixes of a text *)
Lemma scut_firstn s n p : p <= n -> scut s p -> scut (firstn n s) p.
Proof.
  intros Hp C. destruct (Nat.le_gt_cases (length s) n) as [Hl|Hl]; [now rewrite firstn_all2|].
  destruct (Nat.eq_dec p n) as [->|]; [replace n with (length (firstn n s)) at 2 by (rewrite firstn_length; lia); apply cb_len|].
  unfold scut in *. rewrite <- (firstn_skipn n s) in C. rewrite cb_left in C; auto. rewrite firstn_length. lia.
Qed.
Lemma scut_unfirstn s n p : scut s n -> scut (firstn n s) p -> scut s p.
Proof.
  intros Cn C. pose proof (cb_le _ _ C) as Hp. rewrite firstn_length in Hp. destruct (Nat.eq_dec p n) as [->|]; auto.
  destruct (Nat.le_gt_cases (length s) n) as [Hl|Hl]; [now rewrite firstn_all2 in C|].
  unfold scut in *. rewrite <- (firstn_skipn n s). rewrite cb_left; auto. rewrite firstn_length. lia.
Qed.
Lemma slice_firstn {A} (s : list A) n i e : e <= n -> slice (firstn n s) i e = slice s i e.
Proof. intros H. unfold slice. rewrite skipn_firstn_comm, firstn_firstn. f_equal. lia. Qed.

(** ** What is known of a kind of match *)
Record match_laws (t : list nat) (m : nat -> nat -> Prop) : Prop := {
  ml_range : forall i e, m i e -> i < e <= length t;
  ml_cut : forall i e, m i e -> scut t i /\ scut t e;
  ml_mono : forall i e i' e', m i e -> m i' e' -> i <= i' -> e <= e' }.
(** What [find] does in the first [T] bytes. *)
Definition find_law lower slow (f : finder) (q : list nat) (t sub : rope) (T : nat) (m : nat -> nat -> Prop) : Prop :=
  forall c ls, cok sub c -> exists x c' ls',
    find lower slow sub t (rx_of f) (n_len sub + 1) c ls (fd_case f) q (is_some (fd_regex f)) = Some (x, c', ls') /\ cok sub c' /\
    match x with
    | Some s => c_pos c <= s /\ m s (c_pos c') /\ forall i e, c_pos c <= i < s -> e <= T -> ~ m i e
    | None => forall i e, c_pos c <= i -> e <= T -> ~ m i e
    end.

Section Loop.
Context (lower : list nat -> list (list nat)) (slow : list nat -> list nat).
Context (t : rope) (h : nat) (W : rope_wf h t) (sub : rope) (hs : nat) (Ws : rope_wf hs sub) (T : nat).
Context (Hsub : rcontent sub = firstn T (rcontent t)) (HT : scut (rcontent t) T).
Context (f : finder) (q : list nat) (m : nat -> nat -> Prop) (L : match_laws (rcontent t) m) (F : find_law lower slow f q t sub T m).
Context (good : nat -> nat -> bool) (G : fd_whole f = true -> forall s e, m s e -> is_matching_whole_words t s e = Some (good s e)).
Context (G' : fd_whole f = false -> forall s e, good s e = true).
Notation s := (rcontent t).

Lemma T_le : T <= length s. Proof. now apply cb_le. Qed.
Lemma len_sub : length (rcontent sub) = T. Proof. rewrite Hsub, firstn_length. pose proof T_le. lia. Qed.
Lemma cok_set c p : cok sub c -> p <= T -> scut s p -> exists c', c_set rope_ops sub c p = Some c' /\ c_pos c' = p /\ cok sub c'.
Proof.
  intros Hc Hp C. destruct (rset_ok sub hs Ws c p) as (c' & E & P & V).
  - destruct Hc as [_ [V|(E1 & E2 & _)]]; [now apply valid_settable|right; auto].
  - now rewrite len_sub.
  - exists c'. split; auto. split; auto. split; [|now left]. rewrite P, Hsub. now apply scut_firstn.
Qed.
Lemma cok_T c : cok sub c -> c_pos c <= T.
Proof. intros [C _]. rewrite <- len_sub. now apply cb_le. Qed.
Lemma iter_at p to : p <= T -> exists it, iter_chunks t p to = Some it.
Proof. intros Hp. unfold iter_chunks. pose proof T_le. destruct (rnew_ok h t p W) as (c & -> & _); [lia|]. cbn [bind]. eauto. Qed.

Definition covered (occ : list region) (i e : nat) : Prop := exists a b, found occ a b /\ overlap a b i e.
Lemma found_ext rs r : In r rs -> found rs (rmin r) (rmax r). Proof. intros H. exists r. auto. Qed.

Lemma find_loop_ok to fuel : forall c ls occ, cok sub c -> sok occ -> (forall r, In r occ -> m (rmin r) (rmax r)) -> T - c_pos c < fuel ->
  exists occ', find_loop lower slow fuel f q t sub to c ls occ = Some occ' /\ sok occ' /\ (forall r, In r occ' -> m (rmin r) (rmax r)) /\
    (forall r, In r occ' -> In r occ \/ c_pos c <= rmin r /\ good (rmin r) (rmax r) = true /\ r = region_new (rmin r) (rmax r)) /\
    (forall r, In r occ -> rmax r <= c_pos c \/ T <= rmin r -> In r occ') /\
    (forall i e, c_pos c <= i -> e <= T -> m i e -> covered occ' i e \/ exists a b, m a b /\ good a b = false /\ overlap a b i e) /\
    ((forall r, In r occ -> rmax r <= c_pos c \/ c_pos c <= rmin r /\ rmax r <= T /\ fd_whole f = false) -> exists l, places occ' = places (filter (fun r => rmax r <=? c_pos c) occ) ++ l /\
       in_turn (fun i e => m i e /\ e <= T) (fun i e => good i e = true) (c_pos c) l).
Proof.
  induction fuel as [|fuel IH]; intros c ls occ Hc Hs Hm Hf; [lia|]. cbn [find_loop]. cbv zeta.
  destruct (F c ls Hc) as (x & c1 & ls1 & E & Hc1 & Hx). rewrite E. cbn [bind]. destruct x as [st|].
  2: { exists occ. split; auto. split; auto. split; auto. split; [auto|]. split; [auto|]. split.
       - intros i e Hi He H. exfalso. now apply (Hx i e).
       - intros Hl. exists []. split; [|apply it_none; intros i e Hi [H He]; now apply (Hx i e)]. rewrite app_nil_r, filter_all; auto. intros r Hr. destruct (Hl r Hr) as [|(H1 & H2 & _)]; [lia|].
         exfalso. now apply (Hx (rmin r) (rmax r) H1 H2), Hm. }
  destruct Hx as (Hst & Hme & Hno). set (e := c_pos c1) in *. pose proof (cok_T c1 Hc1) as HeT. fold e in HeT.
  pose proof (ml_range _ _ L _ _ Hme) as Hr. pose proof (cok_T c Hc) as HcT.
  (* going on from the end of the match *)
  assert (Egood : (if fd_whole f then is_matching_whole_words t st e else Some true) = Some (good st e)).
  { destruct (fd_whole f) eqn:Ew; [now apply G|]. now rewrite G'. }
  rewrite Egood. cbn [bind]. destruct (good st e) eqn:Eg; cbn [negb].
  2: { destruct (iter_at e to HeT) as (it & ->). cbn [bind]. fold e.
       destruct (IH c1 (LinesRaw it []) occ Hc1 Hs Hm) as (occ' & E' & S' & M' & P1 & P3 & P2 & P5); [fold e; lia|]. fold e in P1, P3, P2, P5.
       exists occ'. split; auto. split; auto. split; auto. split; [|split; [|split]].
       - intros r Hr'. destruct (P1 r Hr') as [|(? & ? & ?)]; auto. right. split; [lia|auto].
       - intros r Hr' [Hb|Hb]; apply P3; auto; lia.
       - intros i b Hi Hb Hib. destruct (Nat.lt_ge_cases i e) as [Hlt|Hge]; [|now apply P2]. right. exists st, e. split; auto. split; auto.
         assert (st <= i) by (destruct (Nat.lt_ge_cases i st); [exfalso; now apply (Hno i b)|auto]). pose proof (ml_range _ _ L _ _ Hib). unfold overlap. lia.
       - intros Hlast. assert (Hall : forall r, In r occ -> rmax r <= c_pos c). { intros r Hr'. destruct (Hlast r Hr') as [|(_ & _ & Ew)]; auto. rewrite G' in Eg; [discriminate|auto]. }
         destruct P5 as (l & El & Hl); [intros r Hr'; specialize (Hall r Hr'); lia|]. exists l. split; [rewrite El; rewrite !filter_all; auto; intros r Hr'; specialize (Hall r Hr'); lia|].
         apply (it_skip _ _ _ st e); auto; [intros i' e' Hi' [H1 H2]; now apply (Hno i' e')|rewrite Eg; discriminate]. }
  assert (Wd : forall o, In o occ -> wide o) by (intros o Ho; apply Hm in Ho; apply (ml_range _ _ L) in Ho; unfold wide; lia).
  assert (Er : rmin (region_new st e) = st /\ rmax (region_new st e) = e) by (unfold rmin, rmax; cbn; lia). destruct Er as [Er1 Er2].
  destruct (add_range_distinct_ok occ (region_new st e) Hs) as [(o & Ho & Hin & Ea)|[Hnone Ea]]; [now apply Forall_forall|unfold wide; lia| |]; rewrite Ea; cbn [bind ext]; rewrite ?Er1, ?Er2 in *.
  - (* one that is there starts before *)
    unfold ext. cbn [bind]. pose proof (Hm o Ho) as Mo. pose proof (ml_mono _ _ L _ _ _ _ Mo Hme ltac:(lia)) as Hoe.
    assert (Hgo : forall c2, cok sub c2 -> c_pos c2 = rmax o -> exists occ', (let? it := iter_chunks t (c_pos c2) to in find_loop lower slow fuel f q t sub to c2 (LinesRaw it []) occ) = Some occ' /\ sok occ' /\ (forall r, In r occ' -> m (rmin r) (rmax r)) /\
      (forall r, In r occ' -> In r occ \/ c_pos c <= rmin r /\ good (rmin r) (rmax r) = true /\ r = region_new (rmin r) (rmax r)) /\
      (forall r, In r occ -> rmax r <= c_pos c \/ T <= rmin r -> In r occ') /\
      (forall i e, c_pos c <= i -> e <= T -> m i e -> covered occ' i e \/ exists a b, m a b /\ good a b = false /\ overlap a b i e) /\
      ((forall r, In r occ -> rmax r <= c_pos c \/ c_pos c <= rmin r /\ rmax r <= T /\ fd_whole f = false) -> exists l, places occ' = places (filter (fun r => rmax r <=? c_pos c) occ) ++ l /\
         in_turn (fun i e => m i e /\ e <= T) (fun i e => good i e = true) (c_pos c) l)).
    { intros c2 Hc2 P2'. destruct (iter_at (c_pos c2) to) as (it & ->); [lia|]. cbn [bind].
      destruct (IH c2 (LinesRaw it []) occ Hc2 Hs Hm) as (occ' & E' & S' & M' & P1 & P3 & P2 & P5); [lia|]. rewrite P2' in *.
      exists occ'. split; auto. split; auto. split; auto. split; [|split; [|split]].
      - intros r Hr'. destruct (P1 r Hr') as [|(? & ? & ?)]; auto. right. split; [lia|auto].
      - intros r Hr' [Hb|Hb]; apply P3; auto; lia.
      - intros i b Hi Hb Hib. destruct (Nat.lt_ge_cases i (rmax o)) as [Hlt|Hge]; [|now apply P2]. left. exists (rmin o), (rmax o). split; [apply found_ext, P3; auto|].
        assert (st <= i) by (destruct (Nat.lt_ge_cases i st); [exfalso; now apply (Hno i b)|auto]). pose proof (ml_range _ _ L _ _ Hib). unfold overlap. lia.
      - intros Hlast. assert (Eo : rmin o = st /\ rmax o <= T).
        { destruct (Hlast o Ho) as [|(H1 & H2 & _)]; [lia|]. split; auto. destruct (Nat.eq_dec (rmin o) st); auto. exfalso. apply (Hno (rmin o) (rmax o)); auto; lia. }
        destruct Eo as [Eo HoT]. assert (Eoe : rmax o = e). { rewrite Eo in Mo. pose proof (ml_mono _ _ L _ _ _ _ Hme Mo (Nat.le_refl _)). lia. }
        apply in_split in Ho as (A & B & Eocc). subst occ. apply sok_app in Hs as (_ & HsB & HsA). destruct HsB as [FB _]. rewrite Forall_forall in FB.
        assert (HA : forall r, In r A -> rmax r <= rmin o) by (intros r Hr'; apply (HsA r o Hr'); now left).
        assert (HB : forall r, In r B -> rmax o <= rmin r) by (intros r Hr'; now apply FB).
        assert (WB : forall r, In r B -> rmin r < rmax r). { intros r Hr'. pose proof (Wd r) as Hw. unfold wide in Hw. apply Hw. apply in_or_app. right. now right. }
        assert (HA' : forall r, In r A -> rmax r <= c_pos c).
        { intros r Hr'. destruct (Hlast r) as [|(H1 & H2 & _)]; [apply in_or_app; now left|auto|]. exfalso. specialize (HA r Hr'). pose proof (Wd r) as Hw. unfold wide in Hw.
          apply (Hno (rmin r) (rmax r)); [split; [lia|]|lia|apply Hm; apply in_or_app; now left]. assert (rmin r < rmax r) by (apply Hw, in_or_app; now left). lia. }
        destruct P5 as (l & El & Hl).
        { intros r Hr'. destruct (Hlast r Hr') as [|(H1 & H2 & H3)]; [left; lia|]. apply in_app_or in Hr' as [Hr'|[<-|Hr']]; [left; specialize (HA r Hr'); lia|left; lia|right; auto]. }
        exists ((st, e) :: l). split.
        + rewrite El. rewrite !filter_app. cbn [filter]. replace (rmax o <=? rmax o) with true by lia. replace (rmax o <=? c_pos c) with false by lia.
          rewrite (filter_all _ A), (filter_none _ B), (filter_all _ A), (filter_none _ B); [| | | |].
          * unfold places. rewrite app_nil_r, map_app, <- app_assoc. cbn [map app]. do 3 f_equal; [exact Eo|exact Eoe].
          * intros r Hr'. specialize (HB r Hr'). specialize (WB r Hr'). lia.
          * intros r Hr'. specialize (HA' r Hr'). lia.
          * intros r Hr'. specialize (HB r Hr'). specialize (WB r Hr'). lia.
          * intros r Hr'. specialize (HA r Hr'). lia.
        + apply it_some; auto; [intros i' e' Hi' [H1 H2]; now apply (Hno i' e')|]. rewrite <- Eoe. exact Hl. }
    destruct (Nat.eqb_spec (rmax o) e) as [Heq|Hne]; cbn [negb].
    + replace (st =? e) with false by lia. apply Hgo; auto.
    + destruct (cok_set c1 (rmax o) Hc1) as (c2 & -> & P2' & Hc2); [lia|apply (ml_cut _ _ L _ _ Mo)|]. cbn [bind]. apply Hgo; auto.
  - (* a new one *)
    set (occ1 := filter _ occ ++ _) in *. rewrite Nat.eqb_refl. cbn [negb]. replace (st =? e) with false by lia.
    destruct (iter_at e to HeT) as (it & ->). cbn [bind].
    destruct (distinct_sok occ (region_new st e) Hs) as [S1 _]; [now apply Forall_forall|unfold wide; lia|]. rewrite Er1, Er2 in S1. fold occ1 in S1.
    assert (In1 : forall r, In r occ1 <-> (In r occ /\ rmax r <= st) \/ r = region_new st e \/ (In r occ /\ e <= rmin r)).
    { intros r. unfold occ1. rewrite in_app_iff. cbn [In]. rewrite !filter_In. rewrite !Nat.leb_le. intuition. }
    assert (M1 : forall r, In r occ1 -> m (rmin r) (rmax r)). { intros r Hr'. apply In1 in Hr' as [[? _]|[->|[? _]]]; auto. now rewrite Er1, Er2. }
    destruct (IH c1 (LinesRaw it []) occ1 Hc1 S1 M1) as (occ' & E' & S' & M' & P1 & P3 & P2 & P5); [fold e; lia|]. fold e in P1, P3, P2, P5.
    exists occ'. split; auto. split; auto. split; auto. split; [|split; [|split]].
    + intros r Hr'. destruct (P1 r Hr') as [Hi|(? & ? & ?)]; [|right; split; [lia|auto]]. apply In1 in Hi as [[? _]|[->|[? _]]]; auto. right. rewrite Er1, Er2. auto.
    + intros r Hr' [Hb|Hb]; apply P3; try (apply In1); auto; [left; split; auto; lia|left; lia|right; right; split; auto; lia].
    + intros i b Hi Hb Hib. destruct (Nat.lt_ge_cases i e) as [Hlt|Hge]; [|now apply P2]. left. exists st, e. split.
      * exists (region_new st e). split; [apply P3; [apply In1; auto|left; lia]|auto].
      * assert (st <= i) by (destruct (Nat.lt_ge_cases i st); [exfalso; now apply (Hno i b)|auto]). pose proof (ml_range _ _ L _ _ Hib). unfold overlap. lia.
    + intros Hlast. destruct P5 as (l & El & Hl).
      { intros r Hr'. apply In1 in Hr' as [[H1 H2]|[->|[H1 H2]]]; [lia|lia|]. destruct (Hlast r H1) as [H3|(H3 & H4 & H5)]; [|right; auto]. pose proof (Wd r H1) as Hw. unfold wide in Hw. lia. }
      exists ((st, e) :: l). split.
      * rewrite El. unfold occ1. rewrite filter_app. cbn [filter]. rewrite Er2, Nat.leb_refl. rewrite (filter_none _ (filter (fun o => e <=? rmin o) occ)).
        -- rewrite (filter_all _ (filter (fun o => rmax o <=? st) occ)).
           ++ unfold places. rewrite map_app. cbn [map]. rewrite <- app_assoc. cbn [app]. change (lo (region_new st e)) with (rmin (region_new st e)). change (hi (region_new st e)) with (rmax (region_new st e)). rewrite Er1, Er2.
              f_equal. f_equal. apply filter_ext_in. intros r H1. destruct (Hlast r H1) as [H3|(H3 & H4 & H5)]; [lia|]. pose proof (Wd r H1) as Hw. unfold wide in Hw.
              destruct (Nat.leb_spec (rmax r) st) as [H6|]; [|lia]. exfalso. apply (Hno (rmin r) (rmax r)); auto; lia.
           ++ intros r H1. apply filter_In in H1 as [_ H1]. lia.
        -- intros r H1. apply filter_In in H1 as [H0 H1]. pose proof (Wd r H0) as Hw. unfold wide in Hw. lia.
      * apply it_some; auto. intros i' e' Hi' [H1 H2]. now apply (Hno i' e').
Qed.
End Loop.


(** ** The kinds of match *)
Lemma occurs_at s q i : occurs s q i -> i + length q <= length s /\ slice s i (i + length q) = q.
Proof. intros (a & b & -> & <-). rewrite !app_length. split; [lia|]. unfold slice. rewrite skipn_app_exact by auto. replace (length a + length q - length a) with (length q) by lia. now apply firstn_app_exact. Qed.
Lemma at_occurs s q i : i + length q <= length s -> slice s i (i + length q) = q -> occurs s q i.
Proof.
  intros H E. exists (firstn i s), (skipn (i + length q) s). split; [|rewrite firstn_length; lia]. rewrite <- E at 1. unfold slice. replace (i + length q - i) with (length q) by lia.
  rewrite <- skipn_skipn, firstn_skipn. now rewrite firstn_skipn.
Qed.
Lemma occurs_firstn s q T i : T <= length s -> (occurs (firstn T s) q i <-> occurs s q i /\ i + length q <= T).
Proof.
  intros HT. split.
  - intros H. apply occurs_at in H as [H1 H2]. rewrite firstn_length in H1. rewrite slice_firstn in H2 by lia. split; [apply at_occurs; auto; lia|lia].
  - intros [H H1]. apply occurs_at in H as [H2 H3]. apply at_occurs; [rewrite firstn_length; lia|]. now rewrite slice_firstn by lia.
Qed.
Lemma utf8_firstn s T : utf8 s -> scut s T -> utf8 (firstn T s).
Proof. intros U C. replace (firstn T s) with (slice s 0 T) by (unfold slice; cbn [skipn]; now rewrite Nat.sub_0_r). apply utf8_slice; auto. lia. Qed.
Lemma lower_firstn lower s pl T i e : utf8 s -> scut s T -> (occurs_lower lower (firstn T s) pl i e <-> occurs_lower lower s pl i e /\ e <= T).
Proof.
  intros U C. pose proof (utf8_firstn s T U C) as U'. pose proof (cb_le _ _ C) as HT. unfold occurs_lower. rewrite <- !(boundary_iff _ _ U), <- !(boundary_iff _ _ U'). split.
  - intros (H1 & H2 & H3 & H4). pose proof (cb_le _ _ H2) as H5. rewrite firstn_length in H5. rewrite slice_firstn in H4 by lia. split; [|lia].
    split; [now apply (scut_unfirstn s T)|]. split; [now apply (scut_unfirstn s T)|]. auto.
  - intros ((H1 & H2 & H3 & H4) & H5). rewrite slice_firstn by lia. split; [apply scut_firstn; auto; lia|]. split; [apply scut_firstn; auto|]. auto.
Qed.
Lemma match_firstn lower slow cm q s T i e : utf8 s -> scut s T -> (is_match lower slow cm q (firstn T s) i e <-> is_match lower slow cm q s i e /\ e <= T).
Proof.
  intros U C. pose proof (cb_le _ _ C). destruct cm; cbn [is_match].
  - rewrite occurs_firstn by auto. split; [intros [[H1 H2] ->]|intros [[H1 ->] H2]]; auto.
  - rewrite lower_firstn by auto. split.
    + intros [[H1 H2] H3]. split; auto. split; auto. intros e' He' Ho. apply (H3 e' He'). apply lower_firstn; auto. split; auto. lia.
    + intros [[H1 H2] H3]. split; auto. intros e' He' Ho. apply lower_firstn in Ho as [Ho _]; auto. now apply (H2 e').
Qed.

Lemma lowers_app lower a b : lowers lower (a ++ b) = lowers lower a ++ lowers lower b. Proof. apply flat_map_app. Qed.
Lemma chars_split s i x e : utf8 s -> scut s i -> scut s x -> scut s e -> i <= x <= e -> chars (slice s i e) = chars (slice s i x) ++ chars (slice s x e).
Proof.
  intros U Ci Cx Ce H. apply chars_ok. rewrite (slice_cat s i x e) by lia. apply chars_of_app; apply chars_is; apply utf8_slice; auto; lia.
Qed.
Lemma laws_ok lower slow cm q t h : rope_wf h t -> searchable lower slow cm q -> match_laws (rcontent t) (is_match lower slow cm q (rcontent t)).
Proof.
  intros W (Uq & Hq & Hs). pose proof (rope_utf8 h t W) as U. assert (0 < length q) by (destruct q; [congruence|cbn; lia]). destruct cm; cbn [is_match] in *.
  - constructor.
    + intros i e [H1 ->]. apply occurs_at in H1. lia.
    + intros i e [H1 ->]. apply occurs_iff in H1; auto. now apply (occ_cut t h W q).
    + intros i e i' e' [_ ->] [_ ->]. lia.
  - destruct Hs as (_ & Us & Hsn & _).
    assert (Hne : chars (slow q) <> []). { intros E. destruct (chars_is _ Us) as [_ E']. rewrite E in E'. cbn in E'. now apply Hsn. }
    constructor.
    + intros i e [H1 _]. apply (lower_occ lower t h) in H1; auto. destruct H1 as (C1 & C2 & Hie & (u & E)). pose proof (cb_le _ _ C2). split; auto.
      destruct (Nat.eq_dec i e) as [->|]; [|lia]. exfalso. unfold slice in E. rewrite Nat.sub_diag in E. cbn in E. destruct (chars (slow q)); [congruence|discriminate].
    + intros i e [H1 _]. destruct H1 as (C1 & C2 & _). split; now apply boundary_iff.
    + intros i e i' e' [H1 Hmin] [H1' _] Hii. destruct (Nat.le_gt_cases e e') as [|Hlt]; auto. exfalso. apply (Hmin e' Hlt).
      apply (lower_occ lower t h) in H1, H1'; auto. apply (lower_occ lower t h); auto. destruct H1 as (C1 & C2 & Hie & (u & E)). destruct H1' as (C1' & C2' & Hie' & (u' & E')).
      split; auto. split; auto. split; [lia|].
      rewrite (chars_split _ i e' e), lowers_app in E by (auto; lia).
      assert (Hlen : length (chars (slow q)) <= length (lowers lower (chars (slice (rcontent t) i e')))).
      { rewrite (chars_split _ i i' e') by (auto; lia). rewrite lowers_app, E', !app_length. lia. }
      exists (skipn (length (chars (slow q))) (lowers lower (chars (slice (rcontent t) i e')))).
      apply (f_equal (firstn (length (chars (slow q))))) in E. rewrite (firstn_app_exact (chars (slow q))), firstn_app in E by auto.
      replace (length (chars (slow q)) - length (lowers lower (chars (slice (rcontent t) i e')))) with 0 in E by lia. cbn [firstn] in E. rewrite app_nil_r in E.
      etransitivity; [symmetry; apply (firstn_skipn (length (chars (slow q))))|]. now rewrite E.
Qed.

Lemma progress_rl lower slow r rl rx c ls cm pat n : find_progress lower slow r rl rx c ls cm pat n false = find_progress lower slow r r rx c ls cm pat n false.
Proof. destruct pat; reflexivity. Qed.
Lemma law_ok lower slow f q t sub T h hs : rope_wf h t -> rope_wf hs sub -> rcontent sub = firstn T (rcontent t) -> scut (rcontent t) T ->
  fd_regex f = None -> searchable lower slow (fd_case f) q -> find_law lower slow f q t sub T (is_match lower slow (fd_case f) q (rcontent t)).
Proof.
  intros W Ws Es CT Er (Uq & Hq & Hs) c ls Hc. pose proof (rope_utf8 h t W) as U. pose proof (rope_utf8 hs sub Ws) as Us.
  assert (Hmf : forall i e, is_match lower slow (fd_case f) q (rcontent sub) i e <-> is_match lower slow (fd_case f) q (rcontent t) i e /\ e <= T) by (intros; rewrite Es; now apply match_firstn).
  rewrite Er. cbn [is_some]. unfold find. rewrite progress_rl.
  assert (Hn : length (rcontent sub) = n_len sub) by (symmetry; now apply (len_r sub hs)).
  assert (HcT : forall c, cok sub c -> c_pos c <= n_len sub) by (intros c0 [C0 _]; rewrite <- Hn; now apply cb_le).
  assert (Hgo : forall P fin, (exists x c', find_progress lower slow sub sub (rx_of f) c ls (fd_case f) q (n_len sub + 1) false = Some (x, c', ls) /\ cok sub c' /\
      match x with
      | FFound p => c_pos c <= p /\ P p /\ no_occ P (c_pos c) p /\ fin p (c_pos c')
      | FNotFound => forall i, c_pos c <= i -> ~ P i
      | FTryAgain => c_pos c + (n_len sub + 1) <= c_pos c' /\ no_occ P (c_pos c) (c_pos c')
      end) -> (forall i e, P i -> fin i e -> is_match lower slow (fd_case f) q (rcontent sub) i e) -> (forall i e, is_match lower slow (fd_case f) q (rcontent sub) i e -> P i) ->
      exists x c' ls', (let? (x, c1, ls1) := find_progress lower slow sub sub (rx_of f) c ls (fd_case f) q (n_len sub + 1) false in
        match x with FFound p => Some (Some p, c1, ls1) | FNotFound => Some (None, c1, ls1) | FTryAgain => None end) = Some (x, c', ls') /\ cok sub c' /\
      match x with
      | Some s => c_pos c <= s /\ is_match lower slow (fd_case f) q (rcontent t) s (c_pos c') /\ forall i e, c_pos c <= i < s -> e <= T -> ~ is_match lower slow (fd_case f) q (rcontent t) i e
      | None => forall i e, c_pos c <= i -> e <= T -> ~ is_match lower slow (fd_case f) q (rcontent t) i e
      end).
  { intros P fin (x & c' & -> & Hc' & Hx) H1 H2. cbn [bind]. destruct x as [p| |].
    - exists (Some p), c', ls. split; auto. split; auto. destruct Hx as (Hp & HP & Hno & Hf). split; auto. split; [apply Hmf; auto|].
      intros i e Hi He Hm. apply (Hno i Hi). apply (H2 i e). now apply Hmf.
    - exists None, c', ls. split; auto. split; auto. intros i e Hi He Hm. apply (Hx i Hi). apply (H2 i e). now apply Hmf.
    - exfalso. destruct Hx as [Hx _]. specialize (HcT c' Hc'). lia. }
  destruct (fd_case f) eqn:Ec.
  - eapply (Hgo (occ sub q) (fun i e => e = i + length q)); [exact (exact_step lower slow (rx_of f) sub hs Ws q Hq Uq (n_len sub + 1) c ls Hc)| |].
    + intros i e HP ->. split; auto. now apply occurs_iff.
    + intros i e [H1 _]. now apply occurs_iff.
  - destruct Hs as (Ht & Ul & Hl & Hk). eapply (Hgo (iocc sub lower (slow q)) (ifin sub lower (slow q))); [exact (casei_step lower slow (rx_of f) sub hs Ws Ht q Ul Hq Hl Uq Hk (n_len sub + 1) c ls Hc)| |].
    + intros i e _ [H1 H2]. split; [now apply (lower_occ lower sub hs)|]. intros e' He' Ho. apply (lower_occ lower sub hs) in Ho; auto. apply H2 in Ho. lia.
    + intros i e [H1 _]. exists e. now apply (lower_occ lower sub hs).
Qed.

(** ** Where a search starts and how far it reads *)
Section Range.
Context (t : rope) (h : nat) (W : rope_wf h t).
Notation s := (rcontent t).

Lemma leaf_end pos : exists c b c', c_new t pos = Some c /\ next_leaf rope_ops t c = Some (b, c') /\ scut s (c_pos c') /\ Nat.min pos (length s) <= c_pos c' <= length s.
Proof.
  unfold c_new, descend. cbn [c_pos c_cache]. rewrite (wf_height rope_ops idl leafV compute_info h t W).
  destruct (descend_f_ok rope_ops idl leafV compute_info h t 0 pos (repeat None CACHE_SIZE) h W) as (p & l & pre & post & R & -> & G1 & G2); try lia; [apply repeat_length|].
  cbn [bind Nat.add] in *.
  match goal with |- exists c b c', Some ?x = Some c /\ _ => set (c0 := x) end.
  assert (Ha : at_leaf idl t c0 l pre post) by (exists p; repeat split; auto).
  pose proof (next_leaf_ok rope_ops idl leafV scut compute_info utf8 rope_leaf_spec rope_text_spec t h W c0 l pre post Ha) as Hn.
  pose proof (route_content rope_ops idl leafV compute_info t h W _ _ _ _ R) as Es. change (content idl t) with s in Es.
  destruct post as [|l2 post'].
  - destruct Hn as (c' & E & E1 & E2 & E3). exists c0, false, c'. split; auto. split; auto. change (content idl t) with s in *. rewrite E2. split; [apply cb_len|lia].
  - destruct Hn as (c' & E & Ha' & Ep'). exists c0, true, c'. split; auto. split; auto. pose proof Ha' as (p' & R' & El' & Eo' & Ec'). rewrite llen_app, llen_one in Eo'.
    pose proof (rope_utf8 h t W) as U. pose proof (leaves_V rope_ops idl leafV compute_info h t W) as FV. rewrite (route_leaves _ _ _ _ _ R) in FV.
    assert (U2 : utf8 (flat_map idl (l2 :: post'))).
    { apply (T_ls rope_ops idl leafV scut utf8 rope_text_spec). apply Forall_app in FV as [_ FV]. now inversion FV. }
    assert (E3 : c_pos c' = length (flat_map idl pre ++ l)) by (rewrite app_length; change (length (flat_map idl pre)) with (llen idl pre); cbv beta in Eo'; lia).
    rewrite E3. split; [rewrite Es, app_assoc; now apply scut_app|]. rewrite Es, !app_length. change (length (flat_map idl pre)) with (llen idl pre). cbv beta in *. destruct G2 as [G2|G2]; [lia|discriminate].
Qed.
Lemma next_total o : o <= length s -> exists x, at_or_next_codepoint_boundary t o = Some x /\ match x with Some p => o <= p | None => True end.
Proof.
  intros Ho. unfold at_or_next_codepoint_boundary. rewrite (is_cb_ok t h W o Ho). cbn [bind]. destruct (is_char_boundary s o) eqn:B; [exists (Some o); auto|].
  assert (o < length s). { destruct (Nat.eq_dec o (length s)) as [->|]; [|lia]. pose proof (cb_len s) as C. congruence. }
  unfold next_codepoint_offset. destruct (rnew_ok h t o W Ho) as (c & -> & P & V). cbn [bind]. destruct V as (l & pre & post & V).
  destruct (valid_leaf t h W _ _ _ _ V) as (_ & _ & _ & _ & _ & _ & Hlt). specialize (Hlt ltac:(lia)). destruct V as ((p & R & El & Eo & Ec) & G1 & G2).
  unfold c_next. rewrite El. rewrite (len_r t h W). replace (length s <=? c_pos c) with false by lia. unfold next_inside_leaf. rewrite El. cbn [bind]. replace (c_pos c <? c_off c) with false by lia.
  cbn [m_next base_metric]. unfold cp_next.
  replace (c_pos c - c_off c =? length l) with false by lia. destruct (nth_error l (c_pos c - c_off c)) as [b|] eqn:Eb; [|apply nth_error_None in Eb; lia]. cbn [bind].
  set (o' := c_pos c - c_off c + len_utf8_from_first_byte b). change (l_len rope_ops l) with (length l).
  destruct ((o' =? length l) && negb (c_off c + o' =? n_len t)) eqn:E.
  - assert (Ha : at_leaf idl t c l pre post) by (exists p; auto).
    pose proof (next_leaf_ok rope_ops idl leafV scut compute_info utf8 rope_leaf_spec rope_text_spec t h W c l pre post Ha) as Hn.
    assert (exists bb c', next_leaf rope_ops t c = Some (bb, c') /\ o <= c_pos c') as (bb & c' & -> & Hc').
    { destruct post as [|l2 post'].
      - destruct Hn as (c' & E1 & _ & E2 & _). exists false, c'. split; auto. change (content idl t) with s in E2. lia.
      - destruct Hn as (c' & E1 & (p' & _ & _ & Eo' & _) & E2). rewrite llen_app, llen_one in Eo'. cbv beta in Eo'. exists true, c'. split; auto. lia. }
    cbn [bind]. eexists. split; [reflexivity|]. auto.
  - cbn [bind]. eexists. split; [reflexivity|]. cbv beta iota. lia.
Qed.
End Range.

(** ** [update_find] *)
Definition kept (f : finder) (t : rope) (i e : nat) : bool := negb (fd_whole f) || match is_matching_whole_words t i e with Some b => b | None => false end.
Definition slop_of (f : finder) (slop : bool) : nat := match fd_string f with Some q => if slop then length q * 2 else 0 | None => 0 end.
(** The loop runs in the first [T] bytes from [from] on. *)
Lemma update_eq lower slow f q t h start e slop : rope_wf h t -> fd_string f = Some q -> start <= length (rcontent t) -> start <= e ->
  exists from T sub hs c it to, update_find lower slow f t start e slop =
      (let? occ := find_loop lower slow (length (rcontent t) + 2) f q t sub to c (LinesRaw it []) (fd_occ f) in Some (dirtied (with_occ f occ))) /\
    from <= start - slop_of f slop /\ (char_boundary (rcontent t) (start - slop_of f slop) -> from = start - slop_of f slop) /\
    Nat.min (e + slop_of f slop) (length (rcontent t)) <= T <= length (rcontent t) /\ scut (rcontent t) T /\
    rope_wf hs sub /\ rcontent sub = firstn T (rcontent t) /\ cok sub c /\ c_pos c = from.
Proof.
  intros W Eq Hst Hse. unfold update_find, slop_of. rewrite Eq. set (k := if slop then length q * 2 else 0).
  rewrite !(len_r t h W). replace (Nat.max start k - k) with (start - k) by lia.
  destruct (C47_at_or_prev_codepoint h t (start - k) W) as (from & -> & Hf & Cf & Hfn); [lia|]. cbn [bind unwrap_or].
  pose proof (rope_utf8 h t W) as U. apply boundary_iff in Cf; auto.
  destruct (next_total t h W (Nat.min (e + k) (length (rcontent t)))) as (x & -> & Hx); [lia|]. cbn [bind].
  set (to := unwrap_or x (length (rcontent t))). assert (Hto : Nat.min (e + k) (length (rcontent t)) <= to) by (unfold to; destruct x; cbn [unwrap_or]; lia).
  destruct (leaf_end t h W to) as (tc & b & tc' & -> & E2 & CT & HT). cbn [bind]. rewrite E2. cbn [bind]. set (T := c_pos tc') in *.
  destruct (subseq_ok rope_ops idl leafV scut compute_info rope_leaf_spec h t 0 T W (Nat.le_0_l _) (proj2 HT) (cb_0 _) CT) as (sub & hs & -> & Ws & Es). cbn [bind].
  change (content idl sub) with (rcontent sub) in Es. change (content idl t) with (rcontent t) in Es.
  unfold slice in Es. cbn [skipn] in Es. rewrite Nat.sub_0_r in Es.
  destruct (new_cok sub hs Ws from) as (c & -> & Pc & Hc). { apply boundary_iff; [now apply (rope_utf8 hs)|]. rewrite Es. apply scut_firstn; auto. lia. }
  cbn [bind]. assert (exists it, iter_chunks t from to = Some it) as (it & ->). { unfold iter_chunks. destruct (rnew_ok h t from W) as (c0 & -> & _); [lia|]. cbn [bind]. eauto. } cbn [bind].
  exists from, T, sub, hs, c, it, to. split; auto. split; auto. split; [|split; [lia|auto]].
  intros C. destruct (Nat.eq_dec from (start - k)); auto. exfalso. apply (Hfn (start - k)); auto. lia.
Qed.
Lemma update_ok lower slow f q t h start e slop : let m := is_match lower slow (fd_case f) q (rcontent t) in
  rope_wf h t -> fd_string f = Some q -> fd_regex f = None -> searchable lower slow (fd_case f) q ->
  (fd_whole f = true -> forall i e, m i e -> is_matching_whole_words t i e <> None) ->
  start <= length (rcontent t) -> start <= e -> sok (fd_occ f) -> (forall r, In r (fd_occ f) -> m (rmin r) (rmax r)) ->
  exists from T occ', update_find lower slow f t start e slop = Some (dirtied (with_occ f occ')) /\ sok occ' /\ (forall r, In r occ' -> m (rmin r) (rmax r)) /\
    from <= start - slop_of f slop /\
    Nat.min (e + slop_of f slop) (length (rcontent t)) <= T <= length (rcontent t) /\
    (forall r, In r occ' -> In r (fd_occ f) \/ from <= rmin r /\ kept f t (rmin r) (rmax r) = true /\ r = region_new (rmin r) (rmax r)) /\
    (forall r, In r (fd_occ f) -> rmax r <= from \/ T <= rmin r -> In r occ') /\
    (forall i e, from <= i -> e <= T -> m i e -> covered occ' i e \/ exists a b, m a b /\ kept f t a b = false /\ overlap a b i e) /\
    ((forall r, In r (fd_occ f) -> rmax r <= from \/ from <= rmin r /\ rmax r <= T /\ fd_whole f = false) -> exists l, places occ' = places (filter (fun r => rmax r <=? from) (fd_occ f)) ++ l /\
       in_turn (fun i e => m i e /\ e <= T) (fun i e => kept f t i e = true) from l).
Proof.
  intros m W Eq Er Hs Hw Hst Hse Hok Hm. destruct (update_eq lower slow f q t h start e slop W Eq Hst Hse) as (from & T & sub & hs & c & it & to & -> & Hf & _ & HT & CT & Ws & Es & Hc & Pc).
  destruct (find_loop_ok lower slow t h W sub hs Ws T Es CT f q m (laws_ok lower slow (fd_case f) q t h W Hs) (law_ok lower slow f q t sub T h hs W Ws Es CT Er Hs) (kept f t)) with (to := to) (fuel := length (rcontent t) + 2) (c := c) (ls := LinesRaw it []) (occ := fd_occ f)
    as (occ' & Eo & S' & M' & P1 & P3 & P2 & P5); auto.
  { intros Ew i e' Hme. unfold kept. rewrite Ew. cbn [negb orb]. specialize (Hw Ew i e' Hme). destruct (is_matching_whole_words t i e') as [[]|]; congruence. }
  { intros Ew i e'. unfold kept. now rewrite Ew. }
  { lia. }
  rewrite Eo. cbn [bind]. rewrite Pc in *. exists from, T, occ'. repeat (split; [now auto|]). auto.
Qed.

(** The test for whole words, of a match that begins and ends with a character of one byte. *)
Definition one_byte (t : list nat) (p : nat) : Prop := exists b, nth_error t p = Some b /\ b < 128.
Lemma one_byte_cut t p : utf8 t -> one_byte t p -> scut t p /\ scut t (S p).
Proof.
  intros U (b & E & Hb). split; [|eapply ascii_cut; eauto]. unfold scut, is_char_boundary. destruct (p =? 0); auto. rewrite E. unfold RopeModel.is_start. lia.
Qed.
Lemma whole_ok t h i e : rope_wf h t -> i < e -> one_byte (rcontent t) i -> one_byte (rcontent t) (e - 1) ->
  exists b, is_matching_whole_words t i e = Some b /\ (b = true <-> word_begins (rcontent t) i /\ word_ends (rcontent t) e).
Proof.
  intros W Hie Hi He. pose proof (rope_utf8 h t W) as U. destruct (one_byte_cut _ _ U Hi) as [Ci Ci']. destruct (one_byte_cut _ _ U He) as [Ce Ce']. replace (S (e - 1)) with e in Ce' by lia.
  pose proof (cb_le _ _ Ci') as Li. pose proof (cb_le _ _ Ce') as Le. unfold is_matching_whole_words. replace (1 <=? e) with true by lia. cbn [check].
  destruct (rnew_ok h t (e - 1) W ltac:(lia)) as (c1 & -> & P1 & V1). destruct (rnew_ok h t (i + 1) W ltac:(lia)) as (c2 & -> & P2 & V2). cbn [bind].
  destruct (C44_prev_boundary t h W c2 (n_len t) V2) as (sb & c3 & -> & Hs); [rewrite P2; apply boundary_iff; auto; now rewrite Nat.add_1_r|rewrite (len_r t h W); auto|]. cbn [bind].
  rewrite P2 in Hs. destruct sb as [sb|]; [|lia]. destruct Hs as (S1 & S2 & S3 & S4 & _).
  destruct (Nat.eqb_spec sb i) as [->|Hne]; cbn [negb].
  2: { exists false. split; auto. split; [discriminate|]. intros [Hb _]. exfalso. apply (S4 i); [lia|auto]. }
  destruct (C44_next_boundary t h W c1 (n_len t) V1) as (eb & c4 & -> & He'); [rewrite P1; now apply boundary_iff|rewrite (len_r t h W); auto|]. cbn [bind].
  rewrite P1 in He'. destruct eb as [eb|]; [|lia]. destruct He' as (E1 & E2 & E3 & E4 & _). eexists. split; [reflexivity|]. rewrite negb_involutive, Nat.eqb_eq. split.
  - intros ->. auto.
  - intros [_ Hb]. destruct (Nat.eq_dec eb e); auto. exfalso. apply (E4 e); [lia|auto].
Qed.
