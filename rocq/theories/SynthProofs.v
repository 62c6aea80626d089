(** [Delta::synthesize] computes [between]. *)
From Coq Require Import List Arith Bool Lia ZifyBool.
From Verif Require Import Base ListLib MultisetModel MultisetSpec MultisetProofs DeltaModel DeltaSpec ExpandProofs.
Import ListNotations.

(** ** Slices and ranks *)
Lemma slice_length {A} (l : list A) b e : e <= length l -> length (slice l b e) = e - b.
Proof. intros. unfold slice. rewrite firstn_length, skipn_length. lia. Qed.

Lemma slice_nil {A} (l : list A) b : slice l b b = [].
Proof. unfold slice. now rewrite Nat.sub_diag. Qed.

Lemma slice_split {A} (l : list A) b m e : b <= m -> m <= e ->
  slice l b e = slice l b m ++ slice l m e.
Proof.
  intros H1 H2. unfold slice.
  replace (skipn m l) with (skipn (m - b) (skipn b l)) by (rewrite skipn_skipn; f_equal; lia).
  replace (e - b) with ((m - b) + (e - m)) by lia. revert H1 H2.
  generalize (skipn b l). intros s. generalize (m - b), (e - m). clear. intros p q _ _.
  revert s; induction p; intros s; cbn; auto. destruct s; cbn; [now rewrite firstn_nil|]. now rewrite IHp.
Qed.

Lemma slice_skipn {A} (l : list A) b e : b <= e -> skipn b l = slice l b e ++ skipn e l.
Proof.
  intros. unfold slice. rewrite <- (firstn_skipn (e - b) (skipn b l)) at 1. f_equal.
  rewrite skipn_skipn. f_equal. lia.
Qed.

Lemma firstn_slice {A} (l : list A) b e : b <= e -> firstn e l = firstn b l ++ slice l b e.
Proof.
  intros H. assert (E : forall k, firstn k l = slice l 0 k) by (intros; unfold slice; now rewrite Nat.sub_0_r).
  rewrite !E. apply slice_split; lia.
Qed.

Lemma rank_slice m f b e : b <= e -> rank m f e = rank m f b + length (filter (matchc m) (slice f b e)).
Proof. intros. unfold rank. rewrite (firstn_slice f b e) by auto. now rewrite filter_app, app_length. Qed.

Lemma rank_zero_slice f b e : b <= e -> rank Zero f e = rank Zero f b + zeros (slice f b e).
Proof. intros. now rewrite (rank_slice _ _ b e). Qed.

Lemma rank_full m f : rank m f (length f) = length (filter (matchc m) f).
Proof. unfold rank. now rewrite firstn_all. Qed.

Lemma rank_le m f i : rank m f i <= length (filter (matchc m) f).
Proof.
  unfold rank. rewrite <- (firstn_skipn i f) at 2. rewrite filter_app, app_length. lia.
Qed.

Lemma rank_mono m f b e : b <= e -> rank m f b <= rank m f e.
Proof. intros. rewrite (rank_slice m f b e); lia. Qed.

Lemma removed_app {A} c c' (s s' : list A) : length c = length s ->
  removed (c ++ c') (s ++ s') = removed c s ++ removed c' s'.
Proof.
  revert s; induction c as [|k c IH]; intros [|x s]; cbn; intros; try lia; auto.
  destruct (k =? 0); cbn; rewrite IH; auto.
Qed.

Lemma removed_length {A} c (s : list A) : length c = length s ->
  length (removed c s) = length (filter (matchc NonZero) c).
Proof.
  revert s; induction c as [|k c IH]; intros [|x s]; cbn; intros; try lia; auto.
  destruct (k =? 0); cbn; rewrite IH; auto.
Qed.

Lemma kept_length {A} c (s : list A) : length c = length s -> length (kept c s) = zeros c.
Proof.
  unfold zeros. revert s; induction c as [|k c IH]; intros [|x s]; cbn; intros; try lia; auto.
  destruct (k =? 0); cbn; rewrite IH; auto.
Qed.

Lemma removed_all {A} c (s : list A) : length c = length s -> Forall (fun k => k <> 0) c -> removed c s = s.
Proof.
  intros Hl H. revert s Hl; induction H as [|k c Hk H IH]; intros [|x s]; cbn; intros; try lia; auto.
  destruct (Nat.eqb_spec k 0); [lia|]. rewrite IH; auto.
Qed.

(** The slice of the tombstones that corresponds to a fully removed slice. *)
Lemma removed_slice {A} f (u : list A) b e : length f = length u -> b <= e -> e <= length f ->
  Forall (fun k => k <> 0) (slice f b e) ->
  slice (removed f u) (rank NonZero f b) (rank NonZero f e) = slice u b e.
Proof.
  intros Hl Hbe He Hnz.
  assert (E : removed f u = removed (firstn b f) (firstn b u) ++
     slice u b e ++ removed (skipn e f) (skipn e u)).
  { rewrite <- (firstn_skipn b f) at 1. rewrite <- (firstn_skipn b u) at 1.
    rewrite (slice_skipn f b e), (slice_skipn u b e) by auto.
    rewrite removed_app by (rewrite !firstn_length; lia).
    rewrite removed_app by (rewrite !slice_length; lia). do 2 f_equal.
    apply removed_all; auto. rewrite !slice_length; lia. }
  assert (L1 : length (removed (firstn b f) (firstn b u)) = rank NonZero f b).
  { rewrite removed_length by (rewrite !firstn_length; lia). reflexivity. }
  assert (L2 : rank NonZero f e = rank NonZero f b + length (slice u b e)).
  { rewrite (rank_slice _ _ b e) by auto. f_equal. rewrite !slice_length by lia.
    rewrite <- (slice_length f b e) by lia.
    clear - Hnz. induction Hnz as [|k c Hk H IH]; auto. cbn.
    destruct (Nat.eqb_spec k 0); [lia|]. cbn. now rewrite IH. }
  rewrite E. unfold slice at 1. rewrite skipn_app_exact by auto.
  apply firstn_app_exact. lia.
Qed.

(** ** Advancing the list of old ranges *)
Fixpoint zr (pos : nat) (rs : list (nat * nat)) (c : list nat) : Prop :=
  match rs with
  | [] => Forall (fun k => k <> 0) c
  | (b, e) :: rs' =>
      pos <= b /\ b < e /\
      exists nz c', c = nz ++ repeat 0 (e - b) ++ c' /\ length nz = b - pos /\
        Forall (fun k => k <> 0) nz /\ zr e rs' c'
  end.

Lemma zr_nz pos n rs nz c : Forall (fun k => k <> 0) nz -> length nz = n ->
  zr (pos + n) rs c -> zr pos rs (nz ++ c).
Proof.
  intros Hnz Hl H. destruct rs as [|[b e] rs]; cbn in *; [apply Forall_app; auto|].
  destruct H as (H1 & H2 & nz' & c' & -> & H3 & H4 & H5).
  split; [lia|]. split; [lia|]. exists (nz ++ nz'), c'. rewrite <- app_assoc.
  repeat split; auto; [rewrite app_length; lia|apply Forall_app; auto].
Qed.

Lemma zr_ranges l : all_pos l -> forall pos, zr pos (ranges_from l pos Zero) (flat l).
Proof.
  induction 1 as [|g l Hg Hl IH]; intros pos; cbn; [constructor|].
  specialize (IH (pos + seg_len g)).
  destruct (Nat.eqb_spec (seg_count g) 0) as [E|E]; cbn.
  - split; [lia|]. split; [lia|]. exists [], (flat l). cbn.
    rewrite E. repeat split; auto; [|lia].
    replace (pos + seg_len g - (pos + seg_len g - seg_len g)) with (seg_len g) by lia. auto.
  - apply (zr_nz pos (seg_len g)); auto using repeat_length.
    apply Forall_forall. intros x Hx. apply repeat_spec in Hx. lia.
Qed.

Definition old_inv (f : list nat) (beg : nat) (old : list (nat * nat)) (x : nat) : Prop :=
  exists pos, pos <= beg /\ zr pos old (skipn pos f) /\ x = rank Zero f pos.

Lemma synth_skip_ok f : forall old x y beg, old_inv f y old x -> y <= beg -> beg <= length f ->
  let '(old', x') := synth_skip old x beg in old_inv f beg old' x' /\
    (forall ib ie r, old' = (ib, ie) :: r -> beg < ie).
Proof.
  induction old as [|[ib ie] old IH]; intros x y beg (pos & Hp & H & Hx) Hy Hb; cbn [synth_skip].
  - split; [|congruence]. exists pos. repeat split; auto; lia.
  - destruct (Nat.ltb_spec beg ie).
    + split; [|congruence]. exists pos. repeat split; auto; try lia; apply H.
    + destruct H as (H1 & H2 & nz & c' & E & H3 & H4 & H5).
      assert (Ec : skipn ie f = c').
      { replace ie with (pos + (ie - pos)) by lia. rewrite <- skipn_skipn, E, app_assoc.
        apply skipn_app_exact. rewrite app_length, repeat_length. lia. }
      apply (IH (x + (ie - ib)) beg beg); auto. exists ie. split; [auto|]. split; [now rewrite Ec|].
      subst x. rewrite (rank_zero_slice f pos ie) by lia. f_equal.
      unfold slice. rewrite E, app_assoc, firstn_app_exact by (rewrite app_length, repeat_length; lia).
      rewrite zeros_app, zeros_repeat, zeros_nz by auto. reflexivity.
Qed.

(** What the head of the old ranges says about [beg]. *)
Lemma old_copy f beg ib ie old x : old_inv f beg ((ib, ie) :: old) x -> ib <= beg -> beg < ie ->
  forall lim, beg <= lim -> lim <= ie ->
  slice f beg lim = repeat 0 (lim - beg) /\ rank Zero f beg = beg + x - ib /\ lim <= length f.
Proof.
  intros (pos & Hp & (H1 & H2 & nz & c' & E & H3 & H4 & H5) & ->) Hib Hie lim Hl1 Hl2.
  assert (L : lim <= length f).
  { apply (f_equal (@length nat)) in E. rewrite skipn_length, !app_length, repeat_length in E. lia. }
  assert (S : forall p q, ib <= p -> p <= q -> q <= ie -> slice f p q = repeat 0 (q - p)).
  { intros p q Hp1 Hp2 Hp3. unfold slice.
    replace p with (pos + (p - pos)) at 2 by lia. rewrite <- skipn_skipn, E.
    rewrite skipn_app, (skipn_all2 nz) by lia. cbn [app].
    rewrite skipn_app, skipn_repeat, repeat_length.
    replace (p - pos - length nz - (ie - ib)) with 0 by lia. rewrite skipn_O.
    rewrite firstn_app, firstn_repeat, repeat_length.
    replace (q - p - (ie - ib - (p - pos - length nz))) with 0 by lia. rewrite firstn_O, app_nil_r.
    f_equal. lia. }
  split; [apply S; lia|]. split; [|auto].
  rewrite (rank_zero_slice f pos beg) by lia.
  replace (slice f pos beg) with (nz ++ repeat 0 (beg - ib)).
  - rewrite zeros_app, zeros_repeat, zeros_nz by auto. cbn. lia.
  - rewrite (slice_split f pos ib beg) by lia. rewrite (S ib beg) by lia. f_equal.
    unfold slice. rewrite E. symmetry. apply firstn_app_exact. lia.
Qed.

Lemma old_insert f beg old x : old_inv f beg old x ->
  forall lim, beg <= lim -> lim <= length f ->
  match old with [] => True | (ib, _) :: _ => lim <= ib end ->
  Forall (fun k => k <> 0) (slice f beg lim).
Proof.
  intros (pos & Hp & H & _) lim H1 H2 Hh.
  assert (Forall (fun k => k <> 0) (slice f pos lim)) as HF.
  { destruct old as [|[ib ie] old].
    - cbn in H. unfold slice. rewrite <- (firstn_skipn (lim - pos) (skipn pos f)) in H. now apply Forall_app in H.
    - destruct H as (K1 & K2 & nz & c' & E & H3 & H4 & H5).
      unfold slice. rewrite E, firstn_app. replace (lim - pos - length nz) with 0 by lia.
      rewrite firstn_O, app_nil_r. rewrite <- (firstn_skipn (lim - pos) nz) in H4. now apply Forall_app in H4. }
  rewrite (slice_split f pos beg lim) in HF by lia. now apply Forall_app in HF.
Qed.

Section Synth.
Context {A : Type}.
Implicit Types (l : list (element A)) (u : list A).

Lemma denote_app l1 l2 : denote (l1 ++ l2) = denote l1 ++ denote l2.
Proof. induction l1 as [|[b e|n] l1 IH]; cbn; auto; rewrite IH, app_assoc; auto. Qed.

Lemma between_app k f1 f2 t1 t2 u1 u2 : length f1 = length u1 -> length t1 = length u1 ->
  between k (f1 ++ f2) (t1 ++ t2) (u1 ++ u2) =
  between k f1 t1 u1 ++ between (k + zeros f1) f2 t2 (u2 : list A).
Proof.
  revert k t1 u1; induction f1 as [|f f1 IH]; intros k [|t t1] [|x u1]; cbn; intros; try lia.
  - unfold zeros; cbn. now rewrite Nat.add_0_r.
  - rewrite IH by lia. rewrite <- app_assoc. do 2 f_equal. unfold zeros; cbn.
    destruct (f =? 0); cbn; f_equal; lia.
Qed.

Lemma between_hidden k f t u : Forall (fun c => c <> 0) t -> between k f t u = [].
Proof.
  intros H. revert k f u; induction H as [|c t Hc H IH]; intros k [|x f] [|y u]; cbn; auto.
  destruct (Nat.eqb_spec c 0); [lia|]. cbn. apply IH.
Qed.

Lemma between_copy k n t u : length u = n -> t = repeat 0 n ->
  between k (repeat 0 n) t u = map inl (seq k n).
Proof.
  intros <- ->. revert k; induction u as [|x u IH]; intros k; cbn; auto. f_equal. apply IH.
Qed.

Lemma between_insert k f t u : length u = length f -> t = repeat 0 (length u) ->
  Forall (fun c => c <> 0) f -> between k f t u = map inr u.
Proof.
  intros Hl -> H. revert k u Hl; induction H as [|c f Hc H IH]; intros k [|x u] Hl; cbn in *; auto; try lia.
  destruct (Nat.eqb_spec c 0); [lia|]. cbn. f_equal. apply IH. lia.
Qed.

(** Characters shown between positions [b] and [e] of the union string. *)
Definition shown f u b e : list (nat + A) :=
  between (rank Zero f b) (slice f b e) (repeat 0 (e - b)) (slice u b e).

Lemma shown_split f u b m e : length f = length u -> b <= m -> m <= e -> e <= length u ->
  shown f u b e = shown f u b m ++ shown f u m e.
Proof.
  intros Hl H1 H2 H3. unfold shown.
  rewrite (slice_split f b m e), (slice_split u b m e) by lia.
  replace (e - b) with ((m - b) + (e - m)) by lia. rewrite repeat_app.
  rewrite between_app by (rewrite ?repeat_length, !slice_length; lia). f_equal.
  now rewrite <- (rank_zero_slice f b m) by lia.
Qed.

Lemma shown_copy f u b e : length f = length u -> b <= e -> e <= length u ->
  slice f b e = repeat 0 (e - b) -> shown f u b e = map inl (seq (rank Zero f b) (e - b)).
Proof. intros. unfold shown. rewrite H2. apply between_copy; auto. rewrite slice_length; lia. Qed.

Lemma shown_insert f u b e : length f = length u -> b <= e -> e <= length u ->
  Forall (fun k => k <> 0) (slice f b e) -> shown f u b e = map inr (slice u b e).
Proof.
  intros. unfold shown. apply between_insert; auto; rewrite !slice_length; auto; lia.
Qed.

Lemma sorted_copies_le pos l n m : sorted_copies pos l n -> n <= m -> sorted_copies pos l m.
Proof.
  revert pos; induction l as [|[b e|s] l IH]; cbn; intros pos H Hm; [lia| |]; intuition eauto.
Qed.

Lemma sorted_copies_snoc_insert pos l n s : sorted_copies pos l n -> sorted_copies pos (l ++ [Insert s]) n.
Proof. revert pos; induction l as [|[b e|s'] l IH]; cbn; intros pos H; intuition eauto. Qed.

Lemma push_copy_cons x l b e : (forall lb le, x :: l <> [Copy lb le]) ->
  push_copy (x :: l) b e = x :: push_copy l b e.
Proof. destruct x as [lb le|s]; auto. destruct l; auto. intros H. exfalso. now apply (H lb le). Qed.

Lemma push_copy_ok pos l n b e : sorted_copies pos l n -> n <= b -> b <= e ->
  sorted_copies pos (push_copy l b e) e /\
 denote (push_copy l b e) = denote l ++ map inl (seq b (e - b)).
Proof.
  revert pos; induction l as [|x l IH]; intros pos H Hn Hb.
  - cbn in *. rewrite app_nil_r. repeat split; lia.
  - destruct (Nat.eq_dec (length l) 0) as [E|E].
    + destruct l; [|cbn in E; lia]. destruct x as [lb le|s].
      * cbn in H. cbn. destruct (Nat.eqb_spec le b) as [->|Hne]; cbn; rewrite ?app_nil_r.
        -- split; [lia|]. rewrite <- map_app. f_equal.
           replace (e - lb) with ((b - lb) + (e - b)) by lia. rewrite seq_app. do 2 f_equal. lia.
        -- split; [lia|auto].
      * cbn in *. rewrite ?app_nil_r. split; [lia|auto].
    + rewrite push_copy_cons by (intros lb le; destruct l; [cbn in E; lia|congruence]).
      destruct x as [lb le|s]; cbn in *.
      * destruct H as (H1 & H2 & H3). destruct (IH le H3 Hn Hb) as [I1 I2].
        rewrite I2, app_assoc. auto.
      * destruct (IH pos H Hn Hb) as [I1 I2]. rewrite I2, app_assoc. auto.
Qed.

Lemma push_copy_inserts l b e : no_empty_insert l -> no_empty_insert (push_copy l b e).
Proof.
  intros H. induction H as [|x l Hx H IH]; [repeat constructor|].
  destruct (Nat.eq_dec (length l) 0) as [E|E].
  - destruct l; [|cbn in E; lia]. destruct x as [lb le|s]; cbn.
    + destruct (le =? b); repeat constructor.
    + repeat constructor; auto.
  - rewrite push_copy_cons by (intros lb le; destruct l; [cbn in E; lia|congruence]). constructor; auto.
Qed.

Lemma push_copy_copies l b e : b < e -> no_empty_copy l -> no_empty_copy (push_copy l b e).
Proof.
  intros Hb H. induction H as [|x l Hx H IH]; [repeat constructor; auto|].
  destruct (Nat.eq_dec (length l) 0) as [E|E].
  - destruct l; [|cbn in E; lia]. destruct x as [lb le|s]; cbn.
    + destruct (Nat.eqb_spec le b); repeat constructor; auto; lia.
    + repeat constructor; auto.
  - rewrite push_copy_cons by (intros lb le; destruct l; [cbn in E; lia|congruence]). constructor; auto.
Qed.

Record sy_inv (fs : subset) (f : list nat) (beg : nat) (st : @sstate A) : Prop := {
  si_old : old_inv f beg (sy_old st) (sy_x st);
  si_m : mp_inv fs NonZero (mp_last (sy_m st)) (sy_m st);
  si_last : mp_last (sy_m st) <= beg;
  si_sorted : sorted_copies 0 (sy_els st) (rank Zero f beg);
  si_ins : no_empty_insert (sy_els st);
  si_copy : no_empty_copy (sy_els st) }.

Lemma synth_fill_ok fs u : length (flat fs) = length u ->
  forall fuel st beg e, sy_inv fs (flat fs) beg st -> beg <= e -> e <= length u -> e - beg < fuel ->
  exists st', synth_fill fuel (removed (flat fs) u) st beg e = Some st' /\
   sy_inv fs (flat fs) e st' /\
   denote (sy_els st') = denote (sy_els st) ++ shown (flat fs) u beg e.
Proof.
  intros Hl. set (f := flat fs) in *. set (tomb := removed f u).
  induction fuel as [|fuel IH]; intros st beg e Hinv Hbe He Hf; [lia|]. cbn [synth_fill].
  destruct (Nat.ltb_spec beg e) as [Hlt|Hge].
  2:{ exists st. split; [auto|]. assert (beg = e) by lia. subst. split; auto.
      unfold shown. rewrite slice_nil, Nat.sub_diag. cbn. now rewrite app_nil_r. }
  destruct Hinv as [I1 I2 I3 I4 I5 I6].
  pose proof (synth_skip_ok f (sy_old st) (sy_x st) beg beg I1 (le_n _) ltac:(lia)) as HS.
  destruct (synth_skip (sy_old st) (sy_x st) beg) as [old x]. destruct HS as [HS1 HS2].
  assert (Hins : forall lim, beg < lim -> lim <= e ->
     match old with [] => True | (ib, _) :: _ => lim <= ib end ->
     exists st', (let? (p, m1) := doc_index_to_subset (sy_m st) beg in
          let? (q, m2) := doc_index_to_subset m1 lim in
          if (p <=? q) && (q <=? length tomb) then
            synth_fill fuel tomb (SState x old m2 (sy_els st ++ [Insert (slice tomb p q)])) lim e
          else None) = Some st' /\
   sy_inv fs f e st' /\ denote (sy_els st') = denote (sy_els st) ++ shown f u beg e).
  { intros lim Hl1 Hl2 Hold.
    destruct (doc_index_ok fs NonZero (sy_m st) beg I2 I3) as (m1 & -> & M1 & M2). cbn [bind].
    destruct (doc_index_ok fs NonZero m1 lim M1 ltac:(lia)) as (m2 & -> & M3 & M4). cbn [bind].
    fold f.
    pose proof (rank_mono NonZero f beg lim ltac:(lia)) as R1.
    pose proof (rank_le NonZero f lim) as R2. rewrite <- (removed_length f u Hl) in R2. fold tomb in R2.
    rewrite (proj2 (Nat.leb_le _ _) R1), (proj2 (Nat.leb_le _ _) R2). cbn [andb].
    pose proof (old_insert f beg old x HS1 lim ltac:(lia) ltac:(lia) Hold) as Hnz.
    unfold tomb at 2. rewrite removed_slice by (auto; lia).
    destruct (IH (SState x old m2 (sy_els st ++ [Insert (slice u beg lim)])) lim e) as (st' & E & H1 & H2); try lia.
    - constructor; cbn [sy_old sy_x sy_m sy_els]; auto; try lia.
      + destruct HS1 as (pos & P1 & P2 & P3). exists pos. repeat split; auto. lia.
      + apply sorted_copies_snoc_insert. eapply sorted_copies_le; eauto. apply rank_mono. lia.
      + apply no_empty_insert_app. split; auto. repeat constructor.
        intros E. apply (f_equal (@length A)) in E. rewrite slice_length in E by lia. cbn in E. lia.
      + apply no_empty_copy_app. split; auto. repeat constructor.
    - exists st'. split; [exact E|]. split; [exact H1|].
      rewrite H2. cbn [sy_els]. rewrite denote_app. cbn [denote]. rewrite app_nil_r, <- app_assoc. f_equal.
      rewrite (shown_split f u beg lim e) by lia. f_equal. symmetry. apply shown_insert; auto; lia. }
  destruct old as [|[ib ie] old].
  - apply Hins; auto.
  - specialize (HS2 ib ie old eq_refl). destruct (Nat.leb_spec ib beg) as [Hib|Hib].
    + destruct (old_copy f beg ib ie old x HS1 Hib HS2 (Nat.min e ie) ltac:(lia) ltac:(lia)) as (C1 & C2 & C3).
      set (lim := Nat.min e ie) in *. cbn zeta.
      replace (lim + x - ib) with (rank Zero f beg + (lim - beg)) by lia. rewrite <- C2.
      assert (Er : rank Zero f lim = rank Zero f beg + (lim - beg)).
      { rewrite (rank_zero_slice f beg lim) by lia. now rewrite C1, zeros_repeat. }
      destruct (push_copy_ok 0 (sy_els st) (rank Zero f beg) (rank Zero f beg)
                  (rank Zero f beg + (lim - beg)) I4 (le_n _) ltac:(lia)) as [P1 P2].
      destruct (IH (SState x ((ib, ie) :: old) (sy_m st)
             (push_copy (sy_els st) (rank Zero f beg) (rank Zero f beg + (lim - beg)))) lim e)
        as (st' & E & H1 & H2); try (unfold lim; lia).
      * constructor; cbn [sy_old sy_x sy_m sy_els]; auto; try (unfold lim; lia).
        -- destruct HS1 as (pos & Q1 & Q2 & Q3). exists pos. repeat split; auto; try apply Q2. unfold lim; lia.
        -- now rewrite Er.
        -- now apply push_copy_inserts.
        -- apply push_copy_copies; auto. unfold lim; lia.
      * exists st'. split; [exact E|]. split; [exact H1|].
        rewrite H2. cbn [sy_els]. rewrite P2, <- app_assoc. f_equal.
        rewrite (shown_split f u beg lim e) by (unfold lim; lia). f_equal.
        rewrite shown_copy; auto; try (unfold lim; lia). do 2 f_equal. lia.
    + apply Hins; try lia.
Qed.

(** The visible characters of the union from position [pos] on. *)
Definition rest f t u pos : list (nat + A) :=
  between (rank Zero f pos) (skipn pos f) (skipn pos t) (skipn pos u).

Lemma rest_split f t u pos e : length f = length u -> length t = length u -> pos <= e -> e <= length u ->
  rest f t u pos = between (rank Zero f pos) (slice f pos e) (slice t pos e) (slice u pos e)
                   ++ rest f t u e.
Proof.
  intros. unfold rest. rewrite (slice_skipn f pos e), (slice_skipn t pos e), (slice_skipn u pos e) by lia.
  rewrite between_app by (rewrite !slice_length; lia). f_equal. now rewrite <- rank_zero_slice by lia.
Qed.

Lemma synth_for_ok fs t u : length (flat fs) = length u -> length t = length u ->
  forall rs st pos, zr pos rs (skipn pos t) -> sy_inv fs (flat fs) pos st -> pos <= length u ->
  exists st' q, synth_for (removed (flat fs) u) rs st = Some st' /\ sy_inv fs (flat fs) q st' /\ q <= length u /\
   denote (sy_els st') = denote (sy_els st) ++ rest (flat fs) t u pos.
Proof.
  intros Hl Ht. induction rs as [|[b e] rs IH]; intros st pos Hz Hinv Hp.
  - cbn. exists st, pos. repeat split; auto; try apply Hinv.
    cbn in Hz. unfold rest. rewrite between_hidden by auto. now rewrite app_nil_r.
  - destruct Hz as (Z1 & Z2 & nz & c' & E & Z3 & Z4 & Z5). cbn [synth_for].
    assert (Le : e <= length u).
    { apply (f_equal (@length nat)) in E. rewrite skipn_length, !app_length, repeat_length in E. lia. }
    assert (Hinvb : sy_inv fs (flat fs) b st).
    { destruct Hinv as [I1 I2 I3 I4 I5 I6]. constructor; auto; try lia.
      - destruct I1 as (p & P1 & P2 & P3). exists p. repeat split; auto. lia.
      - eapply sorted_copies_le; eauto. now apply rank_mono. }
    destruct (synth_fill_ok fs u Hl (S (e - b)) st b e Hinvb ltac:(lia) Le ltac:(lia)) as (st1 & -> & S1 & S2).
    cbn [bind].
    assert (Ec : skipn e t = c').
    { replace e with (pos + (e - pos)) by lia. rewrite <- skipn_skipn, E, app_assoc.
      apply skipn_app_exact. rewrite app_length, repeat_length. lia. }
    destruct (IH st1 e ltac:(now rewrite Ec) S1 Le) as (st' & q & E' & J1 & J2 & J3).
    exists st', q. split; [exact E'|]. split; [auto|]. split; [auto|]. rewrite J3, S2, <- app_assoc. f_equal.
    rewrite (rest_split (flat fs) t u pos b) by (auto; lia).
    assert (slice t pos b = nz) as ->.
    { unfold slice. rewrite E. apply firstn_app_exact. lia. }
    rewrite between_hidden by auto. cbn [app].
    rewrite (rest_split (flat fs) t u b e) by (auto; lia). f_equal. unfold shown. f_equal.
    unfold slice. replace b with (pos + (b - pos)) at 3 by lia. rewrite <- skipn_skipn, E.
    rewrite skipn_app_exact by lia. symmetry. apply firstn_app_exact. apply repeat_length.
Qed.

Theorem synthesize_ok fs ts u : canonical fs -> canonical ts ->
  length (flat fs) = length u -> length (flat ts) = length u ->
  exists d, synthesize (removed (flat fs) u) fs ts = Some d /\
   denote (els d) = between 0 (flat fs) (flat ts) u /\
   wf_delta d /\ no_empty_copy (els d) /\ base_len d = zeros (flat fs).
Proof.
  intros Hf Ht Hlf Hlt. unfold synthesize.
  destruct (synth_for_ok fs (flat ts) u Hlf Hlt (ranges ts Zero)
     (SState 0 (ranges fs Zero) (mapper_of fs NonZero) []) 0) as (st & q & -> & H1 & H2 & H3); try lia.
  - cbn [skipn]. apply zr_ranges. now apply canonical_all_pos.
  - constructor; cbn [sy_old sy_x sy_m sy_els].
    + exists 0. split; [auto|]. split; [|reflexivity]. cbn [skipn]. apply zr_ranges. now apply canonical_all_pos.
    + apply mapper_of_inv.
    + cbn. lia.
    + cbn. lia.
    + constructor.
    + constructor.
  - cbn [bind]. eexists; split; [reflexivity|]. cbn [els base_len]. rewrite H3. cbn [sy_els denote app].
    split; [reflexivity|]. rewrite len_after_delete_ok. destruct H1. repeat split; auto.
    cbn [els base_len]. eapply sorted_copies_le; eauto.
    replace (zeros (flat fs)) with (rank Zero (flat fs) (length (flat fs))) by (rewrite rank_full; reflexivity).
    apply rank_mono. lia.
Qed.

End Synth.
