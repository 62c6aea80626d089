(** Proofs about the selection of a view. *)
From Coq Require Import List Arith ZArith Lia Bool ZifyBool.
From Verif Require Import Base ListLib MultisetProofs DeltaModel DeltaSpec DeltaProofs DeltaProofs2 PropertiesDelta IndexSetModel TreeModel TreeSpec TreeProofs MetricProofs CursorModel CursorProofs CursorBoundary
  RopeModel RopeSpec RopeProofs RopeMetric RopeIterModel RopeCursor RopeIterProofs SelectionModel SelectionProofs PropertiesSelection WordModel WordProofs PropertiesWord EditOpsModel EditOpsSpec EditOpsProofs EditOpsLines
  SynthProofs EditOpsWords LinewrapMerged LinewrapSpec MovementModel MovementSpec MovementProofs ShadowModel ViewModel ViewSpec.
Import ListNotations.
Local Notation concat := List.concat.
Local Notation region := SelectionModel.region.
Local Open Scope nat_scope.

(** ** What the operations on selections keep *)
Section Keep.
(** A property of regions that merging keeps. *)
Context (P : region -> Prop) (HP : forall a b, P a -> P b -> P (merge_with a b)).
Lemma merge_loop_keep rs : forall r, P r -> Forall P rs -> P (snd (merge_loop r rs)).
Proof.
  induction rs as [|o rs IH]; intros r Hr Hs; cbn [merge_loop]; auto. inversion Hs; subst. destruct (should_merge r o); auto.
  specialize (IH (merge_with r o) ltac:(auto) ltac:(auto)). destruct (merge_loop (merge_with r o) rs). exact IH.
Qed.
Lemma Forall_firstn k (l : list region) : Forall P l -> Forall P (firstn k l).
Proof. intros H. rewrite <- (firstn_skipn k l) in H. now apply Forall_app in H. Qed.
Lemma Forall_skipn k (l : list region) : Forall P l -> Forall P (skipn k l).
Proof. intros H. rewrite <- (firstn_skipn k l) in H. now apply Forall_app in H. Qed.
Lemma remove_keep rs ix n rs' : remove_n_at rs ix n = Some rs' -> Forall P rs -> Forall P rs'.
Proof.
  unfold remove_n_at, check. intros E H. destruct n as [|[|n]]; [injection E as <-; auto| |].
  - destruct (ix <? length rs); [|discriminate]. injection E as <-. apply Forall_app. split; [now apply Forall_firstn|now apply (Forall_skipn (S ix))].
  - destruct (_ <=? _); [|discriminate]. injection E as <-. apply Forall_firstn, Forall_app. split; [now apply Forall_firstn|now apply Forall_skipn].
Qed.
Lemma put_keep rs ix e r rs' : put_region rs ix e r = Some rs' -> P r -> Forall P rs -> Forall P rs'.
Proof.
  unfold put_region, check. intros E Hr H. destruct (ix =? e).
  - injection E as <-. apply Forall_app. split; [now apply Forall_firstn|]. constructor; [auto|now apply Forall_skipn].
  - destruct (ix <? length rs); [|discriminate]. apply remove_keep in E; auto. apply Forall_app. split; [now apply Forall_firstn|]. constructor; [auto|now apply (Forall_skipn (S ix))].
Qed.
Lemma add_keep rs r rs' : add_region rs r = Some rs' -> P r -> Forall P rs -> Forall P rs'.
Proof.
  unfold add_region. intros E Hr H. destruct (nth_error rs (search rs (rmin r))) as [o|] eqn:Eo.
  2:{ injection E as <-. apply Forall_app. auto. }
  assert (Po : P o) by (rewrite Forall_forall in H; eapply H, nth_error_In, Eo).
  destruct (if rmin o <=? rmin r then _ else _) as [[ix' end_ix] r'] eqn:Er.
  assert (Pr : P r') by (destruct (rmin o <=? rmin r); [destruct (should_merge o r)|]; injection Er as _ _ <-; auto).
  pose proof (merge_loop_keep (skipn end_ix rs) r' Pr (Forall_skipn _ _ H)) as Hm. destruct (merge_loop r' (skipn end_ix rs)) as [k r'']. now apply put_keep in E.
Qed.
End Keep.
Lemma merge_proper s a b : proper s a -> proper s b -> proper s (merge_with a b).
Proof.
  intros (A1 & A2 & A3) (B1 & B2 & B3).
  assert (M : forall x y, char_boundary s x -> char_boundary s y -> char_boundary s (Nat.min x y) /\ char_boundary s (Nat.max x y))
    by (intros x y Hx Hy; split; [destruct (Nat.min_spec x y) as [[_ ->]|[_ ->]]|destruct (Nat.max_spec x y) as [[_ ->]|[_ ->]]]; auto).
  assert (C1 : char_boundary s (Nat.min (rmin a) (rmin b))) by (apply M; apply M; auto).
  assert (C2 : char_boundary s (Nat.max (rmax a) (rmax b))) by (apply M; apply M; auto).
  unfold merge_with. destruct (r_start a <=? r_end a); cbn; split; auto.
Qed.
(** Regions to be added one by one. *)
Definition fit (s : list nat) (rs : list region) : Prop := sok rs /\ Forall (proper s) rs.
Lemma add_fit s rs r : fit s rs -> proper s r -> exists rs', add_region rs r = Some rs' /\ fit s rs' /\ rs' <> [] /\
  forall k p, pts k rs' p <-> pts k rs p \/ has k (rmin r) (rmax r) p.
Proof.
  intros (S & F) Pr. destruct (add_region_ok rs r S) as (rs' & E & S' & H). exists rs'. split; auto. split.
  - split; auto. apply (add_keep (proper s) (merge_proper s) rs r rs'); auto.
  - split; auto. intros ->. apply (pts_nil KTouch (rmin r)). apply H. right. cbn. pose proof (min_le_max r). lia.
Qed.
Lemma fit_sound s rs : fit s rs -> rs <> [] -> sound s rs.
Proof. intros (S & F) H. split; auto. split; [now apply sok_order|]. now rewrite Forall_forall in F. Qed.
Lemma sound_fit s rs : sound s rs -> fit s rs.
Proof. intros (_ & H & F). split; [now apply sok_order|]. now apply Forall_forall. Qed.
Lemma fit_nil s : fit s []. Proof. split; [exact Logic.I|constructor]. Qed.
Lemma fit_one s x : proper s x -> fit s [x].
Proof. intros H. split; [split; [constructor|exact Logic.I]|constructor; auto]. Qed.
Lemma fit_app s a b : fit s (a ++ b) -> fit s a /\ fit s b.
Proof. intros (S & F). apply sok_app in S as (S1 & S2 & _). apply Forall_app in F as [F1 F2]. split; split; auto. Qed.
Lemma add_regions_fit s rs : forall acc, fit s acc -> Forall (proper s) rs -> exists out, add_regions acc rs = Some out /\ fit s out /\
  forall k p, pts k out p <-> pts k acc p \/ pts k rs p.
Proof.
  induction rs as [|r rs IH]; intros acc A F; cbn [add_regions].
  - exists acc. split; auto. split; auto. intros k p. split; auto. intros [H|H]; auto. now apply pts_nil in H.
  - inversion F; subst. destruct (add_fit s acc r A ltac:(auto)) as (acc1 & -> & A1 & _ & H). cbn [bind]. destruct (IH acc1 A1 ltac:(auto)) as (out & E & A2 & H'). exists out. split; auto. split; auto.
    intros k p. rewrite H', H, pts_cons. tauto.
Qed.
Lemma In_firstn {A} k (l : list A) x : In x (firstn k l) -> In x l.
Proof. intros H. rewrite <- (firstn_skipn k l). apply in_or_app. auto. Qed.
Lemma In_skipn {A} k (l : list A) x : In x (skipn k l) -> In x l.
Proof. intros H. rewrite <- (firstn_skipn k l). apply in_or_app. auto. Qed.
Lemma delete_fit s rs p : fit s rs -> exists rs', sel_delete_range rs p p true = Some rs' /\ fit s rs' /\ forall x, In x rs' -> In x rs.
Proof.
  intros A. pose proof A as (So & F). unfold sel_delete_range. cbn [negb andb orb]. destruct (nth_error rs (search rs p)) as [f|] eqn:Ef.
  2:{ exists rs. auto. }
  rewrite orb_false_r. assert (L : search rs p < length rs) by (apply nth_error_Some; congruence).
  destruct (rmin f <=? p) eqn:Em; unfold check.
  - replace (search rs p <=? S (search rs p)) with true by lia. replace (S (search rs p) - search rs p) with 1 by lia. cbn [remove_n_at]. unfold check. replace (search rs p <? length rs) with true by lia.
    eexists. split; [reflexivity|]. rewrite <- (firstn_skipn (search rs p) rs) in So, F. apply sok_app in So as (S1 & S2 & S3). apply Forall_app in F as [F1 F2].
    destruct (skipn (search rs p) rs) as [|f' tl] eqn:Es. { apply (f_equal (@length _)) in Es. rewrite skipn_length in Es. cbn in Es. lia. }
    assert (Et : skipn (S (search rs p)) rs = tl) by (rewrite <- Nat.add_1_r; pose proof (skipn_skipn 1 (search rs p) rs) as Ek; rewrite Es in Ek; symmetry; exact Ek). rewrite Et.
    destruct S2 as (_ & S2). inversion F2; subst. split.
    + split; [apply sok_app; split; auto; split; auto; intros x y Hx Hy; apply S3; auto; now right|apply Forall_app; auto].
    + intros x Hx. apply in_app_or in Hx as [Hx|Hx]; [eapply In_firstn; eauto|eapply In_skipn; eauto].
  - rewrite Nat.leb_refl, Nat.sub_diag. cbn [remove_n_at]. exists rs. auto.
Qed.

Lemma cb_utf8 s p : char_boundary s p -> utf8 s.
Proof. intros (c1 & c2 & F & -> & _). now exists (c1 ++ c2). Qed.
Lemma cb_dec s p : char_boundary s p -> is_char_boundary s p = true.
Proof. intros H. apply boundary_iff; auto. eapply cb_utf8; eauto. Qed.
Lemma utf8_slice_cb s a b : a <= b -> char_boundary s a -> char_boundary s b -> utf8 (slice s a b).
Proof. intros L Ha Hb. apply utf8_slice; auto using cb_dec. eapply cb_utf8; eauto. Qed.
(** ** Edits keep the places between characters *)
Lemma cb_split s p : char_boundary s p <-> exists x y, utf8 x /\ utf8 y /\ s = x ++ y /\ p = length x.
Proof.
  split.
  - intros (c1 & c2 & F & -> & ->). apply Forall_app in F as [F1 F2]. exists (concat c1), (concat c2). rewrite concat_app. split; [now exists c1|]. split; [now exists c2|]. auto.
  - intros (x & y & (c1 & F1 & ->) & (c2 & F2 & ->) & -> & ->). exists c1, c2. rewrite concat_app. split; [apply Forall_app; auto|auto].
Qed.
Lemma transform_cb s els ix after : char_boundary s ix -> Forall (fun x => match x with Copy a b => char_boundary s a /\ char_boundary s b | Insert t => utf8 t end) els ->
  forall P r, utf8 P -> apply_els els s = Some r -> utf8 r /\ char_boundary (P ++ r) (transform_els els ix after (length P)).
Proof.
  intros Hix. induction els as [|[a b|t] els IH]; intros F P r UP E; cbn [apply_els transform_els] in *.
  - injection E as <-. assert (U : utf8 []) by (now exists []). split; auto. apply cb_split. exists P, []. auto.
  - apply Forall_cons_iff in F as [[Ha Hb] F']. destruct (_ && _) eqn:Eab; [|discriminate]. destruct (apply_els els s) as [r'|] eqn:Er; [|discriminate]. injection E as <-.
    assert (Us : utf8 (slice s a b)) by (apply utf8_slice_cb; auto; lia).
    destruct (IH F' (P ++ slice s a b) r' ltac:(apply utf8_app; auto) eq_refl) as [Ur Hc]. split; [now apply utf8_app|].
    rewrite app_length, slice_length in Hc by lia. rewrite <- app_assoc in Hc.
    destruct (Nat.leb_spec ix a) as [L|L]; [apply cb_split; exists P, (slice s a b ++ r'); auto using utf8_app|].
    destruct ((ix <? b) || _) eqn:E2; [|exact Hc].
    apply cb_split. exists (P ++ slice s a ix), (slice s ix b ++ r'). split; [apply utf8_app; auto; apply utf8_slice_cb; auto; lia|]. split; [apply utf8_app; auto; apply utf8_slice_cb; auto; lia|].
    split; [|rewrite app_length, slice_length; lia].
    rewrite <- app_assoc. f_equal. rewrite app_assoc. f_equal. apply slice_split; lia.
  - inversion F; subst. destruct (apply_els els s) as [r'|] eqn:Er; [|discriminate]. injection E as <-.
    destruct (IH ltac:(auto) (P ++ t) r' ltac:(apply utf8_app; auto) eq_refl) as [Ur Hc]. split; [now apply utf8_app|]. rewrite app_length, <- app_assoc in Hc. exact Hc.
Qed.

(** ** The surroundings *)
Section Env.
Context (e : env) (OK : env_ok e).
Notation s := (es e).
Local Notation bd := (char_boundary s).
Local Notation n := (length s).
Local Notation on := (on_row s (e_st e)).
Lemma e_wf : exists h, rope_wf h (e_text e). Proof. apply OK. Qed.
Lemma e_len : n_len (e_text e) = n.
Proof. destruct e_wf as [h W]. exact (len_r (e_text e) h W). Qed.
Lemma e_bd_le p : bd p -> p <= n.
Proof. destruct e_wf as [h W]. exact (bd_le (e_text e) h W p). Qed.
Lemma e_bd_len : bd n.
Proof. destruct e_wf as [h W]. exact (bd_len (e_text e) h W). Qed.
Lemma e_bd_0 : bd 0.
Proof. destruct e_wf as [h W]. exact (gb_bd (e_text e) (e_gb e) (eo_gb e OK) 0 (gb_0 (e_text e) (e_gb e) (eo_gb e OK))). Qed.
Lemma e_row p : bd p -> exists l, lo_line_of_offset (e_lo e) p = Some l /\ on l p.
Proof. apply (an_line _ _ _ (eo_lines e OK)). Qed.
Lemma e_row_unique l k p : on l p -> on k p -> l = k.
Proof. apply on_row_unique. apply (an_visual _ _ _ (eo_lines e OK)). Qed.
Lemma proper_lo x : proper s x -> bd (rmin x).
Proof. intros (H1 & H2 & _). unfold rmin. destruct (Nat.min_spec (r_start x) (r_end x)) as [[_ ->]|[_ ->]]; auto. Qed.
Lemma proper_hi x : proper s x -> bd (rmax x).
Proof. intros (H1 & H2 & _). unfold rmax. destruct (Nat.max_spec (r_start x) (r_end x)) as [[_ ->]|[_ ->]]; auto. Qed.
Lemma last_ex {A} (l : list A) : l <> [] -> exists a x, l = a ++ [x].
Proof. intros H. destruct (exists_last H) as (a & x & E). eauto. Qed.
Lemma last_region_app a x : last_region (a ++ [x]) = Some x.
Proof. unfold last_region. rewrite rev_app_distr. reflexivity. Qed.

(** Everything of a view but what is drawn stays. *)
Lemma invalidate_ok v : sound s (vw_sel v) -> exists sh, invalidate_selection (e_lo e) v = Some (with_shadow v sh).
Proof.
  intros (Ne & _ & F). unfold invalidate_selection. destruct (last_ex _ Ne) as (a & x & E). destruct (vw_sel v) as [|f tl] eqn:Es; [easy|]. cbn [hd_error bind].
  destruct (e_row (rmin f)) as (l1 & -> & _); [apply proper_lo, F; now left|]. cbn [bind].
  rewrite E, last_region_app. cbn [bind]. destruct (e_row (rmax x)) as (l2 & -> & _); [apply proper_hi, F; rewrite E; apply in_or_app; right; now left|]. cbn [bind]. eauto.
Qed.
Lemma raw_ok v sel : sound s (vw_sel v) -> sound s sel -> exists sh, set_selection_raw (e_lo e) v sel = Some (with_shadow (with_sel v sel) sh).
Proof.
  intros H1 H2. unfold set_selection_raw. destruct (invalidate_ok v H1) as (sh & ->). cbn [bind]. destruct (invalidate_ok (with_sel (with_shadow v sh) sel) H2) as (sh' & ->). now exists sh'.
Qed.
Lemma scroll_ok v : sound s (vw_sel v) -> 1 <= vw_height v -> exists v', scroll_to_cursor (e_lo e) v = Some v' /\
  vw_sel v' = vw_sel v /\ vw_drag v' = vw_drag v /\ vw_shadow v' = vw_shadow v /\ in_view e v v'.
Proof.
  intros (Ne & _ & F) Hh. unfold scroll_to_cursor. destruct (last_ex _ Ne) as (a & x & E). rewrite E, last_region_app. cbn [bind].
  destruct (e_row (r_end x)) as (l & -> & O); [apply F; rewrite E; apply in_or_app; right; now left|]. cbn [bind].
  destruct (Nat.ltb_spec l (vw_first v)) as [L|L]; cbn [bind].
  - eexists. split; [reflexivity|]. cbn. split; auto. split; auto. split; auto. exists a, x, l. cbn. repeat (split; [auto; lia|]). lia.
  - destruct (Nat.leb_spec (vw_first v + vw_height v) l) as [L2|L2]; unfold check.
    + replace ((1 <=? vw_height v) && (vw_height v - 1 <=? l)) with true by lia. cbn [bind]. eexists. split; [reflexivity|]. cbn. split; auto. split; auto. split; auto. exists a, x, l. cbn. repeat (split; [auto; lia|]). lia.
    + cbn [bind]. eexists. split; [reflexivity|]. cbn. split; auto. split; auto. split; auto. exists a, x, l. cbn. repeat (split; [auto; lia|]). lia.
Qed.
Lemma set_ok v sel : sound s (vw_sel v) -> sound s sel -> 1 <= vw_height v -> exists v', set_selection (e_lo e) v sel = Some v' /\
  vw_sel v' = sel /\ vw_drag v' = vw_drag v /\ in_view e v v'.
Proof.
  intros H1 H2 Hh. unfold set_selection. destruct (raw_ok v sel H1 H2) as (sh & ->). cbn [bind].
  destruct (scroll_ok (with_shadow (with_sel v sel) sh) H2 Hh) as (v' & E & E1 & E2 & E3 & I). exists v'. split; auto.
Qed.

(** ** What a gesture takes *)
Lemma start_e z : starts_line s z -> bd z.
Proof. destruct e_wf as [h W]. exact (start_bd (e_text e) h W z). Qed.
Lemma line_bd p a b : p <= n -> line_of s p a b -> bd a /\ bd b /\ a <= p <= b.
Proof.
  intros Hp (H1 & H2 & H3 & [(H4 & H5 & H6)|[H4 ->]]); (split; [now apply start_e|]); (split; [|lia]); [now apply start_e|apply e_bd_len].
Qed.
(** No line of the text begins within a row. *)
Lemma no_start l p z : on l p -> row_start s (e_st e) l < z <= p -> ~ starts_line s z.
Proof.
  intros (O1 & O2 & O3) Hz [Hl [->|Hn]]; [lia|]. pose proof (an_visual _ _ _ (eo_lines e OK)) as V.
  assert (Hi : In z (e_st e)) by (apply (vi_hard _ _ V); auto; lia). apply In_nth_error in Hi as [k Hk].
  assert (Hk' : k <= last_row (e_st e)) by (unfold last_row; assert (k < length (e_st e)) by (apply nth_error_Some; congruence); lia).
  assert (Ez : row_start s (e_st e) k = z) by (unfold row_start; now apply nth_error_nth).
  assert (l = k). { apply (on_row_unique s (e_st e) V l k z); [|rewrite <- Ez; now apply on_row_start]. split; auto. split; lia. }
  subst. lia.
Qed.
Lemma line_shift q p a b : q <= p -> (forall z, q < z <= p -> ~ starts_line s z) -> line_of s q a b -> line_of s p a b.
Proof.
  intros L N (H1 & H2 & H3 & H4). split; auto. split; [lia|]. split.
  - intros z Hz. destruct (Nat.le_gt_cases z q); [apply H3|apply N]; lia.
  - destruct H4 as [(H4 & H5 & H6)|[H4 ->]]; [left|right].
    + split; [|split; auto]. { destruct (Nat.le_gt_cases b p); [|lia]. exfalso. apply (N b); auto. } intros z Hz. apply H6. lia.
    + split; auto. intros z Hz. apply H4. lia.
Qed.
Lemma unit_ok p g : bd p -> exists a b, unit_at (e_text e) (e_lo e) (e_range e) p g = Some (a, b) /\ unit_of s g p a b /\ bd a /\ bd b /\ a <= p <= b.
Proof.
  intros Bp. destruct e_wf as [h W]. destruct g; cbn [unit_at unit_of].
  - exists p, p. auto 6.
  - destruct (word_ok (e_text e) h W p Bp) as (c & st & en & c' & -> & E & H1 & H2 & H3 & H4 & _). cbn [bind]. rewrite E. cbn [bind]. exists st, en. split; auto. split; [exact H1|]. split; auto. split; auto. apply H1.
  - destruct (to_col (e_text e) (e_st e) (e_lo e) (eo_lines e OK) p Bp) as (l & -> & _ & O). cbn [bind].
    destruct (eo_range e OK l ltac:(apply O)) as (a & b & E & H).
    assert (H' : line_of s p a b) by (apply (line_shift (row_start s (e_st e) l)); auto; [apply O|intros z; now apply no_start]).
    exists a, b. split; auto. split; auto. apply line_bd; auto using e_bd_le.
Qed.

(** ** The commands, one by one *)
Definition VI (v : view) : Prop :=
  sound s (vw_sel v) /\ 1 <= vw_height v /\ match vw_drag v with None => True | Some d => fit s (dg_base d) /\ bd (dg_min d) /\ bd (dg_max d) end.
Lemma proper_new a b : bd a -> bd b -> proper s (region_new a b).
Proof. intros H1 H2. split; auto. Qed.
Lemma in_view_height v v' : in_view e v v' -> vw_height v' = vw_height v.
Proof. intros (rs & x & l & _ & _ & _ & H & _). exact H. Qed.
Lemma sound_one x : proper s x -> sound s [x].
Proof. intros H. apply fit_sound; [now apply fit_one|discriminate]. Qed.

Lemma region_move m height modify x : proper s x -> ~ empty_end s (e_st e) m x modify ->
  exists y, region_movement (e_gb e) (e_text e) (e_lo e) m x height modify = Some y /\ proper s y.
Proof.
  destruct e_wf as [h W]. intros (P1 & P2 & P3) He.
  destruct (move_safe (e_text e) h W (e_st e) (e_lo e) (eo_lines e OK) (e_gb e) (eo_gb e OK) m height x modify ltac:(split; auto) He) as (q & hz & E & B).
  unfold region_movement. rewrite E. cbn [bind]. eexists. split; [reflexivity|]. split; [|split]; cbn; auto. destruct modify; auto.
Qed.
Lemma move_list m height modify rs : (forall x, In x rs -> proper s x /\ ~ empty_end s (e_st e) m x modify) -> forall acc, fit s acc -> rs <> [] \/ acc <> [] ->
  exists out, movement_loop (e_gb e) (e_text e) (e_lo e) m rs height modify acc = Some out /\ fit s out /\ out <> [].
Proof.
  induction rs as [|x rs IH]; intros Hr acc A N; cbn [movement_loop].
  - exists acc. split; auto. split; auto. now destruct N.
  - destruct (region_move m height modify x) as (y & -> & Py); [apply Hr; now left|apply Hr; now left|]. cbn [bind]. destruct (add_fit s acc y A Py) as (acc' & -> & A' & Na & _). cbn [bind].
    apply IH; auto. intros z Hz. apply Hr. now right.
Qed.
Lemma do_move_ok v m modify : VI v -> (forall x, In x (vw_sel v) -> ~ empty_end s (e_st e) m x modify) ->
  exists v', do_move (e_gb e) (e_text e) (e_lo e) v m modify = Some v' /\ VI v' /\ in_view e v v' /\
    selection_movement (e_gb e) (e_text e) (e_lo e) m (vw_sel v) (vw_height v) modify = Some (vw_sel v') /\ vw_drag v' = None.
Proof.
  intros (V1 & V2 & V3) He. unfold do_move, selection_movement. pose proof V1 as (Ne & _ & Fp).
  destruct (move_list m (vw_height v) modify (vw_sel v) (fun x Hx => conj (Fp x Hx) (He x Hx)) [] (fit_nil s) (or_introl Ne)) as (out & E & F & N). rewrite E. cbn [bind].
  destruct (set_ok (with_drag v None) out V1 (fit_sound s out F N) V2) as (v' & -> & E1 & E2 & I). cbn in E2. exists v'. split; auto. split.
  - split; [rewrite E1; now apply fit_sound|]. rewrite (in_view_height _ _ I), E2. auto.
  - split; [exact I|]. rewrite E1. auto.
Qed.
(** Adding the results of a movement. *)
Lemma add_loop_ok m height rs : (forall x, In x rs -> proper s x /\ ~ empty_end s (e_st e) m x false) -> forall acc, fit s acc ->
  exists ys out, add_loop (e_gb e) (e_text e) (e_lo e) m height rs acc = Some out /\ fit s out /\ (rs <> [] \/ acc <> [] -> out <> []) /\
    map (fun x => region_movement (e_gb e) (e_text e) (e_lo e) m x height false) rs = map Some ys /\
    forall k p, pts k out p <-> pts k acc p \/ pts k rs p \/ pts k ys p.
Proof.
  induction rs as [|x rs IH]; intros Hr acc A; cbn [add_loop map].
  - exists [], acc. split; auto. split; auto. split; [tauto|]. split; auto. intros k p. split; auto. intros [H|[H|H]]; auto; now apply pts_nil in H.
  - destruct (Hr x (or_introl eq_refl)) as [Px Ex]. destruct (add_fit s acc x A Px) as (acc1 & -> & A1 & N1 & H1). cbn [bind].
    destruct (region_move m height false x Px Ex) as (y & Ey & Py). rewrite Ey. cbn [bind].
    destruct (add_fit s acc1 y A1 Py) as (acc2 & -> & A2 & N2 & H2). cbn [bind].
    destruct (IH (fun z Hz => Hr z (or_intror Hz)) acc2 A2) as (ys & out & E & F & N & M & H). exists (y :: ys), out. split; auto. split; auto. split; [auto|]. split; [cbn [map]; now rewrite M|].
    intros k p. rewrite H, H2, H1, !pts_cons. tauto.
Qed.
Lemma add_by_ok v m : VI v -> (forall x, In x (vw_sel v) -> ~ empty_end s (e_st e) m x false) ->
  exists v' ys, add_selection_by_movement (e_gb e) (e_text e) (e_lo e) v m = Some v' /\ VI v' /\ in_view e v v' /\
    map (fun x => region_movement (e_gb e) (e_text e) (e_lo e) m x (vw_height v) false) (vw_sel v) = map Some ys /\
    forall k p, pts k (vw_sel v') p <-> pts k (vw_sel v) p \/ pts k ys p.
Proof.
  intros (V1 & V2 & V3) He. unfold add_selection_by_movement. pose proof V1 as (Ne & _ & Fp).
  destruct (add_loop_ok m (vw_height v) (vw_sel v) (fun x Hx => conj (Fp x Hx) (He x Hx)) [] (fit_nil s)) as (ys & out & -> & F & N & M & H). cbn [bind].
  destruct (set_ok v out V1 (fit_sound s out F (N (or_introl Ne))) V2) as (v' & -> & E1 & E2 & I). exists v', ys. split; auto. split.
  - split; [rewrite E1; apply fit_sound; auto|]. rewrite (in_view_height _ _ I), E2. auto.
  - split; auto. split; auto. rewrite E1. intros k p. rewrite H. split; [intros [Q|Q]; [now apply pts_nil in Q|auto]|auto].
Qed.

(** A region after the others is added as it is. *)
Lemma put_end (rs : list region) x : put_region rs (length rs) (length rs) x = Some (rs ++ [x]).
Proof. unfold put_region. rewrite Nat.eqb_refl, firstn_all, skipn_all. reflexivity. Qed.
Lemma search_end rs x : sok (rs ++ [x]) -> search rs (rmin x) = length rs \/ exists a o, rs = a ++ [o] /\ search rs (rmin x) = length a /\ rmax o = rmin x /\ should_merge o x = false.
Proof.
  induction rs as [|o rs IH]; intros So; [now left|]. cbn [app] in So. cbn [search]. destruct So as (S1 & S2). apply Forall_app in S1 as [S1 S1']. inversion S1' as [|? ? Sx _]; subst.
  destruct (Nat.ltb_spec (rmax o) (rmin x)) as [L|L].
  - destruct (IH S2) as [E|(a & o' & -> & E & E2)]; [left; cbn; now rewrite E|right]. exists (o :: a), o'. split; auto. split; [cbn; now rewrite E|auto].
  - destruct Sx as [X1 X2]. right. destruct rs as [|o2 rs].
    + exists [], o. split; auto. split; auto. split; [lia|]. destruct (should_merge o x) eqn:Em; auto. apply should_merge_ok in Em. exfalso. destruct Em as [Em|[Em _]]; [lia|]. specialize (X2 Em). lia.
    + exfalso. inversion S1 as [|? ? So2 _]; subst. cbn [app sok] in S2. destruct S2 as [S2 _]. apply Forall_app in S2 as [_ S2]. inversion S2 as [|? ? S3 _]; subst.
      destruct So2 as [Y1 Y2], S3 as [Z1 Z2]. pose proof (min_le_max o2). assert (rmin o2 = rmax o2) by lia. lia.
Qed.
Lemma add_after rs x : sok (rs ++ [x]) -> add_region rs x = Some (rs ++ [x]).
Proof.
  intros So. unfold add_region. destruct (search_end rs x So) as [E|(a & o & -> & E & E2 & E3)]; rewrite E.
  - replace (nth_error rs (length rs)) with (@None region) by (symmetry; now apply nth_error_None). reflexivity.
  - rewrite nth_error_app2, Nat.sub_diag by lia. cbn [nth_error]. pose proof (min_le_max o). replace (rmin o <=? rmin x) with true by lia. rewrite E3.
    replace (S (length a)) with (length (a ++ [o])) by (rewrite app_length; cbn; lia). rewrite skipn_all. cbn [merge_loop]. rewrite Nat.add_0_r. apply put_end.
Qed.
Lemma add_regions_same rs : forall acc, sok (acc ++ rs) -> add_regions acc rs = Some (acc ++ rs).
Proof.
  induction rs as [|x rs IH]; intros acc So; cbn [add_regions]; [now rewrite app_nil_r|]. replace (acc ++ x :: rs) with ((acc ++ [x]) ++ rs) in * by now rewrite <- app_assoc.
  rewrite add_after by (now apply sok_app in So). cbn [bind]. now apply IH.
Qed.

(** The regions at a place. *)
Lemma search_split rs p : exists a b, rs = a ++ b /\ search rs p = length a /\ Forall (fun x => rmax x < p) a /\ match b with x :: _ => p <= rmax x | [] => True end.
Proof.
  induction rs as [|o rs (a & b & E & H1 & H2 & H3)]; [exists [], []; auto|]. cbn [search]. destruct (Nat.ltb_spec (rmax o) p) as [L|L].
  - exists (o :: a), b. subst rs. rewrite H1. repeat (split; auto).
  - exists [], (o :: rs). auto.
Qed.
Lemma at_place rs p : sok rs ->
  regions_in_range rs p p = Some [] /\ (forall x, In x rs -> ~ (rmin x <= p <= rmax x)) \/
  exists a x b, rs = a ++ x :: b /\ Forall (fun y => rmax y < p) a /\ rmin x <= p <= rmax x /\ regions_in_range rs p p = Some [x] /\ sel_delete_range rs p p true = Some (a ++ b).
Proof.
  intros So. destruct (search_split rs p) as (a & b & -> & E & Fa & Hb). unfold regions_in_range, sel_delete_range. rewrite E. destruct b as [|x b].
  - left. rewrite app_nil_r in *. replace (nth_error a (length a)) with (@None region) by (symmetry; now apply nth_error_None). unfold check. rewrite Nat.leb_refl, Nat.sub_diag. cbn [firstn andb]. split; auto.
    intros x Hx. rewrite Forall_forall in Fa. specialize (Fa x Hx). lia.
  - rewrite nth_error_app2, Nat.sub_diag by lia. cbn [nth_error negb andb orb]. unfold check. rewrite orb_false_r. destruct (Nat.leb_spec (rmin x) p) as [L|L].
    + right. exists a, x, b. split; auto. split; auto. split; auto. rewrite app_length. cbn [length].
      replace ((length a <=? S (length a)) && (S (length a) <=? length a + S (length b))) with true by lia. replace (S (length a) - length a) with 1 by lia.
      rewrite skipn_app, skipn_all, Nat.sub_diag. cbn [skipn app firstn]. split; [reflexivity|].
      replace (length a <=? S (length a)) with true by lia. cbn [remove_n_at]. unfold check. rewrite app_length. cbn [length]. replace (length a <? length a + S (length b)) with true by lia.
      f_equal. rewrite firstn_app, firstn_all, Nat.sub_diag. cbn [firstn]. rewrite app_nil_r. f_equal.
      replace (S (length a)) with (length (a ++ [x])) by (rewrite app_length; cbn; lia). replace (a ++ x :: b) with ((a ++ [x]) ++ b) by now rewrite <- app_assoc. rewrite skipn_app, skipn_all, Nat.sub_diag. reflexivity.
    + left. rewrite Nat.leb_refl, Nat.sub_diag. rewrite app_length. cbn [length]. replace (length a <=? length a + S (length b)) with true by lia. cbn [andb firstn]. split; auto.
      intros y Hy. apply in_app_or in Hy as [Hy|[->|Hy]]; [rewrite Forall_forall in Fa; specialize (Fa y Hy); lia|lia|].
      apply sok_app in So as (_ & (So & _) & _). rewrite Forall_forall in So. destruct (So y Hy) as [Q _]. pose proof (min_le_max x). lia.
Qed.

(** ** Gestures *)
Local Notation to_off := (lo_line_col_to_offset (e_gb e) (e_text e) (e_lo e)).
Lemma place_ok l col : exists q, to_off l col = Some q /\ bd q /\ ((forall o, In o (e_st e) -> e_gb e o = true) -> place s (e_st e) (e_gb e) l col q).
Proof.
  destruct e_wf as [h W]. destruct (to_place_safe (e_text e) h W (e_st e) (e_lo e) (eo_lines e OK) (e_gb e) (eo_gb e OK) l col) as (q & E & G & _). exists q. split; auto.
  split; [apply (eo_gb e OK); auto|]. intros GS. destruct (to_place (e_text e) h W (e_st e) (e_lo e) (eo_lines e OK) (e_gb e) (eo_gb e OK) GS l col) as (q' & E' & P). assert (q' = q) as <- by congruence. exact P.
Qed.
Lemma deselect_ok v p : VI v ->
  (exists v', deselect_at_offset (e_lo e) v p = Some (Some v') /\ VI v' /\ toggles (vw_sel v) (vw_sel v') p /\ vw_drag v' = None /\
     vw_first v' = vw_first v /\ vw_height v' = vw_height v) \/
  deselect_at_offset (e_lo e) v p = Some None /\ forall sel', ~ toggles (vw_sel v) sel' p.
Proof.
  intros (V1 & V2 & V3). pose proof (sound_fit _ _ V1) as (So & Fp). unfold deselect_at_offset. destruct (at_place (vw_sel v) p So) as [[-> N]|(a & x & b & E & Fa & Hx & -> & ->)]; cbn [bind].
  - right. split; auto. intros sel' (a & x & b & E & _ & Hx & _). apply (N x); auto. rewrite E. apply in_or_app. right. now left.
  - destruct (a ++ b) as [|y t] eqn:Eab.
    + right. split; auto. apply app_eq_nil in Eab as [-> ->]. intros sel' (a & x' & b & E' & _ & _ & Hn & _). rewrite E in E'. destruct a as [|? a]; [injection E' as _ <-; easy|]. destruct a; discriminate.
    + left. assert (F : fit s (a ++ b)).
      { rewrite E in So, Fp. apply sok_app in So as (S1 & (S2 & S3) & S4). apply Forall_app in Fp as [F1 F2]. inversion F2; subst. split; [apply sok_app; split; auto; split; auto; intros; apply S4; auto; now right|apply Forall_app; auto]. }
      rewrite Eab in F. assert (S' : sound s (y :: t)) by (apply fit_sound; auto; discriminate).
      destruct (raw_ok (with_drag v None) (y :: t) V1 S') as (sh & ->). cbn [bind]. eexists. split; [reflexivity|]. split; [exact (conj S' (conj V2 Logic.I))|]. split; [|auto]. exists a, x, b. cbn. rewrite Eab. repeat (split; auto). discriminate.
Qed.
Lemma adds_of sel sel' a b : fit s sel' -> a <= b -> (forall k p, pts k sel' p <-> pts k sel p \/ has k a b p) -> adds sel sel' a b.
Proof. intros (So & _) L H. split; [now apply sok_order|]. intros p. split; [exact (H KCov p)|exact (H KTouch p)]. Qed.
Lemma select_ok v p g multi : VI v -> bd p -> exists v', select (e_text e) (e_lo e) (e_range e) v p g multi = Some v' /\ VI v' /\
  (g = GPoint /\ multi = true /\ toggles (vw_sel v) (vw_sel v') p /\ vw_drag v' = None /\ vw_first v' = vw_first v /\ vw_height v' = vw_height v \/
   (g = GPoint -> multi = true -> forall sel', ~ toggles (vw_sel v) sel' p) /\ in_view e v v' /\
   exists a b, unit_of s g p a b /\ a <= p <= b /\ vw_drag v' = Some (Drag (if multi then vw_sel v else []) a b g) /\
     (multi = false -> vw_sel v' = [region_new a b]) /\ (multi = true -> adds (vw_sel v) (vw_sel v') a b)).
Proof.
  intros Hv Bp. pose proof Hv as (V1 & V2 & V3). unfold select.
  assert (K : (g = GPoint -> multi = true -> forall sel', ~ toggles (vw_sel v) sel' p) ->
    exists v', (let? (a, b) := unit_at (e_text e) (e_lo e) (e_range e) p g in
      let base := if multi then vw_sel v else [] in let? s0 := add_region base (region_new a b) in let? v1 := set_selection (e_lo e) v s0 in Some (with_drag v1 (Some (Drag base a b g)))) = Some v' /\ VI v' /\
    ((g = GPoint -> multi = true -> forall sel', ~ toggles (vw_sel v) sel' p) /\ in_view e v v' /\
    exists a b, unit_of s g p a b /\ a <= p <= b /\ vw_drag v' = Some (Drag (if multi then vw_sel v else []) a b g) /\
     (multi = false -> vw_sel v' = [region_new a b]) /\ (multi = true -> adds (vw_sel v) (vw_sel v') a b))).
  { intros HN. destruct (unit_ok p g Bp) as (a & b & -> & U & Ba & Bb & L). cbn [bind]. cbv zeta.
    assert (Fb : fit s (if multi then vw_sel v else [])) by (destruct multi; [now apply sound_fit|apply fit_nil]).
    destruct (add_fit s _ (region_new a b) Fb (proper_new a b Ba Bb)) as (sel' & Ea & F & Ne & H). rewrite Ea. cbn [bind].
    destruct (set_ok v sel' V1 (fit_sound _ _ F Ne) V2) as (v' & -> & E1 & E2 & I). cbn [bind]. eexists. split; [reflexivity|]. split.
    - split; [cbn; rewrite E1; now apply fit_sound|]. cbn. rewrite (in_view_height _ _ I). auto.
    - split; auto. split; [exact I|]. exists a, b. split; auto. split; auto. split; auto. cbn. rewrite E1. split; intros ->.
      + cbn in Ea. now injection Ea as <-.
      + apply adds_of; auto; [lia|]. intros k q. rewrite H. unfold rmin, rmax. cbn. rewrite Nat.min_l, Nat.max_r by lia. tauto. }
  destruct g; cbn [bind].
  - destruct multi; cbn [bind].
    + destruct (deselect_ok v p Hv) as [(v' & -> & I & T & D & H1 & H2)|[-> N]]; cbn [bind].
      * exists v'. split; auto. split; auto. left. auto 8.
      * destruct K as (v' & E & I & R); auto. exists v'. auto.
    + destruct K as (v' & E & I & R); [discriminate|]. exists v'. auto.
  - destruct K as (v' & E & I & R); [discriminate|]. exists v'. auto.
  - destruct K as (v' & E & I & R); [discriminate|]. exists v'. auto.
Qed.
Lemma range_ok mn mx q g : bd mn -> bd mx -> bd q -> exists a b, unit_of s g q a b /\ a <= q <= b /\ range_region (e_text e) (e_lo e) (e_range e) mn mx q g = Some (reaches mn mx q a b) /\ proper s (reaches mn mx q a b).
Proof.
  intros B1 B2 Bq. destruct (unit_ok q g Bq) as (a & b & E & U & Ba & Bb & L). exists a, b. split; auto. split; auto. unfold range_region. rewrite E. cbn [bind]. split; auto.
  unfold reaches. destruct (mn <=? q); now apply proper_new.
Qed.
Lemma unites_of sel x : fit s sel -> proper s x -> exists sel', add_region sel x = Some sel' /\ sound s sel' /\ unites sel sel' x.
Proof.
  intros F P. destruct (add_fit s sel x F P) as (sel' & E & F' & Ne & H). exists sel'. split; auto. split; [now apply fit_sound|]. split; [apply adds_of; auto; apply min_le_max|].
  intros ->. cbn in E. now injection E as <-.
Qed.
Lemma extend_ok v q g : VI v -> bd q -> exists v' rs x a b, extend_selection (e_text e) (e_lo e) (e_range e) v q g = Some v' /\ VI v' /\ in_view e v v' /\
  vw_sel v = rs ++ [x] /\ unit_of s g q a b /\ a <= q <= b /\ unites rs (vw_sel v') (reaches (r_start x) (r_start x) q a b) /\ vw_drag v' = Some (Drag rs (r_start x) (r_start x) g).
Proof.
  intros (V1 & V2 & V3) Bq. pose proof V1 as (Ne & _ & Fp). destruct (last_ex _ Ne) as (rs & x & E). unfold extend_selection. replace (last_region (vw_sel v)) with (Some x) by (rewrite E, last_region_app; reflexivity).
  pose proof (sound_fit _ _ V1) as Fs. rewrite E in Fs. apply fit_app in Fs as [Frs _].
  replace (removelast (vw_sel v)) with rs by (rewrite E, removelast_last; reflexivity). rewrite add_regions_same by apply Frs. cbn [app bind].
  assert (Bx : bd (r_start x)) by (apply Fp; rewrite E; apply in_or_app; right; now left).
  destruct (range_ok (r_start x) (r_start x) q g Bx Bx Bq) as (a & b & U & L & -> & Pr). cbn [bind].
  destruct (unites_of rs _ Frs Pr) as (sel' & -> & S' & H). cbn [bind].
  destruct (set_ok (with_drag v (Some (Drag rs (r_start x) (r_start x) g))) sel' V1 S' V2) as (v' & E0 & E1 & E2 & I). exists v', rs, x, a, b. split; auto. split.
  - split; [now rewrite E1|]. rewrite E2, (in_view_height _ _ I). cbn. auto.
  - split; [exact I|]. rewrite E1, E2. auto 8.
Qed.
Lemma drag_ok v d q : VI v -> vw_drag v = Some d -> bd q -> exists v' a b, do_drag (e_text e) (e_lo e) (e_range e) v q = Some v' /\ VI v' /\ in_view e v v' /\
  unit_of s (dg_gran d) q a b /\ a <= q <= b /\ unites (dg_base d) (vw_sel v') (reaches (dg_min d) (dg_max d) q a b) /\ vw_drag v' = Some d.
Proof.
  intros (V1 & V2 & V3) Ed Bq. unfold do_drag. rewrite Ed in V3 |- *. destruct V3 as (Fb & B1 & B2).
  destruct (range_ok (dg_min d) (dg_max d) q (dg_gran d) B1 B2 Bq) as (a & b & U & L & -> & Pr). cbn [bind].
  replace (with_affinity (with_horiz (reaches (dg_min d) (dg_max d) q a b) None) Downstream) with (reaches (dg_min d) (dg_max d) q a b) by (unfold reaches; now destruct (_ <=? _)).
  destruct (unites_of _ _ Fb Pr) as (sel' & -> & S' & H). cbn [bind].
  destruct (set_ok v sel' V1 S' V2) as (v' & E0 & E1 & E2 & I). exists v', a, b. rewrite Ed in E2. split; auto. split.
  - split; [now rewrite E1|]. rewrite E2, (in_view_height _ _ I). auto.
  - split; [exact I|]. rewrite E1, E2. auto 8.
Qed.
Lemma collapse_ok v : VI v -> exists v' x rs, collapse_selections (e_lo e) v = Some v' /\ VI v' /\ in_view e v v' /\ vw_sel v = x :: rs /\
  vw_sel v' = [Region (r_end x) (r_end x) (r_horiz x) Downstream] /\ vw_drag v' = vw_drag v.
Proof.
  intros (V1 & V2 & V3). pose proof V1 as (Ne & _ & Fp). unfold collapse_selections. destruct (vw_sel v) as [|x rs] eqn:E; [easy|]. cbn [collapse bind].
  destruct (Fp x (or_introl eq_refl)) as (P1 & P2 & P3). rewrite P3. assert (Pn : proper s (Region (r_end x) (r_end x) (r_horiz x) Downstream)) by (split; auto).
  rewrite <- E in V1. destruct (set_ok v _ V1 (sound_one _ Pn) V2) as (v' & -> & E1 & E2 & I). exists v', x, rs. split; auto. split; [|auto].
  split; [rewrite E1; now apply sound_one|]. rewrite (in_view_height _ _ I), E2. auto.
Qed.
Lemma goto_ok v l : VI v -> exists v' q, goto_line (e_gb e) (e_text e) (e_lo e) v l = Some v' /\ VI v' /\ in_view e v v' /\ to_off l 0 = Some q /\ vw_sel v' = [caret q] /\ vw_drag v' = vw_drag v.
Proof.
  intros (V1 & V2 & V3). unfold goto_line. destruct (place_ok l 0) as (q & E & B & _). rewrite E. cbn [bind]. assert (Pn : proper s (caret q)) by (split; auto).
  destruct (set_ok v _ V1 (sound_one _ Pn) V2) as (v' & -> & E1 & E2 & I). exists v', q. split; auto. split; [|auto].
  split; [rewrite E1; now apply sound_one|]. rewrite (in_view_height _ _ I), E2. auto.
Qed.
Lemma all_ok v : VI v -> exists v', select_all (e_text e) (e_lo e) v = Some v' /\ VI v' /\ vw_sel v' = [region_new 0 n] /\ vw_drag v' = vw_drag v /\ vw_first v' = vw_first v /\ vw_height v' = vw_height v.
Proof.
  intros (V1 & V2 & V3). unfold select_all. rewrite e_len. assert (Pn : proper s (region_new 0 n)) by (apply proper_new; [apply e_bd_0|apply e_bd_len]).
  destruct (raw_ok v _ V1 (sound_one _ Pn)) as (sh & ->). eexists. split; [reflexivity|]. split; [exact (conj (sound_one _ Pn) (conj V2 V3))|]. auto.
Qed.

(** ** A selection into lines *)
Local Notation NL p := (nth_error s p = Some 10).
Lemma next_c c : rvalid (e_text e) c -> exists b c', c_next rope_ops (e_text e) lines_metric c = Some (b, c') /\
  match b with
  | Some x => nearest_after (starts_line s) (c_pos c) x /\ c_pos c' = x /\ rvalid (e_text e) c'
  | None => last_line s (c_pos c) /\ c_pos c' = n
  end.
Proof.
  destruct e_wf as [h W]. intros Vc. destruct (CursorBoundary.next_ok _ _ _ _ _ _ rope_leaf_spec rope_text_spec _ _ _ lines_bound (e_text e) h W c Vc (or_introl eq_refl)) as (b & c' & E & H).
  exists b, c'. split; auto. destruct b as [q|].
  - destruct H as (H0 & H1 & H2 & H3 & V'). split; [|auto]. destruct H2 as [H2 H2']. split; [lia|]. split.
    + split; [unfold es, rcontent in *; lia|]. now right.
    + intros z Hz [_ [?|Sz]]; [lia|]. apply (H3 z); [lia|]. split; auto. lia.
  - split; [|exact (next_none_pos _ _ _ _ _ _ rope_leaf_spec rope_text_spec _ _ _ lines_bound eq_refl (e_text e) h W c c' Vc E)].
    destruct H as (_ & _ & H). intros z Hz [Hz1 [?|Sz]]; [lia|]. apply (H z); [unfold es, rcontent in *; lia|]. split; auto. lia.
Qed.
Lemma nl_bd p : NL p -> bd p.
Proof.
  intros H. destruct e_wf as [h W]. apply (bd_iff (e_text e) h W). unfold scut, is_char_boundary. fold s. destruct (p =? 0); auto. rewrite H. reflexivity.
Qed.
(** The points of the pieces of [a, b). *)
Definition pieces (k : kind) (a b p : nat) : Prop :=
  match k with
  | KTouch => a <= p < b
  | KCov => a <= p < b /\ ~ NL p
  | KIn => a < p < b /\ ~ NL p /\ ~ NL (p - 1)
  end.
Lemma piece_ok k a x p : a < x -> NL (x - 1) -> (forall z, a <= z < x - 1 -> ~ NL z) -> has k a (x - 1) p <-> pieces k a x p.
Proof.
  intros L N1 N2. destruct k; cbn.
  - split; [intros H; split; [lia|apply N2; lia]|]. intros [H H2]. assert (p <> x - 1) by (intros ->; auto). lia.
  - lia.
  - split; [intros H; split; [lia|split; apply N2; lia]|]. intros (H & H2 & H3). assert (p <> x - 1) by (intros ->; auto). lia.
Qed.
Lemma pieces_split k a m b p : a < m <= b -> NL (m - 1) -> pieces k a b p <-> pieces k a m p \/ pieces k m b p.
Proof.
  intros L N1. destruct k; cbn.
  - split; [intros [H H']; destruct (Nat.lt_ge_cases p m); [left|right]; split; auto; lia|intros [[H H']|[H H']]; split; auto; lia].
  - lia.
  - split; [|intros [(H & H2 & H3)|(H & H2 & H3)]; split; auto; lia]. intros (H & H2 & H3). destruct (Nat.lt_trichotomy p m) as [?|[->|?]]; [left; split; auto; lia|contradiction|right; split; auto; lia].
Qed.
Lemma split_loop_ok en : bd en -> bd (en - 1) -> forall fuel c acc, rvalid (e_text e) c -> bd (c_pos c) -> c_pos c < en -> en - c_pos c <= fuel -> fit s acc ->
  exists out, split_loop (e_text e) fuel c en acc = Some out /\ fit s out /\ out <> [] /\
    (starts_line s en -> forall k p, pts k out p <-> pts k acc p \/ pieces k (c_pos c) en p).
Proof.
  intros Be Be1. pose proof (e_bd_le _ Be) as Ln. induction fuel as [|fuel IH]; intros c acc Vc Bc Lc Hf A; [lia|].
  cbn [split_loop]. replace (c_pos c <? en) with true by lia. destruct (next_c c Vc) as (b & c' & -> & H). cbn [bind]. destruct b as [x|].
  - destruct H as ((X1 & (X2 & X2') & X3) & Ep & Vc'). destruct X2' as [?|X2']; [lia|]. unfold check. replace (1 <=? x) with true by lia. replace (1 <=? en) with true by lia.
    assert (Bx : bd (x - 1)) by now apply nl_bd. assert (Bx' : bd x) by (apply start_e; split; auto).
    assert (N2 : forall z, c_pos c <= z < x - 1 -> ~ NL z). { intros z Hz Q. apply (X3 (S z)); [lia|]. split; [lia|]. right. now replace (S z - 1) with z by lia. }
    destruct (Nat.leb_spec en x) as [L|L].
    + destruct (add_fit s acc (region_new (c_pos c) (en - 1)) A (proper_new _ _ Bc Be1)) as (acc' & -> & A' & Ne & H). cbn [bind].
      exists acc'. assert (Eo : split_loop (e_text e) fuel c' en acc' = Some acc') by (destruct fuel; cbn [split_loop]; replace (c_pos c' <? en) with false by lia; reflexivity).
      split; auto. split; auto. split; auto. intros Hs k p. assert (en = x). { destruct (Nat.eq_dec en x); auto. exfalso. apply (X3 en); auto. lia. } subst en.
      rewrite H. unfold rmin, rmax. cbn [r_start r_end region_new]. rewrite Nat.min_l, Nat.max_r by lia. now rewrite (piece_ok k (c_pos c) x p).
    + destruct (add_fit s acc (region_new (c_pos c) (x - 1)) A (proper_new _ _ Bc Bx)) as (acc' & -> & A' & Ne & H). cbn [bind].
      destruct (IH c' acc' Vc') as (out & E & F & No & Hp); auto; try (rewrite Ep; auto; lia). exists out. split; auto. split; auto. split; auto. intros Hs k p.
      rewrite Hp, H by auto. unfold rmin, rmax. cbn [r_start r_end region_new]. rewrite Nat.min_l, Nat.max_r by lia. rewrite (piece_ok k (c_pos c) x p) by auto.
      rewrite Ep, (pieces_split k (c_pos c) x en p) by (auto; lia). tauto.
  - destruct H as (H & Ep). rewrite e_len, Ep, Nat.eqb_refl.
    destruct (add_fit s acc (region_new (c_pos c) n) A (proper_new _ _ Bc e_bd_len)) as (acc' & -> & A' & Ne & H'). cbn [bind].
    exists acc'. split; [destruct fuel; cbn [split_loop]; replace (c_pos c' <? en) with false by lia; reflexivity|]. split; auto. split; auto. intros Hs. exfalso. apply (H en); auto.
Qed.
Lemma rvalid_new p : p <= n -> exists c, c_new (e_text e) p = Some c /\ c_pos c = p /\ rvalid (e_text e) c.
Proof. intros H. destruct e_wf as [h W]. destruct (rnew_ok h (e_text e) p W H) as (c & E & E1 & V). eauto. Qed.
Definition line_points (k : kind) (rs : list region) (p : nat) : Prop :=
  exists x, In x rs /\ if rmin x =? rmax x then has k (rmin x) (rmax x) p else pieces k (rmin x) (rmax x) p.
Lemma split_regions_ok rs : (forall x, In x rs -> proper s x /\ (rmin x < rmax x -> bd (rmax x - 1))) -> forall acc, fit s acc ->
  exists out, split_regions (e_text e) rs acc = Some out /\ fit s out /\ (rs <> [] \/ acc <> [] -> out <> []) /\
    ((forall x, In x rs -> rmin x < rmax x -> starts_line s (rmax x)) -> forall k p, pts k out p <-> pts k acc p \/ line_points k rs p).
Proof.
  induction rs as [|x rs IH]; intros Hr acc A; cbn [split_regions].
  - exists acc. split; auto. split; auto. split; [tauto|]. intros _ k p. split; auto. intros [H|(x & [] & _)]; auto.
  - destruct (Hr x (or_introl eq_refl)) as [Px Hx]. pose proof (min_le_max x) as Lx.
    assert (K : exists acc', (if is_caret x then add_region acc (caret (rmax x)) else let? c := c_new (e_text e) (rmin x) in split_loop (e_text e) (n_len (e_text e)) c (rmax x) acc) = Some acc' /\ fit s acc' /\ acc' <> [] /\
      ((rmin x < rmax x -> starts_line s (rmax x)) -> forall k p, pts k acc' p <-> pts k acc p \/ (if rmin x =? rmax x then has k (rmin x) (rmax x) p else pieces k (rmin x) (rmax x) p))).
    { rewrite is_caret_ok. destruct (Nat.eqb_spec (rmin x) (rmax x)) as [Ex|Ex].
      - assert (Pc : proper s (caret (rmax x))) by (apply proper_new; now apply proper_hi).
        destruct (add_fit s acc _ A Pc) as (acc' & -> & A' & Ne & H). exists acc'. split; auto. split; auto. split; auto. intros _ k p. rewrite H. unfold rmin at 1, rmax at 3. cbn [r_start r_end caret]. rewrite Nat.min_id, Nat.max_id, Ex. tauto.
      - destruct (rvalid_new (rmin x)) as (c & -> & Ep & Vc); [apply e_bd_le, proper_lo; auto|]. cbn [bind]. pose proof (e_bd_le _ (proper_hi x Px)).
        destruct (split_loop_ok (rmax x) (proper_hi x Px) (Hx ltac:(lia)) (n_len (e_text e)) c acc Vc) as (acc' & E & A' & Ne & H'); auto; try (rewrite Ep; try rewrite e_len; auto using proper_lo; lia).
        exists acc'. split; auto. split; auto. split; auto. intros Hs k p. rewrite <- Ep. apply H'. apply Hs. lia. }
    destruct K as (acc' & -> & A' & Ne & H). cbn [bind]. destruct (IH (fun z Hz => Hr z (or_intror Hz)) acc' A') as (out & E & F & No & Hp). exists out. split; auto. split; auto. split; [auto|].
    intros Hs k p. rewrite Hp, H by (intros; apply Hs; cbn; auto). split.
    + intros [[Q|Q]|(y & Hy & Q)]; auto; right; [exists x; split; [now left|auto]|exists y; split; [now right|auto]].
    + intros [Q|(y & [<-|Hy] & Q)]; auto. right. now exists y.
Qed.
Lemma into_lines_ok v : VI v -> (forall x, In x (vw_sel v) -> rmin x < rmax x -> bd (rmax x - 1)) -> exists v', split_selection_into_lines (e_text e) (e_lo e) v = Some v' /\ VI v' /\
  vw_drag v' = vw_drag v /\ vw_first v' = vw_first v /\ vw_height v' = vw_height v /\
  ((forall x, In x (vw_sel v) -> rmin x < rmax x -> starts_line s (rmax x)) -> forall k p, pts k (vw_sel v') p <-> line_points k (vw_sel v) p).
Proof.
  intros (V1 & V2 & V3) Hx. pose proof V1 as (Ne & _ & Fp). unfold split_selection_into_lines.
  destruct (split_regions_ok (vw_sel v) (fun x Hi => conj (Fp x Hi) (Hx x Hi)) [] (fit_nil s)) as (out & -> & F & No & H). cbn [bind].
  assert (S' : sound s out) by (apply fit_sound; auto). destruct (raw_ok v out V1 S') as (sh & ->). eexists. split; [reflexivity|]. split; [exact (conj S' (conj V2 V3))|]. do 3 (split; [reflexivity|]).
  intros Hs k p. cbn. rewrite H by auto. split; auto. intros [Q|Q]; auto. now apply pts_nil in Q.
Qed.

(** ** Every command *)
Theorem event_ok v ev : VI v -> sane e v ev -> exists v', do_in e v ev = Some v' /\ VI v' /\ (scrolls v ev -> in_view e v v').
Proof.
  intros Hv Hs. unfold do_in.
  assert (Kd : forall q, bd q -> exists v', do_drag (e_text e) (e_lo e) (e_range e) v q = Some v' /\ VI v' /\ (vw_drag v <> None -> in_view e v v')).
  { intros q Bq. destruct (vw_drag v) as [d|] eqn:Ed; [|exists v; unfold do_drag; rewrite Ed; tauto].
    destruct (drag_ok v d q Hv Ed Bq) as (v' & a & b & E & I & W & _). exists v'. auto. }
  destruct ev as [m|m| |f l| | |line col ty|line| | |line col sh c|line col]; cbn [do_edit sane scrolls] in *.
  - destruct (do_move_ok v m false Hv Hs) as (v' & E & I & W & _). exists v'. auto.
  - destruct (do_move_ok v m true Hv Hs) as (v' & E & I & W & _). exists v'. auto.
  - destruct (all_ok v Hv) as (v' & E & I & _). exists v'. split; auto. split; auto. tauto.
  - unfold set_scroll, check. replace (Z.to_nat f <=? Z.to_nat l) with true by lia. eexists. split; [reflexivity|]. split; [|tauto]. destruct Hv as (V1 & V2 & V3). split; auto. split; auto. cbn. lia.
  - destruct (add_by_ok v _ Hv Hs) as (v' & ys & E & I & W & _). exists v'. auto.
  - destruct (add_by_ok v _ Hv Hs) as (v' & ys & E & I & W & _). exists v'. auto.
  - unfold do_gesture. destruct (place_ok line col) as (q & -> & Bq & _). cbn [bind]. destruct ty as [g multi|g| |].
    + destruct (select_ok v q g multi Hv Bq) as (v' & E & I & [(-> & -> & _)|(_ & W & _)]); exists v'; auto. split; auto. split; auto. intros [[]|]; [auto|discriminate].
    + destruct (extend_ok v q g Hv Bq) as (v' & rs & x & a & b & E & I & W & _). exists v'. auto.
    + apply Kd; auto.
    + exists v. split; auto. split; auto. tauto.
  - destruct (goto_ok v line Hv) as (v' & q & E & I & W & _). exists v'. auto.
  - destruct (collapse_ok v Hv) as (v' & x & rs & E & I & W & _). exists v'. auto.
  - destruct (into_lines_ok v Hv Hs) as (v' & E & I & _). exists v'. split; auto. split; auto. tauto.
  - unfold do_gesture. destruct (place_ok line col) as (q & -> & Bq & _). cbn [bind]. destruct sh.
    + destruct (extend_ok v q GPoint Hv Bq) as (v' & rs & x & a & b & E & I & W & _). exists v'. auto.
    + exists v. split; auto. split; auto. discriminate.
  - unfold do_gesture. destruct (place_ok line col) as (q & -> & Bq & _). cbn [bind]. apply Kd; auto.
Qed.
Lemma new_ok : VI view_new.
Proof.
  split; [apply sound_one; split; [apply e_bd_0|split; [apply e_bd_0|reflexivity]]|]. split; [cbn; lia|exact Logic.I].
Qed.
End Env.

(** ** Edits *)
Lemma transform_proper (d : delta nat) base text after dr x : keeps_chars base d -> apply d base = Some text -> proper base x -> proper text (transform_region d after dr x).
Proof.
  intros Hk E (P1 & P2 & P3). assert (K : forall p f, char_boundary base p -> char_boundary text (transform_ix d p f)).
  { intros p f Hp. unfold transform_ix. unfold apply in E. assert (U0 : utf8 []) by now exists [].
    destruct (transform_cb base (els d) p f Hp Hk [] text U0 E) as [U H]. destruct (_ && _); [|exact H]. cbn in H. apply cb_split. exists [], text. auto. }
  unfold transform_region. destruct (match dr with Inside => _ | _ => _ end) as [sa ea]. split; [|split]; cbn; auto.
Qed.
Lemma regions_proper (d : delta nat) base text after dr rs : keeps_chars base d -> apply d base = Some text -> Forall (proper base) rs -> forall acc, fit text acc ->
  exists out, apply_regions d after dr rs acc = Some out /\ fit text out /\ (rs <> [] \/ acc <> [] -> out <> []).
Proof.
  intros Hk E. induction rs as [|x rs IH]; intros F acc A; cbn [apply_regions].
  - exists acc. split; auto. split; auto. tauto.
  - inversion F; subst. destruct (add_fit text acc (transform_region d after dr x) A) as (acc' & -> & A' & Ne & _); [eapply transform_proper; eauto|]. cbn [bind].
    destruct (IH ltac:(auto) acc' A') as (out & E' & F' & N). exists out. auto.
Qed.
Theorem edit_ok e e' v d dr : VI e v -> env_ok e' -> keeps_chars (es e) d -> apply d (es e) = Some (es e') ->
  exists v', after_edit_selection (e_lo e') v d dr = Some v' /\ VI e' v' /\ vw_drag v' = None /\ in_view e' v v' /\ sel_apply_delta (vw_sel v) d true dr = Some (vw_sel v').
Proof.
  intros (V1 & V2 & V3) OK Hk E. unfold after_edit_selection, sel_apply_delta. pose proof V1 as (Ne & _ & _). pose proof (sound_fit _ _ V1) as (_ & Fp).
  destruct (regions_proper d (es e) (es e') true dr (vw_sel v) Hk E Fp [] (fit_nil _)) as (out & -> & F & N). cbn [bind]. unfold set_selection_for_edit.
  assert (S' : sound (es e') out) by (apply fit_sound; auto).
  destruct (scroll_ok e' OK (with_sel (with_drag v None) out) S' V2) as (v' & E0 & E1 & E2 & E3 & I). cbn in E1, E2. exists v'. split; auto. rewrite E1. split; [|auto].
  split; [now rewrite E1|]. rewrite E2, (in_view_height _ _ _ I). auto.
Qed.
Theorem reach_VI e v : vreach e v -> env_ok e /\ VI e v.
Proof.
  induction 1 as [e OK|e v ev v' R [OK IH] Hs E|e v e' R [OK IH] OK' Es|e v d dr e' v' R [OK IH] OK' Wd Hk Ea E].
  - split; auto. now apply new_ok.
  - split; auto. destruct (event_ok e OK v ev IH Hs) as (v2 & E2 & I & _). congruence.
  - split; auto. unfold VI in *. now rewrite Es.
  - split; auto. destruct (edit_ok e e' v d dr IH OK' Hk Ea) as (v2 & E2 & I & _). congruence.
Qed.
