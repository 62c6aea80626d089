(** Builder, summary, coordinate transformer and region iterators. *)
From Coq Require Import List Arith Bool Lia ZifyBool.
From Verif Require Import Base ListLib MultisetModel MultisetSpec MultisetProofs DeltaModel DeltaSpec
  ExpandProofs SynthProofs DeltaProofs.
Import ListNotations.

Section DP2.
Context {A : Type}.
Implicit Types (l : list (element A)) (base : list A) (d : delta A).

Lemma denote_length l : length (denote l) = total_element_len l.
Proof.
  induction l as [|[b e|s] l IH]; cbn [denote total_element_len]; auto;
    rewrite app_length, map_length, ?seq_length, IH; auto.
Qed.

Lemma resolve_length base l : copies_in l (length base) -> length (resolve base (denote l)) = total_element_len l.
Proof.
  induction 1 as [|[b e|s] l Hx H IH]; cbn [denote total_element_len]; auto.
  - rewrite resolve_app, app_length, IH, resolve_seq by lia. rewrite slice_length; lia.
  - rewrite resolve_app, app_length, IH, resolve_inr. auto.
Qed.

Lemma sorted_copies_app pos l1 l2 n m : sorted_copies pos l1 n -> sorted_copies n l2 m -> sorted_copies pos (l1 ++ l2) m.
Proof.
  revert pos; induction l1 as [|[b e|s] l IH]; cbn; intros pos H1 H2.
  - revert pos H1. induction l2 as [|[b e|s] l2 IH2]; cbn in *; intros; intuition; lia.
  - intuition.
  - intuition.
Qed.

Lemma copies_in_app l1 l2 n : copies_in (l1 ++ l2) n <-> copies_in l1 n /\ copies_in l2 n.
Proof. apply Forall_app. Qed.

(** ** Builder *)
Definition run_edits (b : dbuilder) (eds : list (nat * nat * list A)) : option dbuilder :=
  fold_left (fun ob ed => let? b' := ob in db_replace b' (fst (fst ed)) (snd (fst ed)) (snd ed)) eds (Some b).

Lemma run_edits_cons b s e r eds : run_edits b ((s, e, r) :: eds) =
  let? b' := db_replace b s e r in run_edits b' eds.
Proof.
  unfold run_edits. cbn [fold_left fst snd bind]. destruct (db_replace b s e r); cbn [bind]; auto.
  induction eds; cbn; auto.
Qed.

Record db_inv base (b : @dbuilder A) : Prop := {
  dbi_base : db_base b = length base;
  dbi_sorted : sorted_copies 0 (db_els b) (db_last b);
  dbi_ins : no_empty_insert (db_els b);
  dbi_copy : no_empty_copy (db_els b) }.

Lemma run_edits_ok base eds : forall (b : @dbuilder A), db_inv base b -> sorted_edits (db_last b) eds (length base) ->
  exists b', run_edits b eds = Some b' /\ db_inv base b' /\ db_last b' <= length base /\
    resolve base (denote (db_els b')) ++ skipn (db_last b') base =
    resolve base (denote (db_els b)) ++ edited (db_last b) eds base.
Proof.
  induction eds as [|[[s e] r] eds IH]; intros b Hb Hs.
  - exists b. cbn in *. auto.
  - destruct Hs as (S1 & S2 & S3). rewrite run_edits_cons. unfold db_replace, db_delete.
    destruct (Nat.ltb_spec s (db_last b)); [lia|]. cbn [bind].
    set (l := if db_last b <? s then db_els b ++ [Copy (db_last b) s] else db_els b).
    assert (Hl : sorted_copies 0 l s /\ no_empty_insert l /\ no_empty_copy l /\
       (e <= length base -> resolve base (denote l) = resolve base (denote (db_els b)) ++ slice base (db_last b) s)).
    { destruct Hb as [B1 B2 B3 B4]. unfold l. destruct (Nat.ltb_spec (db_last b) s).
      - split; [|split; [|split]].
        + eapply sorted_copies_app; eauto. cbn. lia.
        + apply no_empty_insert_app; split; auto. repeat constructor.
        + apply no_empty_copy_app; split; auto. repeat constructor. auto.
        + intros. rewrite denote_app, resolve_app. f_equal. cbn [denote]. rewrite app_nil_r, resolve_seq by lia.
          f_equal. lia.
      - assert (s = db_last b) by lia. subst s. rewrite slice_nil, app_nil_r. auto. }
    destruct Hl as (L1 & L2 & L3 & L4).
    assert (He : e <= length base).
    { clear - S3. revert e S3; induction eds as [|[[s e'] r] eds IH]; cbn; intros; [auto|].
      destruct S3 as (? & ? & S3). apply IH in S3. lia. }
    set (b1 := match r with [] => _ | _ => _ end).
    assert (Hb1 : db_inv base b1 /\ db_last b1 = e /\ resolve base (denote (db_els b1)) = resolve base (denote l) ++ r).
    { destruct Hb as [B1 B2 B3 B4]. unfold b1. destruct r as [|c r]; cbn [db_els db_base db_last].
      - rewrite app_nil_r. repeat split; cbn [db_els db_base db_last]; auto. eapply sorted_copies_le; eauto.
      - repeat split; cbn [db_els db_base db_last]; auto.
        + apply sorted_copies_snoc_insert. eapply sorted_copies_le; eauto.
        + apply no_empty_insert_app; split; auto. repeat constructor. congruence.
        + apply no_empty_copy_app; split; auto. repeat constructor.
        + rewrite denote_app, resolve_app. cbn [denote]. now rewrite app_nil_r, resolve_inr. }
    destruct Hb1 as (HB1 & HB2 & HB3).
    destruct (IH b1 HB1) as (b' & E & I1 & I2 & I3); [now rewrite HB2|].
    exists b'. split; [exact E|]. split; [auto|]. split; [auto|].
    rewrite I3, HB3, HB2. cbn [edited]. rewrite L4 by auto. now rewrite <- !app_assoc.
Qed.

Lemma db_build_ok base (b : @dbuilder A) : db_inv base b -> db_last b <= length base ->
  wf_delta (db_build b) /\ no_empty_copy (els (db_build b)) /\ base_len (db_build b) = length base /\
  apply (db_build b) base = Some (resolve base (denote (db_els b)) ++ skipn (db_last b) base).
Proof.
  intros [B1 B2 B3 B4] Hl. unfold db_build.
  assert (W : wf_delta (Delta (if db_last b <? db_base b then db_els b ++ [Copy (db_last b) (db_base b)] else db_els b) (db_base b)) /\
      no_empty_copy (if db_last b <? db_base b then db_els b ++ [Copy (db_last b) (db_base b)] else db_els b)).
  { destruct (Nat.ltb_spec (db_last b) (db_base b)); split; [split| |split|]; cbn [els base_len]; auto.
    - eapply sorted_copies_app; eauto. cbn. lia.
    - apply no_empty_insert_app; split; auto. repeat constructor.
    - apply no_empty_copy_app; split; auto. repeat constructor. auto.
    - eapply sorted_copies_le; eauto. lia. }
  destruct W as [W1 W2]. split; [exact W1|]. split; [exact W2|]. split; [exact B1|].
  rewrite apply_ok by (auto; exact B1). f_equal. cbn [els].
  destruct (Nat.ltb_spec (db_last b) (db_base b)).
  - rewrite denote_app, resolve_app. f_equal. cbn [denote]. rewrite app_nil_r, resolve_seq by lia.
    unfold slice. apply firstn_all2. rewrite skipn_length. lia.
  - rewrite skipn_all2 by lia. now rewrite app_nil_r.
Qed.

Theorem builder_ok base eds : sorted_edits 0 eds (length base) ->
  exists b, run_edits (dbuilder_new (length base)) eds = Some b /\
    wf_delta (db_build b) /\ no_empty_copy (els (db_build b)) /\ base_len (db_build b) = length base /\
    apply (db_build b) base = Some (edited 0 eds base) /\
    new_document_len (db_build b) = length (edited 0 eds base).
Proof.
  intros H. destruct (run_edits_ok base eds (dbuilder_new (length base))) as (b & E & I1 & I2 & I3); auto.
  { repeat split; cbn; auto; constructor. }
  exists b. split; [auto|]. destruct (db_build_ok base b I1 I2) as (J1 & J2 & J3 & J4).
  cbn in I3. rewrite I3 in J4. repeat (split; auto).
  rewrite apply_ok in J4 by auto. injection J4 as <-. symmetry. apply resolve_length.
  rewrite <- J3. destruct J1 as [J1 _]. now apply sorted_in in J1.
Qed.

Lemma builder_unsorted (b : @dbuilder A) s e r : s < db_last b -> db_replace b s e r = None.
Proof. intros H. unfold db_replace, db_delete. now rewrite (proj2 (Nat.ltb_lt _ _) H). Qed.

Lemma simple_edit_builder s e (r : list A) n :
  simple_edit s e r n = (let? b := run_edits (dbuilder_new n) [(s, e, r)] in Some (db_build b)).
Proof.
  rewrite run_edits_cons. unfold simple_edit, db_replace. destruct r; cbn [bind];
  destruct (db_delete (dbuilder_new n) s e); reflexivity.
Qed.

(** ** summary *)
Lemma total_element_len_app l1 l2 : total_element_len (l1 ++ l2) = total_element_len l1 + total_element_len l2.
Proof. induction l1 as [|[b e|s] l1 IH]; cbn; auto; lia. Qed.

Lemma sorted_copies_split pos l1 l2 n : sorted_copies pos (l1 ++ l2) n ->
  exists m, sorted_copies pos l1 m /\ sorted_copies m l2 n.
Proof.
  revert pos; induction l1 as [|[b e|s] l1 IH]; cbn; intros pos H.
  - exists pos. auto.
  - destruct H as (H1 & H2 & H3). destruct (IH _ H3) as (m & M1 & M2). exists m. auto.
  - auto.
Qed.

Theorem summary_ok d base s e n : wf_delta d -> base_len d = length base -> summary d = ((s, e), n) ->
  s <= e /\ e <= length base /\
  exists mid, length mid = n /\ apply d base = Some (firstn s base ++ mid ++ skipn e base).
Proof.
  intros [H _] Hb Hs. unfold apply. unfold summary in Hs.
  set (p1 := match els d with Copy 0 e :: rest => (e, rest) | l => (0, l) end) in Hs.
  assert (P1 : exists l1, p1 = (fst p1, l1) /\ sorted_copies (fst p1) l1 (length base) /\
     (copies_in (els d) (length base) -> resolve base (denote (els d)) = firstn (fst p1) base ++ resolve base (denote l1))).
  { unfold p1. rewrite Hb in H. destruct (els d) as [|[[|b] e0|r] rest]; cbn [fst]; eexists; (split; [reflexivity|]); (split; [cbn in H |- *; intuition|]).
    - reflexivity.
    - intros Hc. inversion_clear Hc. cbn [denote]. rewrite resolve_app, resolve_seq by lia.
      unfold slice. cbn [skipn]. now rewrite Nat.add_0_l, !Nat.sub_0_r.
    - cbn. auto.
    - cbn. auto. }
  destruct p1 as [s1 l1']; cbn [fst] in *. destruct P1 as (l1 & E1 & P2 & P3). injection E1 as ->.
  rewrite Hb in *. pose proof (proj1 (sorted_in _ _ _ H)) as Hc.
  rewrite apply_els_ok by auto. rewrite P3 by auto.
  pose proof (sorted_in _ _ _ P2) as [Hc1 Hle].
  assert (D : (exists b0 init, l1 = init ++ [Copy b0 (length base)] /\ s1 = s /\ b0 = e /\ total_element_len init = n) \/
              (s1 = s /\ e = length base /\ total_element_len l1 = n)).
  { destruct (rev l1) as [|[b0 e0|r] init] eqn:Er; cbn in Hs.
    - injection Hs as <- <- <-. auto.
    - destruct (Nat.eqb_spec e0 (length base)) as [->|Hne]; injection Hs as <- <- <-; auto.
      left. exists b0, (rev init). apply (f_equal (@rev _)) in Er. rewrite rev_involutive in Er. cbn in Er. auto.
    - injection Hs as <- <- <-. auto. }
  destruct D as [(b0 & init & -> & -> & -> & En)|(-> & -> & En)].
  - apply sorted_copies_split in P2 as (m & M1 & M2). cbn in M2. pose proof (sorted_in _ _ _ M1) as [M3 M4].
    split; [lia|]. split; [lia|]. exists (resolve base (denote init)).
    apply copies_in_app in Hc1 as [Hc1 _]. split; [rewrite resolve_length; auto|].
    rewrite denote_app, resolve_app. do 3 f_equal. cbn [denote]. rewrite app_nil_r, resolve_seq by lia.
    unfold slice. apply firstn_all2. rewrite skipn_length; lia.
  - split; [lia|]. split; [lia|]. exists (resolve base (denote l1)). split; [rewrite resolve_length; auto|].
    rewrite skipn_all. now rewrite app_nil_r.
Qed.

Lemma new_document_len_ok d base r : apply d base = Some r -> new_document_len d = length r.
Proof.
  unfold apply, new_document_len. revert r; induction (els d) as [|[b e|s] l IH]; cbn [apply_els total_element_len]; intros r H.
  - injection H as <-. reflexivity.
  - destruct ((b <=? e) && (e <=? length base)) eqn:Ec; [|discriminate].
    apply andb_true_iff in Ec as [E1 E2]. apply Nat.leb_le in E1, E2.
    apply bind_Some in H as (r' & E & H). injection H as <-. rewrite app_length, slice_length, (IH r'); auto.
  - apply bind_Some in H as (r' & E & H). injection H as <-. rewrite app_length, (IH r'); auto.
Qed.

(** ** Transformer *)
Implicit Types (t : list (nat + A)).
Lemma before_old_app ix t1 t2 : (forall k, In (inl k) t1 -> k < ix) ->
  before_old ix (t1 ++ t2) = length t1 + before_old ix t2.
Proof.
  induction t1 as [|[k|c] t1 IH]; cbn [app before_old length]; intros H; auto.
  - destruct (Nat.leb_spec ix k) as [Hk|Hk]; [specialize (H k (or_introl eq_refl)); lia|].
    rewrite IH; auto. intros; apply H; right; auto.
  - rewrite IH; auto. intros; apply H; right; auto.
Qed.
Lemma before_old_seq ix b n t : ix <= b + n -> b <= ix -> ix < b + n ->
  before_old ix (map inl (seq b n) ++ t) = ix - b.
Proof.
  intros H1 H2 H3. replace n with ((ix - b) + (n - (ix - b))) by lia. rewrite seq_app, map_app, <- app_assoc.
  rewrite before_old_app.
  - rewrite map_length, seq_length. replace (n - (ix - b)) with (S (n - (ix - b) - 1)) by lia.
    cbn. replace (ix <=? b + (ix - b)) with true; [lia|]. symmetry. apply Nat.leb_le. lia.
  - intros k Hk. apply in_map_iff in Hk as (k' & E & Hk). injection E as ->. apply in_seq in Hk. lia.
Qed.

Lemma transform_els_result l ix after r : transform_els l ix after r = r + transform_els l ix after 0.
Proof.
  revert r; induction l as [|[b e|s] l IH]; intros r; cbn [transform_els]; auto.
  - destruct (Nat.leb_spec ix b); [auto|]. destruct ((ix <? e) || ((ix =? e) && negb after)); [lia|].
    rewrite IH, (IH (0 + _)). lia.
  - rewrite IH, (IH (0 + _)). lia.
Qed.

Lemma in_denote_ge pos l n k : sorted_copies pos l n -> In (inl k) (denote l) -> pos <= k < n.
Proof.
  revert pos; induction l as [|[b e|s] l IH]; cbn [denote sorted_copies]; intros pos H Hi; [destruct Hi| |].
  - destruct H as (H1 & H2 & H3). apply in_app_iff in Hi as [Hi|Hi].
    + apply in_map_iff in Hi as (k' & E & Hi). injection E as ->. apply in_seq in Hi.
      apply sorted_in in H3. lia.
    + apply (IH e) in Hi; auto. lia.
  - apply in_app_iff in Hi as [Hi|Hi]; [|eauto].
    apply in_map_iff in Hi as (? & E & _). discriminate.
Qed.

Lemma before_old_ge ix t : (forall k, In (inl k) t -> ix <= k) ->
  before_old ix t <= length t.
Proof. intros _. induction t as [|[k|c] t IH]; cbn; [lia| |lia]. destruct (ix <=? k); lia. Qed.

(** [after = true]: everything that is before the first surviving old position at or
    after [ix]. *)
Lemma transform_after pos l n ix : sorted_copies pos l n -> no_empty_copy l ->
  transform_els l ix true 0 = before_old ix (denote l).
Proof.
  revert pos; induction l as [|[b e|s] l IH]; intros pos H Hc; cbn [transform_els denote]; auto.
  - destruct H as (H1 & H2 & H3). inversion_clear Hc as [|? ? Hbe Hc'].
    destruct (Nat.leb_spec ix b).
    + replace (e - b) with (S (e - b - 1)) by lia. cbn [seq map app before_old]. now rewrite (proj2 (Nat.leb_le _ _) H).
    + destruct (Nat.ltb_spec ix e).
      * cbn [orb]. rewrite before_old_seq; lia.
      * cbn [orb negb]. rewrite andb_false_r. rewrite transform_els_result, (IH e) by auto.
        rewrite before_old_app; [rewrite map_length, seq_length; lia|].
        intros k Hk. apply in_map_iff in Hk as (k' & E & Hk). injection E as ->. apply in_seq in Hk. lia.
  - inversion_clear Hc as [|? ? _ Hc']. rewrite transform_els_result, (IH pos) by auto.
    rewrite before_old_app; [rewrite map_length; lia|].
    intros k Hk. apply in_map_iff in Hk as (k' & E & Hk). discriminate.
Qed.

(** [after = false]: right after old position [ix - 1] if it survives, else as above. *)
Lemma transform_before_kept pos l n ix j : sorted_copies pos l n ->
  nth_error (denote l) j = Some (inl ix) -> transform_els l (S ix) false 0 = S j.
Proof.
  revert pos j; induction l as [|[b e|s] l IH]; intros pos j H Hj; cbn [transform_els denote] in *.
  - destruct j; discriminate.
  - destruct H as (H1 & H2 & H3).
    destruct (Nat.lt_ge_cases j (e - b)) as [Hlt|Hge].
    + rewrite nth_error_app1 in Hj by (rewrite map_length, seq_length; lia).
      rewrite nth_error_map in Hj. rewrite (nth_error_nth' _ 0) in Hj by (rewrite seq_length; lia).
      rewrite seq_nth in Hj by lia. cbn in Hj. injection Hj as <-.
      destruct (Nat.leb_spec (S (b + j)) b); [lia|].
      destruct (Nat.ltb_spec (S (b + j)) e); cbn [orb]; [lia|].
      replace (S (b + j) =? e) with true; [cbn [andb negb]; lia|]. symmetry. apply Nat.eqb_eq. lia.
    + rewrite nth_error_app2 in Hj by (rewrite map_length, seq_length; lia).
      rewrite map_length, seq_length in Hj.
      pose proof (in_denote_ge e l n ix H3 (nth_error_In _ _ Hj)) as Hix.
      destruct (Nat.leb_spec (S ix) b); [lia|]. destruct (Nat.ltb_spec (S ix) e); [lia|].
      destruct (Nat.eqb_spec (S ix) e); [lia|]. cbn [orb andb negb].
      rewrite transform_els_result, (IH e (j - (e - b))) by auto. lia.
  - destruct (Nat.lt_ge_cases j (length s)) as [Hlt|Hge].
    + rewrite nth_error_app1 in Hj by (rewrite map_length; lia).
      rewrite nth_error_map in Hj. destruct (nth_error s j); discriminate.
    + rewrite nth_error_app2 in Hj by (rewrite map_length; lia). rewrite map_length in Hj.
      rewrite transform_els_result, (IH pos (j - length s)) by auto. lia.
Qed.

Lemma transform_before_gone pos l n ix : sorted_copies pos l n -> no_empty_copy l ->
  ~ In (inl ix) (denote l) -> transform_els l (S ix) false 0 = before_old (S ix) (denote l).
Proof.
  revert pos; induction l as [|[b e|s] l IH]; intros pos H Hc Hj; cbn [transform_els denote] in *; auto.
  - destruct H as (H1 & H2 & H3). inversion_clear Hc as [|? ? Hbe Hc'].
    assert (Hn : ~ (b <= ix < e)).
    { intros Hr. apply Hj, in_app_iff. left. apply in_map. apply in_seq. lia. }
    destruct (Nat.leb_spec (S ix) b).
    + replace (e - b) with (S (e - b - 1)) by lia. cbn [seq map app before_old]. now rewrite (proj2 (Nat.leb_le _ _) H).
    + destruct (Nat.ltb_spec (S ix) e); [lia|]. destruct (Nat.eqb_spec (S ix) e); [lia|]. cbn [orb andb negb].
      rewrite transform_els_result, (IH e) by (auto; intros Hi; apply Hj, in_app_iff; auto).
      rewrite before_old_app; [rewrite map_length, seq_length; lia|].
      intros k Hk. apply in_map_iff in Hk as (k' & E & Hk). injection E as ->. apply in_seq in Hk. lia.
  - inversion_clear Hc as [|? ? _ Hc']. rewrite transform_els_result, (IH pos) by (auto; intros Hi; apply Hj, in_app_iff; auto).
    rewrite before_old_app; [rewrite map_length; lia|].
    intros k Hk. apply in_map_iff in Hk as (k' & E & Hk). discriminate.
Qed.

Lemma transform_els_le l ix after : copies_in l (base_len (Delta l ix)) \/ True ->
  Forall (fun x => match x with Copy b e => b <= e | Insert _ => True end) l ->
  transform_els l ix after 0 <= length (denote l).
Proof.
  intros _ H. rewrite denote_length. induction H as [|[b e|s] l Hx H IH]; cbn [transform_els total_element_len]; auto.
  - destruct (Nat.leb_spec ix b); [lia|].
    destruct ((ix <? e) || ((ix =? e) && negb after)) eqn:E; [lia|]. rewrite transform_els_result. lia.
  - rewrite transform_els_result. lia.
Qed.

Lemma transform_els_mono l i j a a' : Forall (fun x => match x with Copy b e => b <= e | Insert _ => True end) l ->
  i < j \/ (i = j /\ (a' = true \/ a = a')) ->
  transform_els l i a 0 <= transform_els l j a' 0.
Proof.
  intros H Hij. induction H as [|[b e|s] l Hx H IH]; cbn [transform_els]; auto.
  - destruct (Nat.leb_spec i b); [lia|]. destruct (Nat.leb_spec j b); [lia|].
    rewrite (transform_els_result l i), (transform_els_result l j).
    destruct a, a'; cbn [negb]; rewrite ?andb_false_r, ?andb_true_r, ?orb_false_r;
    destruct (Nat.ltb_spec i e), (Nat.ltb_spec j e); cbn [orb];
    try (destruct (Nat.eqb_spec i e)); try (destruct (Nat.eqb_spec j e)); cbn [orb andb]; try lia;
    exfalso; lia.
  - rewrite (transform_els_result l i), (transform_els_result l j). lia.
Qed.

Lemma sorted_copies_forall pos l n : sorted_copies pos l n ->
  Forall (fun x : element A => match x with Copy b e => b <= e | Insert _ => True end) l.
Proof.
  intros H. apply sorted_in in H as [H _]. eapply Forall_impl; [|exact H]. intros [b e|s]; intuition.
Qed.

(** Sharp bound: index of a surviving position. *)
Lemma before_old_nth pos l n ix j : sorted_copies pos l n -> nth_error (denote l) j = Some (inl ix) ->
  before_old ix (denote l) = j.
Proof.
  revert pos j; induction l as [|[b e|s] l IH]; intros pos j H Hj; cbn [denote] in *.
  - destruct j; discriminate.
  - destruct H as (H1 & H2 & H3). destruct (Nat.lt_ge_cases j (e - b)) as [Hlt|Hge].
    + rewrite nth_error_app1 in Hj by (rewrite map_length, seq_length; lia).
      rewrite nth_error_map in Hj. rewrite (nth_error_nth' _ 0) in Hj by (rewrite seq_length; lia).
      rewrite seq_nth in Hj by lia. cbn in Hj. injection Hj as <-. rewrite before_old_seq; lia.
    + rewrite nth_error_app2 in Hj by (rewrite map_length, seq_length; lia).
      rewrite map_length, seq_length in Hj.
      pose proof (in_denote_ge e l n ix H3 (nth_error_In _ _ Hj)) as Hix.
      rewrite before_old_app.
      * rewrite map_length, seq_length, (IH e (j - (e - b))); auto. lia.
      * intros k Hk. apply in_map_iff in Hk as (k' & E & Hk). injection E as ->. apply in_seq in Hk. lia.
  - destruct (Nat.lt_ge_cases j (length s)) as [Hlt|Hge].
    + rewrite nth_error_app1 in Hj by (rewrite map_length; lia).
      rewrite nth_error_map in Hj. destruct (nth_error s j); discriminate.
    + rewrite nth_error_app2 in Hj by (rewrite map_length; lia). rewrite map_length in Hj.
      rewrite before_old_app; [rewrite map_length, (IH pos (j - length s)); auto; lia|].
      intros k Hk. apply in_map_iff in Hk as (k' & E & Hk). discriminate.
Qed.

Theorem transform_ix_ok d ix : wf_delta d -> no_empty_copy (els d) ->
  (forall j, nth_error (denote (els d)) j = Some (inl ix) ->
     transform_ix d ix true = j /\ transform_ix d (S ix) false = S j) /\
  transform_ix d ix true = before_old ix (denote (els d)) /\
  transform_ix d 0 false = 0 /\
  (~ In (inl ix) (denote (els d)) -> transform_ix d (S ix) false = before_old (S ix) (denote (els d))).
Proof.
  intros [H _] Hc. unfold transform_ix. rewrite andb_false_r. cbn [Nat.eqb andb negb].
  split; [|split; [|split]].
  - intros j Hj. rewrite (transform_after 0 (els d) (base_len d)) by auto. split.
    + eapply before_old_nth; eauto.
    + eapply transform_before_kept; eauto.
  - eapply transform_after; eauto.
  - reflexivity.
  - intros Hn. eapply transform_before_gone; eauto.
Qed.

Theorem transform_ix_le d ix after : wf_delta d -> transform_ix d ix after <= new_document_len d.
Proof.
  intros [H _]. unfold transform_ix. destruct ((ix =? 0) && negb after); [lia|].
  unfold new_document_len. rewrite <- denote_length. apply transform_els_le; auto.
  eapply sorted_copies_forall; eauto.
Qed.

Theorem transform_ix_mono d i j a a' : wf_delta d -> i < j \/ (i = j /\ (a' = true \/ a = a')) ->
  transform_ix d i a <= transform_ix d j a'.
Proof.
  intros [H _] Hij. apply sorted_copies_forall in H. unfold transform_ix.
  pose proof (transform_els_mono (els d) i j a a' H Hij).
  destruct (Nat.eqb_spec i 0), a; cbn [andb negb]; try lia;
  destruct (Nat.eqb_spec j 0), a'; cbn [andb negb]; try lia;
  exfalso; intuition congruence.
Qed.

(** ** interval_untouched *)
Lemma untouched_false pos l n is ie lw : sorted_copies pos l n -> ie <= pos -> is <= ie -> untouched_els l is ie lw = false.
Proof.
  revert pos lw; induction l as [|[b e|s] l IH]; cbn [untouched_els sorted_copies]; intros pos lw H Hp Hi; auto.
  - destruct H as (H1 & H2 & H3). destruct (Nat.leb_spec ie e); auto.
    destruct lw.
    + destruct (Nat.ltb_spec b is); [lia|]. eapply IH; eauto; lia.
    + destruct (Nat.leb_spec ie b); [|lia]. cbn. eapply IH; eauto; lia.
  - eauto.
Qed.

Lemma untouched_ok pos l n is ie : sorted_copies pos l n -> is <= ie -> untouched_els l is ie true = true ->
  exists j, forall k, is <= k -> k < ie -> nth_error (denote l) (j + (k - is)) = Some (inl k).
Proof.
  revert pos; induction l as [|[b e|s] l IH]; cbn [untouched_els sorted_copies denote]; intros pos H Hi Hu; [discriminate| |].
  - destruct H as (H1 & H2 & H3). destruct (Nat.leb_spec ie e); [|discriminate].
    destruct (Nat.ltb_spec b is).
    + exists (is - b). intros k K1 K2. rewrite nth_error_app1 by (rewrite map_length, seq_length; lia).
      rewrite nth_error_map. rewrite (nth_error_nth' _ 0) by (rewrite seq_length; lia).
      rewrite seq_nth by lia. cbn. do 2 f_equal. lia.
    + erewrite untouched_false in Hu; eauto; lia.
  - destruct (IH pos H Hi Hu) as (j & Hj). exists (length s + j). intros k K1 K2.
    rewrite nth_error_app2 by (rewrite map_length; lia). rewrite map_length.
    replace (length s + j + (k - is) - length s) with (j + (k - is)) by lia. auto.
Qed.

(** ** Region iterators *)
Definition no_adjacent_inserts l : Prop :=
  forall l1 s1 s2 l2, l <> l1 ++ Insert s1 :: Insert s2 :: l2.

Lemma no_adjacent_tail x l : no_adjacent_inserts (x :: l) -> no_adjacent_inserts l.
Proof. intros H l1 s1 s2 l2 E. apply (H (x :: l1) s1 s2 l2). cbn. now f_equal. Qed.

Lemma inserts_from_ok : forall l pos last r, no_adjacent_inserts l ->
  In r (inserts_from l pos last) <-> exists l1 s l2, l = l1 ++ Insert s :: l2 /\
    r = (passed last l1, pos + total_element_len l1, length s).
Proof.
  induction l as [|[b e|s] l IH]; intros pos last r Hna; cbn [inserts_from].
  - split; [intros []|intros ([|? ?] & ? & ? & ? & _); discriminate].
  - rewrite (IH (pos + (e - b)) e r (no_adjacent_tail _ _ Hna)). split.
    + intros (l1 & s & l2 & -> & ->). exists (Copy b e :: l1), s, l2. split; [auto|].
      cbn [passed total_element_len]. now rewrite Nat.add_assoc.
    + intros ([|x l1] & s & l2 & E & ->); [discriminate|]. injection E as <- ->. exists l1, s, l2. split; auto.
      cbn [passed total_element_len]. now rewrite Nat.add_assoc.
  - assert (Hp : forall l1 s' l2, l = l1 ++ Insert s' :: l2 ->
       passed (last + length s) l1 = passed last l1).
    { intros l1 s' l2 ->. destruct l1 as [|[b e|s1] l1]; auto.
      - exfalso. now apply (Hna [] s s' l2).
      - exfalso. now apply (Hna [] s s1 (l1 ++ Insert s' :: l2)). }
    split.
    + intros [<-|Hr].
      * exists [], s, l. split; auto. cbn. do 2 f_equal. lia.
      * apply IH in Hr as (l1 & s' & l2 & E & ->); [|eapply no_adjacent_tail; eauto].
        exists (Insert s :: l1), s', l2. split; [now rewrite E|]. cbn [passed total_element_len].
        rewrite (Hp _ _ _ E). now rewrite Nat.add_assoc.
    + intros ([|x l1] & s' & l2 & E & ->).
      * injection E as <- <-. left. cbn. do 2 f_equal. lia.
      * injection E as <- E. right. apply IH; [eapply no_adjacent_tail; eauto|].
        exists l1, s', l2. split; auto. rewrite (Hp _ _ _ E). cbn [passed total_element_len]. now rewrite Nat.add_assoc.
Qed.

(** Deltas without insertions: the deletions iterator is exact. *)
Lemma deletions_ok n : forall l pos last, sorted_copies last l n ->
  Forall (fun x : element A => match x with Copy _ _ => True | Insert _ => False end) l ->
  (forall k, last <= k -> k < n -> (~ In (inl k) (denote l) <->
     exists r, In r (deletions_from l pos last n) /\ r_old r <= k /\ k < r_old r + r_len r)) /\
  (forall r, In r (deletions_from l pos last n) -> last <= r_old r /\ r_old r + r_len r <= n /\ 0 < r_len r /\
     r_new r = pos + before_old (r_old r) (denote l)).
Proof.
  induction l as [|[b e|s] l IH]; intros pos last Hs Hf; cbn [deletions_from denote].
  - cbn in Hs. split.
    + intros k K1 K2. destruct (Nat.ltb_spec last n); [|lia]. split; [|cbn; tauto]. intros _.
      eexists; split; [left; reflexivity|]. cbn. lia.
    + intros r Hr. destruct (Nat.ltb_spec last n); [|destruct Hr]. destruct Hr as [<-|[]]. cbn. lia.
  - destruct Hs as (S1 & S2 & S3). inversion_clear Hf as [|? ? _ Hf'].
    destruct (IH (pos + (e - b)) e S3 Hf') as [I1 I2]. pose proof (proj2 (sorted_in _ _ _ S3)) as Hen. split.
    + intros k K1 K2. rewrite in_app_iff, in_map_iff.
      destruct (Nat.lt_ge_cases k b) as [Hkb|Hkb]; [|destruct (Nat.lt_ge_cases k e) as [Hke|Hke]].
      * split; [|intros _ [(x & E & Hx)|Hi]].
        -- intros _. exists (last, pos, b - last). destruct (Nat.ltb_spec last b); [|lia].
           split; [left; reflexivity|]. cbn; lia.
        -- injection E as ->. apply in_seq in Hx. lia.
        -- apply (in_denote_ge e l n) in Hi; auto. lia.
      * split; [intros Hn; exfalso; apply Hn; left; exists k; split; auto; apply in_seq; lia|].
        intros (r & Hr & R1 & R2) _. apply in_app_iff in Hr as [Hr|Hr].
        -- destruct (Nat.ltb_spec last b); [|destruct Hr]. destruct Hr as [<-|[]]. cbn in *. lia.
        -- apply I2 in Hr. lia.
      * rewrite <- (I1 k Hke K2) || idtac. split.
        -- intros Hn. assert (Hn' : ~ In (inl k) (denote l)) by tauto.
           apply (I1 k Hke K2) in Hn' as (r & Hr & R). exists r. split; auto. apply in_app_iff. auto.
        -- intros (r & Hr & R1 & R2). apply in_app_iff in Hr as [Hr|Hr].
           ++ destruct (Nat.ltb_spec last b); [|destruct Hr]. destruct Hr as [<-|[]]. cbn in *. lia.
           ++ intros [(x & E & Hx)|Hi]; [injection E as ->; apply in_seq in Hx; lia|].
              apply (I1 k Hke K2) in Hi; auto. exists r. auto.
    + intros r Hr. apply in_app_iff in Hr as [Hr|Hr].
      * destruct (Nat.ltb_spec last b); [|destruct Hr]. destruct Hr as [<-|[]]. cbn [r_old r_new r_len fst snd].
        split; [lia|]. split; [lia|]. split; [lia|].
        destruct (Nat.eq_dec b e) as [->|Hbe].
        -- rewrite Nat.sub_diag. cbn [seq map app]. assert (E : before_old last (denote l) = 0); [|lia].
           clear - S3 Hf' H. revert e H S3. induction Hf' as [|[b' e'|s] l Hx Hf IH]; intros; cbn [denote]; auto; [|destruct Hx].
           destruct S3 as (T1 & T2 & T3). destruct (Nat.eq_dec b' e') as [->|Hne].
           ++ rewrite Nat.sub_diag. cbn. apply (IH e'); auto. lia.
           ++ replace (e' - b') with (S (e' - b' - 1)) by lia. cbn.
              destruct (Nat.leb_spec last b'); [auto|lia].
        -- replace (e - b) with (S (e - b - 1)) by lia. cbn [seq map app before_old]. destruct (Nat.leb_spec last b); lia.
      * apply I2 in Hr as (R1 & R2 & R3 & R4). split; [lia|]. split; [lia|]. split; [lia|]. rewrite R4.
        rewrite before_old_app; [rewrite map_length, seq_length; lia|].
        intros k Hk. apply in_map_iff in Hk as (k' & E & Hk). injection E as ->. apply in_seq in Hk. lia.
  - inversion_clear Hf. tauto.
Qed.

(** ** Recognisers *)
Lemma is_identity_ok d base : is_identity d = true -> base_len d = length base -> apply d base = Some base.
Proof.
  unfold is_identity, apply. intros H Hb. destruct (els d) as [|[b e|s] [|x l]]; try discriminate.
  - apply Nat.eqb_eq in H. cbn. destruct base; [auto|cbn in Hb; lia].
  - apply andb_true_iff in H as [H1 H2]. apply Nat.eqb_eq in H1, H2. subst. cbn [apply_els].
    rewrite Hb. cbn [Nat.leb andb]. rewrite Nat.leb_refl. cbn [bind].
    rewrite app_nil_r. f_equal. unfold slice. cbn. rewrite Nat.sub_0_r. apply firstn_all.
Qed.

Lemma as_simple_insert_ok d base s : as_simple_insert d = Some s -> base_len d = length base -> wf_delta d ->
  exists i, i <= length base /\ apply d base = Some (firstn i base ++ s ++ skipn i base).
Proof.
  unfold as_simple_insert, apply. intros H Hb [Hw _]. rewrite Hb in *.
  destruct (els d) as [|[b e|n] l].
  - discriminate.
  - destruct (Nat.eqb_spec b 0) as [->|]; [|discriminate].
    destruct l as [|[b1 e1|n] l]; try discriminate. exists e.
    destruct l as [|[b1 e1|n1] l]; try discriminate.
    + destruct (Nat.eqb_spec e (length base)) as [->|]; [|discriminate]. injection H as ->.
      split; auto. cbn [apply_els bind]. rewrite Nat.leb_refl. cbn [Nat.leb andb].
      unfold slice. cbn [skipn]. rewrite Nat.sub_0_r, skipn_all. reflexivity.
    + destruct (Nat.eqb_spec e b1) as [->|]; [|discriminate].
      destruct (Nat.eqb_spec e1 (length base)) as [->|]; [|discriminate].
      destruct l; [|discriminate]. cbn in H. injection H as ->. cbn in Hw.
      split; [lia|]. cbn [apply_els bind Nat.leb andb].
      replace (b1 <=? length base) with true by (symmetry; apply Nat.leb_le; lia).
      rewrite Nat.leb_refl. cbn [andb bind]. unfold slice. cbn [skipn]. rewrite Nat.sub_0_r, app_nil_r.
      do 3 f_equal. apply firstn_all2. rewrite skipn_length; lia.
  - exists 0. destruct l as [|[b1 e1|n1] l]; try discriminate.
    + destruct (Nat.eqb_spec 0 (length base)) as [E|]; [|discriminate]. injection H as ->.
      split; [lia|]. cbn. destruct base; [|discriminate]. reflexivity.
    + destruct (Nat.eqb_spec 0 b1) as [<-|]; [|discriminate].
      destruct (Nat.eqb_spec e1 (length base)) as [->|]; [|discriminate].
      destruct l; [|discriminate]. cbn in H. injection H as ->.
      split; [lia|]. cbn [apply_els bind Nat.leb andb].
      rewrite Nat.leb_refl. cbn [andb bind]. unfold slice. cbn [skipn firstn app]. rewrite Nat.sub_0_r, app_nil_r, firstn_all.
      reflexivity.
Qed.

Lemma is_simple_delete_ok d base : is_simple_delete d = true -> base_len d = length base -> wf_delta d ->
  exists s e, s < e /\ e <= length base /\ apply d base = Some (firstn s base ++ skipn e base).
Proof.
  unfold is_simple_delete, apply. intros H Hb [Hw _]. rewrite Hb in *.
  destruct (els d) as [|[b e|n] l]; [| |discriminate].
  - apply Nat.ltb_lt in H. exists 0, (length base). split; [lia|]. split; [lia|]. cbn. now rewrite skipn_all.
  - destruct (Nat.eqb_spec b 0) as [->|Hb0].
    + destruct l as [|[b1 e1|n1] l]; [| |discriminate].
      * apply Nat.ltb_lt in H. exists e, (length base). split; [lia|]. split; [lia|].
        cbn [apply_els bind Nat.leb andb]. replace (e <=? length base) with true by (symmetry; apply Nat.leb_le; lia).
        cbn [andb]. unfold slice. cbn [skipn]. now rewrite Nat.sub_0_r, skipn_all.
      * apply andb_true_iff in H as [H H3]. apply andb_true_iff in H as [H1 H2].
        apply Nat.ltb_lt in H2. apply Nat.eqb_eq in H3. subst. destruct l; [|discriminate].
        cbn in Hw. exists e, b1. split; [lia|]. split; [lia|].
        cbn [apply_els bind]. rewrite (proj2 (Nat.leb_le 0 e)), (proj2 (Nat.leb_le e (length base))),
          (proj2 (Nat.leb_le b1 (length base))), Nat.leb_refl by lia.
        cbn [andb bind]. unfold slice. cbn [skipn]. rewrite Nat.sub_0_r, app_nil_r. cbn [bind]. do 2 f_equal.
        apply firstn_all2. rewrite skipn_length; lia.
    + apply andb_true_iff in H as [H1 H2]. apply Nat.eqb_eq in H1. subst. destruct l; [|discriminate].
      cbn in Hw. exists 0, b. split; [lia|]. split; [lia|].
      cbn [apply_els bind]. rewrite (proj2 (Nat.leb_le b (length base))), Nat.leb_refl by lia.
      cbn [andb firstn app bind]. unfold slice. rewrite app_nil_r. f_equal. apply firstn_all2. rewrite skipn_length; lia.
Qed.

End DP2.
