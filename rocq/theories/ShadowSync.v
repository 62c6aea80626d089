(** The client stays in step with the view. *)
From Coq Require Import List Arith Bool Lia ZifyBool.
From Verif Require Import Base ListLib ShadowModel ShadowSpec ShadowProofs.
Import ListNotations.

(** The client's lines are used in increasing order. *)
Fixpoint incr (lb : nat) (E : list entry) : Prop :=
  match E with [] => True | None :: E' => incr lb E' | Some (s, _) :: E' => lb <= s /\ incr (S s) E' end.
Lemma incr_le E : forall a b, a <= b -> incr b E -> incr a E.
Proof. induction E as [|[[s v]|] E IH]; intros a b H; cbn [incr]; auto. - intros [K1 K2]. split; [lia|auto]. - apply IH; auto. Qed.
Lemma incr_drop A : forall lb B, incr lb (A ++ B) -> incr lb B.
Proof.
  induction A as [|[[s v]|] A IH]; intros lb B H; cbn [app incr] in H; auto.
  destruct H as [H1 H2]. apply IH in H2. eapply incr_le; [|exact H2]. lia.
Qed.
Lemma incr_replace A : forall lb B B', (forall lb, incr lb B -> incr lb B') -> incr lb (A ++ B) -> incr lb (A ++ B').
Proof. induction A as [|[[s v]|] A IH]; intros lb B B' H K; cbn [app incr] in *; auto. - destruct K. split; eauto. - eauto. Qed.
Lemma incr_nones n : forall lb B, incr lb (repeat None n ++ B) <-> incr lb B.
Proof. induction n; intros; cbn [repeat app incr]; [tauto|auto]. Qed.
Lemma incr_edit E a b r lb : a <= b -> incr lb E -> incr lb (firstn a E ++ repeat None r ++ skipn b E).
Proof.
  intros H K. rewrite <- (firstn_skipn a E) in K. eapply incr_replace; [|exact K]. intros lb' K'. apply incr_nones.
  replace b with (a + (b - a)) by lia. rewrite <- skipn_skipn. rewrite <- (firstn_skipn (b - a) (skipn a E)) in K'. eapply incr_drop, K'.
Qed.
Lemma incr_mask E : forall lb i a b inv, incr lb E -> incr lb (mask_from i a b inv E).
Proof.
  induction E as [|[[s v]|] E IH]; intros lb i a b inv H; cbn [incr mask_from] in *; auto.
  - destruct H as [H1 H2]. destruct ((a <=? i) && (i <? b)); [|cbn [incr]; auto].
    cbn [mask]. unfold ent. destruct (v_none _); cbn [incr]; auto. apply IH. eapply incr_le; [|exact H2]. lia.
  - destruct ((a <=? i) && (i <? b)); cbn [mask incr]; auto.
Qed.
Lemma incr_lines n : forall lb s v E, v_none v = false -> incr lb (lines s n v ++ E) -> (n = 0 -> exists E', E = ent s v :: E') -> lb <= s /\ incr (s + n) E.
Proof.
  induction n as [|n IH]; intros lb s v E Hv H K.
  - destruct (K eq_refl) as (E' & ->). cbn [lines app] in H. unfold ent in *. rewrite Hv in *. cbn [incr] in *. rewrite Nat.add_0_r. intuition lia.
  - cbn [lines app] in H. unfold ent in H at 1. rewrite Hv in H. cbn [incr] in H. destruct H as [H1 H2]. split; auto.
    destruct n as [|n].
    + cbn [lines app] in H2. now rewrite Nat.add_1_r.
    + apply IH in H2; auto; [|discriminate]. now rewrite Nat.add_succ_r, <- Nat.add_succ_l.
Qed.
Lemma incr_seq n : forall s v lb, lb <= s -> incr lb (lines s n v).
Proof.
  induction n as [|n IH]; intros s v lb H; cbn [lines incr]; auto. unfold ent. destruct (v_none v); [apply IH; lia|]. split; [lia|]. apply IH. lia.
Qed.

Section Sync.
Context {T S : Type}.
Implicit Types (view vs : list (vline T S)) (old F : cache T S).

Definition hardc (c : cline T S) : bool := match cln c with Some _ => true | None => false end.
Definition agrees (v : validity) (l : vline T S) (c : cline T S) : Prop :=
  (v_text v = true -> ctext c = vtext l /\ hardc c = vhard l) /\ (v_styles v = true -> cstyle c = vstyle l) /\ (v_cursor v = true -> ccur c = vcur l).
Definition source old (E : list entry) vs : Prop :=
  forall k s v l, nth_error E k = Some (Some (s, v)) -> nth_error vs k = Some l ->
    exists c, nth_error old s = Some (Some c) /\ agrees v l c.
Lemma source_app old E1 E2 vs1 vs2 : length E1 = length vs1 -> source old (E1 ++ E2) (vs1 ++ vs2) <-> source old E1 vs1 /\ source old E2 vs2.
Proof.
  intros Hl. split.
  - intros H. split; intros k s v l H1 H2.
    + apply (H k s v l); rewrite nth_error_app1; auto; apply nth_error_Some; congruence.
    + apply (H (length E1 + k) s v l); rewrite nth_error_app2 by lia; [|rewrite Hl].
      * replace (_ + k - _) with k by lia. auto.
      * replace (_ + k - _) with k by lia. auto.
  - intros [Ha Hb] k s v l H1 H2. destruct (Nat.lt_ge_cases k (length E1)).
    + rewrite nth_error_app1 in H1, H2 by lia. eauto.
    + rewrite nth_error_app2 in H1, H2 by lia. rewrite <- Hl in H2. eauto.
Qed.
Lemma source_nones old n vs : source old (repeat None n) vs.
Proof. intros k s v l H. apply nth_error_In, repeat_spec in H. discriminate. Qed.
Lemma source_edit old E view a b new : length E = length view -> a <= b <= length view -> source old E view ->
  source old (firstn a E ++ repeat None (length new) ++ skipn b E) (firstn a view ++ new ++ skipn b view).
Proof.
  intros Hl Hab H. apply source_app; [rewrite !firstn_length; lia|]. split; [|apply source_app; [apply repeat_length|split; [apply source_nones|]]].
  - rewrite <- (firstn_skipn a E), <- (firstn_skipn a view) in H. apply source_app in H; [tauto|rewrite !firstn_length; lia].
  - rewrite <- (firstn_skipn b E), <- (firstn_skipn b view) in H. apply source_app in H; [tauto|rewrite !firstn_length; lia].
Qed.
Lemma mask_from_length E : forall i a b inv, length (mask_from i a b inv E) = length E.
Proof. induction E; intros; cbn [mask_from length]; auto. Qed.
Lemma mask_from_nth E : forall i a b inv k e, nth_error E k = Some e ->
  nth_error (mask_from i a b inv E) k = Some (if (a <=? i + k) && (i + k <? b) then mask inv e else e).
Proof.
  induction E as [|e0 E IH]; intros i a b inv [|k] e H; cbn [nth_error mask_from] in *; try discriminate.
  - injection H as ->. now rewrite Nat.add_0_r.
  - rewrite (IH _ _ _ _ _ e) by auto. now rewrite Nat.add_succ_r.
Qed.

(** What an update does, line by line. *)
Definition ok1 (strict : bool) view i (l : vline T S) (t : tactic) (x : entry) (f : option (cline T S)) : Prop :=
  (x = None /\ f = None /\ t <> Render) \/
  (exists v c, x = Some (i, v) /\ f = Some c /\ v_text v = true /\ v_styles v = true /\ same_line view i l c /\
    (v_cursor v = true \/ strict = false -> ccur c = vcur l)).
Fixpoint good (strict : bool) view i vs (P : list tactic) (X : list entry) F : Prop :=
  match vs, P, X, F with
  | [], _, [], [] => True
  | l :: vs', t :: P', x :: X', f :: F' => ok1 strict view i l t x f /\ good strict view (i + 1) vs' P' X' F'
  | _, _, _, _ => False
  end.
Lemma good_app strict view vs1 : forall i vs2 P1 P2 X1 X2 F1 F2, length P1 = length vs1 ->
  good strict view i vs1 P1 X1 F1 -> good strict view (i + length vs1) vs2 P2 X2 F2 ->
  good strict view i (vs1 ++ vs2) (P1 ++ P2) (X1 ++ X2) (F1 ++ F2).
Proof.
  induction vs1 as [|l vs1 IH]; intros i vs2 P1 P2 X1 X2 F1 F2 Hp H1 H2.
  - destruct P1; [|discriminate]. cbn [good] in H1. destruct X1, F1; try contradiction. cbn [app length] in *. now rewrite Nat.add_0_r in H2.
  - destruct P1 as [|t P1]; [discriminate|]. cbn [good] in H1. destruct X1, F1; try contradiction. destruct H1 as [H1 H1'].
    cbn [app good length] in *. split; auto. apply IH; auto. now rewrite <- Nat.add_assoc.
Qed.
Lemma good_length strict view vs : forall i P X F, good strict view i vs P X F -> length X = length vs /\ length F = length vs.
Proof.
  induction vs as [|l vs IH]; intros i P X F H; cbn [good] in H.
  - destruct X, F; try contradiction. auto.
  - destruct P, X, F; try contradiction. destruct H as [_ H]. apply IH in H. cbn [length]. lia.
Qed.
Lemma good_nth strict view vs : forall i P X F k l, good strict view i vs P X F -> nth_error vs k = Some l ->
  exists t x f, nth_error P k = Some t /\ nth_error X k = Some x /\ nth_error F k = Some f /\ ok1 strict view (i + k) l t x f.
Proof.
  induction vs as [|l0 vs IH]; intros i P X F k l H Hk; [destruct k; discriminate|].
  cbn [good] in H. destruct P as [|t P], X as [|x X], F as [|f F]; try contradiction. destruct H as [H1 H2].
  destruct k as [|k]; cbn [nth_error] in *.
  - injection Hk as <-. exists t, x, f. now rewrite Nat.add_0_r.
  - destruct (IH _ _ _ _ k l H2 Hk) as (t' & x' & f' & A1 & A2 & A3 & A4). exists t', x', f'. rewrite <- Nat.add_assoc in A4. auto.
Qed.
Lemma good_nones strict view vs : forall i t, t <> Render -> good strict view i vs (repeat t (length vs)) (repeat None (length vs)) (repeat None (length vs)).
Proof. induction vs as [|l vs IH]; intros i t H; cbn [length repeat good]; auto. split; auto. left. auto. Qed.
Lemma good_weaken view vs : forall strict i P X F, good strict view i vs P X F -> good true view i vs (repeat Preserve (length vs)) X F.
Proof.
  induction vs as [|l vs IH]; intros strict i P X F H; cbn [good] in H.
  - destruct X, F; try contradiction. exact Logic.I.
  - destruct P, X, F; try contradiction. destruct H as [H1 H2]. cbn [length repeat good]. split; [|eauto].
    destruct H1 as [(-> & -> & H)|(v & c & -> & -> & A & B & C & D)]; [left; repeat split; discriminate|].
    right. exists v, c. repeat (split; [auto|]). intros [K|K]; [auto|discriminate].
Qed.

(** Line numbers. *)
Lemma skipn_cons_nth {X} i (l : list X) x r : skipn i l = x :: r -> nth_error l i = Some x /\ skipn (i + 1) l = r.
Proof.
  revert l. induction i as [|i IH]; intros l H; [cbn in H; subst; auto|]. destruct l as [|y l]; [discriminate|].
  cbn [skipn] in H. apply IH in H. cbn [nth_error Nat.add skipn]. auto.
Qed.
Lemma number_next view i l r : skipn i view = l :: r -> number_of view (i + 1) = number_of view i + (if vhard l then 1 else 0) /\ line_number view i + 1 = number_of view i + (if vhard l then 1 else 0).
Proof.
  intros H. apply skipn_cons_nth in H as [H _]. unfold number_of, line_number. rewrite Nat.add_1_r, (firstn_S_nth i view l) by auto.
  rewrite filter_app, app_length. cbn [filter]. destruct (vhard l); cbn [length]; lia.
Qed.
Lemma line_number_pos view i : lines_ok view -> 1 <= line_number view i.
Proof.
  unfold lines_ok, line_number. destruct view as [|l view]; [contradiction|]. intros H. rewrite Nat.add_1_r. cbn [firstn filter]. rewrite H. cbn [length]. lia.
Qed.
Lemma line_number_of view i l r : skipn i view = l :: r -> (if vhard l then Some (line_number view i) else None) = if vhard l then Some (number_of view i) else None.
Proof. intros H. apply number_next in H as [_ H]. destruct (vhard l); auto. f_equal. lia. Qed.

Lemma lines_valid_cons s n v : v_none v = false -> lines s (1 + n) v = Some (s, v) :: lines (s + 1) n v.
Proof. intros H. cbn [Nat.add lines]. unfold ent. rewrite H. now rewrite Nat.add_1_r. Qed.
Lemma not_none v : v_text v = true -> v_none v = false.
Proof. destruct v as [[] [] []]; cbn; congruence. Qed.

Lemma count_on_ok strict view v t vs : forall our cs rest, skipn our view = vs ++ rest -> Forall2 (agrees v) vs cs ->
  v_text v = true -> v_styles v = true -> v_cursor v = true ->
  good strict view our vs (repeat t (length vs)) (lines our (length vs) v) (count_on (number_of view our) (map Some cs)).
Proof.
  induction vs as [|l vs IH]; intros our cs rest Hs Hc Ht Hy Hu.
  - inversion Hc; subst. exact Logic.I.
  - inversion Hc as [|? c ? cs' Ha Hr]; subst. destruct Ha as (A1 & A2 & A3). destruct (A1 Ht) as [A1' Ah].
    pose proof (number_next _ _ _ _ Hs) as [Hn _]. pose proof (skipn_cons_nth _ _ _ _ Hs) as [_ Hs'].
    specialize (IH (our + 1) cs' rest Hs' Hr Ht Hy Hu). rewrite Hn in IH.
    change (length (l :: vs)) with (1 + length vs). rewrite (lines_valid_cons our (length vs) v) by (now apply not_none).
    cbn [map count_on Nat.add repeat]. unfold hardc in Ah. destruct (cln c) as [m|] eqn:Ec; rewrite <- Ah in IH.
    + cbn [good]. split; [|exact IH]. right. eexists v, _. split; [reflexivity|]. split; [reflexivity|]. split; [auto|]. split; [auto|].
      split; [|cbn; auto]. unfold same_line. cbn. rewrite <- Ah. auto.
    + rewrite Nat.add_0_r in IH. cbn [good]. split; [|exact IH]. right. eexists v, _. split; [reflexivity|]. split; [reflexivity|]. split; [auto|]. split; [auto|].
      split; [|auto]. unfold same_line. rewrite <- Ah. auto.
Qed.
Lemma renumber_ok strict view v t vs our cs rest : lines_ok view -> skipn our view = vs ++ rest -> Forall2 (agrees v) vs cs ->
  v_text v = true -> v_styles v = true -> v_cursor v = true ->
  good strict view our vs (repeat t (length vs)) (lines our (length vs) v) (renumber (line_number view our - 1 + 1) (map Some cs)).
Proof.
  intros Hv Hs Hc Ht Hy Hu. unfold renumber. destruct vs as [|l vs]; inversion Hc as [|? c ? cs' Ha Hr]; subst; [exact Logic.I|].
  pose proof (count_on_ok strict view v t _ our _ rest Hs Hc Ht Hy Hu) as K. pose proof (line_number_pos view our Hv) as Hp.
  pose proof (number_next _ _ _ _ Hs) as [_ Hn]. destruct Ha as (A1 & _). destruct (A1 Ht) as [_ Ah]. unfold hardc in Ah.
  change (map Some (c :: cs')) with (Some c :: map Some cs') in *. cbv iota. destruct (cln c); rewrite <- Ah in Hn.
  - replace (line_number view our - 1 + 1) with (number_of view our) by lia. exact K.
  - replace (line_number view our - 1 + 1 + 1) with (number_of view our) by lia. exact K.
Qed.
Lemma carets_length view vs : forall i, length (encode_carets view i vs) = length vs.
Proof. induction vs; intros; cbn [encode_carets length]; auto. Qed.
Lemma update_ok strict view v t vs : forall our cs rest, skipn our view = vs ++ rest -> Forall2 (agrees v) vs cs ->
  v_text v = true -> v_styles v = true -> v_cursor v = false ->
  good strict view our vs (repeat t (length vs)) (lines our (length vs) v)
    (map (fun p => update_line strict (fst p) (snd p)) (combine (map Some cs) (encode_carets view our vs))).
Proof.
  induction vs as [|l vs IH]; intros our cs rest Hs Hc Ht Hy Hu.
  - inversion Hc; subst. exact Logic.I.
  - inversion Hc as [|? c ? cs' Ha Hr]; subst. destruct Ha as (A1 & A2 & _). destruct (A1 Ht) as [A1' Ah].
    pose proof (skipn_cons_nth _ _ _ _ Hs) as [_ Hs'].
    specialize (IH (our + 1) cs' rest Hs' Hr Ht Hy Hu).
    change (length (l :: vs)) with (1 + length vs). rewrite (lines_valid_cons our (length vs) v) by (now apply not_none).
    cbn [map encode_carets combine Nat.add repeat fst snd good]. split; [|exact IH]. right. cbn [update_line]. eexists v, _. split; [reflexivity|]. split; [reflexivity|].
    split; [auto|]. split; [auto|]. split.
    + unfold same_line. cbn [ctext cstyle cln l_ln]. split; [auto|]. split; [auto|]. unfold encode_ln. rewrite (line_number_of _ _ _ _ Hs).
      destruct (vhard l) eqn:El; [reflexivity|]. unfold hardc in Ah. now destruct (cln c).
    + intros [K|K]; [congruence|]. subst strict. cbn [ccur l_cur]. unfold encode_cursors. now destruct (vcur l).
Qed.
Lemma insert_ok strict view vs : forall our rest, skipn our view = vs ++ rest ->
  good strict view our vs (repeat Render (length vs)) (lines our (length vs) ALL_VALID) (map insert_line (encode_full view our vs)).
Proof.
  induction vs as [|l vs IH]; intros our rest Hs; [exact Logic.I|].
  pose proof (skipn_cons_nth _ _ _ _ Hs) as [_ Hs']. specialize (IH (our + 1) rest Hs').
  change (length (l :: vs)) with (1 + length vs). rewrite lines_valid_cons by reflexivity.
  cbn [map encode_full Nat.add repeat good]. split; [|exact IH]. right. eexists ALL_VALID, _. split; [reflexivity|]. split; [reflexivity|].
  split; [auto|]. split; [auto|]. split.
  + unfold same_line. cbn [ctext cstyle cln f_ln f_text f_style]. split; [auto|]. split; [auto|]. unfold encode_ln. apply (line_number_of _ _ _ _ Hs).
  + intros _. cbn [ccur f_cur]. unfold encode_cursors. now destruct (vcur l).
Qed.

Lemma source_lines old n : forall s v vs, v_none v = false -> length vs = n -> source old (lines s n v) vs ->
  exists cs, firstn n (skipn s old) = map Some cs /\ Forall2 (agrees v) vs cs /\ (0 < n -> s + n <= length old).
Proof.
  induction n as [|n IH]; intros s v vs Hv Hl H.
  - destruct vs; [|discriminate]. exists []. rewrite firstn_O. split; [reflexivity|]. split; [constructor|lia].
  - destruct vs as [|l vs]; [discriminate|]. cbn [length] in Hl. pose proof (lines_valid_cons s n v Hv) as El. change (1 + n) with (Datatypes.S n) in El. rewrite El in H.
    destruct (H 0 s v l eq_refl eq_refl) as (c & Hc & Ha).
    destruct (IH (s + 1) v vs Hv ltac:(lia)) as (cs & K1 & K2 & K3).
    { intros k s' v' l' H1 H2. apply (H (Datatypes.S k) s' v' l'); auto. }
    exists (c :: cs). assert (s < length old) by (apply nth_error_Some; congruence).
    split; [|split; [constructor; auto|intros _; destruct n; lia]].
    destruct (skipn s old) as [|o r] eqn:Es.
    { apply (f_equal (@length _)) in Es. rewrite skipn_length in Es. cbn in Es. lia. }
    destruct (skipn_cons_nth s old o r Es) as [E1 E2]. rewrite Hc in E1. injection E1 as <-. cbn [firstn map]. f_equal. now rewrite <- E2.
Qed.
Lemma combine_firstn {X Y} (b : list Y) : forall a : list X, combine a b = combine (firstn (length b) a) b.
Proof. induction b as [|y b IH]; intros [|x a]; cbn [combine firstn length]; auto. now rewrite <- IH. Qed.

Lemma render_ok strict view old : lines_ok view -> forall our E P gs, covers our E P gs ->
  forall line_num b new vs, skipn our view = vs -> length E = length vs -> length E <= length P -> incr line_num E -> source old E vs ->
  exists ops b' X F, render_segs view gs line_num b = Some (ops, b') /\ expb b' = expb b ++ X /\ (full b -> full b') /\
    client_apply strict old ops line_num new = Some (new ++ F) /\ good strict view our vs P X F /\ incr our X.
Proof.
  intros Hv our E P gs H. induction H as [our E P HE|our their n v t E P gs Hn0 _ IH]; intros line_num b new vs Hs Hl HP Hi Hso.
  - assert (E = []) by (destruct HE as [->| ->]; auto; destruct E; auto; cbn in HP; lia). subst E. destruct vs; [|discriminate].
    exists [], b, [], []. cbn. rewrite !app_nil_r. auto 10.
  - rewrite app_length, lines_length in Hl. rewrite !app_length, lines_length, repeat_length in HP.
    set (vs1 := firstn n vs). set (vs2 := skipn n vs). assert (Evs : vs = vs1 ++ vs2) by (symmetry; apply firstn_skipn).
    assert (L1 : length vs1 = n) by (unfold vs1; rewrite firstn_length; lia).
    assert (Hs2 : skipn (our + n) view = vs2) by (unfold vs2; rewrite <- Hs, skipn_skipn; reflexivity).
    assert (L2 : length E = length vs2) by (unfold vs2; rewrite skipn_length; lia).
    pose proof Hso as Hso'. rewrite Evs in Hso'. apply source_app in Hso' as [So1 So2]; [|now rewrite lines_length].
    assert (Hrest : forall ln X1 F1 b1 (new1 : cache T S), incr ln E -> expb b1 = expb b ++ X1 -> new1 = new ++ F1 -> length X1 = n -> (forall X2, incr (our + n) X2 -> incr our (X1 ++ X2)) ->
      good strict view our vs1 (repeat t n) X1 F1 -> (full b -> full b1) ->
      exists ops b' X F, render_segs view gs ln b1 = Some (ops, b') /\ expb b' = expb b ++ X /\ (full b -> full b') /\
        client_apply strict old ops ln new1 = Some (new ++ F) /\ good strict view our vs (repeat t n ++ P) X F /\ incr our X).
    { intros ln X1 F1 b1 new1 K1 K2 K3 K4 K4' K5 K6. destruct (IH ln b1 new1 vs2 Hs2 L2 ltac:(lia) K1 So2) as (ops & b' & X & F & A1 & A2 & A3 & A4 & A5 & A6).
      exists ops, b', (X1 ++ X), (F1 ++ F). split; [auto|]. split; [rewrite A2, K2; now rewrite <- app_assoc|]. split; [auto|].
      split; [rewrite A4, K3; now rewrite <- app_assoc|]. split; [|auto]. rewrite Evs. apply good_app; auto; [rewrite repeat_length; lia|]. now rewrite L1. }
    assert (Hlines : firstn n (skipn our view) = vs1) by (rewrite Hs; reflexivity).
    assert (Hdrop : incr line_num E) by (eapply incr_drop; exact Hi).
    assert (Hnone : t <> Render ->
      exists ops b' X F, render_segs view gs line_num (add_span b n 0 INVALID) = Some (ops, b') /\ expb b' = expb b ++ X /\ (full b -> full b') /\
        client_apply strict old ops line_num (new ++ repeat None n) = Some (new ++ F) /\ good strict view our vs (repeat t n ++ P) X F /\ incr our X).
    { intros Ht. apply (Hrest line_num (repeat None n) (repeat None n)); auto using add_span_full.
      - rewrite add_span_ok, lines_none. reflexivity.
      - apply repeat_length.
      - intros X2 K. apply incr_nones. eapply incr_le; [|exact K]. lia.
      - rewrite <- L1. now apply good_nones. }
    assert (Hcopy : forall w, w = v_text v && v_styles v -> w = true ->
      exists ops b' X F, check (line_num <=? their)
              (let? (ops, b') := render_segs view gs (their + n) (add_span b n our v) in
               Some ((if 0 <? their - line_num then [OpSkip (their - line_num)] else []) ++
                 (if v_cursor v then OpCopy n (line_number view our - 1 + 1)
                 else OpUpdate (encode_carets view our vs1) (if line_number view our - 1 =? 0 then None else Some (line_number view our - 1 + 1))) :: ops, b')) = Some (ops, b') /\
        expb b' = expb b ++ X /\ (full b -> full b') /\ client_apply strict old ops line_num new = Some (new ++ F) /\ good strict view our vs (repeat t n ++ P) X F /\ incr our X).
    { intros w Ew Hw. rewrite Hw in Ew. symmetry in Ew. apply andb_true_iff in Ew as [Vt Vs]. pose proof (not_none v Vt) as Vn.
      destruct (incr_lines n line_num their v E Vn Hi Hn0) as [Hle Hi2].
      destruct (source_lines old n their v vs1 Vn L1 So1) as (cs & C1 & C2 & C3).
      assert (Hfit : their + n <= length old).
      { destruct (Nat.eq_dec n 0) as [->|]; [|apply C3; lia]. destruct (Hn0 eq_refl) as (E' & ->).
        destruct vs2 as [|l2 vs2']; [discriminate|]. unfold ent in So2. rewrite Vn in So2. destruct (So2 0 their v l2 eq_refl eq_refl) as (c & Hc & _).
        assert (their < length old) by (apply nth_error_Some; congruence). lia. }
      replace (line_num <=? their) with true by lia. cbn [check].
      set (F1 := if v_cursor v then renumber (line_number view our - 1 + 1) (map Some cs)
        else map (fun p => update_line strict (fst p) (snd p)) (combine (map Some cs) (encode_carets view our vs1))).
      assert (G1 : good strict view our vs1 (repeat t n) (lines our n v) F1).
      { unfold F1. rewrite <- L1. destruct (v_cursor v) eqn:Vc; [eapply renumber_ok|eapply update_ok]; eauto; rewrite Hs; exact Evs. }
      destruct (Hrest (their + n) (lines our n v) F1 (add_span b n our v) (new ++ F1)) as (ops & b' & X & F & A1 & A2 & A3 & A4 & A5 & A6);
        auto using add_span_full, add_span_ok, lines_length.
      { intros X2 K. clear -K Vn. revert our K. induction n as [|n IHn]; intros our K; [now rewrite Nat.add_0_r in K|].
        pose proof (lines_valid_cons our n v Vn) as El. change (1 + n) with (Datatypes.S n) in El. rewrite El. cbn [app incr]. split; [lia|]. rewrite <- Nat.add_1_r. apply IHn. now rewrite <- Nat.add_assoc. }
      rewrite A1. cbn [bind]. eexists _, b', X, F. split; [reflexivity|]. split; [auto|]. split; [auto|]. split; [|auto].
      assert (Hone : forall ops0, client_apply strict old ((if v_cursor v then OpCopy n (line_number view our - 1 + 1)
                 else OpUpdate (encode_carets view our vs1) (if line_number view our - 1 =? 0 then None else Some (line_number view our - 1 + 1))) :: ops0) their new =
              client_apply strict old ops0 (their + n) (new ++ F1)).
      { intros ops0. unfold F1. destruct (v_cursor v); cbn [client_apply].
        - replace (their + n <=? length old) with true by lia. cbn [check]. now rewrite C1.
        - rewrite carets_length, L1. replace (their + n <=? length old) with true by lia. cbn [check].
          rewrite (combine_firstn _ (skipn their old)), carets_length, L1, C1. reflexivity. }
      destruct (Nat.ltb_spec 0 (their - line_num)); cbn [app].
      - change (client_apply strict old (OpSkip ?k :: ?o) ?ix ?nw) with (client_apply strict old o (ix + k) nw).
        replace (line_num + (their - line_num)) with their by lia. now rewrite Hone.
      - replace line_num with their by lia. now rewrite Hone. }
    cbn [render_segs seg_n our_line seg_t seg_v their_line]. rewrite Hlines. destruct t.
    + destruct Hnone as (ops & b' & X & F & A1 & A2); [discriminate|]. rewrite A1. cbn [bind]. eexists _, b', X, F. split; [reflexivity|]. exact A2.
    + destruct (v_text v && v_styles v) eqn:Ew; [exact (Hcopy _ eq_refl eq_refl)|].
      destruct Hnone as (ops & b' & X & F & A1 & A2); [discriminate|]. rewrite A1. cbn [bind]. eexists _, b', X, F. split; [reflexivity|]. exact A2.
    + destruct (v_text v && v_styles v) eqn:Ew; [exact (Hcopy _ eq_refl eq_refl)|].
      destruct (Hrest line_num (lines our n ALL_VALID) (map insert_line (encode_full view our vs1)) (add_span b n our ALL_VALID) (new ++ map insert_line (encode_full view our vs1)))
        as (ops & b' & X & F & A1 & A2); auto using add_span_full, add_span_ok, lines_length.
      { intros X2 K. clear -K. revert our K. induction n as [|n IHn]; intros our K; [now rewrite Nat.add_0_r in K|].
        pose proof (lines_valid_cons our n ALL_VALID eq_refl) as El. change (1 + n) with (Datatypes.S n) in El. rewrite El. cbn [app incr]. split; [lia|]. rewrite <- Nat.add_1_r. apply IHn. now rewrite <- Nat.add_assoc. }
      { rewrite <- L1. eapply insert_ok. rewrite Hs. exact Evs. }
      rewrite A1. cbn [bind]. eexists _, b', X, F. split; [reflexivity|]. exact A2.
Qed.

(** ** The session *)
Record Inv (st : session T S) : Prop := {
  inv_view : lines_ok (s_view st);
  inv_full : full (spans (s_shadow st));
  inv_len : length (expand (spans (s_shadow st))) = length (s_view st);
  inv_incr : incr 0 (expand (spans (s_shadow st)));
  inv_source : source (s_cache st) (expand (spans (s_shadow st))) (s_view st);
  inv_clean : dirty (s_shadow st) = false ->
    good true (s_view st) 0 (s_view st) (repeat Preserve (length (s_view st))) (expand (spans (s_shadow st))) (s_cache st) }.

Lemma good_source view vs : forall strict i P X F old, good strict view i vs P X F -> skipn i old = F -> source old X vs.
Proof.
  induction vs as [|l vs IH]; intros strict i P X F old H Ho k s v l' H1 H2; [destruct k; discriminate|].
  cbn [good] in H. destruct P as [|t P], X as [|x X], F as [|f F]; try contradiction. destruct H as [Ha Hb].
  destruct (skipn_cons_nth i old f F Ho) as [N1 N2].
  destruct k as [|k]; cbn [nth_error] in H1, H2; [|eapply IH; eauto].
  injection H1 as ->. injection H2 as <-. destruct Ha as [(Ha & _)|(v' & c & E1 & E2 & E3 & E4 & (E5 & E6 & E7) & E8)]; [discriminate|].
  injection E1 as -> ->. subst f. exists c. split; auto. split; [|split; auto]. intros _. split; auto. unfold hardc. rewrite E7. now destruct (vhard l).
Qed.
Lemma good_step strict view P X F : good strict view 0 view P X F -> in_step view F.
Proof.
  intros H. split; [apply good_length in H; tauto|]. intros i l x H1 H2. destruct (good_nth _ _ _ _ _ _ _ i l H H1) as (t & e & f & _ & _ & N3 & K).
  rewrite H2 in N3. injection N3 as <-. destruct K as [(_ & K & _)|(v & c & _ & E & _ & _ & K & _)]; [discriminate|]. injection E as ->. exact K.
Qed.
Lemma start_inv view : lines_ok view -> Inv (session_start view).
Proof.
  intros H. unfold session_start, set_dirty.
  assert (Ee : expand (spans (build (add_span [] (length view) 0 INVALID) true)) = repeat None (length view)).
  { cbn [build spans]. change (expand (rev ?x)) with (expb x). rewrite add_span_ok, lines_none. reflexivity. }
  constructor; cbn [s_view s_shadow s_cache]; auto.
  - cbn [build spans]. apply full_rev, add_span_full. constructor.
  - rewrite Ee. apply repeat_length.
  - rewrite Ee. rewrite <- (app_nil_r (repeat _ _)). apply incr_nones. exact Logic.I.
  - rewrite Ee. apply source_nones.
  - discriminate.
Qed.
Lemma replace_inv st a b new : Inv st -> a <= b <= length (s_view st) -> lines_ok (firstn a (s_view st) ++ new ++ skipn b (s_view st)) ->
  Inv (Session (firstn a (s_view st) ++ new ++ skipn b (s_view st)) (shadow_edit (s_shadow st) a b (length new)) (s_cache st)).
Proof.
  intros [I1 I2 I3 I4 I5 I6] H Hv. destruct (shadow_edit_ok (s_shadow st) a b (length new)) as [E D]; [lia|].
  constructor; cbn [s_view s_shadow s_cache]; auto using shadow_edit_full; rewrite ?E.
  - rewrite !app_length, !firstn_length, !skipn_length, repeat_length. lia.
  - apply incr_edit; [lia|auto].
  - apply source_edit; auto.
  - congruence.
Qed.
Lemma agrees_minus v w l l' c : agrees v l c -> vtext l' = vtext l -> vhard l' = vhard l -> (v_styles w = true \/ vstyle l' = vstyle l) ->
  (v_cursor w = true \/ vcur l' = vcur l) -> agrees (v_minus v w) l' c.
Proof.
  intros (A1 & A2 & A3) E1 E2 E3 E4. unfold agrees. cbn [v_minus v_text v_styles v_cursor]. rewrite E1, E2. split; [|split]; intros K; apply andb_true_iff in K as [K1 K2]; apply negb_true_iff in K2.
  - auto.
  - destruct E3 as [E3|E3]; [congruence|]. rewrite E3. auto.
  - destruct E4 as [E4|E4]; [congruence|]. rewrite E4. auto.
Qed.
Lemma number_same view view' i : length view' = length view -> (forall j l l', nth_error view j = Some l -> nth_error view' j = Some l' -> vhard l' = vhard l) ->
  number_of view' i = number_of view i.
Proof.
  intros Hl H. unfold number_of. f_equal. revert view view' Hl H. induction i as [|i IH]; intros [|l view] [|l' view'] Hl H; try discriminate; auto.
  cbn [firstn filter]. rewrite (H 0 l l') by reflexivity.
  assert (E : length (filter vhard (firstn i view')) = length (filter vhard (firstn i view))).
  { apply IH; [now injection Hl|]. intros j m m' H1 H2. exact (H (1 + j) m m' H1 H2). }
  destruct (vhard l); cbn [length]; lia.
Qed.
Lemma change_inv st a b w view' : Inv st -> event_ok (s_view st) (Change a b w view') ->
  Inv (Session view' (partial_invalidate (s_shadow st) a b w) (s_cache st)).
Proof.
  intros [I1 I2 I3 I4 I5 I6] (Hab & Hv & Hl & Hc). destruct (partial_invalidate_ok (s_shadow st) a b w Hab I2) as (E & Fu & Hd).
  assert (Hsrc : forall i l' s v, nth_error view' i = Some l' -> nth_error (mask_from 0 a b w (expand (spans (s_shadow st)))) i = Some (Some (s, v)) ->
     exists l v0, nth_error (s_view st) i = Some l /\ nth_error (expand (spans (s_shadow st))) i = Some (Some (s, v0)) /\ v = (if (a <=? i) && (i <? b) then v_minus v0 w else v0)).
  { intros i l' s v H1 H2. assert (i < length view') by (apply nth_error_Some; congruence).
    destruct (nth_error (s_view st) i) as [l|] eqn:El; [|apply nth_error_None in El; lia]. destruct (nth_error (expand (spans (s_shadow st))) i) as [e|] eqn:Ee; [|apply nth_error_None in Ee; lia].
    rewrite (mask_from_nth _ 0 a b w i e Ee) in H2. cbn [Nat.add] in H2. exists l. destruct ((a <=? i) && (i <? b)).
    - destruct e as [[s0 v0]|]; [|discriminate]. cbn [mask] in H2. unfold ent in H2. destruct (v_none _); [discriminate|]. injection H2 as -> <-. eauto.
    - injection H2 as ->. eauto. }
  constructor; cbn [s_view s_shadow s_cache]; auto; rewrite ?E.
  - rewrite mask_from_length. congruence.
  - now apply incr_mask.
  - intros k s v l' H1 H2. destruct (Hsrc k l' s v H2 H1) as (l & v0 & N1 & N2 & Ev). destruct (I5 k s v0 l N2 N1) as (c & Hc1 & Ha). exists c. split; auto.
    destruct (Hc k l l' N1 H2) as (C1 & C2 & C3 & C4). subst v. destruct ((a <=? k) && (k <? b)) eqn:Ek.
    + apply (agrees_minus v0 w l l' c Ha C1 C2); intuition.
    + destruct C3 as [C3|C3]; [lia|]. destruct C4 as [C4|C4]; [lia|]. destruct Ha as (A1 & A2 & A3). unfold agrees. rewrite C1, C2, C3, C4. auto.
  - intros D. destruct (Hd D) as [D1 D2]. specialize (I6 D1).
    assert (Em : mask_from 0 a b w (expand (spans (s_shadow st))) = expand (spans (s_shadow st))) by (rewrite <- E; now rewrite D2).
    rewrite Em in *. clear E Fu D D2.
    assert (Hnum : forall i, number_of view' i = number_of (s_view st) i).
    { intros i. apply number_same; auto. intros j l l' N1 N2. destruct (Hc j l l' N1 N2) as (_ & C2 & _). exact C2. }
    assert (K : forall vs vs' i X F, good true (s_view st) i vs (repeat Preserve (length vs)) X F -> length vs' = length vs ->
      (forall k l l' s v, nth_error vs k = Some l -> nth_error vs' k = Some l' -> nth_error X k = Some (Some (s, v)) ->
         v_text v = true -> v_styles v = true ->
         vtext l' = vtext l /\ vhard l' = vhard l /\ vstyle l' = vstyle l /\ (v_cursor v = true -> vcur l' = vcur l)) ->
      good true view' i vs' (repeat Preserve (length vs')) X F).
    { induction vs as [|l vs IH]; intros [|l' vs'] i X F Hg Hll Hk; try discriminate.
      - destruct X, F; auto.
      - cbn [length repeat good] in *. destruct X as [|x X], F as [|f F]; try contradiction. destruct Hg as [G1 G2]. split.
        + destruct G1 as [G1|(v & c & E1 & E2 & E3 & E4 & (E5 & E6 & E7) & E8)]; [left; exact G1|]. right. exists v, c.
          destruct (Hk 0 l l' i v eq_refl eq_refl (f_equal Some E1) E3 E4) as (K1 & K2 & K3 & K4).
          split; [auto|]. split; [auto|]. split; [auto|]. split; [auto|]. split.
          * unfold same_line. rewrite K1, K2, K3, Hnum. auto.
          * intros [Q|Q]; [|discriminate]. rewrite K4 by auto. auto.
        + apply IH; auto. intros k m m' s v N1 N2 N3. apply (Hk (1 + k) m m' s v N1 N2 N3). }
    apply (K (s_view st)); auto. intros k l l' s v N1 N2 N3 V1 V2. destruct (Hc k l l' N1 N2) as (C1 & C2 & C3 & C4). split; [auto|]. split; [auto|].
    assert (Hin : (a <= k < b -> v_minus v w = v)).
    { intros Hk. pose proof (mask_from_nth _ 0 a b w k _ N3) as Q. rewrite Em, N3 in Q. cbn [Nat.add] in Q. replace ((a <=? k) && (k <? b)) with true in Q by lia.
      cbn [mask] in Q. unfold ent in Q. destruct (v_none (v_minus v w)); [discriminate|]. congruence. }
    assert (forall x y, x = true -> x && negb y = x -> y = true -> False) as Hbool by (intros [] []; cbn; congruence).
    split.
    + destruct C3 as [[Hk Hw]|C3]; auto. specialize (Hin Hk). apply (f_equal v_styles) in Hin. cbn [v_minus v_styles] in Hin. exfalso. eauto.
    + intros Vc. destruct C4 as [[Hk Hw]|C4]; auto. specialize (Hin Hk). apply (f_equal v_cursor) in Hin. cbn [v_minus v_cursor] in Hin. exfalso. eauto.
Qed.

Lemma covers_render our E P gs : covers our E P gs ->
  existsb (fun g => match seg_t g with Render => negb (v_all (seg_v g)) | _ => false end) gs = false ->
  length E <= length P -> forall k e, nth_error P k = Some Render -> nth_error E k = Some e -> exists s v, e = Some (s, v) /\ v_all v = true.
Proof.
  induction 1 as [our E P HE|our their n v t E P gs Hn0 _ IH]; intros Hx Hl k e H1 H2.
  - destruct HE as [->| ->]; destruct k; discriminate.
  - cbn [existsb seg_t seg_v] in Hx. apply orb_false_iff in Hx as [Hx Hx']. rewrite !app_length, lines_length, repeat_length in Hl.
    destruct (Nat.lt_ge_cases k n).
    + rewrite nth_error_app1 in H1 by (now rewrite repeat_length). rewrite nth_error_app1 in H2 by (now rewrite lines_length).
      apply nth_error_In, repeat_spec in H1. subst t. apply negb_false_iff in Hx.
      assert (Hv : v_none v = false) by (destruct v as [[] [] []]; try discriminate Hx; reflexivity).
      assert (K : forall n s k e, nth_error (lines s n v) k = Some e -> exists s', e = Some (s', v)).
      { clear -Hv. induction n as [|n IH]; intros s [|k] e H; cbn [lines nth_error] in H; try discriminate; [|eauto]. injection H as <-. unfold ent. rewrite Hv. eauto. }
      destruct (K _ _ _ _ H2) as (s' & ->). eauto.
    + rewrite nth_error_app2 in H1, H2 by (rewrite ?repeat_length, ?lines_length; lia). rewrite repeat_length in H1. rewrite lines_length in H2.
      eapply IH; eauto. lia.
Qed.
Lemma count_id view vs : forall i X F rest, skipn i view = vs ++ rest -> good true view i vs (repeat Preserve (length vs)) X F -> count_on (number_of view i) F = F.
Proof.
  induction vs as [|l vs IH]; intros i X F rest Hs H; cbn [length repeat good] in H.
  - destruct X, F; try contradiction. reflexivity.
  - destruct X as [|x X], F as [|f F]; try contradiction. destruct H as [H1 H2]. cbn [count_on]. destruct f as [c|]; auto.
    destruct H1 as [(_ & K & _)|(v & c' & _ & E & _ & _ & (K1 & K2 & K3) & _)]; [discriminate|]. injection E as <-.
    destruct (number_next _ _ _ _ Hs) as [Hn _]. pose proof (skipn_cons_nth _ _ _ _ Hs) as [_ Hs']. specialize (IH _ _ _ _ Hs' H2). rewrite Hn in IH.
    rewrite K3. destruct (vhard l).
    + rewrite IH. destruct c. cbn in *. now subst.
    + rewrite Nat.add_0_r in IH. now rewrite IH.
Qed.
Lemma renumber_id view X F : lines_ok view -> good true view 0 view (repeat Preserve (length view)) X F -> renumber 1 F = F.
Proof.
  intros Hv H. pose proof (count_id view view 0 X F [] ltac:(now rewrite app_nil_r) H) as K. unfold renumber. destruct F as [|[c|] F]; auto.
  destruct view as [|l view]; [contradiction|]. cbn in Hv. destruct X as [|x X]; [contradiction|]. cbn [length repeat good] in H. destruct H as [H _].
  destruct H as [(_ & Q & _)|(v & c' & _ & E & _ & _ & (K1 & K2 & K3) & _)]; [discriminate|]. injection E as <-. rewrite Hv in K3. rewrite K3. exact K.
Qed.

Lemma send_ok strict st p : Inv st -> length (s_view st) <= length (expand_plan p) ->
  exists st', send strict st p = Some st' /\ Inv st' /\ s_view st' = s_view st /\ in_step (s_view st) (s_cache st') /\
    (forall i, i < length (s_view st) -> nth_error (expand_plan p) i = Some Render ->
       has_line (s_cache st') i /\ (strict = false -> shows (s_view st) (s_cache st') i)) /\
    (needs_render (s_shadow st) p = true -> strict = false -> forall i, has_line (s_cache st') i -> shows (s_view st) (s_cache st') i).
Proof.
  intros Hinv Hp. pose proof Hinv as [I1 I2 I3 I4 I5 I6]. unfold send, send_update. destruct (needs_render (s_shadow st) p) eqn:En.
  - destruct (render_ok strict (s_view st) (s_cache st) I1 0 _ _ _ (iter_with_plan_ok (spans (s_shadow st)) p I2) 0 [] [] (s_view st) eq_refl I3 ltac:(lia) I4 I5)
      as (ops & b' & X & F & A1 & A2 & A3 & A4 & A5 & A6).
    rewrite A1. cbn [bind]. rewrite A4. cbn [bind app]. eexists. split; [reflexivity|]. cbn [s_view s_shadow s_cache].
    assert (Ex : expand (spans (build b' false)) = X) by (cbn [build spans]; exact A2).
    assert (Hok : forall i, i < length (s_view st) -> exists l t x f, nth_error (s_view st) i = Some l /\ nth_error (expand_plan p) i = Some t /\ nth_error X i = Some x /\ nth_error F i = Some f /\ ok1 strict (s_view st) i l t x f).
    { intros i Hi. destruct (nth_error (s_view st) i) as [l|] eqn:El; [|apply nth_error_None in El; lia].
      destruct (good_nth _ _ _ _ _ _ _ i l A5 El) as (t & x & f & B). exists l, t, x, f. tauto. }
    split; [|split; [auto|split; [eapply good_step; eauto|split]]].
    + constructor; cbn [s_view s_shadow s_cache]; rewrite ?Ex; auto.
      * cbn [build spans]. apply full_rev. apply A3. constructor.
      * apply good_length in A5. tauto.
      * eapply good_source; eauto.
      * intros _. eapply good_weaken; eauto.
    + intros i Hi Hr. destruct (Hok i Hi) as (l & t & x & f & B1 & B2 & B3 & B4 & B5). rewrite Hr in B2. injection B2 as <-.
      destruct B5 as [(_ & _ & B5)|(v & c & C1 & C2 & C3 & C4 & C5 & C6)]; [congruence|]. subst f. split; [exists c; auto|].
      intros ->. exists l, c. split; [auto|]. split; [auto|]. split; [auto|]. apply C6. auto.
    + intros _ -> i (c & Hc). assert (Hi : i < length (s_view st)). { apply good_length in A5. destruct A5 as [_ A5]. rewrite <- A5. apply nth_error_Some. congruence. }
      destruct (Hok i Hi) as (l & t & x & f & B1 & B2 & B3 & B4 & B5). rewrite Hc in B4. injection B4 as <-.
      destruct B5 as [(_ & B5 & _)|(v & c' & C1 & C2 & C3 & C4 & C5 & C6)]; [discriminate|]. injection C2 as <-. exists l, c. split; [auto|]. split; [auto|]. split; [auto|]. apply C6. auto.
  - cbn [bind]. unfold needs_render in En. apply orb_false_iff in En as [Ed Ee]. specialize (I6 Ed).
    destruct (good_length _ _ _ _ _ _ _ I6) as [_ Lc]. cbn [client_apply]. replace (0 + length (s_view st) <=? length (s_cache st)) with true by lia. cbn [check bind app skipn].
    rewrite firstn_all2 by lia. rewrite (renumber_id _ _ _ I1 I6). eexists. split; [reflexivity|]. cbn [s_view s_shadow s_cache].
    split; [destruct st; exact Hinv|]. split; [auto|]. split; [eapply good_step; eauto|]. split; [|discriminate].
    intros i Hi Hr. destruct (nth_error (s_view st) i) as [l|] eqn:El; [|apply nth_error_None in El; lia].
    destruct (good_nth _ _ _ _ _ _ _ i l I6 El) as (t & x & f & B1 & B2 & B3 & B4).
    destruct (covers_render _ _ _ _ (iter_with_plan_ok (spans (s_shadow st)) p I2) Ee ltac:(lia) i x Hr B2) as (s & v & -> & Hv).
    destruct B4 as [(B4 & _)|(v' & c & C1 & C2 & C3 & C4 & C5 & C6)]; [discriminate|]. injection C1 as -> ->. subst f. split; [exists c; auto|].
    intros _. exists l, c. split; [auto|]. split; [auto|]. split; [auto|]. apply C6. left. unfold v_all in Hv. apply andb_true_iff in Hv. tauto.
Qed.

Lemma plan_for_length view f h : length (expand_plan (plan_for view f h)) = length view.
Proof. apply create_length. Qed.
Lemma step_inv strict st e : Inv st -> event_ok (s_view st) e -> exists st', step strict st e = Some st' /\ Inv st' /\ s_view st' = view_after (s_view st) e.
Proof.
  intros H Ho. destruct e as [a b new|a b w view'|view'|f h|f h a b]; cbn [step view_after].
  - destruct Ho as [H1 H2]. eexists. split; [reflexivity|]. split; [|reflexivity]. now apply replace_inv.
  - eexists. split; [reflexivity|]. split; [|reflexivity]. now apply change_inv.
  - eexists. split; [reflexivity|]. split; [|reflexivity]. destruct (start_inv view' Ho) as [I1 I2 I3 I4 I5 I6]. cbn [session_start s_view s_shadow s_cache] in *.
    constructor; cbn [s_view s_shadow s_cache]; auto. 2: discriminate.
    intros k s v l N1 N2. destruct (I5 k s v l N1 N2) as (c & Hc & _). destruct s; discriminate.
  - destruct (send_ok strict st (plan_for (s_view st) f h) H) as (st' & A1 & A2 & A3 & _); [rewrite plan_for_length; lia|]. eauto.
  - cbn in Ho. destruct (request_lines_ok (plan_for (s_view st) f h) a b Ho) as (p & E1 & E2). rewrite E1. cbn [bind].
    destruct (send_ok strict st p H) as (st' & A1 & A2 & A3 & _); [|eauto].
    rewrite E2, !app_length, firstn_length, repeat_length, skipn_length, plan_for_length. lia.
Qed.
Lemma steps_inv strict l : forall st, Inv st -> events_ok (s_view st) l -> exists st', steps strict st l = Some st' /\ Inv st'.
Proof.
  induction l as [|e l IH]; intros st H Ho; cbn [steps]; [eauto|]. destruct Ho as [H1 H2].
  destruct (step_inv strict st e H H1) as (st' & A1 & A2 & A3). rewrite A1. cbn [bind]. apply IH; auto. now rewrite A3.
Qed.
End Sync.
