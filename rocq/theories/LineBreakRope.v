(** The line breaks of a rope. *)
From Coq Require Import List Arith NArith ZArith Bool Lia ZifyBool ZifyN ZifyNat.
From Verif Require Import Base ListLib TreeModel TreeSpec TreeProofs MetricProofs CursorModel CursorProofs CursorBoundary
  RopeModel RopeSpec RopeProofs RopeMetric RopeCursor FindProofs CompareProofs LinewrapSpec LineBreakTables LineBreakModel LineBreakSpec LineBreakRules LineBreakChars LineBreakProofs.
Import ListNotations.
Local Notation concat := List.concat.
Local Notation idl := (fun s : list nat => s).

Ltac Zify.zify_post_hook ::= Z.div_mod_to_equations.

(** ** A text is the form of one sequence of characters *)
Lemma cons_inj {A} (x y : A) l l' : x :: l = y :: l' -> x = y /\ l = l'.
Proof. intros H. now injection H. Qed.
Lemma encode_inj a b x y : scalar a -> scalar b -> encode a ++ x = encode b ++ y -> a = b /\ x = y.
Proof.
  unfold scalar, encode. intros Ha Hb E.
  destruct (a <? 0x80)%N eqn:A1, (b <? 0x80)%N eqn:B1;
  try destruct (a <? 0x800)%N eqn:A2; try destruct (b <? 0x800)%N eqn:B2;
  try destruct (a <? 0x10000)%N eqn:A3; try destruct (b <? 0x10000)%N eqn:B3; cbn [map app] in E;
  repeat match goal with H : _ :: _ = _ :: _ |- _ => apply cons_inj in H as [? H] end; 
  lazymatch goal with E : x = y |- _ => split; [lia|exact E] | _ => exfalso; lia end.
Qed.
Lemma text_inj a : forall b, Forall scalar a -> Forall scalar b -> text_of a = text_of b -> a = b.
Proof.
  induction a as [|x a IH]; intros [|y b] Ha Hb E; auto.
  - rewrite text_cons in E. pose proof (encode_len y). apply (f_equal (@length nat)) in E. rewrite app_length in E. cbn in E. lia.
  - rewrite text_cons in E. pose proof (encode_len x). apply (f_equal (@length nat)) in E. rewrite app_length in E. cbn in E. lia.
  - inversion Ha; inversion Hb; subst. rewrite !text_cons in E. apply encode_inj in E as [-> E]; auto. f_equal. auto.
Qed.

(** ** The iterator of a leaf *)
Lemma li_quiet s c1 : forall pre r m m1 f, Forall scalar c1 -> s = pre ++ text_of c1 ++ r -> quiet m c1 m1 ->
  li_next_f (length c1 + f) s (LeafIter (length pre) m) = li_next_f f s (LeafIter (length pre + length (text_of c1)) m1).
Proof.
  induction c1 as [|cp c1 IH]; intros pre r m m1 f Hs Es Q.
  - cbn in Q. subst. cbn. now rewrite Nat.add_0_r.
  - cbn in Q. destruct Q as (m2 & E & Q). inversion Hs as [|? ? Hc Hs']; subst. cbn [length Nat.add li_next_f li_ix li_state].
    rewrite text_cons in *. rewrite <- app_assoc. pose proof (encode_len cp). rewrite !app_length.
    replace (length pre =? length pre + (length (encode cp) + (length (text_of c1) + length r))) with false by lia.
    rewrite property_str_ok by auto. cbn [bind]. rewrite E. cbn [bind]. specialize (IH (pre ++ encode cp) r m2 m1 f Hs').
    rewrite !app_length, <- !app_assoc, <- Nat.add_assoc in IH. apply IH; auto.
Qed.
Lemma li_next_end cps a m m' l : Forall scalar cps -> l = a ++ text_of cps -> quiet m cps m' ->
  li_next l (LeafIter (length a) m) = Some (length l, false, LeafIter 0 m').
Proof.
  intros Hs El Q. unfold li_next. assert (Hf : length cps < length l + 1) by (subst l; rewrite app_length; pose proof (text_len_le cps); lia).
  replace (length l + 1) with (length cps + S (length l - length cps)) by lia. rewrite (li_quiet l cps a [] m m' _ Hs); auto; [|now rewrite app_nil_r].
  cbn [li_next_f li_ix li_state]. subst l. rewrite app_length, Nat.eqb_refl. reflexivity.
Qed.
Lemma li_next_break c1 cp c2 a m m1 h m2 l : Forall scalar (c1 ++ cp :: c2) -> l = a ++ text_of (c1 ++ cp :: c2) -> quiet m c1 m1 -> machine m1 (cno cp) = Some (Some h, m2) ->
  li_next l (LeafIter (length a) m) = Some (length (a ++ text_of c1), h, LeafIter (length (a ++ text_of (c1 ++ [cp]))) m2).
Proof.
  intros Hs El Q E. unfold li_next. pose proof (text_len_le (c1 ++ cp :: c2)) as T. rewrite app_length in T. cbn [length] in T.
  assert (Hf : length c1 < length l) by (subst l; rewrite app_length; lia).
  apply Forall_app in Hs as [Hs1 Hs2]. inversion Hs2 as [|? ? Hc Hs3]; subst. rewrite text_app in *.
  replace (length (a ++ text_of c1 ++ text_of (cp :: c2)) + 1) with (length c1 + S (length (a ++ text_of c1 ++ text_of (cp :: c2)) - length c1)) by lia.
  rewrite (li_quiet _ c1 a (text_of (cp :: c2)) m m1 _ Hs1) by auto.
  cbn [li_next_f li_ix li_state]. rewrite text_cons. pose proof (encode_len cp). rewrite !app_length.
  replace (length a + length (text_of c1) =? length a + (length (text_of c1) + (length (encode cp) + length (text_of c2)))) with false by lia.
  replace (length a + length (text_of c1)) with (length (a ++ text_of c1)) by now rewrite app_length.
  rewrite (app_assoc a). rewrite property_str_ok by auto. cbn [bind]. rewrite E. cbn [bind].
  rewrite text_app, !app_length. cbn [text_of flat_map]. rewrite app_nil_r. do 3 f_equal. lia.
Qed.

(** ** The cursor *)
Lemma quiet_app a : forall b m m1 m2, quiet m a m1 -> quiet m1 b m2 -> quiet m (a ++ b) m2.
Proof.
  induction a as [|cp a IH]; intros b m m1 m2 Qa Qb; cbn in Qa.
  - now subst.
  - destruct Qa as (m3 & E & Qa). cbn. eauto.
Qed.
Lemma last_app_ne {A} (a b : list A) d : b <> [] -> List.last (a ++ b) d = List.last b d.
Proof.
  intros Hb. induction a as [|x a IH]; auto. cbn [app]. rewrite <- IH. destruct (a ++ b) eqn:E; auto. apply app_eq_nil in E as [_ E]. congruence.
Qed.
Lemma text_cut a b : Forall scalar b -> scut (text_of a ++ text_of b) (length (text_of a)).
Proof.
  intros Hb. unfold text_of at 1 2 3. rewrite !flat_map_concat_map, <- concat_app. apply cb_start. clear a. induction Hb; constructor; auto. now apply encode_char.
Qed.
Section Rope.
Context (r : rope) (ht : nat) (W : rope_wf ht r).
Notation s := (rcontent r).
Local Notation valid := (valid idl r).
(** The cursor has read up to [x], with the state [m]; [todo] is what follows. *)
Definition st (c : lbcursor) (m : N) (todo : list N) (x k : nat) : Prop :=
  exists l pre post a cps pcps, valid (lc_inner c) l pre post /\ l = a ++ text_of cps /\ lc_iter c = LeafIter (length a) m /\
    Forall scalar cps /\ Forall scalar pcps /\ flat_map idl post = text_of pcps /\ todo = cps ++ pcps /\ x = llen idl pre + length a /\ k = length post /\ l <> [].
Definition ends_nl : bool := List.last s 0 =? 10.
Lemma st_len c m todo x k : st c m todo x k -> x + length (text_of todo) = length s.
Proof.
  intros (l & pre & post & a & cps & pcps & V & El & _ & _ & _ & Ep & -> & -> & _).
  destruct (valid_leaf r ht W _ _ _ _ V) as (_ & _ & _ & Es & _). apply (f_equal (@length nat)) in Es. rewrite Es, !app_length, Ep, El, text_app, !app_length.
  change (length (flat_map idl pre)) with (llen idl pre). lia.
Qed.
Lemma lc_next_ok k : forall c m raw todo x f, st c m todo x k -> inv m raw -> k + 2 <= f ->
  (exists m' c', quiet m todo m' /\ inv m' (raws todo raw) /\ lc_next_f f r c = Some (length s, ends_nl, c')) \/
  (exists c1 cp c2 m1 h m2 c' k', todo = c1 ++ cp :: c2 /\ quiet m c1 m1 /\ machine m1 (cno cp) = Some (Some h, m2) /\ inv m2 (raws (c1 ++ [cp]) raw) /\
     k' <= k /\ st c' m2 c2 (x + length (text_of (c1 ++ [cp]))) k' /\ lc_next_f f r c = Some (x + length (text_of c1), h, c')).
Proof.
  induction k as [|k IH]; intros c m raw todo x f (l & pre & post & a & cps & pcps & V & El & Ei & Fc & Fp & Ep & Et & Ex & Ek & Nl) Hi Hf;
    (destruct f as [|f]; [lia|]); cbn [lc_next_f]; destruct (valid_leaf r ht W _ _ _ _ V) as (Eg & Ul & Hp & Es & U1 & U2 & _); rewrite Eg; cbn [bind]; rewrite Ei.
  all: destruct (stretch cps m raw Hi) as [(m' & Q & I')|(c1 & cp & c2 & m1 & h & m2 & Ec & Q & E & I2)].
  2, 4: right; exists c1, cp, (c2 ++ pcps), m1, h, m2; subst cps;
    rewrite (li_next_break c1 cp c2 a m m1 h m2 l Fc El Q E); cbn [bind];
    assert (Hl : length (a ++ text_of c1) < length l) by (rewrite El, text_app, text_cons, !app_length; pose proof (encode_len cp); lia);
    replace (length (a ++ text_of c1) <? length l) with true by lia;
    eexists; exists (length post); (split; [rewrite Et, <- app_assoc; reflexivity|]); (split; [exact Q|]); (split; [exact E|]); (split; [exact I2|]); (split; [lia|]);
    (split; [|do 2 f_equal; f_equal; rewrite Ex, app_length; lia]);
    apply Forall_app in Fc as [Fc1 Fc2]; inversion Fc2; subst x todo;
    exists l, pre, post, (a ++ text_of (c1 ++ [cp])), c2, pcps; cbn [lc_inner lc_iter];
    (split; [exact V|]); (split; [rewrite El, <- app_assoc, <- text_app, <- app_assoc; reflexivity|]); (split; [reflexivity|]); (split; [assumption|]);
    (split; [exact Fp|]); (split; [exact Ep|]); (split; [reflexivity|]); (split; [rewrite app_length; lia|]); (split; [reflexivity|exact Nl]).
  all: rewrite (li_next_end cps a m m' l Fc El Q); cbn [bind]; replace (length l <? length l) with false by lia;
    assert (Hln : length l <> 0) by (destruct l; [congruence|cbn; lia]); replace (length l =? 0) with false by lia;
    pose proof (next_leaf_valid r ht W _ _ _ _ V) as HN; destruct post as [|l2 post']; try discriminate Ek.
  - destruct HN as (c' & En & Hl & _ & Epos). rewrite En. cbn [bind]. destruct f as [|f]; [lia|]. cbn [lc_next_f lc_inner]. unfold c_get_leaf. rewrite Hl. cbn [bind lc_inner lc_last].
    left. assert (pcps = []) as -> by (destruct pcps as [|y pcps]; auto; cbn [flat_map] in Ep; rewrite text_cons in Ep; pose proof (encode_len y); apply (f_equal (@length nat)) in Ep; rewrite app_length in Ep; cbn in Ep; lia).
    rewrite app_nil_r in Et. subst todo. eexists m', _. split; [exact Q|]. split; [exact I'|]. rewrite Epos. unfold ends_nl. do 3 f_equal.
    cbn [flat_map] in Es. rewrite app_nil_r in Es. rewrite Es. now rewrite last_app_ne.
  - destruct HN as (c' & En & V' & Epos & _ & Hlt). rewrite En. cbn [bind].
    destruct (valid_leaf r ht W _ _ _ _ V') as (_ & U2l & Hp' & _ & _ & U2' & _). destruct (utf8_text _ U2l) as (cps2 & F2 & E2). destruct (utf8_text _ U2') as (pcps2 & F3 & E3).
    assert (Epc : pcps = cps2 ++ pcps2). { apply text_inj; auto; [apply Forall_app; auto|]. rewrite text_app, <- Ep, <- E2, <- E3. reflexivity. }
    assert (Ns : st (LbCursor c' (LeafIter 0 m') (List.last l 0)) m' pcps (x + length (text_of cps)) k).
    { exists l2, (pre ++ [l]), post', [], cps2, pcps2. cbn [lc_inner lc_iter length app]. split; [exact V'|]. split; [exact E2|]. split; [reflexivity|]. split; [exact F2|]. split; [exact F3|].
      split; [exact E3|]. split; [exact Epc|]. rewrite llen_app, llen_one, Ex, El, app_length. split; [lia|]. cbn in Ek. split; [lia|].
      intros ->. destruct V' as (Ha & _). destruct (at_leaf_u r ht W _ _ _ _ Ha) as (_ & _ & _ & Hn). cbn in Hn.
      assert (0 < 0); [|lia]. apply Hn. left. now destruct pre. }
    destruct (IH _ m' (raws cps raw) pcps _ f Ns I' ltac:(lia)) as [(m2 & c2 & Q2 & I2 & E2')|(c1 & cp & c2 & m1 & h & m2 & c3 & k' & E2' & Q2 & Em & I2 & Hk & S2 & E3')].
    + left. exists m2, c2. subst todo. split; [eapply quiet_app; eauto|]. split; [rewrite raws_app; exact I2|exact E2'].
    + right. exists (cps ++ c1), cp, c2, m1, h, m2, c3, k'. split; [rewrite Et, E2', <- app_assoc; reflexivity|]. split; [eapply quiet_app; eauto|]. split; [exact Em|].
      split; [rewrite <- app_assoc, raws_app; exact I2|]. split; [lia|]. rewrite <- app_assoc, !text_app, !app_length. rewrite text_app, app_length in S2. rewrite !Nat.add_assoc in *. split; [exact S2|exact E3'].
Qed.

Lemma count_le (ls : list (list nat)) : Forall (fun l => 0 < length l) ls -> length ls <= length (flat_map idl ls).
Proof. induction 1; cbn; [lia|]. rewrite app_length. lia. Qed.
Lemma st_k c m todo x k : st c m todo x k -> k <= n_len r.
Proof.
  intros (l & pre & post & a & cps & pcps & V & _ & _ & _ & _ & _ & _ & _ & -> & _). destruct post as [|l2 post']; [cbn; lia|].
  destruct (valid_leaf r ht W _ _ _ _ V) as (_ & _ & _ & Es & _). destruct V as ((p & R & _) & _).
  rewrite (len_root rope_ops idl leafV compute_info r ht W : n_len r = length s), Es, !app_length.
  pose proof (leaves_pos rope_ops idl leafV scut compute_info utf8 rope_text_spec ht r W) as FP.
  assert (0 < ht) as Hh. { apply (H_pos rope_ops idl leafV compute_info r ht W _ _ _ _ R). right. discriminate. }
  specialize (FP (or_introl Hh)). rewrite (route_leaves _ _ _ _ _ R) in FP. apply Forall_app in FP as [_ FP]. inversion FP; subst. pose proof (count_le (l2 :: post')). lia || (assert (length (l2 :: post') <= length (flat_map idl (l2 :: post'))) by auto; lia).
Qed.
Lemma lc_collect_ok n : forall todo c m raw x k F, length todo < n -> st c m todo x k -> inv m raw -> length todo + 2 <= F -> forall y, y < n_len r ->
  lc_collect F r c y = scan (fun _ => Some ends_nl) m x todo.
Proof.
  induction n as [|n IH]; intros todo c m raw x k F Hn Hst Hi HF y Hy; [lia|]. destruct F as [|F]; [lia|]. cbn [lc_collect]. replace (y <? n_len r) with true by lia. unfold lc_next.
  pose proof (st_k _ _ _ _ _ Hst) as Hk. pose proof (st_len _ _ _ _ _ Hst) as Hx. assert (El : n_len r = length s) by (exact (len_root rope_ops idl leafV compute_info r ht W)).
  destruct (lc_next_ok k c m raw todo x (n_len r + 2) Hst Hi ltac:(lia)) as [(m' & c' & Q & I' & E)|(c1 & cp & c2 & m1 & h & m2 & c' & k' & -> & Q & Em & I2 & Hk' & S2 & E)]; rewrite E; cbn [bind].
  - destruct F as [|F]; [lia|]. cbn [lc_collect]. replace (length s <? n_len r) with false by lia. cbn [bind]. rewrite <- (app_nil_r todo) at 1. rewrite (scan_quiet _ _ _ _ _ _ Q). cbn. now rewrite Hx.
  - rewrite (scan_quiet _ _ _ _ _ _ Q), (scan_break _ _ _ _ _ _ _ Em).
    rewrite app_length in Hn, HF. cbn [length] in Hn, HF. rewrite (IH c2 c' m2 (raws (c1 ++ [cp]) raw) _ k' F ltac:(lia) S2 I2 ltac:(lia)).
    + rewrite text_app, app_length. cbn [text_of flat_map]. rewrite app_nil_r, Nat.add_assoc. reflexivity.
    + pose proof (st_len _ _ _ _ _ S2). rewrite text_app, text_cons, !app_length in Hx. pose proof (encode_len cp). lia.
Qed.
Theorem rope_breaks_ok c1 c2 : Forall scalar (c1 ++ c2) -> s = text_of (c1 ++ c2) ->
  rope_breaks r (length (text_of c1)) = breaks_of (fun _ => Some ends_nl) (length (text_of c1)) c2.
Proof.
  intros Hs Es. unfold rope_breaks, lc_new. assert (El : n_len r = length s) by (exact (len_root rope_ops idl leafV compute_info r ht W)).
  assert (Hle : length (text_of c1) <= length s) by (rewrite Es, text_app, app_length; lia).
  destruct (new_ok rope_ops idl leafV compute_info r ht W (length (text_of c1)) Hle) as (c & l & pre & post & Ec & Ep & V).
  rewrite Ec. cbn [bind]. destruct (valid_leaf r ht W _ _ _ _ V) as (Eg & Ul & Hp & Es' & U1 & U2 & Hlt). rewrite Eg. cbn [bind].
  assert (Hc : scut s (c_pos c)).
  { rewrite Ep, Es, text_app. apply text_cut. now apply Forall_app in Hs. }
  destruct (valid_sub r ht W _ _ _ _ V Hc) as [Hcl Hsk]. rewrite Ep in *. set (q := length (text_of c1) - llen idl pre) in *.
  apply Forall_app in Hs as [Hs1 Hs2].
  rewrite Es, text_app, skipn_app, skipn_all, Nat.sub_diag in Hsk. cbn [app skipn] in Hsk.
  destruct c2 as [|cp c2].
  - assert (q = length l) as ->.
    { cbn in Hsk. symmetry in Hsk. apply app_eq_nil in Hsk as [Hsk _]. apply (f_equal (@length nat)) in Hsk. rewrite skipn_length in Hsk. cbn in Hsk. unfold q in *. lia. }
    unfold li_new. rewrite Nat.eqb_refl. cbn [bind]. replace (n_len r + 1) with (S (n_len r)) by lia. cbn [lc_collect]. replace (length (text_of c1) <? n_len r) with false; [reflexivity|].
    rewrite El, Es, app_nil_r. lia.
  - assert (Hlt' : length (text_of c1) < length s). { rewrite Es, text_app, text_cons, !app_length. pose proof (encode_len cp). lia. }
    specialize (Hlt Hlt'). unfold li_new. replace (q =? length l) with false by (unfold q; lia).
    destruct (utf8_text (skipn q l)) as (cps & Fc & Ec2). { eapply utf8_cut; eauto. }
    destruct (utf8_text _ U2) as (pcps & Fp & Ep2).
    assert (Et : cp :: c2 = cps ++ pcps). { apply text_inj; auto; [apply Forall_app; auto|]. rewrite text_app, <- Ec2, <- Ep2. exact Hsk. }
    destruct cps as [|cp' cps]. { exfalso. cbn in Ec2. apply (f_equal (@length nat)) in Ec2. rewrite skipn_length in Ec2. cbn in Ec2. unfold q in *. lia. }
    cbn [app] in Et. apply cons_inj in Et as [<- Et].
    assert (Hl : l = firstn q l ++ encode cp ++ text_of cps). { rewrite <- text_cons, <- Ec2. now rewrite firstn_skipn. }
    assert (Hq : length (firstn q l) = q) by (rewrite firstn_length; unfold q; lia).
    assert (Hcp : scalar cp) by now inversion Hs2. assert (Fc' : Forall scalar cps) by now inversion Fc.
    pose proof (property_str_ok (firstn q l) cp (text_of cps) Hcp) as P. rewrite <- Hl, Hq in P. rewrite P. cbn [bind breaks_of]. subst c2.
    apply (lc_collect_ok (S (length (cps ++ pcps))) _ _ _ [class_of cp] _ (length post)); [lia| |apply inv_start| |lia].
    + exists l, pre, post, (firstn q l ++ encode cp), cps, pcps. cbn [lc_inner lc_iter]. split; [exact V|]. split; [rewrite <- app_assoc; exact Hl|]. split; [now rewrite app_length, Hq|].
      do 2 (split; [assumption|]). split; [exact Ep2|]. split; [reflexivity|]. split; [rewrite app_length, Hq; unfold q; lia|]. split; [reflexivity|]. intros ->. cbn in Hlt. lia.
    + rewrite El, Es, text_app, text_cons, !app_length. pose proof (text_len_le (cps ++ pcps)). rewrite app_length in *. pose proof (encode_len cp). lia.
Qed.
End Rope.
