(** The line breaks of a string. *)
From Coq Require Import List Arith NArith Bool Lia ZifyBool ZifyN ZifyNat.
From Verif Require Import Base ListLib RopeModel RopeSpec RopeProofs LinewrapSpec LineBreakTables LineBreakModel LineBreakSpec LineBreakRules LineBreakChars.
Import ListNotations.
Local Notation concat := List.concat.

(** ** The states *)
Definition inv (m : N) (raw : list cls) : Prop :=
  raw <> [] /\ exists rows, all_ok rows = true /\ present rows m (look_of raw, odd_of raw) = true.
Lemma rows_spec rows m x : all_ok rows = true -> present rows m x = true -> row_ok rows m x = true.
Proof.
  intros A H. unfold all_ok in A. rewrite !andb_true_iff in A. destruct A as ((_ & A) & L).
  apply Nat.eqb_eq in L. unfold present in H. apply existsb_exists in H as (y & Hy & E). apply andb_true_iff in E as [E2 E1].
  apply look_eqb_eq in E1. apply odd_eqb_eq in E2. assert (x = y) as -> by (destruct x, y; cbn in *; congruence).
  assert (Hm : N.to_nat m < 89).
  { destruct (Nat.lt_ge_cases (N.to_nat m) 89) as [|G]; auto. rewrite nth_overflow in Hy by lia. destruct Hy. }
  rewrite forallb_forall in A. specialize (A (N.to_nat m)). rewrite in_seq in A. specialize (A ltac:(lia)). rewrite forallb_forall in A.
  specialize (A y Hy). now rewrite N2Nat.id in A.
Qed.
Lemma inv_start c : inv (class_no c) [c].
Proof.
  split; [discriminate|]. destruct all_checked as (rows & A). exists rows. split; auto. unfold all_ok in A. rewrite !andb_true_iff in A. destruct A as ((A & _) & _).
  rewrite forallb_forall in A. apply (A (class_no c, (look_of [c], odd_of [c]))). unfold starts. apply in_map_iff. exists c. split; auto. apply classes_all.
Qed.
Lemma inv_step m raw c : inv m raw -> exists b m', machine m (class_no c) = Some (b, m') /\ inv m' (c :: raw) /\
  (doubtful raw c = false -> decided b = uax14 raw c) /\ (b = Some true <-> uax14 raw c = Must).
Proof.
  intros [Hn (rows & A & Hp)]. apply rows_spec in Hp; auto. unfold row_ok in Hp. apply andb_true_iff in Hp as [_ Hp]. rewrite forallb_forall in Hp.
  specialize (Hp c (classes_all c)). destruct (machine m (class_no c)) as [[b m']|]; [|discriminate]. rewrite !andb_true_iff in Hp. destruct Hp as ((H1 & H2) & H3).
  exists b, m'. split; auto. split; [split; [discriminate|]; exists rows; rewrite look_ok, odd_ok by auto; split; [exact A|exact H1]|]. cbn [fst snd] in *. split.
  - intros D. unfold doubtful in D. rewrite D in H2. now apply decision_eqb_eq.
  - apply eqb_prop in H3. unfold uax14. rewrite <- decision_eqb_eq, <- H3, decision_eqb_eq. destruct b as [[]|]; cbn; split; congruence.
Qed.
Lemma before_newline raw : among_o [BK; CR; LF; NL] (k_before (look_of raw)) = match raw with c :: _ => newline_class c | [] => false end.
Proof.
  destruct raw as [|c raw]; [reflexivity|]. unfold look_of. cbn [k_before joined]. destruct (mark (resolve c)) eqn:M.
  - replace (newline_class c) with false by now destruct c. destruct (joins (joined raw)) eqn:J; [|reflexivity].
    destruct (joined raw) as [|[] l]; try reflexivity; discriminate J.
  - now destruct c.
Qed.
Lemma inv_end m raw : inv m raw -> end_hard m = Some (match raw with c :: _ => newline_class c | [] => false end).
Proof.
  intros [Hn (rows & A & Hp)]. apply rows_spec in Hp; auto. unfold row_ok in Hp. apply andb_true_iff in Hp as [Hp _]. cbn [fst] in Hp.
  destruct (end_hard m) as [h|]; [|discriminate]. apply eqb_prop in Hp. now rewrite Hp, before_newline.
Qed.

(** ** Reading characters *)
Notation cno cp := (class_no (class_of cp)).
Definition raws (cps : list N) (raw : list cls) : list cls := rev (map class_of cps) ++ raw.
Lemma raws_cons cp cps raw : raws (cp :: cps) raw = raws cps (class_of cp :: raw).
Proof. unfold raws. cbn. now rewrite <- app_assoc. Qed.
Lemma raws_app a b raw : raws (a ++ b) raw = raws b (raws a raw).
Proof. unfold raws. now rewrite map_app, rev_app_distr, <- app_assoc. Qed.
Lemma text_app a b : text_of (a ++ b) = text_of a ++ text_of b.
Proof. apply flat_map_app. Qed.
Lemma text_cons a b : text_of (a :: b) = encode a ++ text_of b.
Proof. reflexivity. Qed.

(** The breaks from a state on; [fin] tells the kind of the last. *)
Fixpoint scan (fin : N -> option bool) (m : N) (pos : nat) (cps : list N) : option (list (nat * bool)) :=
  match cps with
  | [] => let? h := fin m in Some [(pos, h)]
  | cp :: cps' =>
      let? (b, m') := machine m (cno cp) in
      let? bs := scan fin m' (pos + length (encode cp)) cps' in
      Some (match b with Some h => (pos, h) :: bs | None => bs end)
  end.
(** A stretch without breaks. *)
Fixpoint quiet (m : N) (cps : list N) (m' : N) : Prop :=
  match cps with
  | [] => m = m'
  | cp :: cps' => exists m1, machine m (cno cp) = Some (None, m1) /\ quiet m1 cps' m'
  end.
Lemma stretch cps : forall m raw, inv m raw ->
  (exists m', quiet m cps m' /\ inv m' (raws cps raw)) \/
  (exists c1 cp c2 m1 h m2, cps = c1 ++ cp :: c2 /\ quiet m c1 m1 /\ machine m1 (cno cp) = Some (Some h, m2) /\ inv m2 (raws (c1 ++ [cp]) raw)).
Proof.
  induction cps as [|cp cps IH]; intros m raw Hi; [left; exists m; cbn; auto|].
  destruct (inv_step m raw (class_of cp) Hi) as (b & m' & E & Hi' & _). destruct b as [h|].
  - right. exists [], cp, cps, m, h, m'. cbn. auto.
  - destruct (IH m' _ Hi') as [(m2 & Q & I2)|(c1 & d & c2 & m1 & h & m2 & -> & Q & E2 & I2)].
    + left. exists m2. rewrite raws_cons. split; auto. cbn. eauto.
    + right. exists (cp :: c1), d, c2, m1, h, m2. cbn [app]. rewrite raws_cons. split; auto. split; [cbn; eauto|]. auto.
Qed.
Lemma scan_quiet fin c1 : forall m pos m1 r, quiet m c1 m1 -> scan fin m pos (c1 ++ r) = scan fin m1 (pos + length (text_of c1)) r.
Proof.
  induction c1 as [|cp c1 IH]; intros m pos m1 r Q.
  - cbn in Q. subst. cbn. now rewrite Nat.add_0_r.
  - cbn in Q. destruct Q as (m2 & E & Q). cbn [app scan]. rewrite E. cbn [bind]. rewrite (IH _ _ _ _ Q). rewrite text_cons, app_length.
    rewrite <- Nat.add_assoc. now destruct (scan fin m1 _ r).
Qed.
Lemma scan_total fin : (forall m, exists h, fin m = Some h) -> forall cps m raw pos, inv m raw -> exists bs, scan fin m pos cps = Some bs.
Proof.
  intros Hf. induction cps as [|cp cps IH]; intros m raw pos Hi; cbn [scan].
  - destruct (Hf m) as [h ->]. cbn. eauto.
  - destruct (inv_step m raw (class_of cp) Hi) as (b & m' & E & Hi' & _). rewrite E. cbn [bind].
    destruct (IH m' _ (pos + length (encode cp)) Hi') as [bs ->]. cbn. eauto.
Qed.
Lemma scan_end_total cps : forall m raw pos, inv m raw -> exists bs, scan end_hard m pos cps = Some bs.
Proof.
  induction cps as [|cp cps IH]; intros m raw pos Hi; cbn [scan].
  - rewrite (inv_end _ _ Hi). cbn. eauto.
  - destruct (inv_step m raw (class_of cp) Hi) as (b & m' & E & Hi' & _). rewrite E. cbn [bind].
    destruct (IH m' _ (pos + length (encode cp)) Hi') as [bs ->]. cbn. eauto.
Qed.

(** ** The iterator of a string *)
Lemma text_len_le cps : length cps <= length (text_of cps).
Proof. induction cps as [|cp cps IH]; cbn; [lia|]. rewrite app_length. pose proof (encode_len cp). fold (text_of cps). lia. Qed.
Lemma it_quiet s c1 : forall pre r m m1 f, Forall scalar c1 -> s = pre ++ text_of c1 ++ r -> quiet m c1 m1 ->
  it_next_f (length c1 + f) s (LbIter (length pre) m) = it_next_f f s (LbIter (length pre + length (text_of c1)) m1).
Proof.
  induction c1 as [|cp c1 IH]; intros pre r m m1 f Hs Es Q.
  - cbn in Q. subst. cbn. now rewrite Nat.add_0_r.
  - cbn in Q. destruct Q as (m2 & E & Q). inversion Hs as [|? ? Hc Hs']; subst. cbn [length Nat.add it_next_f it_ix it_state].
    rewrite text_cons in *. rewrite <- app_assoc. pose proof (encode_len cp). rewrite !app_length.
    replace (length pre + (length (encode cp) + (length (text_of c1) + length r)) <? length pre) with false by lia.
    replace (length pre =? length pre + (length (encode cp) + (length (text_of c1) + length r))) with false by lia.
    rewrite property_str_ok by auto. cbn [bind]. rewrite E. cbn [bind]. specialize (IH (pre ++ encode cp) r m2 m1 f Hs').
    rewrite !app_length, <- !app_assoc, <- Nat.add_assoc in IH. apply IH; auto.
Qed.
Lemma it_next_ok cps : forall pre m raw f s, Forall scalar cps -> inv m raw -> s = pre ++ text_of cps -> length cps < f ->
  (exists m', quiet m cps m' /\ inv m' (raws cps raw) /\ exists h, end_hard m' = Some h /\ it_next_f f s (LbIter (length pre) m) = Some (Some (length s, h), LbIter (length s + 1) m')) \/
  (exists c1 cp c2 m1 h m2, cps = c1 ++ cp :: c2 /\ quiet m c1 m1 /\ machine m1 (cno cp) = Some (Some h, m2) /\ inv m2 (raws (c1 ++ [cp]) raw) /\
     it_next_f f s (LbIter (length pre) m) = Some (Some (length (pre ++ text_of c1), h), LbIter (length (pre ++ text_of (c1 ++ [cp]))) m2)).
Proof.
  intros pre m raw f s Hs Hi Es Hf. destruct (stretch cps m raw Hi) as [(m' & Q & I')|(c1 & cp & c2 & m1 & h & m2 & -> & Q & E & I2)].
  - left. exists m'. split; auto. split; auto. pose proof (inv_end _ _ I') as Ee. eexists. split; [exact Ee|].
    replace f with (length cps + S (f - length cps - 1)) by lia. rewrite (it_quiet s cps pre [] m m' _ Hs); auto; [|now rewrite app_nil_r].
    cbn [it_next_f it_ix it_state]. subst s. rewrite app_length. replace (length pre + length (text_of cps) <? length pre + length (text_of cps)) with false by lia. rewrite Nat.eqb_refl.
    unfold end_hard in Ee. destruct (tab _ _) as [new|]; [|discriminate]. cbn [bind] in *. injection Ee as ->. reflexivity.
  - right. exists c1, cp, c2, m1, h, m2. split; auto. split; auto. split; auto. split; auto.
    apply Forall_app in Hs as [Hs1 Hs2]. inversion Hs2 as [|? ? Hc Hs3]; subst. rewrite app_length in Hf. cbn [length] in Hf.
    replace f with (length c1 + S (f - length c1 - 1)) by lia. rewrite text_app. rewrite (it_quiet _ c1 pre (text_of (cp :: c2)) m m1 _ Hs1) by auto.
    cbn [it_next_f it_ix it_state]. rewrite text_cons. pose proof (encode_len cp). rewrite !app_length.
    replace (length pre + (length (text_of c1) + (length (encode cp) + length (text_of c2))) <? length pre + length (text_of c1)) with false by lia.
    replace (length pre + length (text_of c1) =? length pre + (length (text_of c1) + (length (encode cp) + length (text_of c2)))) with false by lia.
    replace (length pre + length (text_of c1)) with (length (pre ++ text_of c1)) by now rewrite app_length.
    rewrite (app_assoc pre). rewrite property_str_ok by auto. cbn [bind]. rewrite E. cbn [bind].
    rewrite text_app, !app_length. cbn [text_of flat_map]. rewrite app_nil_r. do 3 f_equal. lia.
Qed.
Lemma scan_break fin m pos cp r h m' : machine m (cno cp) = Some (Some h, m') ->
  scan fin m pos (cp :: r) = let? bs := scan fin m' (pos + length (encode cp)) r in Some ((pos, h) :: bs).
Proof. intros E. cbn [scan]. now rewrite E. Qed.
Lemma it_collect_ok n : forall cps pre m raw F s, length cps < n -> Forall scalar cps -> inv m raw -> s = pre ++ text_of cps -> length cps + 2 <= F ->
  it_collect F s (LbIter (length pre) m) = scan end_hard m (length pre) cps.
Proof.
  induction n as [|n IH]; intros cps pre m raw F s Hn Hs Hi Es HF; [lia|]. destruct F as [|F]; [lia|]. cbn [it_collect]. unfold it_next.
  assert (Hf : length cps < length s + 1) by (subst s; rewrite app_length; pose proof (text_len_le cps); lia).
  destruct (it_next_ok cps pre m raw (length s + 1) s Hs Hi Es Hf) as [(m' & Q & I' & h & Ee & E)|(c1 & cp & c2 & m1 & h & m2 & -> & Q & E & I2 & E2)].
  - rewrite E. cbn [bind]. destruct F as [|F]; [lia|]. cbn [it_collect]. unfold it_next. rewrite Nat.add_1_r. cbn [it_next_f it_ix].
    replace (length s <? S (length s)) with true by lia. cbn [bind].
    rewrite <- (app_nil_r cps) at 1. rewrite (scan_quiet _ _ _ _ _ _ Q). cbn [scan]. rewrite Ee. cbn [bind]. subst s. now rewrite app_length.
  - rewrite E2. cbn [bind]. apply Forall_app in Hs as [Hs1 Hs2]. inversion Hs2 as [|? ? Hc Hs3]; subst.
    rewrite app_length in Hn, HF. cbn [length] in Hn, HF.
    rewrite (IH c2 (pre ++ text_of (c1 ++ [cp])) m2 _ F _ ltac:(lia) Hs3 I2); [|rewrite <- app_assoc, <- text_app, <- app_assoc; reflexivity|lia].
    rewrite (scan_quiet _ _ _ _ _ _ Q), (scan_break _ _ _ _ _ _ _ E). rewrite !app_length, text_app, app_length. cbn [text_of flat_map]. rewrite app_nil_r.
    now rewrite Nat.add_assoc.
Qed.
(** The breaks of a text: from the state of its first character. *)
Definition breaks_of (fin : N -> option bool) (pos : nat) (cps : list N) : option (list (nat * bool)) :=
  match cps with [] => Some [] | cp :: cps' => scan fin (cno cp) (pos + length (encode cp)) cps' end.
Theorem line_breaks_ok cps : Forall scalar cps -> line_breaks (text_of cps) = breaks_of end_hard 0 cps.
Proof.
  intros Hs. unfold line_breaks, it_new. destruct cps as [|cp cps]; [reflexivity|]. inversion Hs as [|? ? Hc Hs']; subst. rewrite text_cons. pose proof (encode_len cp).
  rewrite app_length. replace (length (encode cp) + length (text_of cps) =? 0) with false by lia.
  pose proof (property_str_ok [] cp (text_of cps) Hc) as P. cbn [app length] in P. rewrite P. cbn [bind breaks_of].
  pose proof (text_len_le cps). rewrite (it_collect_ok (S (length cps)) cps (encode cp) _ [class_of cp]); auto; [apply inv_start|lia].
Qed.

(** ** What the breaks are *)
Definition sized (cps : list N) : list (cls * nat) := map (fun cp => (class_of cp, length (encode cp))) cps.
Definition clear_from (raw : list cls) (cps : list N) : Prop :=
  forall c1 cp c2, cps = c1 ++ cp :: c2 -> doubtful (raws c1 raw) (class_of cp) = false.
Lemma scan_in fin : forall cps m raw pos bs, inv m raw -> scan fin m pos cps = Some bs ->
  forall x h, In (x, h) bs ->
    (exists c1 cp c2 m1 m2, cps = c1 ++ cp :: c2 /\ x = pos + length (text_of c1) /\ inv m1 (raws c1 raw) /\ machine m1 (cno cp) = Some (Some h, m2)) \/
    (x = pos + length (text_of cps) /\ exists m', inv m' (raws cps raw) /\ fin m' = Some h).
Proof.
  induction cps as [|cp cps IH]; intros m raw pos bs Hi E x h Hx; cbn [scan] in E.
  - right. destruct (fin m) as [h'|] eqn:Ef; [|discriminate]. injection E as <-. destruct Hx as [Hx|[]]. injection Hx as <- <-. cbn. split; [lia|]. eauto.
  - destruct (inv_step m raw (class_of cp) Hi) as (b & m' & Em & Hi' & _). rewrite Em in E. cbn [bind] in E.
    destruct (scan fin m' (pos + length (encode cp)) cps) as [bs'|] eqn:E'; [|discriminate]. cbn [bind] in E. injection E as <-.
    assert (Hd : b = Some h /\ x = pos \/ In (x, h) bs') by (destruct b as [h'|]; [destruct Hx as [Hx|Hx]; [injection Hx as <- <-; auto|auto]|auto]).
    destruct Hd as [[-> ->]|Hx'].
    + left. exists [], cp, cps, m, m'. cbn. rewrite Nat.add_0_r. auto.
    + destruct (IH m' _ _ _ Hi' E' x h Hx') as [(c1 & d & c2 & m1 & m2 & -> & -> & I1 & E1)|(-> & m2 & I2 & E2)].
      * left. exists (cp :: c1), d, c2, m1, m2. rewrite raws_cons, text_cons, app_length. split; auto. split; [lia|]. auto.
      * right. rewrite raws_cons, text_cons, app_length. split; [lia|]. eauto.
Qed.
Lemma scan_rise fin : forall cps m pos lo bs, scan fin m pos cps = Some bs -> lo < pos -> rises lo (pos + length (text_of cps)) bs.
Proof.
  induction cps as [|cp cps IH]; intros m pos lo bs E Hl; cbn [scan] in E.
  - destruct (fin m) as [h|]; [|discriminate]. injection E as <-. cbn. lia.
  - destruct (machine m (cno cp)) as [[b m']|]; [|discriminate]. cbn [bind] in E.
    destruct (scan fin m' (pos + length (encode cp)) cps) as [bs'|] eqn:E'; [|discriminate]. cbn [bind] in E. injection E as <-.
    pose proof (encode_len cp). rewrite text_cons, app_length, Nat.add_assoc. destruct b as [h|].
    + cbn [rises]. split; [lia|]. apply (IH m'); auto. lia.
    + apply (IH m'); auto. lia.
Qed.
Lemma rises_in : forall l lo hi x h, rises lo hi l -> In (x, h) l -> lo < x <= hi.
Proof.
  induction l as [|[y k] l IH]; intros lo hi x h Hr Hx; [destruct Hx|]. cbn in Hr. destruct Hr as [Hy Hr].
  destruct Hx as [Hx|Hx]; [injection Hx as -> ->; lia|]. specialize (IH _ _ _ _ Hr Hx). lia.
Qed.
Lemma scan_has fin : forall c1 cp c2 m raw pos bs, inv m raw -> scan fin m pos (c1 ++ cp :: c2) = Some bs ->
  exists m1 b m2, inv m1 (raws c1 raw) /\ machine m1 (cno cp) = Some (b, m2) /\ forall h, b = Some h <-> In (pos + length (text_of c1), h) bs.
Proof.
  induction c1 as [|d c1 IH]; intros cp c2 m raw pos bs Hi E; cbn [app scan] in E.
  - destruct (inv_step m raw (class_of cp) Hi) as (b & m' & Em & _). rewrite Em in E. cbn [bind] in E.
    destruct (scan fin m' (pos + length (encode cp)) c2) as [bs'|] eqn:E'; [|discriminate]. cbn [bind] in E. injection E as <-.
    exists m, b, m'. split; auto. split; auto. cbn [text_of flat_map length]. rewrite Nat.add_0_r. intros h.
    pose proof (encode_len cp). pose proof (scan_rise _ _ _ _ pos _ E' ltac:(lia)) as R.
    assert (N : ~ In (pos, h) bs') by (intros Hx; apply (rises_in _ _ _ _ _ R) in Hx; lia).
    destruct b as [h'|]; cbn [In]; split; intros H'; try (injection H' as <-); auto; try discriminate; [|tauto].
    destruct H' as [H'|H']; [congruence|tauto].
  - destruct (inv_step m raw (class_of d) Hi) as (b & m' & Em & Hi' & _). rewrite Em in E. cbn [bind] in E.
    destruct (scan fin m' (pos + length (encode d)) (c1 ++ cp :: c2)) as [bs'|] eqn:E'; [|discriminate]. cbn [bind] in E. injection E as <-.
    destruct (IH cp c2 m' _ _ _ Hi' E') as (m1 & b1 & m2 & I1 & E1 & H1). exists m1, b1, m2. rewrite raws_cons. split; auto. split; auto.
    intros h. rewrite H1, text_cons, app_length, Nat.add_assoc. destruct b as [h'|]; [|tauto]. cbn [In]. split; [auto|]. intros [Hx|Hx]; auto.
    pose proof (encode_len d). injection Hx as Hx _. lia.
Qed.
Lemma scan_uax : forall cps m raw pos, inv m raw -> clear_from raw cps -> scan end_hard m pos cps = Some (uax_from raw pos (sized cps)).
Proof.
  induction cps as [|cp cps IH]; intros m raw pos Hi Hc; cbn [scan sized map uax_from].
  - rewrite (inv_end _ _ Hi). reflexivity.
  - destruct (inv_step m raw (class_of cp) Hi) as (b & m' & Em & Hi' & Hd & _). rewrite Em. cbn [bind].
    specialize (Hd (Hc [] cp cps eq_refl)). fold (sized cps). rewrite (IH m' _ _ Hi').
    + cbn [bind]. rewrite <- Hd. now destruct b as [[]|].
    + intros c1 d c2 ->. specialize (Hc (cp :: c1) d c2 eq_refl). now rewrite raws_cons in Hc.
Qed.
