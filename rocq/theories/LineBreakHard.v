(** Mandatory breaks. *)
From Coq Require Import List Arith NArith ZArith Bool Lia ZifyBool ZifyN ZifyNat.
From Verif Require Import Base ListLib RopeModel RopeSpec RopeProofs LinewrapSpec
  LineBreakTables LineBreakModel LineBreakSpec LineBreakRules LineBreakChars LineBreakProofs LineBreakCodes LineBreakRope.
Import ListNotations.
Local Notation concat := List.concat.

Lemma first_rule_must rs : forallb (fun p => match snd p with Must => false | _ => true end) rs = true -> first_rule rs <> Must.
Proof.
  induction rs as [|[b d] rs IH]; cbn [forallb snd first_rule]; [discriminate|]. intros H. apply andb_true_iff in H as [H1 H2]. destruct b; [now destruct d|auto].
Qed.
Lemma rules_must k c : rules k c = Must <-> among_o [BK; CR; LF; NL] (k_before k) = true /\ ~ (k_before k = Some CR /\ c = LF).
Proof.
  unfold rules. cbv zeta. cbn [first_rule]. 
  destruct (among_o [BK] (k_before k)) eqn:E1.
  { split; auto. intros _. destruct (k_before k) as [[]|]; try discriminate E1. split; [reflexivity|]. intros [H _]. discriminate. }
  destruct (among_o [CR] (k_before k) && among [LF] (resolve c)) eqn:E2.
  { split; [discriminate|]. intros [_ H]. exfalso. apply H. apply andb_true_iff in E2 as [E2 E3]. destruct (k_before k) as [[]|]; try discriminate E2. destruct c; try discriminate E3. auto. }
  destruct (among_o [CR; LF; NL] (k_before k)) eqn:E3.
  { split; auto. intros _. destruct (k_before k) as [[]|]; try discriminate E3; (split; [reflexivity|]); intros [H G]; try discriminate; subst c; discriminate E2. }
  match goal with |- (if ?b then No else ?x) = Must <-> _ => 
    split; [intros H; exfalso; revert H; match goal with |- ?y = Must -> _ => idtac end|] end.
  - repeat match goal with |- (if ?b then _ else _) = Must -> False => destruct b; [discriminate|] | |- May = Must -> False => discriminate end.
  - intros [H _]. destruct (k_before k) as [[]|]; try discriminate H; try discriminate E1; discriminate E3.
Qed.
Lemma uax_must y raw c : uax14 (y :: raw) c = Must <-> newline_class y = true /\ ~ (y = CR /\ c = LF).
Proof.
  unfold uax14. rewrite rules_must, before_newline. split; intros [H1 H2]; (split; [exact H1|]); intros [Ha Hb]; apply H2; (split; [|exact Hb]).
  - subst y. reflexivity.
  - destruct y; try discriminate H1; cbn in Ha; congruence.
Qed.
Lemma newline_chars y : scalar y -> newline_class (class_of y) = true <-> newline_char y.
Proof.
  intros Hs. assert (K : forall c rs, In (c, rs) listed -> class_of y = c <-> within rs y) by (intros c rs; apply listed_ok; auto).
  assert (K1 := K BK _ ltac:(left; reflexivity)). assert (K2 := K CR _ ltac:(right; left; reflexivity)). assert (K3 := K LF _ ltac:(do 2 right; left; reflexivity)).
  assert (K4 := K NL _ ltac:(do 3 right; left; reflexivity)).
  assert (N1 : newline_class (class_of y) = true <-> class_of y = BK \/ class_of y = CR \/ class_of y = LF \/ class_of y = NL).
  { destruct (class_of y); cbn; split; intros H; auto; try discriminate; destruct H as [H|[H|[H|H]]]; discriminate. }
  rewrite N1, K1, K2, K3, K4. unfold within, newline_char. cbn [In]. split.
  - intros [H|[H|[H|H]]]; destruct H as (a & b & Hin & H); cbn [In] in Hin; repeat destruct Hin as [Hin|Hin]; try contradiction; injection Hin as <- <-; lia.
  - intros H. destruct H as [<-|[<-|[<-|[<-|[<-|[<-|[<-|[]]]]]]]].
    + right. right. left. exists 0xA%N, 0xA%N. cbn. split; [auto|lia].
    + left. exists 0xB%N, 0xC%N. cbn. split; [auto|lia].
    + left. exists 0xB%N, 0xC%N. cbn. split; [auto|lia].
    + right. left. exists 0xD%N, 0xD%N. cbn. split; [auto|lia].
    + right. right. right. exists 0x85%N, 0x85%N. cbn. split; [auto|lia].
    + left. exists 0x2028%N, 0x2029%N. cbn. split; [auto|lia].
    + left. exists 0x2028%N, 0x2029%N. cbn. split; [auto|lia].
Qed.
Lemma one_class c a y : scalar y -> In (c, [(a, a)]) listed -> class_of y = c <-> y = a.
Proof.
  intros Hs Hin. rewrite (listed_ok c _ y Hs Hin). split.
  - intros (p & q & [E|[]] & H). injection E as <- <-. lia.
  - intros ->. exists a, a. cbn. split; [auto|lia].
Qed.
Lemma cr_lf y cp : scalar y -> scalar cp -> (class_of y = CR /\ class_of cp = LF) <-> y = 0xD%N /\ cp = 0xA%N.
Proof.
  intros H1 H2. rewrite (one_class CR 0xD%N y H1), (one_class LF 0xA%N cp H2); [tauto| |]; unfold listed; cbn [In]; tauto.
Qed.
Lemma split_len (a b c d : list N) : Forall scalar (a ++ b) -> Forall scalar (c ++ d) -> a ++ b = c ++ d -> length (text_of a) = length (text_of c) -> a = c /\ b = d.
Proof.
  revert c. induction a as [|x a IH]; intros c Fa Fc E L.
  - destruct c as [|y c]; [auto|]. rewrite text_cons, app_length in L. pose proof (encode_len y). cbn in L. lia.
  - destruct c as [|y c]; [rewrite text_cons, app_length in L; pose proof (encode_len x); cbn in L; lia|]. cbn [app] in *. injection E as <- E. rewrite !text_cons, !app_length in L.
    inversion Fa; inversion Fc; subst. destruct (IH c) as [-> ->]; auto. lia.
Qed.
Lemma scan_final fin : forall cps m raw pos bs, inv m raw -> scan fin m pos cps = Some bs -> exists m' h, inv m' (raws cps raw) /\ fin m' = Some h /\ In (pos + length (text_of cps), h) bs.
Proof.
  induction cps as [|cp cps IH]; intros m raw pos bs Hi E; cbn [scan] in E.
  - destruct (fin m) as [h|] eqn:Ef; [|discriminate]. injection E as <-. exists m, h. cbn. rewrite Nat.add_0_r. auto.
  - destruct (inv_step m raw (class_of cp) Hi) as (b & m' & Em & Hi' & _). rewrite Em in E. cbn [bind] in E. destruct (scan fin m' _ cps) as [bs'|] eqn:E'; [|discriminate]. cbn [bind] in E.
    destruct (IH _ _ _ _ Hi' E') as (m2 & h & H1 & H2 & H3). exists m2, h. rewrite raws_cons, text_cons, app_length, Nat.add_assoc. split; auto. split; auto. destruct b; injection E as <-; [right|]; auto.
Qed.
Theorem hard_ok cps bs x : Forall scalar cps -> line_breaks (text_of cps) = Some bs -> (In (x, true) bs <-> must_end cps x).
Proof.
  intros Fs E. rewrite (line_breaks_ok cps Fs) in E. destruct cps as [|c0 cps].
  { cbn in E. injection E as <-. split; [intros []|]. intros (c1 & y & c2 & H & _). now destruct c1. }
  cbn [breaks_of] in E. pose proof (inv_start (class_of c0)) as I0. split.
  - intros Hin. destruct (scan_in _ _ _ _ _ _ I0 E x true Hin) as [(d1 & d & d2 & m1 & m2 & -> & -> & I1 & Em)|(-> & m' & I1 & Ef)].
    + destruct (inv_step _ _ (class_of d) I1) as (b & m2' & Em' & _ & _ & Hb). rewrite Em in Em'. injection Em' as <- <-. apply proj1 in Hb. specialize (Hb eq_refl).
      destruct (exists_last (l := c0 :: d1) ltac:(discriminate)) as (q & y & Eq). assert (Er : raws d1 [class_of c0] = class_of y :: rev (map class_of q)).
      { replace (raws d1 [class_of c0]) with (raws (c0 :: d1) []) by (rewrite raws_cons; reflexivity). rewrite Eq, raws_app. unfold raws. cbn. now rewrite app_nil_r. }
      rewrite Er in Hb. apply uax_must in Hb as [Hn Hc]. change (c0 :: d1 ++ d :: d2) with ((c0 :: d1) ++ d :: d2) in *. rewrite Eq in *. rewrite <- app_assoc in *. cbn [app] in *.
      apply Forall_app in Fs as [Fq Fs]. inversion Fs as [|? ? Hy Fs']; subst. inversion Fs' as [|? ? Hd Fs'']; subst.
      exists q, y, (d :: d2). split; auto. split; [rewrite <- Eq, text_cons, app_length; lia|]. split; [now apply newline_chars|]. intros [-> (c3 & H)]. injection H as -> ->. apply Hc. now apply cr_lf.
    + rewrite (inv_end _ _ I1) in Ef. injection Ef as Ef. destruct (exists_last (l := c0 :: cps) ltac:(discriminate)) as (q & y & Eq).
      assert (Er : raws cps [class_of c0] = class_of y :: rev (map class_of q)).
      { replace (raws cps [class_of c0]) with (raws (c0 :: cps) []) by (rewrite raws_cons; reflexivity). rewrite Eq, raws_app. unfold raws. cbn. now rewrite app_nil_r. }
      rewrite Er in Ef. exists q, y, []. rewrite Eq in *. split; auto. split; [rewrite <- Eq, text_cons, app_length; lia|]. apply Forall_app in Fs as [_ Fs]. inversion Fs; subst. split; [now apply newline_chars|].
      intros [_ (c3 & H)]. discriminate.
  - intros (c1 & y & c2 & Ec & Ex & Hn & Hc). assert (Hy : scalar y) by (rewrite Ec in Fs; apply Forall_app in Fs as [_ Fs]; now inversion Fs). apply newline_chars in Hn; auto.
    assert (exists q, c1 ++ [y] = c0 :: q) as (q & Eq). { destruct c1 as [|z c1]; cbn in *; [injection Ec as <- _; eauto|injection Ec as <- _; eauto]. }
    assert (Er : raws q [class_of c0] = class_of y :: rev (map class_of c1)).
    { replace (raws q [class_of c0]) with (raws (c0 :: q) []) by (rewrite raws_cons; reflexivity). rewrite <- Eq, raws_app. unfold raws. cbn. now rewrite app_nil_r. }
    assert (Ecps : cps = q ++ c2). { change (y :: c2) with ([y] ++ c2) in Ec. rewrite app_assoc, Eq in Ec. now injection Ec. }
    rewrite Ex, Eq, text_cons, app_length. subst cps. destruct c2 as [|d c2].
    + rewrite app_nil_r in *. destruct (scan_final _ _ _ _ _ _ I0 E) as (m' & h & I1 & Ef & Hin). rewrite (inv_end _ _ I1), Er, Hn in Ef. injection Ef as <-. exact Hin.
    + destruct (scan_has _ _ _ _ _ _ _ _ I0 E) as (m1 & b & m2 & I1 & Em & Hh). apply Hh. destruct (inv_step _ _ (class_of d) I1) as (b' & m2' & Em' & _ & _ & Hb).
      rewrite Em in Em'. injection Em' as <- <-. apply Hb. rewrite Er. apply uax_must. split; auto. intros H. apply Hc.
      assert (Hd : scalar d). { inversion Fs as [|? ? _ Fs']; subst. apply Forall_app in Fs' as [_ Fs']. now inversion Fs'. }
      apply cr_lf in H as [-> ->]; auto. split; eauto.
Qed.
