(** The idle handler that announces new views, whole histories, and that nothing panics. *)
From Coq Require Import List Arith Bool String ZArith Lia.
From Verif Require Import Base DetectModel ConfigModel ConfigSpec ConfigProofs ConfigInv ConfigStep.
Import ListNotations.

Section Idle.
Context (base : table) (defs : list language).
Context (B2 : complete base).
Local Notation setting := (setting base defs).
Local Notation s_step := (s_step base defs).
Local Notation announce := (announce base defs).
Local Notation report := (report base defs).
Local Notation sources := (sources base defs).
Local Notation buffers := (buffers base defs).
Local Notation strong := (strong defs).
Local Notation inv := (inv base defs).

Lemma detected_once f : NoDup (map fst (detected_changes f)).
Proof.
  unfold detected_changes. destruct (f_ending f) as [| |[]]; destruct (f_indent f) as [| |[]]; cbv zeta;
    repeat apply tset_nodup; constructor.
Qed.
Lemma announce_other read s v u k : u <> v -> setting (announce read s v) u k = setting s u k.
Proof.
  intros Q. unfold ConfigSpec.announce. destruct (_ && _); auto. unfold ConfigSpec.setting, language_of. cbn [set_source s_user s_path s_chosen].
  unfold put_source. cbn [domain_eqb]. now rewrite (e_neq _ nE).
Qed.
Lemma announce_language read s v : language_of (announce read s v) = language_of s.
Proof. unfold ConfigSpec.announce. now destruct (_ && _). Qed.
Lemma announce_opened read s v : opened (announce read s v) = opened s.
Proof. unfold ConfigSpec.announce. now destruct (_ && _). Qed.
Lemma detect_ok c s v config read c' o : inv c s -> detect_whitespace c v config (read v) = Some (c', o) ->
  let s' := announce read s v in
  inv c' s' /\ k_pending c' = k_pending c
  /\ match o with None => report s s' v None | Some t => exists u, report s s' v (Some u) /\ t = extend config u end.
Proof.
  intros I H. cbv zeta. unfold detect_whitespace in H. rewrite (inv_view base defs c s v I) in H.
  unfold ConfigSpec.announce. destruct (opened s v) eqn:W; cbn [andb].
  2:{ injection H as <- <-. split; auto. split; auto. apply report_refl. }
  destruct (f_empty (read v)); cbn [negb andb].
  { injection H as <- <-. split; auto. split; auto. apply report_refl. }
  unfold get_buffer_config in H. destruct (bu_some _ _ _ _ (in_buffers _ _ _ _ I) v W) as (cf & AG & S1 & S2). rewrite AG in H. cbn [bind] in H.
  assert (AW : In ("autodetect_whitespace"%string, KBool) fields) by (cbv [fields In]; tauto).
  destruct (S2 _ _ AW) as [EQ _]. rewrite EQ in H.
  destruct (setting s v "autodetect_whitespace") as [[|[|]| | | | |]|]; cbn [andb];
    try (injection H as <- <-; split; [auto|]; split; [auto|]; apply report_refl).
  destruct (update_ok base defs (k_manager c) s (SysOverride v) (detected_changes (read v)) (in_sources _ _ _ _ I) (detected_once _)) as (O & BU & ND & G & A).
  specialize (BU (in_buffers _ _ _ _ I)). cbv zeta in *. set (r := table_for_update _ _ _) in *. rewrite <- A.
  destruct (set_user_config (fst r) (SysOverride v) (snd r)) as [[m' q]|] eqn:U; cbn [bind fst snd] in H; [|discriminate].
  pose proof (set_user_ok base defs B2 (fst r) s (SysOverride v) (snd r) _ m' q O BU ND G U) as K. clear U. destruct q as [ch|].
  - destruct K as (A' & O' & BU' & ND' & R1 & R2). rewrite A'. cbv zeta in *. set (s' := set_source s _ _) in *.
    assert (I' : inv (with_manager c m') s').
    { destruct I as [a b d e f g h]. now constructor. }
    assert (ON : forall u t, In (u, t) ch -> u = v).
    { intros u t J. destruct (Nat.eq_dec u v) as [|Q]; auto. exfalso. destruct (R1 u t J) as (_ & _ & NE & X).
      destruct t as [|[k x] t]; [auto|]. destruct (X k x) as [X1 _].
      assert (Y : tget ((k, x) :: t) k = Some x) by (unfold tget; cbn [aget]; now rewrite String.eqb_refl).
      apply X1 in Y. destruct Y as [Y1 Y2]. apply Y2. rewrite <- Y1. unfold s', ConfigSpec.setting, language_of.
      cbn [set_source s_user s_path s_chosen]. unfold put_source. cbn [domain_eqb]. now rewrite (e_neq _ nE). }
    destruct ch as [|[u t] [|[u2 t2] rest]].
    + injection H as <- <-. split; [exact I'|]. split; [reflexivity|]. apply R2; auto.
    + injection H as <- <-. split; [exact I'|]. split; [reflexivity|]. exists t. rewrite (ON u t (or_introl eq_refl)) in R1. split; auto. apply R1. now left.
    + exfalso. cbn [map fst] in ND'. inversion ND' as [|? ? X _]; subst. apply X. left.
      rewrite (ON u t (or_introl eq_refl)). apply (ON u2 t2). right. now left.
  - destruct K as [A' ->]. rewrite A'. injection H as <- <-. split; [now apply inv_touch|]. split; auto. apply report_refl.
Qed.
Lemma finalize_ok read l : forall c s c' ms, inv c s -> NoDup (map fst l) -> finalize_new_views c l read = Some (c', ms) ->
  let s' := fold_left (announce read) (map fst l) s in
  inv c' s' /\ k_pending c' = k_pending c /\ (forall v, In v (map fst l) -> opened s v = true)
  /\ opened s' = opened s /\ language_of s' = language_of s
  /\ (forall v, ~ In v (map fst l) -> (forall k, setting s' v k = setting s v k)
        /\ filter (settings_for v) ms = [] /\ filter (told_to v) ms = [])
  /\ (forall v t0, In (v, t0) l -> exists t, filter (settings_for v) ms = [Initial v t]
        /\ filter (told_to v) ms = [Told v (language_of s' v)]
        /\ ((forall k x, setting s v k = Some x -> tget t0 k = Some x) -> forall k x, setting s' v k = Some x -> tget t k = Some x)).
Proof.
  induction l as [|[v t0] l IH]; intros c s c' ms I N H; cbn [finalize_new_views] in H; cbn [map fst fold_left]; cbv zeta.
  - injection H as <- <-. split; auto. split; auto. split; [easy|]. split; auto. split; auto. split; [auto|easy].
  - cbn [map fst] in N. inversion N as [|? ? N1 N2]; subst.
    destruct (detect_whitespace c v t0 (read v)) as [[c1 o]|] eqn:D; cbn [bind fst snd] in H; [|discriminate].
    apply (detect_ok c s v t0 read c1 o I) in D. cbv zeta in D. destruct D as (I1 & P1 & R). set (s1 := announce read s v) in *.
    destruct (make_context c1 v) as [lg|] eqn:MC; cbn [bind] in H; [|discriminate].
    apply (context_some base defs c1 s1 v lg I1) in MC. destruct MC as [W ->].
    destruct (finalize_new_views c1 l read) as [[c2 ms2]|] eqn:FN; cbn [bind fst snd] in H; [|discriminate]. injection H as <- <-.
    apply (IH c1 s1 c2 ms2 I1 N2) in FN. cbv zeta in FN. set (s' := fold_left (announce read) (map fst l) s1) in *.
    destruct FN as (I2 & P2 & OL & OP & LG & OTH & EACH).
    assert (OP1 : opened s1 = opened s) by apply announce_opened. assert (LG1 : language_of s1 = language_of s) by apply announce_language.
    split; auto. split; [congruence|]. split; [|split; [congruence|split; [congruence|split]]].
    + intros u [<-|J]; [now rewrite <- OP1|]. rewrite <- OP1. auto.
    + intros u NI. assert (Q : u <> v) by (intros ->; apply NI; now left).
      destruct (OTH u) as (X1 & X2 & X3); [intros J; apply NI; now right|]. split; [intros k; rewrite X1; now apply announce_other|].
      cbn [filter settings_for told_to]. rewrite !(e_neq _ nE v u) by auto. auto.
    + intros u tu [J|J].
      * injection J as <- <-. destruct (OTH v N1) as (X1 & X2 & X3). eexists. split; [|split].
        -- cbn [filter settings_for]. rewrite Nat.eqb_refl, X2. reflexivity.
        -- cbn [filter told_to]. rewrite Nat.eqb_refl, X3. now rewrite LG.
        -- intros HS k x E. rewrite X1 in E. destruct o as [t|]; [|apply HS; now apply R].
           destruct R as (u & (U1 & U2 & U3) & ->). rewrite extend_get by auto. destruct (tget u k) as [y|] eqn:Z; cbn [over].
           ++ apply U3 in Z. destruct Z. congruence.
           ++ apply HS. destruct (opt_value_eqb (setting s v k) (Some x)) eqn:Y; [now apply opt_value_eqb_eq|].
              assert (tget u k = Some x); [|congruence]. apply U3. split; auto. intros F. apply opt_value_eqb_eq in F. congruence.
      * assert (Q : u <> v) by (intros ->; apply N1; apply in_map_iff; exists (v, tu); auto).
        destruct (EACH u tu J) as (t & X1 & X2 & X3). exists t. cbn [filter settings_for told_to]. rewrite !(e_neq _ nE v u) by auto.
        split; auto. split; auto. intros HS. apply X3. intros k x E. apply HS. rewrite <- E. symmetry. now apply announce_other.
Qed.
End Idle.
