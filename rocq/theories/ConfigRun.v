(** Whole histories: the sheet, and what the client has. *)
From Coq Require Import List Arith Bool String ZArith Lia.
From Verif Require Import Base DetectModel ConfigModel ConfigSpec ConfigProofs ConfigInv ConfigStep ConfigIdle.
Import ListNotations.

Section Run.
Context (base : table) (defs : list language).
Context (B2 : complete base).
Local Notation setting := (setting base defs).
Local Notation s_step := (s_step base defs).
Local Notation s_run := (s_run base defs).
Local Notation announce := (announce base defs).
Local Notation report := (report base defs).
Local Notation sources := (sources base defs).
Local Notation buffers := (buffers base defs).
Local Notation strong := (strong defs).
Local Notation inv := (inv base defs).

Definition nowait (s : sheet) : sheet :=
  {| s_user := s_user s; s_path := s_path s; s_chosen := s_chosen s; s_open := s_open s; s_wait := []; s_next := s_next s |}.
Lemma announce_nowait read l : forall s, fold_left (announce read) l (nowait s) = nowait (fold_left (announce read) l s).
Proof.
  induction l as [|v l IH]; intros s; cbn [fold_left]; auto. rewrite <- IH. f_equal.
  unfold ConfigSpec.announce. change (setting (nowait s)) with (setting s). change (opened (nowait s)) with (opened s).
  now destruct (_ && _).
Qed.
Lemma idle_ok c s read c' ms : inv c s -> step c (Idle read) = Some (c', ms) ->
  let s' := s_step s (Idle read) in
  inv c' s' /\ (forall v, In v (s_wait s) -> opened s v = true)
  /\ opened s' = opened s /\ language_of s' = language_of s
  /\ (forall v, ~ In v (s_wait s) -> (forall k, setting s' v k = setting s v k)
        /\ filter (settings_for v) ms = [] /\ filter (told_to v) ms = [])
  /\ (forall v t0, In (v, t0) (k_pending c) -> exists t, filter (settings_for v) ms = [Initial v t]
        /\ filter (told_to v) ms = [Told v (language_of s' v)]
        /\ ((forall k x, setting s v k = Some x -> tget t0 k = Some x) -> forall k x, setting s' v k = Some x -> tget t k = Some x)).
Proof.
  intros I H. cbn [step] in H. cbv zeta. cbn [ConfigSpec.s_step]. change (Build_sheet _ _ _ _ [] _) with (nowait (fold_left (announce read) (s_wait s) s)).
  rewrite <- announce_nowait. rewrite <- (in_wait _ _ _ _ I).
  apply (finalize_ok base defs B2 read (k_pending c) _ (nowait s)) in H.
  - destruct H as (A & _ & C & D & E & F & G). split; [exact A|]. split; [exact C|]. split; [exact D|]. split; [exact E|]. split; [exact F|exact G].
  - destruct I as [a b d e f g h]. constructor; auto; [destruct a; now constructor|destruct b; now constructor| |constructor].
    intros v [W|[]]. apply g. now left.
  - rewrite (in_wait _ _ _ _ I). apply (in_once _ _ _ _ I).
Qed.
Lemma step_inv c s e c' ms : inv c s -> event_once e -> step c e = Some (c', ms) -> inv c' (s_step s e).
Proof.
  intros I O H. destruct e; try (apply (plain_ok base defs B2 c s _ c' ms I O Logic.I H)). now apply (idle_ok c s) in H.
Qed.
Lemma run_inv es : forall c s c' ms, inv c s -> Forall event_once es -> run c es = Some (c', ms) -> inv c' (s_run s es).
Proof.
  induction es as [|e es IH]; intros c s c' ms I F H; cbn [run] in H.
  - now injection H as <- <-.
  - destruct (step c e) as [[c1 m1]|] eqn:E; cbn [bind fst snd] in H; [|discriminate].
    destruct (run c1 es) as [[c2 m2]|] eqn:R; cbn [bind fst snd] in H; [|discriminate]. injection H as <- <-.
    inversion F; subst. unfold ConfigSpec.s_run. cbn [fold_left]. eapply IH; eauto. eapply step_inv; eauto.
Qed.

(** What the client has. *)
Lemma client_app v a b : client v (a ++ b) = fold_left (client_step v) b (client v a).
Proof. unfold client. apply fold_left_app. Qed.
Lemma client_filter v ms : forall f, fold_left (client_step v) ms f = fold_left (client_step v) (filter (settings_for v) ms) f.
Proof.
  induction ms as [|m ms IH]; intros f; cbn [fold_left filter]; auto. destruct (settings_for v m) eqn:X; cbn [fold_left]; rewrite IH; auto.
  f_equal. destruct m; auto; cbn [settings_for client_step] in *; now rewrite X.
Qed.
Definition lang_step (v : nat) (l : option string) (m : message) : option string :=
  match m with Told u x => if u =? v then Some x else l | _ => l end.
Lemma language_filter v ms : forall f, fold_left (lang_step v) ms f = fold_left (lang_step v) (filter (told_to v) ms) f.
Proof.
  induction ms as [|m ms IH]; intros f; cbn [fold_left filter]; auto. destruct (told_to v m) eqn:X; cbn [fold_left]; rewrite IH; auto.
  f_equal. destruct m; auto; cbn [told_to lang_step] in *; now rewrite X.
Qed.
Lemma language_app v a b : client_language v (a ++ b) = fold_left (lang_step v) (filter (told_to v) b) (client_language v a).
Proof. unfold client_language. rewrite fold_left_app. fold (lang_step v). apply language_filter. Qed.
Lemma initial_in v t ms : In (Initial v t) ms -> In (Initial v t) (filter (settings_for v) ms).
Proof. intros H. apply filter_In. split; auto. cbn. apply Nat.eqb_refl. Qed.

Record told (ms : list message) (c : core) (s : sheet) : Prop := {
  to_new : forall v, s_next s <= v -> filter (settings_for v) ms = [];
  to_wait : forall v t0, In (v, t0) (k_pending c) -> opened s v = true ->
     (forall t, ~ In (Initial v t) ms)
     /\ (filter (settings_for v) ms = [] -> forall k x, setting s v k = Some x -> tget t0 k = Some x);
  to_have : forall v, opened s v = true -> ~ In v (s_wait s) ->
     (exists t, In (Initial v t) ms)
     /\ (starts_first v ms -> forall k x, setting s v k = Some x -> client v ms k = Some x)
     /\ client_language v ms = Some (language_of s v) }.

Lemma plain_opened s e v : plain e -> opened (s_step s e) v = true -> opened s v = true \/ v = s_next s /\ In v (s_wait (s_step s e)).
Proof.
  intros P. destruct e; cbn [ConfigSpec.s_step plain] in *; auto.
  - unfold opened. cbn [s_open s_wait existsb]. rewrite orb_true_iff, Nat.eqb_eq. intros [->|H]; auto. right. split; auto. apply in_or_app. right. now left.
  - destruct (opened s v0); auto.
  - unfold opened. cbn [s_open]. rewrite !existsb_exists. intros (u & J & E). apply filter_In in J. left. exists u. tauto.
  - destruct (_ && _); auto.
  - destruct (opened s v0); auto.
  - destruct (domain_of_file defs stem); auto. destruct (acceptable t); auto.
  - destruct (domain_of_file defs stem); auto.
Qed.
Lemma plain_next s e : plain e -> s_next s <= s_next (s_step s e) /\ incl (s_wait s) (s_wait (s_step s e)).
Proof.
  intros P. assert (R : s_next s <= s_next s /\ incl (s_wait s) (s_wait s)) by (split; [lia|apply incl_refl]).
  destruct e; cbn [ConfigSpec.s_step plain] in *; try exact R; try easy.
  - cbn [s_next s_wait]. split; [lia|]. intros x J. apply in_or_app. now left.
  - destruct (opened s v); exact R.
  - destruct (_ && _); exact R.
  - destruct (opened s v); exact R.
  - destruct (domain_of_file defs stem); [destruct (acceptable t)|]; exact R.
  - destruct (domain_of_file defs stem); exact R.
Qed.
Lemma apply_report s s' v o have : report s s' v o -> (forall k x, setting s v k = Some x -> have k = Some x) ->
  forall k x, setting s' v k = Some x -> fold_left (client_step v) (one v o) have k = Some x.
Proof.
  intros R H k x E. destruct o as [t|]; cbn [one fold_left client_step]; [|apply H; now apply R].
  rewrite Nat.eqb_refl. destruct R as (_ & _ & R). rewrite given_tget. destruct (tget t k) as [y|] eqn:T.
  - apply R in T. destruct T. congruence.
  - apply H. destruct (opt_value_eqb (setting s v k) (Some x)) eqn:Y; [now apply opt_value_eqb_eq|].
    assert (tget t k = Some x); [|congruence]. apply R. split; auto. intros F. apply opt_value_eqb_eq in F. congruence.
Qed.
Lemma told_plain ms c s e c' ms' : inv c s -> event_once e -> plain e -> told ms c s -> step c e = Some (c', ms') -> told (ms ++ ms') c' (s_step s e).
Proof.
  intros I O P T H. destruct (plain_ok base defs B2 c s e c' ms' I O P H) as (I' & (T1 & T2 & T3) & PE & LT). cbv zeta in *.
  set (s' := s_step s e) in *. destruct (plain_next s e P) as [NX WI]. fold s' in NX, WI.
  pose proof (fun v => plain_opened s e v P) as PO. fold s' in PO.
  constructor.
  - intros v L. rewrite filter_app, (to_new _ _ _ T) by lia. apply T2. destruct (opened s v) eqn:W; auto. pose proof (in_old _ _ _ _ I v (or_introl W)). lia.
  - intros v t0 J W.
    assert (C : In (v, t0) (k_pending c) \/ v = s_next s /\ (forall k, tget t0 k = setting s' v k)).
    { destruct PE as [PE|(t & PE & _ & X)]; rewrite PE in J; auto. apply in_app_or in J. destruct J as [J|[J|[]]]; auto. injection J as <- <-. auto. }
    destruct C as [C|[-> X]].
    + assert (Wv : In v (s_wait s)) by (rewrite <- (in_wait _ _ _ _ I); apply in_map_iff; exists (v, t0); auto).
      assert (Ws : opened s v = true).
      { destruct (PO v W) as [|[Q _]]; auto. pose proof (in_old _ _ _ _ I v (or_intror Wv)). lia. }
      destruct (to_wait _ _ _ T v t0 C Ws) as [N1 N2]. split.
      * intros t J1. apply in_app_or in J1. destruct J1 as [J1|J1]; [now apply (N1 t)|now apply (T3 v t)].
      * intros F k x E. rewrite filter_app in F. apply app_eq_nil in F. destruct F as [F1 F2]. apply N2; auto.
        destruct (T1 v Ws W) as ([t|] & R & F3); [rewrite F3 in F2; discriminate|]. now apply R.
    + pose proof (to_new _ _ _ T (s_next s) (le_n _)) as F. split.
      * intros t J1. apply in_app_or in J1. destruct J1 as [J1|J1]; [|now apply (T3 (s_next s) t)]. apply initial_in in J1. rewrite F in J1. easy.
      * intros _ k x E. now rewrite X.
  - intros v W NW. destruct (PO v W) as [Ws|[_ Q]]; [|contradiction].
    destruct (to_have _ _ _ T v Ws) as ((t & J) & A & L); [intros Q; apply NW; now apply WI|].
    split; [exists t; apply in_or_app; now left|]. split.
    + intros (t1 & rest & F) k x E. rewrite filter_app in F. pose proof (initial_in _ _ _ J) as J'.
      assert (SF : starts_first v ms).
      { destruct (filter (settings_for v) ms) as [|m q] eqn:FM; [easy|]. injection F as -> _. exists t1, q. exact FM. }
      rewrite client_app, client_filter. destruct (T1 v Ws W) as (o & R & ->). eapply apply_report; eauto.
    + rewrite language_app. destruct (LT v W) as [[-> E]| ->].
      * cbn [fold_left]. rewrite L. now rewrite E.
      * cbn [fold_left lang_step]. now rewrite Nat.eqb_refl.
Qed.
Lemma told_idle ms c s read c' ms' : inv c s -> told ms c s -> step c (Idle read) = Some (c', ms') -> told (ms ++ ms') c' (s_step s (Idle read)).
Proof.
  intros I T H. destruct (idle_ok c s read c' ms' I H) as (I' & OW & OP & LG & OTH & EACH). cbv zeta in *.
  set (s' := s_step s (Idle read)) in *.
  assert (NE : s_next s' = s_next s).
  { unfold s'. cbn [ConfigSpec.s_step s_next]. generalize (s_wait s). intros l. generalize s. induction l as [|v l IH]; intros s0; cbn [fold_left]; auto.
    rewrite IH. unfold ConfigSpec.announce. now destruct (_ && _). }
  assert (WE : s_wait s' = []) by reflexivity.
  constructor.
  - intros v L. rewrite filter_app, (to_new _ _ _ T) by lia. apply OTH. intros J. pose proof (in_old _ _ _ _ I v (or_intror J)). lia.
  - intros v t0 J. assert (K : In v (s_wait s')) by (rewrite <- (in_wait _ _ _ _ I'); apply in_map_iff; exists (v, t0); auto). rewrite WE in K. easy.
  - intros v W _. rewrite OP in W. destruct (in_dec Nat.eq_dec v (s_wait s)) as [J|J].
    + rewrite <- (in_wait _ _ _ _ I) in J. apply in_map_iff in J. destruct J as ([v' t0] & E & J). cbn in E. subst v'.
      destruct (EACH v t0 J) as (t & F1 & F2 & F3). destruct (to_wait _ _ _ T v t0 J W) as [N1 N2].
      split; [|split].
      * exists t. apply in_or_app. right. assert (K : In (Initial v t) (filter (settings_for v) ms')) by (rewrite F1; now left). now apply filter_In in K.
      * intros (t1 & rest & F) k x E. rewrite filter_app in F.
        assert (FM : filter (settings_for v) ms = []).
        { destruct (filter (settings_for v) ms) as [|m q] eqn:FM; auto. injection F as -> _. elim (N1 t1).
          assert (K : In (Initial v t1) (filter (settings_for v) ms)) by (rewrite FM; now left). now apply filter_In in K. }
        rewrite client_app, client_filter, F1. cbn [fold_left client_step]. rewrite Nat.eqb_refl, given_tget.
        rewrite (F3 (N2 FM) k x E). reflexivity.
      * rewrite language_app, F2. cbn [fold_left lang_step]. now rewrite Nat.eqb_refl.
    + destruct (OTH v J) as (S1 & F1 & F2). destruct (to_have _ _ _ T v W J) as ((t & K) & A & L). split; [exists t; apply in_or_app; now left|]. split.
      * intros (t1 & rest & F) k x E. rewrite filter_app, F1, app_nil_r in F. rewrite client_app, client_filter, F1. cbn [fold_left].
        apply A; [now exists t1, rest|]. now rewrite <- S1.
      * rewrite language_app, F2. cbn [fold_left]. rewrite L. now rewrite LG.
Qed.
Lemma run_told es : forall ms c s c' ms', inv c s -> told ms c s -> Forall event_once es -> run c es = Some (c', ms') -> told (ms ++ ms') c' (s_run s es).
Proof.
  induction es as [|e es IH]; intros ms c s c' ms' I T F H; cbn [run] in H.
  - injection H as <- <-. now rewrite app_nil_r.
  - destruct (step c e) as [[c1 m1]|] eqn:E; cbn [bind fst snd] in H; [|discriminate].
    destruct (run c1 es) as [[c2 m2]|] eqn:R; cbn [bind fst snd] in H; [|discriminate]. injection H as <- <-.
    inversion F; subst. unfold ConfigSpec.s_run. cbn [fold_left]. rewrite app_assoc. eapply IH; eauto; [eapply step_inv; eauto|].
    destruct e; try (eapply told_plain; eauto; exact Logic.I). now apply (told_idle ms c s).
Qed.
End Run.
