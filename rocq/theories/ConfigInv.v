(** The sheet of ConfigSpec.v is kept by every event, and what each event reports. *)
From Coq Require Import List Arith Bool String ZArith Lia.
From Verif Require Import Base DetectModel ConfigModel ConfigSpec ConfigProofs.
Import ListNotations.

Section Inv.
Context (base : table) (defs : list language).
Context (B2 : complete base).
Local Notation setting := (setting base defs).
Local Notation s_step := (s_step base defs).

Definition base_of (d : domain) : source :=
  match d with General => given base | Language l => language_default defs l | _ => nothing end.

Definition pair_ok (p : pair) (user dflt : source) : Prop :=
  NoDup (map fst (table_or_default (p_user p)))
  /\ (forall k, tget (table_or_default (p_user p)) k = user k)
  /\ (forall k, tget (table_or_default (p_base p)) k = dflt k)
  /\ (forall k, tget (p_cache p) k = over (user k) (dflt k)).
(** The sources are those of the sheet. *)
Record sources (m : manager) (s : sheet) : Prop := {
  so_lang : m_languages m = languages_new defs;
  so_pair : forall d p, get_pair m d = Some p -> pair_ok p (s_user s d) (base_of d);
  so_none : forall d, get_pair m d = None -> forall k, s_user s d k = None /\ base_of d k = None;
  so_gen : exists p, get_pair m General = Some p /\ p_base p = Some base;
  so_good : forall d, good (s_user s d);
  so_tags : forall v, aget Nat.eqb (m_tags m) v
                      = if opened s v then Some {| t_detected := s_path s v; t_user := s_chosen s v |} else None }.
(** The buffers have their settings. *)
Definition has_settings (c : config) (s : sheet) (v : nat) : Prop :=
  (forall k, stack_get (c_source c) k = setting s v k)
  /\ (forall k kd, In (k, kd) fields -> tget (c_items c) k = setting s v k /\ exists x, setting s v k = Some x /\ fits kd x = true).
Record buffers (m : manager) (s : sheet) : Prop := {
  bu_once : NoDup (map fst (m_buffers m));
  bu_some : forall v, opened s v = true -> exists c, aget Nat.eqb (m_buffers m) v = Some c /\ has_settings c s v;
  bu_none : forall v, opened s v = false -> aget Nat.eqb (m_buffers m) v = None }.

Lemma generate_source m v c : generate_buffer_config m v = Some c -> c_source c = stack_of m v /\ from_value (collate (stack_of m v)) = Some (c_items c).
Proof.
  unfold generate_buffer_config, into_config. destruct (from_value _) eqn:F; cbn [bind]; [|discriminate]. intros [= <-]. auto.
Qed.
Lemma cache_get m s d : sources m s -> forall k,
  stack_get (map p_cache (opt_list (get_pair m d))) k = over (s_user s d k) (base_of d k).
Proof.
  intros O k. destruct (get_pair m d) as [p|] eqn:G; cbn [opt_list map stack_get].
  - destruct (so_pair _ _ O d p G) as (_ & _ & _ & X). rewrite X. now destruct (over _ _).
  - destruct (so_none _ _ O d G k) as [-> ->]. reflexivity.
Qed.
Lemma stack_app a b k : stack_get (a ++ b) k = over (stack_get a k) (stack_get b k).
Proof. induction a as [|t a IH]; cbn [stack_get app]; auto. rewrite IH. now destruct (tget t k). Qed.
Lemma rev_opt {X} (o : option X) : rev (opt_list o) = opt_list o. Proof. now destruct o. Qed.
Lemma stack_setting m s v k : sources m s -> opened s v = true -> stack_get (stack_of m v) k = setting s v k.
Proof.
  intros O W. unfold stack_of. rewrite (so_tags _ _ O v), W, (so_lang _ _ O).
  destruct (languages_ok defs) as (_ & L & _). rewrite L. unfold resolve. cbn [t_user t_detected]. fold (language_of s v).
  rewrite <- map_rev, !rev_app_distr, !map_app, !stack_app, !rev_opt, !(cache_get m s _ O).
  unfold ConfigSpec.setting. cbn [base_of]. unfold nothing.
  destruct (definition_of defs (language_of s v)) as [d|] eqn:D.
  - pose proof (definition_name _ _ _ D) as ->. rewrite rev_opt, (cache_get m s _ O). cbn [base_of app first_of].
    destruct (s_user s (UserOverride v) k), (s_user s (SysOverride v) k), (s_user s (Language (language_of s v)) k); cbn [over]; auto.
    destruct (language_default defs _ k), (s_user s General k), (given base k); reflexivity.
  - cbn [rev map stack_get app first_of].
    destruct (s_user s (UserOverride v) k), (s_user s (SysOverride v) k); cbn [over]; auto.
    destruct (s_user s General k), (given base k); reflexivity.
Qed.
Lemma generated m s v c : sources m s -> opened s v = true -> generate_buffer_config m v = Some c -> has_settings c s v.
Proof.
  intros O W G. apply generate_source in G. destruct G as [E F]. split; [intros k; rewrite E; now apply stack_setting|].
  intros k kd I. split.
  - unfold from_value in F. rewrite (from_of_get _ _ _ F), collate_get; [now apply stack_setting|]. apply in_map_iff. exists (k, kd). auto.
  - assert (N : from_value (collate (stack_of m v)) <> None) by congruence. apply from_of_ok with (k := k) (kd := kd) in N; auto.
    destruct N as (x & X & Y). exists x. split; auto. now rewrite collate_get, (stack_setting m s v k O W) in X.
Qed.
Lemma generate_total m s v : sources m s -> opened s v = true ->
  (forall d k, s_user s d k <> Some VNull) ->
  (forall l, good (language_default defs l)) -> (forall l k, language_default defs l k <> Some VNull) ->
  generate_buffer_config m v <> None.
Proof.
  intros O W U L1 L2. unfold generate_buffer_config, into_config.
  destruct (from_value (collate (stack_of m v))) eqn:F; [discriminate|]. exfalso. revert F. apply from_of_ok. intros k kd I.
  rewrite collate_get, (stack_setting m s v k O W). destruct (B2 k kd I) as (b & G & T).
  assert (X : forall d x, s_user s d k = Some x -> fits kd x = true).
  { intros d x E. apply (so_good _ _ O d k x kd); auto. intros ->. eapply U; eauto. }
  assert (Y : forall l x, language_default defs l k = Some x -> fits kd x = true).
  { intros l x E. apply (L1 l k x kd); auto. intros ->. eapply L2; eauto. }
  unfold ConfigSpec.setting. cbv zeta.
  destruct (definition_of defs (language_of s v)); cbn [app first_of]; rewrite G;
    repeat match goal with
    | |- context [match s_user s ?d k with _ => _ end] => let E := fresh in destruct (s_user s d k) eqn:E; [eauto|]
    | |- context [match language_default defs ?l k with _ => _ end] => let E := fresh in destruct (language_default defs l k) eqn:E; [eauto|]
    end; eauto.
Qed.

(** What is reported when the settings of a view go from those of one sheet to those of another. *)
Definition report (s s' : sheet) (v : nat) (o : option table) : Prop :=
  match o with
  | None => forall k x, setting s' v k = Some x -> setting s v k = Some x
  | Some t => NoDup (map fst t) /\ t <> []
              /\ forall k x, tget t k = Some x <-> setting s' v k = Some x /\ setting s v k <> Some x
  end.
Lemma report_ok s s' v c c' : (forall k, stack_get (c_source c) k = setting s v k) ->
  (forall k, stack_get (c_source c') k = setting s' v k) -> report s s' v (changes_from c' (Some c)).
Proof.
  intros H H'. cbn [changes_from]. destruct (diff (c_source c') (c_source c)) as [t|] eqn:D; cbn [report].
  - destruct (diff_nodup _ _ _ D). split; auto. split; auto. intros k x. rewrite (diff_get _ _ _ D), H, H'. tauto.
  - intros k x. rewrite <- H, <- H'. now apply diff_none.
Qed.

(** Checking a table. *)
Lemma check_at m t p : get_pair m General = Some p -> p_base p = Some base -> NoDup (map fst t) -> check_table m t = Some (acceptable t).
Proof.
  intros G P N. unfold check_table. rewrite G. cbn [bind]. rewrite P. cbn [bind].
  f_equal. set (d := fold_left _ t base).
  assert (D : forall k, tget d k = match tget t k with Some v => if is_null v then tget base k else Some v | None => tget base k end).
  { intros k. unfold d. rewrite (fold_upd _ (fun v o => if is_null v then o else Some v)); auto.
    intros u j v i. cbn [fst snd]. destruct (is_null v); [now destruct (String.eqb j i)|]. apply tget_tset. }
  assert (I : from_value d <> None <-> acceptable t = true).
  { rewrite (acceptable_good t N). unfold from_value. rewrite from_of_ok. split.
    - intros H k x kd X Z F. destruct (H k kd F) as (y & Y & Q). rewrite given_tget in X. rewrite D, X in Y.
      destruct (is_null x) eqn:V; [destruct x; discriminate || congruence|congruence].
    - intros H k kd F. rewrite D. destruct (B2 k kd F) as (b & X & Y). rewrite given_tget in X.
      destruct (tget t k) as [v|] eqn:T; [destruct (is_null v) eqn:V|]; eauto.
      exists v. split; auto. apply (H k v kd); auto; [now rewrite given_tget|intros ->; discriminate]. }
  destruct (from_value d), (acceptable t); auto.
  - symmetry. apply I. discriminate.
  - destruct I as [_ I]. elim (I eq_refl eq_refl).
Qed.

Lemma check_ok m s t : sources m s -> NoDup (map fst t) -> check_table m t = Some (acceptable t).
Proof. intros O N. destruct (so_gen _ _ O) as (p & G & P). now apply (check_at m t p). Qed.

(** Putting a table in a domain. *)
Lemma put_source_get f d x e : put_source f d x e = if domain_eqb e d then x else f e. Proof. reflexivity. Qed.
Lemma entry_ok m s d : sources m s -> pair_ok (entry m d) (s_user s d) (base_of d).
Proof.
  intros O. unfold entry. destruct (get_pair m d) as [p|] eqn:G; [now apply (so_pair _ _ O)|].
  pose proof (so_none _ _ O d G) as N. split; [constructor|]. split; [|split]; intros k; destruct (N k) as [N1 N2]; rewrite ?N1, ?N2; reflexivity.
Qed.
Lemma set_table_ok p user dflt t f : pair_ok p user dflt -> NoDup (map fst t) -> (forall k, f k = tget t k) -> pair_ok (set_table p t) f dflt.
Proof.
  intros (A & B & C & D) N F. unfold set_table. split; [exact N|]. split; [intros k; now rewrite F|]. split; [exact C|].
  intros k. rewrite rebuild_get by exact N. cbn [p_user p_base table_or_default]. now rewrite F, C.
Qed.
Lemma put_ok m s d t f : sources m s -> NoDup (map fst t) -> (forall k, f k = tget t k) -> acceptable t = true ->
  sources (with_configs m (aset domain_eqb (m_configs m) d (set_table (entry m d) t))) (set_source s d f).
Proof.
  intros O N F A. constructor; cbn [with_configs m_languages m_tags m_configs set_source s_user s_path s_chosen get_pair].
  - apply (so_lang _ _ O).
  - intros e p. unfold get_pair. cbn [with_configs m_configs]. rewrite (aget_aset _ dE), put_source_get.
    destruct (domain_eqb d e) eqn:X.
    + apply dE in X. subst e. rewrite (e_refl _ dE). intros [= <-]. apply (set_table_ok _ (s_user s d)); auto. now apply entry_ok.
    + rewrite (e_neq _ dE) by (intros ->; rewrite (e_refl _ dE) in X; discriminate). apply (so_pair _ _ O).
  - intros e. unfold get_pair. cbn [with_configs m_configs]. rewrite (aget_aset _ dE), put_source_get.
    destruct (domain_eqb d e) eqn:X; [discriminate|].
    rewrite (e_neq _ dE) by (intros ->; rewrite (e_refl _ dE) in X; discriminate). apply (so_none _ _ O).
  - destruct (so_gen _ _ O) as (p & G & P). unfold get_pair. cbn [with_configs m_configs]. rewrite (aget_aset _ dE).
    destruct (domain_eqb d General) eqn:X; [|exists p; auto]. apply dE in X. subst d. eexists. split; [reflexivity|].
    unfold entry. rewrite G. exact P.
  - intros e. rewrite put_source_get. destruct (domain_eqb e d) eqn:X; [|apply (so_good _ _ O)].
    intros k x kd Q. apply (acceptable_good t N) in A. rewrite F in Q. apply (A k x kd). now rewrite given_tget.
  - apply (so_tags _ _ O).
Qed.
Lemma touch_ok m s d : sources m s -> sources (with_configs m (aset domain_eqb (m_configs m) d (entry m d))) s.
Proof.
  intros O. constructor; cbn [with_configs m_languages m_tags m_configs].
  - apply (so_lang _ _ O).
  - intros e p. unfold get_pair. cbn [with_configs m_configs]. rewrite (aget_aset _ dE).
    destruct (domain_eqb d e) eqn:X; [|apply (so_pair _ _ O)]. apply dE in X. subst e. intros [= <-]. now apply entry_ok.
  - intros e. unfold get_pair. cbn [with_configs m_configs]. rewrite (aget_aset _ dE).
    destruct (domain_eqb d e) eqn:X; [discriminate|apply (so_none _ _ O)].
  - destruct (so_gen _ _ O) as (p & G & P). unfold get_pair. cbn [with_configs m_configs]. rewrite (aget_aset _ dE).
    destruct (domain_eqb d General) eqn:X; [|exists p; auto]. apply dE in X. subst d. eexists. split; [reflexivity|].
    unfold entry. rewrite G. exact P.
  - apply (so_good _ _ O).
  - apply (so_tags _ _ O).
Qed.

Lemma setting_ext s s' v k : (forall d, s_user s d k = s_user s' d k) -> s_path s v = s_path s' v -> s_chosen s v = s_chosen s' v ->
  setting s v k = setting s' v k.
Proof. intros H P C. unfold ConfigSpec.setting, language_of. rewrite C, P, !H. reflexivity. Qed.

(** Setting a domain. *)
Definition strong (s : sheet) : Prop :=
  (forall d k, s_user s d k <> Some VNull) /\ (forall l, good (language_default defs l)) /\ (forall l k, language_default defs l k <> Some VNull).
Lemma buffer_keys m s v : buffers m s -> (In v (map fst (m_buffers m)) <-> opened s v = true).
Proof.
  intros U. rewrite (aget_key _ nE). destruct (opened s v) eqn:O.
  - destruct (bu_some _ _ U v O) as (c & C & _). split; eauto.
  - rewrite (bu_none _ _ U v O). split; [intros [c H]; discriminate|discriminate].
Qed.
Lemma set_user_ok m s d t f m' r : sources m s -> buffers m s -> NoDup (map fst t) -> (forall k, f k = tget t k) ->
  set_user_config m d t = Some (m', r) ->
  match r with
  | None => acceptable t = false /\ m' = m
  | Some ch => let s' := set_source s d f in
      acceptable t = true /\ sources m' s' /\ buffers m' s' /\ NoDup (map fst ch)
      /\ (forall v u, In (v, u) ch -> opened s v = true /\ report s s' v (Some u))
      /\ (forall v, opened s v = true -> (forall u, ~ In (v, u) ch) -> report s s' v None)
  end.
Proof.
  intros O U N F H. unfold set_user_config in H. rewrite (check_ok m s t O N) in H. cbn [bind] in H.
  destruct (acceptable t) eqn:A; [|injection H as <- <-; auto].
  set (m1 := with_configs m _) in H. set (s' := set_source s d f). pose proof (put_ok m s d t f O N F A) as O1. fold m1 s' in O1.
  unfold update_all_buffer_configs in H. destruct (update_buffers m1 _) as [[m2 ch]|] eqn:UB; cbn [bind fst snd] in H; [|discriminate].
  injection H as <- <-. change (m_buffers m1) with (m_buffers m) in UB.
  apply update_buffers_ok in UB; [|apply (bu_once _ _ U)].
  destruct UB as (Q1 & Q2 & Q3 & Q4 & Q5 & Q6 & Q7 & Q8 & _). change (m_buffers m1) with (m_buffers m) in *.
  assert (O2 : sources m2 s').
  { destruct O1 as [a b c e g h]. constructor; unfold get_pair in *; rewrite ?Q1, ?Q2, ?Q3; auto. }
  split; auto. split; auto. split; [|split; auto; split].
  - constructor.
    + apply Q6. apply (bu_once _ _ U).
    + intros v W. change (opened s' v) with (opened s v) in W. destruct (Q4 v) as (c & G & AG); [now apply buffer_keys with (s := s)|].
      exists c. split; auto. now apply (generated m1 s' v c).
    + intros v W. change (opened s' v) with (opened s v) in W. rewrite Q5; [now apply (bu_none _ _ U)|].
      intros I. apply (buffer_keys m s v U) in I. congruence.
  - intros v u I. apply Q7 in I. destruct I as (I & c & G & CF). apply (buffer_keys m s v U) in I. split; auto.
    destruct (bu_some _ _ U v I) as (c0 & AG & S0 & _). rewrite AG in CF. rewrite <- CF. apply report_ok; auto.
    now apply (generated m1 s' v c).
  - intros v W NI. destruct (Q4 v) as (c & G & _); [now apply buffer_keys with (s := s)|].
    destruct (bu_some _ _ U v W) as (c0 & AG & S0 & _).
    destruct (changes_from c (Some c0)) as [u|] eqn:CF.
    + elim (NI u). apply Q7. split; [now apply buffer_keys with (s := s)|]. exists c. now rewrite AG.
    + rewrite <- CF. apply report_ok; auto. now apply (generated m1 s' v c).
Qed.
Lemma set_user_total m s d t f : sources m s -> buffers m s -> NoDup (map fst t) -> (forall k, f k = tget t k) ->
  strong (set_source s d f) -> set_user_config m d t <> None.
Proof.
  intros O U N F (S1 & S2 & S3). unfold set_user_config. rewrite (check_ok m s t O N). cbn [bind].
  destruct (acceptable t) eqn:A; [|discriminate]. set (m1 := with_configs m _). unfold update_all_buffer_configs.
  destruct (update_buffers m1 _) eqn:UB; [discriminate|]. exfalso. revert UB. apply update_buffers_total. intros v I.
  apply (generate_total m1 (set_source s d f)); auto; [now apply put_ok|]. now apply (buffer_keys m s v U) in I.
Qed.
(** A table made from changes. *)
Lemma update_ok m s d t : sources m s -> NoDup (map fst t) ->
  let r := table_for_update m d t in
  sources (fst r) s /\ (buffers m s -> buffers (fst r) s) /\ NoDup (map fst (snd r))
  /\ (forall k, changed_by (s_user s d) t k = tget (snd r) k) /\ acceptable (snd r) = acceptable t.
Proof.
  intros O N. cbv zeta. unfold table_for_update. cbn [fst snd].
  destruct (entry_ok m s d O) as (P1 & P2 & _ & _).
  assert (ND : NoDup (map fst (pair_table_for_update (entry m d) t))) by now apply pupdate_nodup.
  assert (G : forall k, changed_by (s_user s d) t k = tget (pair_table_for_update (entry m d) t) k).
  { intros k. rewrite (pupdate_get _ _ _ N), P2. unfold changed_by. now rewrite given_tget. }
  split; [now apply touch_ok|]. split; [intros [a b c]; constructor; auto|]. split; auto. split; auto.
  pose proof (so_good _ _ O d) as GD.
  assert (I : acceptable (pair_table_for_update (entry m d) t) = true <-> acceptable t = true).
  { rewrite !acceptable_good by auto. split; intros H k x kd X Z K.
    - apply (H k x kd); auto. rewrite given_tget, <- G. unfold changed_by. rewrite X. destruct x; congruence.
    - rewrite given_tget, <- G in X. unfold changed_by in X. destruct (given t k) as [y|] eqn:Y.
      + destruct y; try discriminate; injection X as <-; now apply (H k _ kd).
      + now apply (GD k x kd). }
  destruct (acceptable (pair_table_for_update _ _)), (acceptable t); auto; [symmetry|]; now apply I.
Qed.
(** A buffer whose language changes. *)
Lemma update_one_ok m m1 s s' v m' o : sources m1 s' -> buffers m s -> m_buffers m1 = m_buffers m -> opened s v = true -> opened s' = opened s ->
  (forall u k, u <> v -> setting s' u k = setting s u k) ->
  update_buffer_config m1 v = Some (m', o) -> sources m' s' /\ buffers m' s' /\ report s s' v o.
Proof.
  intros O U E W OP NC H. unfold update_buffer_config in H. destruct (generate_buffer_config m1 v) as [c|] eqn:G; cbn [bind] in H; [|discriminate].
  injection H as <- <-. rewrite E. assert (W' : opened s' v = true) by now rewrite OP.
  pose proof (generated m1 s' v c O W' G) as HS. destruct (bu_some _ _ U v W) as (c0 & AG & S0 & _).
  split; [destruct O as [a b c' e g h]; now constructor|]. split.
  - constructor; cbn [with_buffers m_buffers].
    + apply (aset_nodup _ nE). apply (bu_once _ _ U).
    + intros u Wu. rewrite (aget_aset _ nE). destruct (v =? u) eqn:X; [apply Nat.eqb_eq in X; subst; exists c; auto|].
      rewrite OP in Wu. destruct (bu_some _ _ U u Wu) as (cu & AGu & S1 & S2). exists cu. split; auto.
      assert (u <> v) by (intros ->; rewrite Nat.eqb_refl in X; discriminate).
      split; [intros k; rewrite NC; auto|]. intros k kd I. rewrite NC by auto. now apply S2.
    + intros u Wu. rewrite (aget_aset _ nE). rewrite OP in Wu. destruct (v =? u) eqn:X; [apply Nat.eqb_eq in X; congruence|].
      now apply (bu_none _ _ U).
  - rewrite AG. apply report_ok; auto. apply HS.
Qed.
End Inv.
