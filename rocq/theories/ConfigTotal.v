(** Starting up, and that no event panics. *)
From Coq Require Import List Arith Bool String ZArith Lia.
From Verif Require Import Base DetectModel ConfigModel ConfigSpec ConfigProofs ConfigInv ConfigStep ConfigIdle ConfigRun.
Import ListNotations.

Section Start.
Context (base : table) (B2 : complete base) (files : string -> option table).
Context (F1 : forall l, keys_once_opt (files l)).

Definition pair_for (l : language) : pair :=
  match files (l_name l) with
  | Some t => if acceptable t then set_table (with_base (l_default l)) t else with_base (l_default l)
  | None => with_base (l_default l)
  end.
Definition general_at (m : manager) (p : pair) : Prop := get_pair m General = Some p /\ p_base p = Some base.
Lemma get_with_configs m c d : get_pair (with_configs m c) d = aget domain_eqb c d. Proof. reflexivity. Qed.
Lemma with_configs_twice m c d : with_configs (with_configs m c) d = with_configs m d. Proof. reflexivity. Qed.
Lemma set_languages_loop ls : forall m p, general_at m p -> m_buffers m = [] -> NoDup (map l_name ls) ->
  (forall l, In l ls -> get_pair m (Language (l_name l)) = None) ->
  exists m', set_language_configs m ls files = Some m'
    /\ m_buffers m' = [] /\ m_tags m' = m_tags m /\ m_languages m' = m_languages m
    /\ (forall l, In l ls -> get_pair m' (Language (l_name l)) = Some (pair_for l))
    /\ (forall d, (forall l, In l ls -> d <> Language (l_name l)) -> get_pair m' d = get_pair m d).
Proof.
  induction ls as [|l ls IH]; intros m p GA NB ND NP; cbn [set_language_configs].
  - exists m. split; [reflexivity|]. split; auto. split; auto. split; auto. split; [easy|auto].
  - cbn [map] in ND. inversion ND as [|? ? N1 N2]; subst. rewrite (NP l (or_introl eq_refl)).
    set (m1 := with_configs m _).
    assert (G1 : forall d, get_pair m1 d = if domain_eqb (Language (l_name l)) d then Some (with_base (l_default l)) else get_pair m d).
    { intros d. unfold m1. rewrite get_with_configs. apply (aget_aset _ dE). }
    assert (GA1 : general_at m1 p) by (destruct GA as [A B]; split; auto; rewrite G1; exact A).
    assert (STEP : exists m2, (match files (l_name l) with
                | Some t => let? r := set_user_config m1 (Language (l_name l)) t in Some (fst r)
                | None => Some m1 end) = Some m2 /\ m_buffers m2 = [] /\ m_tags m2 = m_tags m /\ m_languages m2 = m_languages m
                /\ forall d, get_pair m2 d = if domain_eqb (Language (l_name l)) d then Some (pair_for l) else get_pair m d).
    { unfold pair_for. pose proof (F1 (l_name l)) as K. destruct (files (l_name l)) as [t|]; [|exists m1; split; [auto|]; split; [exact NB|]; split; [auto|]; split; auto].
      cbn [keys_once_opt] in K. unfold set_user_config. rewrite (check_at base B2 m1 t p (proj1 GA1) (proj2 GA1) K). cbn [bind].
      destruct (acceptable t); [|exists m1; split; [auto|]; split; [exact NB|]; split; [auto|]; split; auto].
      unfold update_all_buffer_configs. cbn [with_configs m_buffers]. change (m_buffers m1) with (m_buffers m). rewrite NB. cbn [map update_buffers bind fst].
      eexists. split; [reflexivity|]. split; [exact NB|]. split; [auto|]. split; [auto|]. intros d. unfold get_pair. cbn [with_configs m_configs]. rewrite (aget_aset _ dE).
      unfold entry. rewrite G1, (e_refl _ dE). change (aget domain_eqb (m_configs m1) d) with (get_pair m1 d). rewrite G1.
      destruct (domain_eqb (Language (l_name l)) d); auto. }
    destruct STEP as (m2 & -> & NB2 & T2 & L2 & G2). cbn [bind].
    destruct (IH m2 p) as (m' & E & X1 & X2 & X3 & X4 & X5); auto.
    { destruct GA as [A B]. split; auto. now rewrite G2. }
    { intros l' J. rewrite G2. rewrite (e_neq _ dE); [apply NP; now right|]. intros [= Q]. apply N1. rewrite Q. now apply in_map. }
    exists m'. split; auto. split; auto. split; [congruence|]. split; [congruence|]. split.
    + intros l' [<-|J]; [|now apply X4]. rewrite X5; [rewrite G2; now rewrite (e_refl _ dE)|].
      intros l' J [= Q]. apply N1. rewrite Q. now apply in_map.
    + intros d D. rewrite X5 by (intros l' J; apply D; now right). rewrite G2. rewrite (e_neq _ dE); auto.
      intros Q. apply (D l (or_introl eq_refl)). auto.
Qed.
Lemma with_base_ok t : pair_ok (with_base t) nothing (fun k => tget (table_or_default t) k).
Proof. split; [constructor|]. split; [reflexivity|]. split; reflexivity. Qed.
Lemma pair_ok_ext p u u' d d' : (forall k, u k = u' k) -> (forall k, d k = d' k) -> pair_ok p u d -> pair_ok p u' d'.
Proof. intros U D (A & B & C & E). split; auto. split; [intros; rewrite <- U; auto|]. split; intros; rewrite <- ?U, <- D; auto. Qed.
Lemma from_file_good t : keys_once_opt t -> good (from_file t).
Proof.
  intros K. destruct t as [t|]; cbn [from_file]; [|intros k x kd H; discriminate]. destruct (acceptable t) eqn:A; [|intros k x kd H; discriminate].
  now apply acceptable_good.
Qed.

Lemma start_ok defs preferences : keys_once_opt preferences ->
  exists c, start base defs preferences files = Some c /\ inv base defs c (s_start defs preferences files).
Proof.
  intros PO. unfold start. set (c0 := Build_core _ _ _ _).
  set (s0 := s_start [] None files).
  assert (I0 : inv base [] c0 s0).
  { constructor; cbn [c0 k_manager k_views k_pending k_next s0 s_start s_open s_wait s_next map].
    - constructor; cbn [manager_new m_languages m_tags s_start s_user].
      + reflexivity.
      + intros d p. unfold get_pair. cbn [manager_new m_configs aget]. destruct d; try discriminate. intros [= <-].
        apply (pair_ok_ext _ nothing _ (fun k => tget base k)); [reflexivity|intros k; cbn [base_of]; symmetry; apply given_tget|].
        apply (with_base_ok (Some base)).
      + intros d. unfold get_pair. cbn [manager_new m_configs aget]. destruct d; [discriminate| | |]; intros _ k; split; reflexivity.
      + eexists. split; [reflexivity|]. reflexivity.
      + intros d k x kd H. destruct d; discriminate.
      + reflexivity.
    - constructor; cbn [manager_new m_buffers]; [constructor| |reflexivity]. intros v H. discriminate.
    - reflexivity.
    - reflexivity.
    - reflexivity.
    - intros v [H|[]]. discriminate.
    - constructor. }
  assert (SC : forall t, keys_once t -> set_config c0 General t
     = Some (if acceptable t then (with_manager c0 (with_configs (k_manager c0) [(General, set_table (with_base (Some base)) t)]), []) else (c0, [Alert]))).
  { intros t K. unfold set_config, set_user_config. rewrite (check_ok base [] B2 _ s0 t (in_sources _ _ _ _ I0) K). cbn [bind].
    destruct (acceptable t); reflexivity. }
  assert (P : exists c1 ms, (match preferences with Some t => load_file_based_config c0 "preferences" t | None => Some (c0, []) end) = Some (c1, ms)
     /\ k_views c1 = [] /\ k_pending c1 = [] /\ k_next c1 = 1 /\ m_buffers (k_manager c1) = [] /\ m_tags (k_manager c1) = [] /\ m_languages (k_manager c1) = languages_new []
     /\ (exists p, m_configs (k_manager c1) = [(General, p)] /\ p_base p = Some base /\ pair_ok p (from_file preferences) (given base))).
  { assert (W : pair_ok (with_base (Some base)) nothing (given base)).
    { apply (pair_ok_ext _ nothing _ (fun k => tget base k)); [reflexivity|intros k; symmetry; apply given_tget|]. apply (with_base_ok (Some base)). }
    destruct preferences as [t|].
    - unfold load_file_based_config. change (domain_for_path (k_manager c0) "preferences") with (Some General). cbn [keys_once_opt] in PO.
      cbv beta iota. rewrite (SC t PO). cbn [from_file]. destruct (acceptable t); eexists; eexists; (split; [reflexivity|]); repeat (split; [reflexivity|]).
      + eexists. split; [reflexivity|]. split; [reflexivity|]. apply (set_table_ok _ nothing); auto. apply given_tget.
      + eexists. split; [reflexivity|]. split; [reflexivity|]. exact W.
    - exists c0, []. repeat (split; [reflexivity|]). eexists. split; [reflexivity|]. split; [reflexivity|]. exact W. }
  destruct P as (c1 & ms & -> & V1 & P1 & X1 & NB & T1 & L1 & p & MC & PB & PK). cbn [bind fst].
  destruct (languages_ok defs) as ((ON & OK) & LN & _).
  set (ls := map snd (named (languages_new defs))).
  assert (NN : NoDup (map l_name ls)).
  { unfold ls. rewrite map_map. assert (E : map (fun x => l_name (snd x)) (named (languages_new defs)) = map fst (named (languages_new defs))); [|now rewrite E].
    apply map_ext_in. intros [n l] J. cbn [fst snd]. apply ON. now apply (in_aget _ sE). }
  assert (IN : forall n l, definition_of defs n = Some l -> In l ls).
  { intros n l D. rewrite <- LN in D. apply (aget_in _ sE) in D. unfold ls. apply in_map_iff. exists (n, l). auto. }
  assert (NI : forall l, In l ls -> definition_of defs (l_name l) = Some l).
  { intros l J. unfold ls in J. apply in_map_iff in J. destruct J as ([n l'] & E & J). cbn in E. subst l'. rewrite <- LN.
    pose proof (in_aget _ sE _ _ _ OK J) as Q. unfold language_for_name. now rewrite (ON _ _ Q). }
  unfold set_languages. rewrite L1. change (difference (languages_new []) (languages_new defs)) with (@nil language). cbn [fold_left]. fold ls.
  destruct (set_languages_loop ls (k_manager c1) p) as (m' & -> & NB' & T2 & L2 & G1 & G2); auto.
  { split; auto. unfold get_pair. now rewrite MC. }
  { intros l J. unfold get_pair. now rewrite MC. }
  cbn [bind]. unfold update_all_buffer_configs. cbn [m_buffers]. rewrite NB'. cbn [map update_buffers bind fst].
  eexists. split; [reflexivity|].
  assert (GP : get_pair m' General = Some p) by (rewrite G2 by discriminate; unfold get_pair; now rewrite MC).
  constructor; cbn [with_manager k_manager k_views k_pending k_next s_start s_open s_wait s_next].
  - constructor; cbn [m_languages m_tags s_user s_start].
    + reflexivity.
    + intros d q. change (get_pair m' d = Some q -> pair_ok q (s_user (s_start defs preferences files) d) (base_of base defs d)). destruct d as [|l| |]; cbn [s_start s_user base_of].
      * rewrite GP. intros [= <-]. exact PK.
      * destruct (definition_of defs l) as [df|] eqn:D.
        -- pose proof (IN _ _ D) as J. rewrite <- (definition_name _ _ _ D) at 1. rewrite (G1 df J). intros [= <-].
           unfold language_default. rewrite D.
           assert (W : pair_ok (with_base (l_default df)) nothing (match l_default df with Some t => given t | None => nothing end)).
           { apply (pair_ok_ext _ nothing _ (fun k => tget (table_or_default (l_default df)) k)); [reflexivity| |apply with_base_ok].
             intros k. destruct (l_default df); [symmetry; apply given_tget|reflexivity]. }
           unfold pair_for. rewrite (definition_name _ _ _ D). pose proof (F1 l) as K. destruct (files l) as [t|]; cbn [from_file keys_once_opt] in *; auto.
           destruct (acceptable t); auto. apply (set_table_ok _ nothing); auto. apply given_tget.
        -- rewrite G2; [unfold get_pair; rewrite MC; discriminate|]. intros l' J [= ->]. rewrite (NI l' J) in D. discriminate.
      * rewrite G2 by discriminate. unfold get_pair. rewrite MC. discriminate.
      * rewrite G2 by discriminate. unfold get_pair. rewrite MC. discriminate.
    + intros d. change (get_pair m' d = None -> forall k, s_user (s_start defs preferences files) d k = None /\ base_of base defs d k = None).
      destruct d as [|l| |]; cbn [s_start s_user base_of]; try (intros _ k; split; reflexivity).
      * rewrite GP. discriminate.
      * unfold language_default. destruct (definition_of defs l) as [df|] eqn:D; [|split; reflexivity].
        rewrite <- (definition_name _ _ _ D) at 1. rewrite (G1 df (IN _ _ D)). discriminate.
    + exists p. split; auto.
    + intros d. destruct d as [|l| |]; cbn [s_start s_user]; try (intros k x kd Q; discriminate); [now apply from_file_good|].
      destruct (definition_of defs l); [apply from_file_good; auto|intros k x kd Q; discriminate].
    + intros v. rewrite T2, T1. reflexivity.
  - constructor; cbn [with_buffers m_buffers]; rewrite ?NB'; [constructor| |reflexivity]. intros v H. discriminate.
  - exact V1.
  - now rewrite P1.
  - exact X1.
  - intros v [H|[]]. discriminate.
  - constructor.
Qed.
End Start.

Section Total.
Context (base : table) (defs : list language).
Context (B2 : complete base).
Local Notation setting := (setting base defs).
Local Notation s_step := (s_step base defs).
Local Notation s_run := (s_run base defs).
Local Notation announce := (announce base defs).
Local Notation strong := (strong defs).
Local Notation inv := (inv base defs).

Lemma given_null t k : no_null t -> given t k <> Some VNull.
Proof. intros N E. rewrite given_tget in E. apply (aget_in _ sE) in E. eapply N; eauto. Qed.
Lemma changed_null f t k : f k <> Some VNull -> changed_by f t k <> Some VNull.
Proof. intros H. unfold changed_by. destruct (given t k) as [[]|]; congruence. Qed.
Lemma strong_put s d f : strong s -> (forall k, f k <> Some VNull) -> strong (set_source s d f).
Proof.
  intros (A & B & C) F. split; [|split; auto]. intros e k. cbn [set_source s_user]. unfold put_source. destruct (domain_eqb e d); auto.
Qed.
Lemma strong_announce read s v : strong s -> strong (announce read s v).
Proof. intros H. unfold ConfigSpec.announce. destruct (_ && _); auto. apply strong_put; auto. intros k. apply changed_null. apply H. Qed.
Lemma strong_step s e : strong s -> event_sound e -> strong (s_step s e).
Proof.
  intros H E. destruct e; cbn [ConfigSpec.s_step event_sound] in *; try exact H.
  - destruct (opened s v); exact H.
  - destruct (_ && _); auto. apply strong_put; auto. intros k. apply changed_null. apply H.
  - destruct (opened s v); exact H.
  - destruct (domain_of_file defs stem); auto. destruct (acceptable t); auto. apply strong_put; auto. intros k. now apply given_null.
  - destruct (domain_of_file defs stem); auto. apply strong_put; auto. discriminate.
  - assert (K : forall l s0, strong s0 -> strong (fold_left (announce read) l s0)).
    { induction l as [|v l IH]; intros s0 Q; cbn [fold_left]; auto. apply IH. now apply strong_announce. }
    exact (K (s_wait s) s H).
Qed.
Lemma new_view_total c s p : inv c s -> strong s -> do_new_view c p <> None.
Proof.
  intros I (S1 & S2 & S3). unfold do_new_view, add_buffer. rewrite (in_next _ _ _ _ I).
  assert (NW : opened s (s_next s) = false).
  { destruct (opened s (s_next s)) eqn:X; auto. pose proof (in_old _ _ _ _ I _ (or_introl X)). lia. }
  rewrite (so_tags _ _ _ _ (in_sources _ _ _ _ I)), NW, (so_lang _ _ _ _ (in_sources _ _ _ _ I)).
  set (lang := match p with Some p => _ | None => PLAIN end).
  set (s' := s_step s (NewView p)).
  assert (EL : lang = s_path s' (s_next s)).
  { unfold lang, s'. cbn [ConfigSpec.s_step s_path]. rewrite put_same. destruct p as [p|]; auto. rewrite <- path_language.
    destruct (language_for_path _ p); auto. }
  set (m1 := with_tags _ _).
  assert (OP : forall v, opened s' v = (v =? s_next s) || opened s v) by reflexivity.
  assert (O1 : sources base defs m1 s').
  { destruct (in_sources _ _ _ _ I) as [a b d e g h]. constructor; auto.
    intros v. unfold m1. cbn [with_tags m_tags]. rewrite (aget_aset _ nE), OP, (Nat.eqb_sym v). destruct (s_next s =? v) eqn:X; cbn [orb].
    - apply Nat.eqb_eq in X. subst v. rewrite EL. unfold s'. cbn [ConfigSpec.s_step s_chosen]. now rewrite put_same.
    - rewrite h. assert (v <> s_next s) by (intros ->; rewrite Nat.eqb_refl in X; discriminate).
      unfold s'. cbn [ConfigSpec.s_step s_chosen s_path]. rewrite !put_other; auto. }
  unfold update_buffer_config. destruct (generate_buffer_config m1 (s_next s)) as [cf|] eqn:G; cbn [bind fst snd].
  - assert (BN : aget Nat.eqb (m_buffers m1) (s_next s) = None) by apply (bu_none _ _ _ _ (in_buffers _ _ _ _ I) _ NW).
    rewrite BN. cbn [changes_from bind fst snd]. unfold make_context, has_view. cbn [k_views existsb k_manager]. rewrite Nat.eqb_refl. cbn [orb].
    unfold get_buffer_config, get_buffer_language, m1. cbn [with_buffers with_tags m_buffers m_tags]. rewrite !(aget_aset _ nE), Nat.eqb_refl. cbn [bind]. discriminate.
  - exfalso. revert G. apply (generate_total base defs B2 m1 s'); auto. now rewrite OP, Nat.eqb_refl.
Qed.
Lemma retag_total c s s' v (changed : bool) : inv c s -> strong s -> opened s v = true ->
  s_user s' = s_user s -> s_open s' = s_open s -> (forall u, u <> v -> s_path s' u = s_path s u /\ s_chosen s' u = s_chosen s u) ->
  (let m := with_tags (k_manager c) (aset Nat.eqb (m_tags (k_manager c)) v {| t_detected := s_path s' v; t_user := s_chosen s' v |}) in
   if changed then update_buffer_config m v else Some (m, None)) <> None.
Proof.
  intros I (S1 & S2 & S3) W EU EO ET. cbv zeta. destruct changed; [|discriminate].
  pose proof (retag_sources base defs c s s' v I W EU EO ET) as O1. set (m1 := with_tags _ _) in *. unfold update_buffer_config.
  destruct (generate_buffer_config m1 v) eqn:G; [discriminate|]. exfalso. revert G. apply (generate_total base defs B2 m1 s'); auto.
  - unfold opened. rewrite EO. exact W.
  - now rewrite EU.
Qed.
Lemma save_total c s v p : inv c s -> strong s -> do_save c v p <> None.
Proof.
  intros I SS. unfold do_save. rewrite (inv_view base defs c s v I). destruct (opened s v) eqn:W; [|discriminate].
  rewrite (context_at base defs c s v I W). cbn [bind]. unfold update_buffer_path.
  rewrite (so_tags _ _ _ _ (in_sources _ _ _ _ I)), W, (so_lang _ _ _ _ (in_sources _ _ _ _ I)). cbn [bind].
  set (s' := s_step s (Save v p)).
  set (lang := match language_for_path _ _ with Some l => l_name l | None => EmptyString end).
  assert (ES : s' = {| s_user := s_user s; s_path := put (s_path s) v (match language_of_path defs p with Some l => l | None => EmptyString end);
     s_chosen := s_chosen s; s_open := s_open s; s_wait := s_wait s; s_next := s_next s |}).
  { unfold s'. cbn [ConfigSpec.s_step]. now rewrite W. }
  assert (EL : lang = s_path s' v).
  { unfold lang. rewrite ES. cbn [s_path]. rewrite put_same. rewrite <- path_language. destruct (language_for_path _ p); auto. }
  unfold set_detected, resolve. cbn [fst snd t_user t_detected]. rewrite EL.
  assert (EC : s_chosen s v = s_chosen s' v) by now rewrite ES.
  assert (ET : forall u, u <> v -> s_path s' u = s_path s u /\ s_chosen s' u = s_chosen s u).
  { intros u Q. rewrite ES. cbn [s_path s_chosen]. now rewrite put_other. }
  match goal with |- bind ?u _ <> _ => destruct u as [[m' o]|] eqn:U end; cbn [bind fst snd].
  - rewrite EC in U. apply (retag_ok base defs c s s' v _ m' o) in U; auto; try (now rewrite ES).
    2:{ intros E. apply negb_false_iff, sE in E. unfold language_of. rewrite EC. exact (eq_sym E). }
    destruct U as (I' & _). assert (W' : opened s' v = true) by (rewrite ES; exact W).
    pose proof (context_at base defs _ s' v I' W') as MC. pose proof (so_tags _ _ _ _ (in_sources _ _ _ _ I') v) as T. cbn [with_manager k_manager] in T.
    unfold get_buffer_language. rewrite T, W'. cbn [bind]. rewrite MC. cbn [bind]. discriminate.
  - exfalso. revert U. rewrite EC. apply (retag_total c s s' v); auto; now rewrite ES.
Qed.
Lemma set_language_total c s v l : inv c s -> strong s -> do_set_language c v l <> None.
Proof.
  intros I SS. unfold do_set_language. rewrite (inv_view base defs c s v I). destruct (opened s v) eqn:W; [|discriminate].
  unfold override_language. rewrite (so_tags _ _ _ _ (in_sources _ _ _ _ I)), W. cbn [bind].
  set (s' := s_step s (SetLanguage v l)).
  assert (ES : s' = {| s_user := s_user s; s_path := s_path s; s_chosen := put (s_chosen s) v (Some l);
     s_open := s_open s; s_wait := s_wait s; s_next := s_next s |}).
  { unfold s'. cbn [ConfigSpec.s_step]. now rewrite W. }
  assert (EL : Some l = s_chosen s' v) by (rewrite ES; cbn [s_chosen]; now rewrite put_same).
  unfold set_user. cbn [fst snd t_user t_detected].
  assert (EC : s_path s v = s_path s' v) by now rewrite ES.
  assert (ET : forall u, u <> v -> s_path s' u = s_path s u /\ s_chosen s' u = s_chosen s u).
  { intros u Q. rewrite ES. cbn [s_path s_chosen]. now rewrite put_other. }
  match goal with |- bind ?u _ <> _ => destruct u as [[m' o]|] eqn:U end; cbn [bind fst snd].
  - rewrite EC, EL in U. apply (retag_ok base defs c s s' v _ m' o) in U; auto; try (now rewrite ES).
    2:{ intros E. apply negb_false_iff in E. unfold language_of. rewrite <- EL in E |- *. destruct (s_chosen s v) as [x|]; [|discriminate].
        cbn in E. apply sE in E. now subst. }
    destruct U as (I' & _). assert (W' : opened s' v = true) by (rewrite ES; exact W).
    rewrite (context_at base defs _ s' v I' W'). cbn [bind]. discriminate.
  - exfalso. revert U. rewrite EC, EL. apply (retag_total c s s' v); auto; now rewrite ES.
Qed.
Lemma finalize_total read l : forall c s, inv c s -> strong s -> (forall v, In v (map fst l) -> opened s v = true) -> finalize_new_views c l read <> None.
Proof.
  induction l as [|[v t] l IH]; intros c s I SS OL; cbn [finalize_new_views]; [discriminate|].
  assert (W : opened s v = true) by (apply OL; now left).
  destruct (detect_whitespace c v t (read v)) as [[c1 o]|] eqn:D; cbn [bind fst snd].
  - apply (detect_ok base defs B2 c s v t read c1 o I) in D. cbv zeta in D. destruct D as (I1 & _ & _).
    rewrite (context_at base defs c1 _ v I1) by (rewrite announce_opened; auto). cbn [bind].
    destruct (finalize_new_views c1 l read) eqn:FN; [discriminate|]. exfalso. revert FN. apply (IH c1 (announce read s v) I1); [now apply strong_announce|].
    intros u J. rewrite announce_opened. apply OL. now right.
  - exfalso. unfold detect_whitespace in D. rewrite (inv_view base defs c s v I), W in D. destruct (f_empty (read v)); [discriminate|].
    unfold get_buffer_config in D. destruct (bu_some _ _ _ _ (in_buffers _ _ _ _ I) v W) as (cf & AG & S1 & S2). rewrite AG in D. cbn [bind] in D.
    destruct (tget (c_items cf) "autodetect_whitespace") as [[|[|]| | | | |]|]; try discriminate.
    destruct (update_ok base defs (k_manager c) s (SysOverride v) (detected_changes (read v)) (in_sources _ _ _ _ I) (detected_once _)) as (O & BU & ND & G & A).
    specialize (BU (in_buffers _ _ _ _ I)). cbv zeta in *. set (r := table_for_update _ _ _) in *.
    destruct (set_user_config (fst r) (SysOverride v) (snd r)) as [[m' q]|] eqn:U.
    + cbn [bind fst snd] in D. pose proof (set_user_ok base defs B2 (fst r) s (SysOverride v) (snd r) _ m' q O BU ND G U) as K. clear U.
      destruct q as [ch|]; [|discriminate]. destruct K as (_ & _ & _ & ND' & R1 & _). cbv zeta in *.
      destruct ch as [|[u1 t1] [|[u2 t2] rest]]; try discriminate.
      assert (ON : forall u t', In (u, t') ((u1, t1) :: (u2, t2) :: rest) -> u = v).
      { intros u t' J. destruct (Nat.eq_dec u v) as [|Q]; auto. exfalso. destruct (R1 u t' J) as (_ & _ & NE & X).
        destruct t' as [|[k x] t']; [auto|]. destruct (X k x) as [X1 _].
        assert (Y : tget ((k, x) :: t') k = Some x) by (unfold tget; cbn [aget]; now rewrite String.eqb_refl).
        apply X1 in Y. destruct Y as [Y1 Y2]. apply Y2. rewrite <- Y1. unfold ConfigSpec.setting, language_of.
        cbn [set_source s_user s_path s_chosen]. unfold put_source. cbn [domain_eqb]. now rewrite (e_neq _ nE). }
      cbn [map fst] in ND'. inversion ND' as [|? ? X _]; subst. apply X. left.
      rewrite (ON u1 t1 (or_introl eq_refl)). apply (ON u2 t2). right. now left.
    + revert U. apply (set_user_total base defs B2 _ s (SysOverride v) (snd r) _ O BU ND G). apply strong_put; auto.
      intros k. apply changed_null. apply SS.
Qed.
Lemma step_total c s e : inv c s -> strong s -> event_once e -> event_sound e -> in_time s e -> step c e <> None.
Proof.
  intros I SS EO ES IT. destruct e; cbn [step event_once event_sound in_time] in *.
  - eapply new_view_total; eauto.
  - eapply save_total; eauto.
  - unfold do_close_view. rewrite (inv_view base defs c s v I). destruct (opened s v) eqn:W; [|discriminate].
    rewrite (context_at base defs c s v I W). cbn [bind]. unfold remove_buffer. rewrite (so_tags _ _ _ _ (in_sources _ _ _ _ I)), W. discriminate.
  - unfold do_modify_user_config. destruct (match d with UserOverride v => has_view c v | SysOverride _ => false | _ => true end); [|discriminate].
    destruct (update_ok base defs (k_manager c) s d changes (in_sources _ _ _ _ I) EO) as (O & BU & ND & G & A). cbv zeta in *.
    apply (set_config_total base defs B2 _ s d _ (changed_by (s_user s d) changes)); auto.
    + apply inv_touch; auto. apply BU. apply (in_buffers _ _ _ _ I).
    + apply strong_put; auto. intros k. apply changed_null. apply SS.
  - eapply set_language_total; eauto.
  - unfold load_file_based_config. destruct (domain_for_path (k_manager c) stem) as [d|]; [|discriminate].
    apply (set_config_total base defs B2 _ s d _ (given t)); auto; [apply given_tget|]. apply strong_put; auto. intros k. now apply given_null.
  - unfold remove_config_at_path. destruct (domain_for_path (k_manager c) stem) as [d|]; [|discriminate].
    apply (set_config_total base defs B2 _ s d [] nothing); auto; [constructor|]. apply strong_put; auto. discriminate.
  - apply (finalize_total read (k_pending c) _ (nowait s)); auto.
    + destruct I as [a b d e f g h]. constructor; auto; [destruct a; now constructor|destruct b; now constructor| |constructor].
      intros v [W|[]]. apply g. now left.
    + intros v J. rewrite (in_wait _ _ _ _ I) in J. now apply IT.
Qed.
Lemma run_total es : forall c s, inv c s -> strong s -> Forall event_once es -> Forall event_sound es -> in_time_all base defs s es -> run c es <> None.
Proof.
  induction es as [|e es IH]; intros c s I SS EO ES IT; cbn [run]; [discriminate|]. inversion EO; inversion ES; subst. destruct IT as [T1 T2].
  destruct (step c e) as [[c1 m1]|] eqn:E; [|now elim (step_total c s e I SS)]. cbn [bind fst snd].
  destruct (run c1 es) eqn:R; [discriminate|]. exfalso. revert R. apply (IH c1 (s_step s e)); auto; [eapply step_inv; eauto|now apply strong_step].
Qed.
End Total.
