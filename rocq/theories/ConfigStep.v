(** Every event keeps the sheet, and what the client is told by it. *)
From Coq Require Import List Arith Bool String ZArith Lia.
From Verif Require Import Base DetectModel ConfigModel ConfigSpec ConfigProofs ConfigInv.
Import ListNotations.

Section Step.
Context (base : table) (defs : list language).
Context (B2 : complete base).
Local Notation setting := (setting base defs).
Local Notation s_step := (s_step base defs).
Local Notation report := (report base defs).
Local Notation sources := (sources base defs).
Local Notation buffers := (buffers base defs).
Local Notation strong := (strong defs).

Record inv (c : core) (s : sheet) : Prop := {
  in_sources : sources (k_manager c) s;
  in_buffers : buffers (k_manager c) s;
  in_views : k_views c = s_open s;
  in_wait : map fst (k_pending c) = s_wait s;
  in_next : k_next c = s_next s;
  in_old : forall v, opened s v = true \/ In v (s_wait s) -> v < s_next s;
  in_once : NoDup (s_wait s) }.

Lemma inv_view c s v : inv c s -> has_view c v = opened s v.
Proof. intros I. unfold has_view, opened. now rewrite (in_views _ _ I). Qed.
Lemma context_at c s v : inv c s -> opened s v = true -> make_context c v = Some (language_of s v).
Proof.
  intros I W. unfold make_context. rewrite (inv_view c s v I), W. unfold get_buffer_config, get_buffer_language.
  destruct (bu_some _ _ _ _ (in_buffers _ _ I) v W) as (cf & -> & _). cbn [bind].
  rewrite (so_tags _ _ _ _ (in_sources _ _ I)), W. reflexivity.
Qed.
Lemma context_some c s v l : inv c s -> make_context c v = Some l -> opened s v = true /\ l = language_of s v.
Proof.
  intros I H. destruct (opened s v) eqn:W.
  - split; auto. rewrite (context_at c s v I W) in H. congruence.
  - unfold make_context in H. rewrite (inv_view c s v I), W in H. discriminate.
Qed.

(** What an event tells the client about one view's settings. *)
Definition one (v : nat) (o : option table) : list message := match o with Some t => [Changed v t] | None => [] end.
Definition no_told (ms : list message) : Prop := forall v l, ~ In (Told v l) ms.
Definition tells (s s' : sheet) (ms : list message) : Prop :=
  (forall v, opened s v = true -> opened s' v = true ->
     exists o, report s s' v o /\ filter (settings_for v) ms = one v o)
  /\ (forall v, opened s v = false -> filter (settings_for v) ms = [])
  /\ (forall v t, ~ In (Initial v t) ms).

Lemma report_refl s v : report s s v None. Proof. intros k x H. exact H. Qed.
Lemma report_same s s' v : (forall k, setting s' v k = setting s v k) -> report s s' v None.
Proof. intros H k x. now rewrite H. Qed.
Lemma tells_nil s s' : (forall v, opened s v = true -> opened s' v = true -> forall k, setting s' v k = setting s v k) -> tells s s' [].
Proof. intros H. split; [|split; auto]. intros v A B. exists None. split; [|reflexivity]. apply report_same. auto. Qed.

Lemma handle_eq c ch ms : handle_config_changes c ch = Some ms -> ms = map (fun p => Changed (fst p) (snd p)) ch.
Proof.
  revert ms. induction ch as [|[v t] ch IH]; intros ms H; cbn [handle_config_changes] in H; [now injection H as <-|].
  destruct (make_context c v); cbn [bind] in H; [|discriminate]. destruct (handle_config_changes c ch); cbn [bind] in H; [|discriminate].
  injection H as <-. cbn [map fst snd]. f_equal. now apply IH.
Qed.
Lemma handle_total c s ch : inv c s -> (forall v u, In (v, u) ch -> opened s v = true) -> handle_config_changes c ch <> None.
Proof.
  intros I. induction ch as [|[v t] ch IH]; intros H; cbn [handle_config_changes]; [discriminate|].
  rewrite (context_at c s v I) by (eapply H; now left). cbn [bind].
  destruct (handle_config_changes c ch); [discriminate|]. intros _. apply IH; auto. intros w u J. apply (H w u). now right.
Qed.
Lemma changed_filter v (ch : list (nat * table)) : NoDup (map fst ch) ->
  filter (settings_for v) (map (fun p => Changed (fst p) (snd p)) ch) = one v (aget Nat.eqb ch v).
Proof.
  induction ch as [|[u t] ch IH]; cbn [map fst snd filter settings_for aget]; intros N; [reflexivity|].
  inversion N as [|? ? A B]; subst. destruct (u =? v) eqn:X; auto. apply Nat.eqb_eq in X. subst. rewrite IH by auto.
  destruct (aget Nat.eqb ch v) eqn:Y; auto. elim A. apply (aget_key _ nE). eauto.
Qed.

(** Setting a domain. *)
Lemma set_config_ok c s d t f c' ms : inv c s -> NoDup (map fst t) -> (forall k, f k = tget t k) ->
  set_config c d t = Some (c', ms) ->
  let s' := if acceptable t then set_source s d f else s in
  inv c' s' /\ tells s s' ms /\ k_pending c' = k_pending c /\ no_told ms /\ (acceptable t = false -> c' = c /\ ms = [Alert]).
Proof.
  intros I N F H. cbv zeta. unfold set_config in H. destruct (set_user_config (k_manager c) d t) as [[m' r]|] eqn:U; cbn [bind fst snd] in H; [|discriminate].
  apply (set_user_ok base defs B2 _ s d t f) in U; auto; [|apply (in_sources _ _ I)|apply (in_buffers _ _ I)].
  destruct r as [ch|].
  - destruct U as (A & O & BU & ND & R1 & R2). rewrite A. cbv zeta in *.
    destruct (handle_config_changes _ ch) as [ms'|] eqn:HC; cbn [bind] in H; [|discriminate]. injection H as <- <-.
    apply handle_eq in HC. subst ms'.
    split; [destruct I; constructor; auto|]. split; [|split; [auto|split; [|discriminate]]].
    + split; [|split].
      * intros v W _. rewrite changed_filter by auto. exists (aget Nat.eqb ch v). split; auto.
        destruct (aget Nat.eqb ch v) as [u|] eqn:AG.
        -- apply (aget_in _ nE) in AG. now apply R1.
        -- apply R2; auto. intros u J. apply (in_aget _ nE) in J; auto. congruence.
      * intros v W. rewrite changed_filter by auto. destruct (aget Nat.eqb ch v) as [u|] eqn:AG; auto.
        apply (aget_in _ nE) in AG. apply R1 in AG. destruct AG. congruence.
      * intros v u J. apply in_map_iff in J. destruct J as (? & ? & _). discriminate.
    + intros v l J. apply in_map_iff in J. destruct J as (? & ? & _). discriminate.
  - destruct U as [A ->]. rewrite A. injection H as <- <-.
    assert (E : with_manager c (k_manager c) = c) by now destruct c. rewrite E. split; auto. split; [|split; [auto|split; [|auto]]].
    + split; [|split; [reflexivity|]]. { intros v _ _. exists None. split; [apply report_refl|reflexivity]. }
      intros v u [J|[]]. discriminate.
    + intros v l [J|[]]. discriminate.
Qed.
Lemma set_config_total c s d t f : inv c s -> NoDup (map fst t) -> (forall k, f k = tget t k) ->
  strong (set_source s d f) -> set_config c d t <> None.
Proof.
  intros I N F G. unfold set_config. destruct (set_user_config (k_manager c) d t) as [[m' r]|] eqn:U.
  - cbn [bind fst snd]. pose proof U as U'.
    apply (set_user_ok base defs B2 _ s d t f) in U; auto; [|apply (in_sources _ _ I)|apply (in_buffers _ _ I)].
    destruct r as [ch|]; [|discriminate]. destruct U as (A & O & BU & ND & R1 & R2). cbv zeta in *.
    assert (I' : inv (with_manager c m') (set_source s d f)) by (destruct I; constructor; auto).
    destruct (handle_config_changes (with_manager c m') ch) eqn:HC; [discriminate|]. exfalso. revert HC.
    apply (handle_total _ _ _ I'). intros v u J. now apply (R1 v u).
  - exfalso. revert U. apply (set_user_total base defs B2 _ s d t f); auto; [apply (in_sources _ _ I)|apply (in_buffers _ _ I)].
Qed.

(** One event other than the idle handler. *)
Definition plain (e : event) : Prop := match e with Idle _ => False | _ => True end.
Definition pends (c c' : core) (s s' : sheet) : Prop :=
  k_pending c' = k_pending c
  \/ exists t, k_pending c' = k_pending c ++ [(s_next s, t)] /\ NoDup (map fst t) /\ forall k, tget t k = setting s' (s_next s) k.
(** What an event tells the client about a view's language. *)
Definition told_to (v : nat) (m : message) : bool := match m with Told u _ => u =? v | _ => false end.
Definition languages_told (s s' : sheet) (ms : list message) : Prop :=
  forall v, opened s' v = true ->
    (filter (told_to v) ms = [] /\ (opened s v = true -> language_of s' v = language_of s v))
    \/ filter (told_to v) ms = [Told v (language_of s' v)].
Lemma no_told_ok s s' ms : no_told ms -> (forall v, opened s v = true -> language_of s' v = language_of s v) -> languages_told s s' ms.
Proof.
  intros N L v W. left. split; auto. induction ms as [|m ms IH]; auto. cbn [filter].
  assert (T : told_to v m = false).
  { destruct m; auto. elim (N v0 l). now left. }
  rewrite T. apply IH. intros u l J. apply (N u l). now right.
Qed.
Lemma put_same {X} (f : nat -> X) v x : put f v x v = x. Proof. unfold put. now rewrite Nat.eqb_refl. Qed.
Lemma put_other {X} (f : nat -> X) v x u : u <> v -> put f v x u = f u.
Proof. intros H. unfold put. destruct (u =? v) eqn:E; auto. apply Nat.eqb_eq in E. congruence. Qed.
Lemma opened_in s v : opened s v = true <-> In v (s_open s).
Proof.
  unfold opened. rewrite existsb_exists. split; [intros (u & I & E); apply Nat.eqb_eq in E; now subst|]. intros I. exists v. split; auto. apply Nat.eqb_refl.
Qed.
Lemma setting_of s s' v k : s_user s' = s_user s -> language_of s' v = language_of s v -> setting s' v k = setting s v k.
Proof. intros U L. unfold ConfigSpec.setting. now rewrite U, L. Qed.
Lemma path_language p : (match language_for_path (languages_new defs) p with Some l => Some (l_name l) | None => None end) = language_of_path defs p.
Proof. destruct (languages_ok defs) as (_ & _ & L). rewrite L. reflexivity. Qed.

Lemma new_view_ok c s p c' ms : inv c s -> do_new_view c p = Some (c', ms) ->
  let s' := s_step s (NewView p) in inv c' s' /\ tells s s' ms /\ pends c c' s s' /\ languages_told s s' ms.
Proof.
  intros I H. cbv zeta. unfold do_new_view, add_buffer in H. rewrite (in_next _ _ I) in H.
  assert (NW : opened s (s_next s) = false).
  { destruct (opened s (s_next s)) eqn:X; auto. pose proof (in_old _ _ I _ (or_introl X)). lia. }
  rewrite (so_tags _ _ _ _ (in_sources _ _ I)), NW, (so_lang _ _ _ _ (in_sources _ _ I)) in H.
  set (lang := match p with Some p => _ | None => PLAIN end) in H.
  set (s' := s_step s (NewView p)).
  assert (EL : lang = s_path s' (s_next s)).
  { unfold lang, s'. cbn [ConfigSpec.s_step s_path]. rewrite put_same. destruct p as [p|]; auto. rewrite <- path_language.
    destruct (language_for_path _ p); auto. }
  set (m1 := with_tags _ _) in H.
  assert (OP : forall v, opened s' v = (v =? s_next s) || opened s v) by reflexivity.
  assert (O1 : sources m1 s').
  { destruct (in_sources _ _ I) as [a b d e g h]. constructor; auto.
    intros v. unfold m1. cbn [with_tags m_tags]. rewrite (aget_aset _ nE), OP, (Nat.eqb_sym v). destruct (s_next s =? v) eqn:X; cbn [orb].
    - apply Nat.eqb_eq in X. subst v. rewrite EL. unfold s'. cbn [ConfigSpec.s_step s_chosen]. now rewrite put_same.
    - rewrite h. assert (v <> s_next s) by (intros ->; rewrite Nat.eqb_refl in X; discriminate).
      unfold s'. cbn [ConfigSpec.s_step s_chosen s_path]. rewrite !put_other; auto. }
  assert (OW : opened s' (s_next s) = true) by (rewrite OP, Nat.eqb_refl; auto).
  assert (SS : forall v k, v <> s_next s -> setting s' v k = setting s v k).
  { intros v k Q. apply setting_of; auto. unfold language_of, s'. cbn [ConfigSpec.s_step s_chosen s_path]. now rewrite !put_other. }
  unfold update_buffer_config in H. destruct (generate_buffer_config m1 (s_next s)) as [cf|] eqn:G; cbn [bind fst snd] in H; [|discriminate].
  pose proof (generated base defs m1 s' _ _ O1 OW G) as HS.
  assert (BN : aget Nat.eqb (m_buffers m1) (s_next s) = None) by apply (bu_none _ _ _ _ (in_buffers _ _ I) _ NW).
  rewrite BN in H. cbn [changes_from bind fst snd] in H.
  match type of H with context [make_context ?c0 ?v] => destruct (make_context c0 v) as [l|] eqn:MC end; cbn [bind] in H; [|discriminate].
  injection H as <- <-. cbn [k_manager k_views k_pending k_next] in *.
  split; [|split; [|split]].
  - constructor; cbn [k_manager k_views k_pending k_next].
    + destruct O1 as [a b d e g h]. constructor; auto.
    + constructor; cbn [with_buffers m_buffers].
      * apply (aset_nodup _ nE). apply (bu_once _ _ _ _ (in_buffers _ _ I)).
      * intros v W. rewrite (aget_aset _ nE). destruct (s_next s =? v) eqn:X; [apply Nat.eqb_eq in X; subst; exists cf; auto|].
        assert (Q : v <> s_next s) by (intros ->; rewrite Nat.eqb_refl in X; discriminate).
        rewrite OP in W. rewrite Nat.eqb_sym, X in W. cbn [orb] in W. destruct (bu_some _ _ _ _ (in_buffers _ _ I) v W) as (cu & AG & S1 & S2).
        exists cu. split; auto. split; [intros k; rewrite SS by auto; auto|]. intros k kd J. rewrite SS by auto. now apply S2.
      * intros v W. rewrite OP in W. apply orb_false_iff in W. destruct W as [W1 W2]. rewrite (aget_aset _ nE).
        rewrite Nat.eqb_sym, W1. now apply (bu_none _ _ _ _ (in_buffers _ _ I)).
    + cbn. now rewrite (in_views _ _ I).
    + rewrite map_app. cbn. now rewrite (in_wait _ _ I).
    + reflexivity.
    + intros v. rewrite OP. change (s_wait s') with (s_wait s ++ [s_next s]). change (s_next s') with (s_next s + 1). rewrite in_app_iff. intros W.
      destruct (v =? s_next s) eqn:X; [apply Nat.eqb_eq in X; lia|]. cbn [orb] in W.
      assert (v < s_next s); [|lia]. apply (in_old _ _ I). destruct W as [W|[W|[W|[]]]]; auto. subst. rewrite Nat.eqb_refl in X. discriminate.
    + change (s_wait s') with (s_wait s ++ [s_next s]). pose proof (in_once _ _ I) as N.
      assert (NI : ~ In (s_next s) (s_wait s)) by (intros J; pose proof (in_old _ _ I _ (or_intror J)); lia).
      clear - N NI. induction (s_wait s) as [|a l IH]; cbn; [constructor; [easy|constructor]|]. inversion N; subst. constructor.
      * rewrite in_app_iff. intros [J|[J|[]]]; [auto|]. subst. apply NI. now left.
      * apply IH; auto. intros J. apply NI. now right.
  - apply tells_nil. intros v W _ k. apply SS. intros ->. congruence.
  - right. exists (collate (c_source cf)). split; auto. split; [apply collate_nodup|]. intros k. rewrite collate_get. apply HS.
  - apply no_told_ok; [intros v u []|]. intros v W. unfold language_of, s'. cbn [ConfigSpec.s_step s_chosen s_path]. rewrite !put_other; auto; intros ->; congruence.
Qed.

Lemma retag_sources c s s' v : inv c s -> opened s v = true -> s_user s' = s_user s -> s_open s' = s_open s ->
  (forall u, u <> v -> s_path s' u = s_path s u /\ s_chosen s' u = s_chosen s u) ->
  sources (with_tags (k_manager c) (aset Nat.eqb (m_tags (k_manager c)) v {| t_detected := s_path s' v; t_user := s_chosen s' v |})) s'.
Proof.
  intros I W EU EO ET. assert (OP : opened s' = opened s) by (unfold opened; now rewrite EO).
  destruct (in_sources _ _ I) as [a b d e g h]. constructor; try rewrite EU; auto.
  intros u. cbn [with_tags m_tags]. rewrite (aget_aset _ nE), OP. destruct (v =? u) eqn:X.
  - apply Nat.eqb_eq in X. subst u. now rewrite W.
  - assert (Q : u <> v) by (intros ->; rewrite Nat.eqb_refl in X; discriminate). destruct (ET u Q) as [-> ->]. apply h.
Qed.
Lemma retag_ok c s s' v (changed : bool) m' o : inv c s -> opened s v = true ->
  s_user s' = s_user s -> s_open s' = s_open s -> s_wait s' = s_wait s -> s_next s' = s_next s ->
  (forall u, u <> v -> s_path s' u = s_path s u /\ s_chosen s' u = s_chosen s u) ->
  (changed = false -> language_of s' v = language_of s v) ->
  (let m := with_tags (k_manager c) (aset Nat.eqb (m_tags (k_manager c)) v {| t_detected := s_path s' v; t_user := s_chosen s' v |}) in
   if changed then update_buffer_config m v else Some (m, None)) = Some (m', o) ->
  inv (with_manager c m') s' /\ report s s' v o /\ (forall u k, u <> v -> setting s' u k = setting s u k)
  /\ (forall u, u <> v -> language_of s' u = language_of s u).
Proof.
  intros I W EU EO EW EN ET EL H. cbv zeta in H. set (m1 := with_tags _ _) in H.
  assert (OP : opened s' = opened s) by (unfold opened; now rewrite EO).
  assert (LL : forall u, u <> v -> language_of s' u = language_of s u).
  { intros u Q. unfold language_of. destruct (ET u Q) as [-> ->]. reflexivity. }
  assert (SS : forall u k, u <> v -> setting s' u k = setting s u k) by (intros; apply setting_of; auto).
  pose proof (retag_sources c s s' v I W EU EO ET) as O1. cbv zeta in O1. fold m1 in O1.
  assert (C : sources m' s' /\ buffers m' s' /\ report s s' v o).
  { destruct changed.
    - apply (update_one_ok base defs (k_manager c) m1 s s' v m' o); auto. apply (in_buffers _ _ I).
    - injection H as <- <-. split; auto. specialize (EL eq_refl). assert (SV : forall u k, setting s' u k = setting s u k).
      { intros u k. destruct (Nat.eq_dec u v) as [->|Q]; auto. apply setting_of; auto. }
      split; [|apply report_same; auto]. destruct (in_buffers _ _ I) as [a b d]. constructor; cbn [m1 with_tags m_buffers]; auto; rewrite OP; auto.
      intros u Wu. destruct (b u Wu) as (cf & AG & S1 & S2). exists cf. split; auto. split; [intros k; rewrite SV; auto|].
      intros k kd J. rewrite SV. now apply S2. }
  destruct C as (C1 & C2 & C3). split; [|auto].
  destruct I as [a b d e f g h]. constructor; cbn [with_manager k_manager k_views k_pending k_next]; rewrite ?EO, ?EW, ?EN, ?OP; auto.
Qed.
Lemma tells_one s s' v o l : opened s v = true -> report s s' v o -> opened s' = opened s -> (forall u k, u <> v -> setting s' u k = setting s u k) ->
  tells s s' (Told v l :: match o with Some t => [Changed v t] | None => [] end).
Proof.
  intros W R OP SS. split; [|split].
  - intros u Wu _. destruct (Nat.eq_dec u v) as [->|Q].
    + exists o. split; auto. cbn [filter settings_for]. destruct o; cbn [filter settings_for one]; auto. now rewrite Nat.eqb_refl.
    + exists None. split; [apply report_same; auto|]. cbn [filter settings_for]. destruct o; cbn [filter settings_for one]; auto.
      rewrite (e_neq _ nE); auto.
  - intros u Wu. cbn [filter settings_for]. destruct o; cbn [filter settings_for]; auto. rewrite (e_neq _ nE); auto. congruence.
  - intros u t [J|J]; [discriminate|]. destruct o; [destruct J as [J|[]]; discriminate|easy].
Qed.
Lemma told_one s s' v o l : l = language_of s' v -> (forall u, u <> v -> language_of s' u = language_of s u) ->
  languages_told s s' (Told v l :: match o with Some t => [Changed v t] | None => [] end).
Proof.
  intros -> LL u W. assert (E : filter (told_to u) (match o with Some t => [Changed v t] | None => [] end) = []) by (destruct o; reflexivity).
  cbn [filter told_to]. rewrite E. destruct (v =? u) eqn:X.
  - apply Nat.eqb_eq in X. subst. now right.
  - left. split; auto. intros _. apply LL. intros ->. rewrite Nat.eqb_refl in X. discriminate.
Qed.
Lemma save_ok c s v p c' ms : inv c s -> do_save c v p = Some (c', ms) ->
  let s' := s_step s (Save v p) in inv c' s' /\ tells s s' ms /\ pends c c' s s' /\ languages_told s s' ms.
Proof.
  intros I H. cbv zeta. cbn [ConfigSpec.s_step]. unfold do_save in H. rewrite (inv_view c s v I) in H. destruct (opened s v) eqn:W.
  2:{ injection H as <- <-. split; auto. split; [now apply tells_nil|]. split; [now left|]. apply no_told_ok; auto. intros ? ? []. }
  rewrite (context_at c s v I W) in H. cbn [bind] in H. unfold update_buffer_path in H.
  rewrite (so_tags _ _ _ _ (in_sources _ _ I)), W, (so_lang _ _ _ _ (in_sources _ _ I)) in H. cbn [bind] in H.
  set (s' := Build_sheet _ _ _ _ _ _).
  set (lang := match language_for_path _ _ with Some l => l_name l | None => EmptyString end) in H.
  assert (EL : lang = s_path s' v).
  { unfold lang, s'. cbn [s_path]. rewrite put_same. rewrite <- path_language. destruct (language_for_path _ p); auto. }
  unfold set_detected, resolve in H. cbn [fst snd t_user t_detected] in H. rewrite EL in H.
  match type of H with bind ?u _ = _ => destruct u as [[m' o]|] eqn:U end; cbn [bind fst snd] in H; [|discriminate].
  apply (retag_ok c s s' v _ m' o) in U; auto.
  2:{ intros u Q. unfold s'. cbn [s_path s_chosen]. now rewrite put_other. }
  2:{ intros E. apply negb_false_iff, sE in E. unfold language_of. exact (eq_sym E). }
  destruct U as (I' & R & SS & LL).
  match type of H with bind ?u _ = _ => destruct u as [l|] eqn:GL end; cbn [bind] in H; [|discriminate].
  rewrite (context_at _ s' v I') in H by exact W. cbn [bind] in H. injection H as <- <-.
  split; auto. split; [now apply tells_one|]. split; [now left|]. apply told_one; auto.
  unfold get_buffer_language in GL. pose proof (so_tags _ _ _ _ (in_sources _ _ I') v) as T. cbn [with_manager k_manager] in T.
  change (opened s' v) with (opened s v) in T. rewrite T, W in GL. cbn [bind] in GL. injection GL as <-. reflexivity.
Qed.
Lemma set_language_ok c s v l c' ms : inv c s -> do_set_language c v l = Some (c', ms) ->
  let s' := s_step s (SetLanguage v l) in inv c' s' /\ tells s s' ms /\ pends c c' s s' /\ languages_told s s' ms.
Proof.
  intros I H. cbv zeta. cbn [ConfigSpec.s_step]. unfold do_set_language in H. rewrite (inv_view c s v I) in H. destruct (opened s v) eqn:W.
  2:{ injection H as <- <-. split; auto. split; [now apply tells_nil|]. split; [now left|]. apply no_told_ok; auto. intros ? ? []. }
  unfold override_language in H.
  rewrite (so_tags _ _ _ _ (in_sources _ _ I)), W in H. cbn [bind] in H.
  set (s' := Build_sheet _ _ _ _ _ _).
  assert (EL : Some l = s_chosen s' v) by (unfold s'; cbn [s_chosen]; now rewrite put_same).
  unfold set_user in H. cbn [fst snd t_user t_detected] in H.
  match type of H with bind ?u _ = _ => destruct u as [[m' o]|] eqn:U end; cbn [bind fst snd] in H; [|discriminate].
  rewrite EL in U. change (s_path s v) with (s_path s' v) in U.
  apply (retag_ok c s s' v _ m' o) in U; auto.
  2:{ intros u Q. unfold s'. cbn [s_path s_chosen]. now rewrite put_other. }
  2:{ intros E. apply negb_false_iff in E. unfold language_of. rewrite <- EL in E |- *. destruct (s_chosen s v) as [x|]; [|discriminate].
      cbn in E. apply sE in E. now subst. }
  destruct U as (I' & R & SS & LL).
  rewrite (context_at _ s' v I') in H by exact W. cbn [bind] in H. injection H as <- <-.
  split; auto. split; [now apply tells_one|]. split; [now left|]. apply told_one; auto.
  unfold language_of. now rewrite <- EL.
Qed.
Lemma close_ok c s v c' ms : inv c s -> do_close_view c v = Some (c', ms) ->
  let s' := s_step s (CloseView v) in inv c' s' /\ tells s s' ms /\ pends c c' s s' /\ languages_told s s' ms.
Proof.
  intros I H. cbv zeta. cbn [ConfigSpec.s_step]. set (s' := Build_sheet _ _ _ _ _ _).
  assert (OP : forall u, opened s' u = negb (u =? v) && opened s u).
  { intros u. unfold opened, s'. cbn [s_open]. induction (s_open s) as [|a l IH]; cbn [filter existsb]; [now rewrite andb_false_r|].
    destruct (a =? v) eqn:X; cbn [negb existsb].
    - rewrite IH. apply Nat.eqb_eq in X. subst. destruct (u =? v) eqn:Y; cbn [negb andb orb]; auto.
    - rewrite IH. destruct (u =? a) eqn:Y; cbn [orb]; auto. apply Nat.eqb_eq in Y. subst. now rewrite X. }
  assert (ms = [] /\ inv c' s' /\ k_pending c' = k_pending c) as (-> & I' & P).
  { unfold do_close_view in H. rewrite (inv_view c s v I) in H. destruct (opened s v) eqn:W.
    - rewrite (context_at c s v I W) in H. cbn [bind] in H. unfold remove_buffer in H.
      rewrite (so_tags _ _ _ _ (in_sources _ _ I)), W in H. cbn [bind] in H. injection H as <- <-. split; auto. split; auto.
      destruct I as [a b d e f g h]. constructor; cbn [k_manager k_views k_pending k_next]; auto.
      + destruct a as [a1 a2 a3 a4 a5 a6]. constructor; auto. intros u. cbn [with_buffers with_tags m_tags]. rewrite (aget_arem _ nE), OP, a6.
        rewrite (Nat.eqb_sym u). destruct (v =? u); auto.
      + destruct b as [b1 b2 b3]. constructor; cbn [with_buffers m_buffers].
        * now apply arem_nodup.
        * intros u Wu. rewrite OP in Wu. apply andb_true_iff in Wu. destruct Wu as [W1 W2]. rewrite (aget_arem _ nE).
          rewrite Nat.eqb_sym. destruct (u =? v); [discriminate|]. now apply b2.
        * intros u Wu. rewrite OP in Wu. rewrite (aget_arem _ nE), Nat.eqb_sym. destruct (u =? v); auto.
      + cbn. now rewrite d.
      + intros u. rewrite OP. intros [Wu|Wu]; apply g; auto. apply andb_true_iff in Wu. tauto.
    - injection H as <- <-. split; auto. split; auto.
      assert (ES : s_open s' = s_open s).
      { unfold s'. cbn [s_open]. assert (NI : ~ In v (s_open s)) by (rewrite <- opened_in; congruence). clear - NI.
        induction (s_open s) as [|a l IH]; auto. cbn [filter]. rewrite (e_neq _ nE) by (intros ->; apply NI; now left). cbn [negb]. f_equal. apply IH.
        intros J. apply NI. now right. }
      assert (EO : opened s' = opened s) by (unfold opened; now rewrite ES).
      destruct I as [[a1 a2 a3 a4 a5 a6] [b1 b2 b3] d e f g h]. constructor; auto; try (rewrite ES; auto); try (rewrite EO; auto).
      + constructor; auto. now rewrite EO.
      + constructor; auto; rewrite EO; auto. }
  split; auto. split; [apply tells_nil; reflexivity|]. split; [now left|]. apply no_told_ok; [intros ? ? []|reflexivity].
Qed.
Lemma domain_file m s stem : sources m s -> domain_for_path m stem = domain_of_file defs stem.
Proof.
  intros O. unfold domain_for_path, domain_of_file. rewrite (so_lang _ _ _ _ O). destruct (languages_ok defs) as (_ & L & _). rewrite L.
  destruct (String.eqb stem "preferences"); auto. destruct (definition_of defs stem) eqn:D; auto. now rewrite (definition_name _ _ _ D).
Qed.
Lemma set_ok c s d t f c' ms : inv c s -> NoDup (map fst t) -> (forall k, f k = tget t k) ->
  set_config c d t = Some (c', ms) ->
  let s' := if acceptable t then set_source s d f else s in inv c' s' /\ tells s s' ms /\ pends c c' s s' /\ languages_told s s' ms.
Proof.
  intros I N F H. destruct (set_config_ok c s d t f c' ms I N F H) as (A & B & C & D & _). split; auto. split; auto. split; [now left|].
  apply no_told_ok; auto. intros v _. now destruct (acceptable t).
Qed.
Lemma nothing_ok c s : inv c s -> inv c s /\ tells s s [] /\ pends c c s s /\ languages_told s s [].
Proof. intros I. split; auto. split; [now apply tells_nil|]. split; [now left|]. apply no_told_ok; auto. intros ? ? []. Qed.
Lemma alert_ok c s : inv c s -> inv c s /\ tells s s [Alert] /\ pends c c s s /\ languages_told s s [Alert].
Proof.
  intros I. split; auto. split; [|split; [now left|apply no_told_ok; auto; intros ? ? [J|[]]; discriminate]].
  split; [|split; [reflexivity|intros v t [J|[]]; discriminate]]. intros v _ _. exists None. split; [apply report_refl|reflexivity].
Qed.
Lemma inv_touch c s m : inv c s -> sources m s -> buffers m s -> inv (with_manager c m) s.
Proof. intros [] A B. constructor; auto. Qed.
(** Every event but the idle handler. *)
Lemma plain_ok c s e c' ms : inv c s -> event_once e -> plain e -> step c e = Some (c', ms) ->
  let s' := s_step s e in inv c' s' /\ tells s s' ms /\ pends c c' s s' /\ languages_told s s' ms.
Proof.
  intros I EO P H. destruct e; cbn [step plain event_once] in *.
  - now apply new_view_ok.
  - now apply save_ok.
  - now apply close_ok.
  - cbv zeta. cbn [ConfigSpec.s_step]. unfold do_modify_user_config in H.
    assert (K : match d with UserOverride v => has_view c v | SysOverride _ => false | _ => true end
                = match d with UserOverride v => opened s v | SysOverride _ => false | _ => true end).
    { destruct d; auto. now apply inv_view. }
    rewrite K in H. destruct (match d with UserOverride v => opened s v | SysOverride _ => false | _ => true end); [|injection H as <- <-; now apply nothing_ok].
    destruct (update_ok base defs (k_manager c) s d changes (in_sources _ _ I) EO) as (O & BU & ND & G & A). cbv zeta in *.
    rewrite <- A. cbn [andb].
    apply (set_ok (with_manager c (fst (table_for_update (k_manager c) d changes))) s d _ (changed_by (s_user s d) changes)); auto.
    apply inv_touch; auto. apply BU. apply (in_buffers _ _ I).
  - now apply set_language_ok.
  - cbv zeta. cbn [ConfigSpec.s_step]. unfold load_file_based_config in H. rewrite (domain_file _ s _ (in_sources _ _ I)) in H.
    destruct (domain_of_file defs stem) as [d|]; [|injection H as <- <-; now apply alert_ok].
    apply (set_ok c s d t (given t)); auto. intros k. apply given_tget.
  - cbv zeta. cbn [ConfigSpec.s_step]. unfold remove_config_at_path in H. rewrite (domain_file _ s _ (in_sources _ _ I)) in H.
    destruct (domain_of_file defs stem) as [d|]; [|injection H as <- <-; now apply nothing_ok].
    apply (set_ok c s d [] nothing) in H; auto. constructor.
  - easy.
Qed.
End Step.
