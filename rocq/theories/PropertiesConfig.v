(** C59: a buffer's settings are those of the most specific source that gives one, and the
    client is told of every change. *)
From Coq Require Import List Arith Bool String ZArith Lia.
From Verif Require Import Base DetectModel ConfigModel ConfigSpec ConfigProofs ConfigInv ConfigStep ConfigIdle ConfigRun ConfigTotal.
Import ListNotations.

Section Thms.
Context (base : table) (defs : list language) (preferences : option table) (files : string -> option table).
Context (B : complete base) (P : keys_once_opt preferences) (F : forall l, keys_once_opt (files l)).

(** The editor always starts, whatever the plugins and the files say. *)
Theorem C59_starts : exists c, start base defs preferences files = Some c.
Proof. destruct (start_ok base B files F defs preferences P) as (c & E & _). eauto. Qed.

Lemma at_start c : start base defs preferences files = Some c -> inv base defs c (s_start defs preferences files).
Proof. intros E. destruct (start_ok base B files F defs preferences P) as (c' & E' & I). congruence. Qed.
Lemma config_at c s v : inv base defs c s ->
  match get_config c v with
  | Some t => In v (s_open s) /\ (forall k, given t k = setting base defs s v k)
              /\ exists its, items c v = Some its /\ forall k kd, In (k, kd) fields ->
                   given its k = setting base defs s v k /\ exists x, setting base defs s v k = Some x /\ fits kd x = true
  | None => ~ In v (s_open s)
  end.
Proof.
  intros I. unfold get_config, items. rewrite (inv_view base defs c s v I). destruct (opened s v) eqn:W; [|rewrite <- (opened_in s v), W; discriminate].
  unfold get_buffer_config. destruct (bu_some _ _ _ _ (in_buffers _ _ _ _ I) v W) as (cf & -> & S1 & S2). cbn [bind]. split; [now apply opened_in|].
  split; [intros k; unfold to_table; now rewrite given_tget, collate_get|]. exists (c_items cf). split; auto. intros k kd J. rewrite given_tget. now apply S2.
Qed.

(** After any events, an open view has for every key the value of the first of: what was set for
    the view, what was found in its text, what was set for its language, the language's defaults,
    the general preferences, the editor's defaults. This is what [get_config] says, and for the
    keys the editor knows what it goes by; each of those has a value of the right type. *)
Theorem C59_settings es c0 c ms : Forall event_once es ->
  start base defs preferences files = Some c0 -> run c0 es = Some (c, ms) ->
  let s := s_run base defs (s_start defs preferences files) es in
  forall v,
  match get_config c v with
  | Some t => In v (s_open s) /\ (forall k, given t k = setting base defs s v k)
              /\ exists its, items c v = Some its /\ forall k kd, In (k, kd) fields ->
                   given its k = setting base defs s v k /\ exists x, setting base defs s v k = Some x /\ fits kd x = true
  | None => ~ In v (s_open s)
  end.
Proof. intros E H R s v. apply config_at. unfold s. eapply run_inv; eauto. now apply at_start. Qed.

(** A client that keeps what it is told has every setting of every view that has been announced,
    if it is told no change for the view before the view is announced; and it knows the view's
    language. *)
Theorem C59_client_partial es c0 c ms : Forall event_once es ->
  start base defs preferences files = Some c0 -> run c0 es = Some (c, ms) ->
  let s := s_run base defs (s_start defs preferences files) es in
  forall v t, get_config c v = Some t -> ~ In v (s_wait s) -> starts_first v ms ->
  forall k x, given t k = Some x -> client v ms k = Some x.
Proof.
  intros E H R s v t G NW SF k x K. pose proof (at_start c0 H) as I0.
  pose proof (run_inv base defs B es c0 _ c ms I0 E R) as I. fold s in I. pose proof (config_at c s v I) as CA. rewrite G in CA.
  destruct CA as (O & S & _). apply opened_in in O.
  assert (T0 : told base defs [] c0 (s_start defs preferences files)).
  { constructor; [reflexivity| |]; intros u; intros; discriminate. }
  pose proof (run_told base defs B es [] c0 _ c ms I0 T0 E R) as T. fold s in T. cbn [app] in T.
  apply (to_have _ _ _ _ _ T v O NW); auto. now rewrite <- S.
Qed.
Theorem C59_client_language es c0 c ms : Forall event_once es ->
  start base defs preferences files = Some c0 -> run c0 es = Some (c, ms) ->
  let s := s_run base defs (s_start defs preferences files) es in
  forall v, In v (s_open s) -> ~ In v (s_wait s) -> client_language v ms = Some (language_of s v).
Proof.
  intros E H R s v O NW. pose proof (at_start c0 H) as I0. apply opened_in in O.
  assert (T0 : told base defs [] c0 (s_start defs preferences files)).
  { constructor; [reflexivity| |]; intros u; intros; discriminate. }
  pose proof (run_told base defs B es [] c0 _ c ms I0 T0 E R) as T. fold s in T. cbn [app] in T.
  apply (to_have _ _ _ _ _ T v O NW).
Qed.

(** What one event reports of a view open before and after it: nothing, and then every setting it
    has it had before; or one table, of exactly the settings that are new or have a new value. *)
Theorem C59_reports es e c0 c ms c' ms' : Forall event_once es -> event_once e -> (forall read, e <> Idle read) ->
  start base defs preferences files = Some c0 -> run c0 es = Some (c, ms) -> step c e = Some (c', ms') ->
  forall v t t', get_config c v = Some t -> get_config c' v = Some t' ->
  (filter (settings_for v) ms' = [] /\ forall k x, given t' k = Some x -> given t k = Some x)
  \/ exists u, filter (settings_for v) ms' = [Changed v u] /\ u <> []
       /\ forall k x, given u k = Some x <-> given t' k = Some x /\ given t k <> Some x.
Proof.
  intros E E1 NI H R S v t t' G G'. pose proof (run_inv base defs B es c0 _ c ms (at_start c0 H) E R) as I.
  set (s := s_run _ _ _ es) in I.
  assert (PL : plain e) by (destruct e; try exact Logic.I; now elim (NI read)).
  destruct (plain_ok base defs B c s e c' ms' I E1 PL S) as (I' & (T1 & _ & _) & _). cbv zeta in *.
  pose proof (config_at c s v I) as A. rewrite G in A. destruct A as (O & A & _).
  pose proof (config_at c' _ v I') as A'. rewrite G' in A'. destruct A' as (O' & A' & _).
  destruct (T1 v (proj2 (opened_in _ _) O) (proj2 (opened_in _ _) O')) as (o & RP & FI). rewrite FI.
  destruct o as [u|].
  - right. exists u. split; [reflexivity|]. destruct RP as (_ & NE & X). split; auto. intros k x. rewrite A, A', given_tget. apply X.
  - left. split; [reflexivity|]. intros k x. rewrite A, A'. apply RP.
Qed.

(** A table with a bad setting is refused as a whole: there is an alert and no view's settings
    change. *)
Definition offers (c : core) (e : event) : option table :=
  match e with
  | ModifyUserConfig (UserOverride v) t => match get_config c v with Some _ => Some t | None => None end
  | ModifyUserConfig (SysOverride _) _ => None
  | ModifyUserConfig _ t => Some t
  | ConfigFile _ t => Some t
  | _ => None
  end.
Theorem C59_bad_table_refused es e c0 c ms t : Forall event_once es -> event_once e ->
  start base defs preferences files = Some c0 -> run c0 es = Some (c, ms) ->
  offers c e = Some t -> acceptable t = false ->
  exists c', step c e = Some (c', [Alert]) /\ forall v, get_config c' v = get_config c v.
Proof.
  intros E E1 H R O A. pose proof (run_inv base defs B es c0 _ c ms (at_start c0 H) E R) as I. set (s := s_run _ _ _ es) in I.
  assert (SET : forall c1 d t1, inv base defs c1 s -> NoDup (map fst t1) -> acceptable t1 = false -> set_config c1 d t1 = Some (c1, [Alert])).
  { intros c1 d t1 I1 N1 A1. unfold set_config, set_user_config.
    rewrite (check_ok base defs B _ s t1 (in_sources _ _ _ _ I1) N1), A1. cbn [bind fst snd]. now destruct c1. }
  assert (MOD : forall d, event_once (ModifyUserConfig d t) ->
     exists c', (let r := table_for_update (k_manager c) d t in set_config (with_manager c (fst r)) d (snd r)) = Some (c', [Alert])
                /\ forall v, get_config c' v = get_config c v).
  { intros d K. cbv zeta. destruct (update_ok base defs (k_manager c) s d t (in_sources _ _ _ _ I) K) as (Q1 & Q2 & Q3 & _ & Q5). cbv zeta in *.
    rewrite SET; auto; [|apply inv_touch; auto; apply Q2; apply (in_buffers _ _ _ _ I)|congruence]. eexists. split; [reflexivity|]. reflexivity. }
  destruct e; cbn [offers] in O; try discriminate.
  - cbn [step]. unfold do_modify_user_config. destruct d; try discriminate.
    + injection O as ->. now apply MOD.
    + injection O as ->. now apply MOD.
    + unfold get_config in O. destruct (has_view c b); [|discriminate].
      destruct (bind (get_buffer_config (k_manager c) b) _); [|discriminate]. injection O as ->. now apply MOD.
  - injection O as ->. cbn [step]. unfold load_file_based_config. destruct (domain_for_path (k_manager c) stem); [|exists c; auto].
    rewrite SET; auto. exists c. auto.
Qed.

(** Nothing panics, if the plugins' defaults are acceptable and no view is closed before it is
    announced. *)
Theorem C59_no_panic_partial es c0 : Forall event_once es -> Forall event_sound es ->
  no_null_opt preferences -> (forall l, no_null_opt (files l)) -> defaults_sound defs ->
  start base defs preferences files = Some c0 ->
  in_time_all base defs (s_start defs preferences files) es -> run c0 es <> None.
Proof.
  intros E1 E2 NP NF DS H IT. apply (run_total base defs B es c0 (s_start defs preferences files)); auto; [now apply at_start|].
  assert (FF : forall t k, no_null_opt t -> from_file t k <> Some VNull).
  { intros t k N. destruct t as [t|]; cbn [from_file]; [|discriminate]. destruct (acceptable t); [|discriminate]. now apply given_null. }
  assert (DD : forall l, match definition_of defs l with Some d => match l_default d with Some t => keys_once t /\ acceptable t = true /\ no_null t | None => True end | None => True end).
  { intros l. destruct (definition_of defs l) as [d|] eqn:D; auto. destruct (l_default d) as [t|] eqn:T; auto. apply (DS d t); auto.
    apply find_some in D. destruct D as [D _]. now apply in_rev. }
  split; [|split].
  - intros d k. destruct d as [|l| |]; cbn [s_start s_user]; try discriminate; [now apply FF|].
    destruct (definition_of defs l); [now apply FF|discriminate].
  - intros l. unfold language_default. specialize (DD l). destruct (definition_of defs l) as [d|]; [|intros k x kd Q; discriminate].
    destruct (l_default d) as [t|]; [|intros k x kd Q; discriminate]. destruct DD as (D1 & D2 & _). now apply acceptable_good.
  - intros l k. unfold language_default. specialize (DD l). destruct (definition_of defs l) as [d|]; [|discriminate].
    destruct (l_default d) as [t|]; [|discriminate]. destruct DD as (_ & _ & D3). now apply given_null.
Qed.
End Thms.
Print Assumptions C59_starts.
Print Assumptions C59_settings.
Print Assumptions C59_client_partial.
Print Assumptions C59_client_language.
Print Assumptions C59_reports.
(** What is found in a text are these settings. *)
Theorem C59_detected f k : given (detected_changes f) k = found_setting f k.
Proof.
  assert (N : forall a b : string, String.eqb a b = false -> String.eqb a k = true -> String.eqb b k = true -> False).
  { intros a b E E1 E2. apply String.eqb_eq in E1, E2. subst. now rewrite String.eqb_refl in E. }
  unfold found_setting, detected_changes. rewrite !(String.eqb_sym k).
  pose proof (N "translate_tabs_to_spaces"%string "tab_size"%string eq_refl) as N1.
  pose proof (N "translate_tabs_to_spaces"%string "line_ending"%string eq_refl) as N2. pose proof (N "tab_size"%string "line_ending"%string eq_refl) as N3.
  rewrite given_tget. unfold CRLF_S, LF_S. destruct (f_indent f) as [| |[|n]]; destruct (f_ending f) as [| |[|]]; cbv zeta; unfold tget, tset;
    rewrite ?(aget_aset String.eqb sE); cbn [aget];
    destruct (String.eqb "translate_tabs_to_spaces" k); destruct (String.eqb "tab_size" k); destruct (String.eqb "line_ending" k); auto; exfalso; auto.
Qed.
Print Assumptions C59_detected.
Example C59_detected_case : given (detected_changes {| f_empty := false; f_indent := Found (Spaces 3); f_ending := Found CrLf |}) "tab_size"%string = Some (VInt 3).
Proof. reflexivity. Qed.
Print Assumptions C59_bad_table_refused.
Print Assumptions C59_no_panic_partial.

(** The editor's own defaults are complete. *)
Lemma default_complete : complete default_table.
Proof. apply complete_ok. vm_compute. discriminate. Qed.

(** A history that meets the hypotheses: a Rust file indented by two spaces, with preferences, a
    plugin's defaults, the user's file for the language, and settings for the view. *)
Section Case.
Local Open Scope string_scope.
Definition rust : language := {| l_name := "Rust"; l_extensions := ["rs"]; l_default := Some [("tab_size", VInt 8); ("wrap_width", VInt 100)] |}.
Definition plain_text : language := {| l_name := "Plain Text"; l_extensions := ["txt"]; l_default := Some [("word_wrap", VBool true)] |}.
Definition prefs : table := [("font_size", VInt 18); ("word_wrap", VBool true); ("x_mine", VInt 1)].
Definition user_files (l : string) : option table := if l =? "Rust" then Some [("wrap_width", VInt 80); ("font_size", VInt 12)] else None.
Definition two_spaces (_ : nat) : found := {| f_empty := false; f_indent := Found (Spaces 2); f_ending := Found Lf |}.
Definition no_text (_ : nat) : found := {| f_empty := true; f_indent := Nothing; f_ending := Nothing |}.
Definition case : list event :=
  [NewView (Some "rs"); Idle two_spaces; ModifyUserConfig (UserOverride 1) [("font_size", VInt 20)];
   ModifyUserConfig General [("tab_size", VInt 0)]; ConfigFile "preferences" [("word_wrap", VBool false)];
   NewView None; Idle no_text; SetLanguage 2 "Rust"; ModifyUserConfig (UserOverride 1) [("font_size", VNull)]].
Definition setup := start default_table [rust; plain_text] (Some prefs) user_files.
Definition ran (es : list event) : option (core * list message) := let? c := setup in run c es.
(** The settings a view has, by [get_config], and those the client has. *)
Definition view_has (es : list event) (v : nat) (k : string) : option (option value) :=
  let? r := ran es in let? t := get_config (fst r) v in Some (given t k).
Definition client_has (es : list event) (v : nat) (k : string) : option (option value) :=
  let? r := ran es in Some (client v (snd r) k).
Example C59_case :
  map (view_has case 1) ["tab_size"; "wrap_width"; "font_size"; "word_wrap"; "x_mine"; "auto_indent"]
    = [Some (Some (VInt 2)); Some (Some (VInt 80)); Some (Some (VInt 12)); Some (Some (VBool false)); Some None; Some (Some (VBool true))]
  /\ map (view_has case 2) ["tab_size"; "wrap_width"; "font_size"; "word_wrap"]
    = [Some (Some (VInt 8)); Some (Some (VInt 80)); Some (Some (VInt 12)); Some (Some (VBool false))]
  /\ map (client_has case 1) ["tab_size"; "wrap_width"; "font_size"; "word_wrap"]
    = map (view_has case 1) ["tab_size"; "wrap_width"; "font_size"; "word_wrap"]
  /\ map (client_has case 2) ["tab_size"; "wrap_width"; "font_size"; "word_wrap"]
    = map (view_has case 2) ["tab_size"; "wrap_width"; "font_size"; "word_wrap"].
Proof. vm_compute. repeat split. Qed.
Ltac keys_differ := unfold keys_once; cbn [map fst]; repeat (constructor; [cbn [In]; intuition discriminate|]); constructor.
Example C59_hypotheses :
  complete default_table /\ keys_once_opt (Some prefs) /\ (forall l, keys_once_opt (user_files l))
  /\ Forall event_once case /\ Forall event_sound case /\ no_null_opt (Some prefs) /\ (forall l, no_null_opt (user_files l))
  /\ defaults_sound [rust; plain_text]
  /\ in_time_all default_table [rust; plain_text] (s_start [rust; plain_text] (Some prefs) user_files) case
  /\ (exists c ms, ran case = Some (c, ms) /\ starts_first 1 ms /\ starts_first 2 ms).
Proof.
  split; [apply default_complete|]. split; [cbn; keys_differ|].
  split; [intros l; unfold user_files; destruct (l =? "Rust"); [cbn; keys_differ|exact Logic.I]|].
  split; [repeat (constructor; [first [exact Logic.I|cbn; keys_differ]|]); constructor|].
  split; [repeat (constructor; [first [exact Logic.I|intros k J; cbn in J; intuition discriminate]|]); constructor|].
  split; [intros k J; cbn in J; intuition discriminate|].
  split; [intros l; unfold user_files; destruct (l =? "Rust"); [intros k J; cbn in J; intuition discriminate|exact Logic.I]|].
  split. { intros d t [<-|[<-|[]]] [= <-]; (split; [cbn; keys_differ|split; [vm_compute; reflexivity|intros k J; cbn in J; intuition discriminate]]). }
  split.
  { cbn [in_time_all in_time case]. repeat split.
    - intros v J. vm_compute in J. destruct J as [<-|[]]. vm_compute. reflexivity.
    - intros v J. vm_compute in J. destruct J as [<-|[]]. vm_compute. reflexivity. }
  assert (X : match ran case with Some (c, ms) => (match filter (settings_for 1) ms with Initial 1 _ :: _ => true | _ => false end)
                 && (match filter (settings_for 2) ms with Initial 2 _ :: _ => true | _ => false end) | None => false end = true) by (vm_compute; reflexivity).
  destruct (ran case) as [[c ms]|]; [|discriminate]. exists c, ms. split; auto. apply andb_true_iff in X. destruct X as [X1 X2]. unfold starts_first. split.
  - destruct (filter (settings_for 1) ms) as [|[[|[|]] t| | |] q]; try discriminate. now exists t, q.
  - destruct (filter (settings_for 2) ms) as [|[[|[|[|]]] t| | |] q]; try discriminate. now exists t, q.
Qed.

(** What does not hold. A setting that changes between a view's creation and its announcement
    goes to the client and is then overwritten by the value from before the change. *)
Definition hurried : list event := [NewView None; ModifyUserConfig General [("tab_size", VInt 8)]; Idle no_text].
Theorem C59_client_refuted :
  view_has hurried 1 "tab_size" = Some (Some (VInt 8)) /\ client_has hurried 1 "tab_size" = Some (Some (VInt 4)).
Proof. split; vm_compute; reflexivity. Qed.
(** A key of the user's own that is taken away is not reported: the client keeps it. *)
Definition taken_away : list event :=
  [NewView None; Idle no_text; ModifyUserConfig General [("x_new", VInt 1)]; ModifyUserConfig General [("x_new", VNull)]].
Theorem C59_taken_away_refuted :
  view_has taken_away 1 "x_new" = Some None /\ client_has taken_away 1 "x_new" = Some (Some (VInt 1)).
Proof. split; vm_compute; reflexivity. Qed.
(** Closing a view before it is announced stops the editor. *)
Theorem C59_close_refuted : ran [NewView None; CloseView 1] <> None /\ ran [NewView None; CloseView 1; Idle no_text] = None.
Proof. split; vm_compute; [discriminate|reflexivity]. Qed.
(** A plugin whose defaults have a bad setting stops the editor when a file of its language is opened. *)
Definition bad : language := {| l_name := "Bad"; l_extensions := ["bad"]; l_default := Some [("tab_size", VInt 0)] |}.
Theorem C59_plugin_defaults_refuted :
  exists c, start default_table [bad] None (fun _ => None) = Some c /\ run c [NewView (Some "txt")] <> None /\ run c [NewView (Some "bad")] = None.
Proof. eexists. split; [vm_compute; reflexivity|]. split; vm_compute; [discriminate|reflexivity]. Qed.
(** A file saved under a name no plugin knows does not have the language and the settings the
    same file has when it is opened. *)
Theorem C59_save_as_refuted :
  let es := [NewView None; Idle no_text; Save 1 "unknown"; NewView (Some "unknown"); Idle no_text; ConfigFileRemoved "preferences"] in
  view_has es 1 "word_wrap" = Some (Some (VBool false)) /\ view_has es 2 "word_wrap" = Some (Some (VBool true)).
Proof. split; vm_compute; reflexivity. Qed.
End Case.
Print Assumptions C59_client_refuted.
Print Assumptions C59_taken_away_refuted.
Print Assumptions C59_close_refuted.
Print Assumptions C59_plugin_defaults_refuted.
Print Assumptions C59_save_as_refuted.
