(** C64: who is told of changes in the file system. *)
From Coq Require Import List Arith Bool Lia ZifyBool.
From Verif Require Import WatchModel WatchSpec WatchProofs.
Import ListNotations.

(** An event is for those it concerns: their path, what is in it or, if they asked for it, all below; and their
    filter decides. *)
Theorem C64_wants : forall w e, wants_event w e = true <-> concerned w e.
Proof. exact wants_ok. Qed.
Print Assumptions C64_wants.

(** Every history leaves one list of those who watch. *)
Theorem C64_registered : forall h, exists l, registered h l /\ forall l', registered h l' -> l' = l.
Proof. intros h. exists (s_watchees (after h)). split; [apply registered_after|]. intros l' R. symmetry. now apply registered_ok. Qed.
Print Assumptions C64_registered.

(** An event that arrives is kept for each of those who watch and whom it concerns, once for each watch, in the order
    of asking, behind all that came before; the editor is woken up once. *)
Theorem C64_arrives : forall h e l, no_error h -> registered h l ->
  exists l', told (h ++ [Receive (Some e)]) = told h ++ map (fun w => (w_token w, e)) l' /\
    l' = filter (fun w => wants_event w e) l /\ (forall w, In w l' <-> In w l /\ concerned w e) /\
    handed_out (h ++ [Receive (Some e)]) = handed_out h /\
    s_notified (after (h ++ [Receive (Some e)])) = S (s_notified (after h)).
Proof.
  intros h e l N R. exists (filter (fun w => wants_event w e) l). rewrite told_snoc, (alive_ok h N), (registered_ok h l R). split; [reflexivity|]. split; [reflexivity|]. split; [|split].
  - intros w. rewrite filter_In, wants_ok. reflexivity.
  - rewrite handed_snoc. apply app_nil_r.
  - rewrite after_snoc. unfold receive. rewrite (alive_ok h N). cbn. lia.
Qed.
Print Assumptions C64_arrives.
(** Nothing else adds to, takes away or reorders what is told; taking the events hands out all that were kept, so that
    none is lost or handed out twice; and nothing else hands out any, or wakes the editor. *)
Theorem C64_taken : forall h o, (forall e, o <> Receive (Some e)) ->
  told (h ++ [o]) = told h /\
  (o = Take -> handed_out (h ++ [o]) = told h /\ s_events (after (h ++ [o])) = []) /\
  (o <> Take -> handed_out (h ++ [o]) = handed_out h) /\
  s_notified (after (h ++ [o])) = s_notified (after h).
Proof.
  intros h o N. split; [|split; [|split]].
  - rewrite told_snoc. destruct o as [g c r t f|p t| |[e|]]; rewrite ?app_nil_r; auto. now destruct (N e).
  - intros ->. rewrite handed_snoc, after_snoc. auto.
  - intros NT. rewrite handed_snoc. destruct o; rewrite ?app_nil_r; auto. congruence.
  - rewrite after_snoc. destruct o as [g [p|] r t f|p t| |[e|]]; auto; [|now destruct (N e)|unfold receive; destruct (s_alive (after h)); reflexivity].
    unfold unwatch. destruct (take_out _ _) as [[? ?]|]; reflexivity.
Qed.
Print Assumptions C64_taken.

(** Who asked for a path and has not called it off is told of every event that concerns it. *)
Theorem C64_watched : forall h1 g p r t f h2 e, no_error (h1 ++ Watch g (Some p) r t f :: h2) -> ~ In (Unwatch p t) h2 ->
  concerned (Watchee p r t f) e -> In (t, e) (told (h1 ++ Watch g (Some p) r t f :: h2 ++ [Receive (Some e)])).
Proof.
  intros h1 g p r t f h2 e N U C.
  assert (I : In (Watchee p r t f) (s_watchees (after (h1 ++ Watch g (Some p) r t f :: h2)))).
  { clear N C. induction h2 as [|o h2 IH] using rev_ind.
    - rewrite after_snoc. cbn. apply in_or_app. right. now left.
    - assert (U' : ~ In (Unwatch p t) h2) by (intros H; apply U, in_or_app; auto). specialize (IH U').
      replace (h1 ++ Watch g (Some p) r t f :: h2 ++ [o]) with ((h1 ++ Watch g (Some p) r t f :: h2) ++ [o]) by (rewrite <- app_assoc; reflexivity).
      rewrite after_snoc. destruct o as [g' [p'|] r' t' f'|p' t'| |e']; auto.
      + cbn. apply in_or_app. auto.
      + rewrite unwatch_list. destruct (take_out _ _) as [[w ws]|] eqn:T; auto. apply take_out_some in T as (l1 & l2 & E & -> & Hw & _). rewrite E in IH. apply in_app_or in IH as [IH|[IH|IH]]; apply in_or_app; auto.
        subst w. apply of_ok in Hw as [E1 E2]. cbn in *. subst. exfalso. apply U, in_or_app. right. now left.
      + unfold receive. destruct (s_alive _); [destruct e'|]; auto. }
  replace (h1 ++ Watch g (Some p) r t f :: h2 ++ [Receive (Some e)]) with ((h1 ++ Watch g (Some p) r t f :: h2) ++ [Receive (Some e)]) by (rewrite <- app_assoc; reflexivity).
  rewrite told_snoc, (alive_ok _ N). apply in_or_app. right. apply in_map_iff. exists (Watchee p r t f). split; auto. apply filter_In. split; auto. now apply wants_ok.
Qed.
Print Assumptions C64_watched.

(** Nobody is told of anything but an event that arrived after they asked for a path it concerns. *)
Theorem C64_only : forall h t e, In (t, e) (told h) ->
  exists h1 h2 g p r f, h = h1 ++ Receive (Some e) :: h2 /\ In (Watch g (Some p) r t f) h1 /\ concerned (Watchee p r t f) e.
Proof.
  assert (Asked : forall h w, In w (s_watchees (after h)) -> exists g, In (Watch g (Some (w_path w)) (w_recursive w) (w_token w) (w_filter w)) h).
  { induction h as [|o h IH] using rev_ind; intros w; [intros []|]. rewrite after_snoc. assert (K : In w (s_watchees (after h)) -> exists g, In (Watch g (Some (w_path w)) (w_recursive w) (w_token w) (w_filter w)) (h ++ [o])) by (intros H; apply IH in H as [g H]; exists g; apply in_or_app; auto).
    destruct o as [g [p|] r t f|p t| |e]; auto.
    - cbn. intros H. apply in_app_or in H as [H|[<-|[]]]; auto. exists g. apply in_or_app. right. now left.
    - rewrite unwatch_list. destruct (take_out _ _) as [[x ws]|] eqn:T; auto. apply take_out_some in T as (l1 & l2 & E & -> & _). intros H. apply K. rewrite E. apply in_app_or in H as [H|H]; apply in_or_app; [auto|right; now right].
    - unfold receive. destruct (s_alive (after h)); [destruct e|]; auto. }
  induction h as [|o h IH] using rev_ind; intros t e H; [destruct H|]. rewrite told_snoc in H. apply in_app_or in H as [H|H].
  - destruct (IH t e H) as (h1 & h2 & g & p & r & f & -> & I & C). exists h1, (h2 ++ [o]), g, p, r, f. split; auto. now rewrite <- app_assoc.
  - destruct o as [g c r t' f|p t'| |[e'|]]; try destruct H. destruct (s_alive (after h)); [|destruct H]. apply in_map_iff in H as ([p r t' f] & E & Hw). inversion E; subst. apply filter_In in Hw as [Hw C]. apply Asked in Hw as [g Hg]. exists h, [], g, p, r, f. split; auto. split; auto. now apply wants_ok.
Qed.
Print Assumptions C64_only.

(** Who asked for a path once and calls it off is told nothing more on its account: after the call no watch of theirs for
    the path is left until they ask again. Only those are: everyone else's watches are as before. *)
Definition asks (p : path) (t : nat) (o : op) : bool := match o with Watch _ (Some q) _ u _ => (u =? t) && path_eqb q p | _ => false end.
Theorem C64_unwatched : forall h1 p t h2 l, length (filter (asks p t) h1) <= 1 -> filter (asks p t) h2 = [] ->
  registered (h1 ++ Unwatch p t :: h2) l -> forall w, In w l -> ~ of t p w.
Proof.
  intros h1 p t h2 l A1 A2 R.
  set (cnt := fun ws => length (filter (fun w => (w_token w =? t) && path_eqb (w_path w) p) ws)).
  assert (Step : forall h o, cnt (s_watchees (after (h ++ [o]))) <= cnt (s_watchees (after h)) + (if asks p t o then 1 else 0)).
  { intros h o. rewrite after_snoc. unfold cnt. destruct o as [g [q|] r u f|q u| |e]; try (cbn; lia).
    - cbn. rewrite filter_app, app_length. cbn. destruct ((u =? t) && path_eqb q p); cbn; lia.
    - rewrite unwatch_list. destruct (take_out _ _) as [[x ws]|] eqn:T; [|lia]. apply take_out_some in T as (l1 & l2 & -> & -> & _). rewrite !filter_app, !app_length. cbn. destruct (_ && _); cbn; lia.
    - unfold receive. destruct (s_alive (after h)); [destruct e|]; cbn; lia. }
  assert (C1 : forall h, cnt (s_watchees (after h)) <= length (filter (asks p t) h)).
  { induction h as [|o h IH] using rev_ind; [cbn; lia|]. pose proof (Step h o). rewrite filter_app, app_length. cbn. destruct (asks p t o); cbn in *; lia. }
  assert (C2 : cnt (s_watchees (after (h1 ++ [Unwatch p t]))) = 0).
  { rewrite after_snoc, unwatch_list. specialize (C1 h1). unfold cnt in *. destruct (take_out _ _) as [[x ws]|] eqn:T.
    - apply take_out_some in T as (l1 & l2 & E & -> & Hx & _). rewrite E, filter_app, app_length in C1. cbn in C1. rewrite Hx in C1. cbn in C1. rewrite filter_app, app_length. lia.
    - apply take_out_none in T. clear -T. induction T as [|x ws Hx T IH]; auto. cbn. now rewrite Hx. }
  assert (C3 : forall h2, filter (asks p t) h2 = [] -> cnt (s_watchees (after (h1 ++ Unwatch p t :: h2))) = 0).
  { clear -Step C2. induction h2 as [|o h2 IH] using rev_ind; intros A; auto. rewrite filter_app in A. apply app_eq_nil in A as [A1 A2]. specialize (IH A1). pose proof (Step (h1 ++ Unwatch p t :: h2) o) as S. rewrite <- app_assoc in S. cbn [app] in S. cbn in A2. destruct (asks p t o); [discriminate|]. lia. }
  specialize (C3 h2 A2). rewrite (registered_ok _ _ R) in C3. intros w Hw O. apply of_ok in O. unfold cnt in C3. assert (I : In w (filter (fun w => (w_token w =? t) && path_eqb (w_path w) p) l)) by (apply filter_In; auto). destruct (filter _ l); [destruct I|discriminate].
Qed.
Print Assumptions C64_unwatched.

(** The system is asked to watch exactly the paths somebody watches: every such path, and none that nobody watches any
    more; and recursively only where somebody asked for that. *)
Theorem C64_paths : forall h l, registered h l ->
  (forall w, In w l -> exists m, In (w_path w, m) (s_inner (after h))) /\
  (forall p m, In (p, m) (s_inner (after h)) -> exists w, In w l /\ w_path w = p /\ (m = true -> w_recursive w = true)).
Proof. intros h l R. destruct (covers_after h) as [A O]. rewrite (registered_ok h l R) in A, O. auto. Qed.
Print Assumptions C64_paths.
(** Where all who watch a path want the same mode, each has it. Missing: paths watched in both modes, see below. *)
Theorem C64_modes_partial : forall modes h l, (forall g p r t f, In (Watch g (Some p) r t f) h -> r = modes p) -> registered h l ->
  forall w, In w l -> In (w_path w, w_recursive w) (s_inner (after h)).
Proof.
  intros modes h l M R w Hw. destruct (modes_after modes h M) as [A O]. destruct (covers_after h) as [C _]. rewrite (registered_ok h l R) in A, C. destruct (C w Hw) as [m Hm]. rewrite (A w Hw), <- (O _ _ Hm). exact Hm.
Qed.
Print Assumptions C64_modes_partial.

(** Who asks to watch a directory recursively that somebody already watches, but not recursively, is registered but the
    system is never asked to watch what is below. *)
Theorem C64_modes_refuted : exists h w, registered h [Watchee (w_path w) false 1 None; w] /\ w_recursive w = true /\
  forall m, In (w_path w, m) (s_inner (after h)) -> m = false.
Proof.
  exists ([] ++ [Watch [7] (Some [7]) false 1 None] ++ [Watch [7] (Some [7]) true 2 None]), (Watchee [7] true 2 None). split; [|split].
  - rewrite app_assoc. apply (reg_watch _ [Watchee [7] false 1 None]). apply (reg_watch [] []). constructor.
  - reflexivity.
  - intros m H. vm_compute in H. destruct H as [H|[]]. congruence.
Qed.
Print Assumptions C64_modes_refuted.
(** One error from the system ends it: events that arrive later are told to nobody. *)
Theorem C64_errors_refuted : forall h1 h2, told (h1 ++ Receive None :: h2) = told h1.
Proof.
  intros h1 h2. assert (D : s_alive (after (h1 ++ Receive None :: h2)) = false /\ told (h1 ++ Receive None :: h2) = told h1); [|tauto].
  induction h2 as [|o h2 [IH1 IH2]] using rev_ind.
  - rewrite after_snoc, told_snoc, app_nil_r. split; auto. unfold receive. destruct (s_alive (after h1)) eqn:E; auto.
  - replace (h1 ++ Receive None :: h2 ++ [o]) with ((h1 ++ Receive None :: h2) ++ [o]) by (rewrite <- app_assoc; reflexivity). rewrite after_snoc, told_snoc, IH1, IH2. split.
    + destruct o as [g [p|] r t f|p t| |e]; auto; [unfold unwatch; destruct (take_out _ _) as [[? ?]|]; auto|unfold receive; now rewrite IH1].
    + destruct o as [g c r t f|p t| |[e|]]; apply app_nil_r.
Qed.
Print Assumptions C64_errors_refuted.
(** A watch is called off by the path the system found, not by the one it was asked for: with a link the same call that
    began it does not end it. *)
Theorem C64_links_refuted : forall h g p r t f, g <> p -> (forall w l, registered h l -> In w l -> ~ of t g w) ->
  forall l, registered (h ++ [Watch g (Some p) r t f]) l -> registered ((h ++ [Watch g (Some p) r t f]) ++ [Unwatch g t]) l.
Proof.
  intros h g p r t f N A l R. apply reg_not_watched; auto. assert (E : l = s_watchees (after h) ++ [Watchee p r t f]) by (rewrite <- (registered_ok _ _ R), after_snoc; reflexivity). subst l.
  apply Forall_forall. intros w Hw. apply in_app_or in Hw as [Hw|[<-|[]]]; [exact (A w _ (registered_after h) Hw)|]. intros [_ E]. cbn in E. congruence.
Qed.
Print Assumptions C64_links_refuted.

(** ** Cases *)
Local Definition file : event := Event ModifyAny [[7; 8]].
Local Definition deep : event := Event CreateAny [[7; 8; 9]].
Local Definition history : list op := [Watch [7] (Some [7]) false 1 None; Watch [7] (Some [7]) true 2 None; Watch [7; 8] (Some [7; 8]) false 3 (Some (fun p => length p =? 2))].
Example told_ex : told (history ++ [Receive (Some file); Take; Receive (Some deep)]) = [(1, file); (2, file); (3, file); (2, deep)].
Proof. reflexivity. Qed.
Example handed_ex : handed_out (history ++ [Receive (Some file); Take; Receive (Some deep)]) = [(1, file); (2, file); (3, file)].
Proof. reflexivity. Qed.
Example unwatch_ex : told (history ++ [Unwatch [7] 2; Receive (Some file); Receive (Some deep)]) = [(1, file); (3, file)].
Proof. reflexivity. Qed.
Example inner_ex : s_inner (after (history ++ [Unwatch [7] 2; Unwatch [7] 1])) = [([7; 8], false)].
Proof. reflexivity. Qed.
Example no_error_ex : no_error history. Proof. intros [H|[H|[H|[]]]]; discriminate. Qed.
Example concerned_ex : concerned (Watchee [7] true 2 None) deep /\ ~ concerned (Watchee [7] false 1 None) deep.
Proof. split; [|intros H]; [|apply wants_ok in H; discriminate]. now apply wants_ok. Qed.
Example rename_ex : concerned (Watchee [7] false 1 None) (Event RenameBoth [[5]; [7; 3]]).
Proof. now apply wants_ok. Qed.
Example unwatched_ex : forall w, In w (s_watchees (after (history ++ [Unwatch [7] 2]))) -> ~ of 2 [7] w.
Proof. intros w. apply (C64_unwatched history [7] 2 []); [cbn; lia|reflexivity|apply registered_after]. Qed.
Example links_ex : registered ([Watch [5] (Some [7]) true 1 None] ++ [Unwatch [5] 1]) [Watchee [7] true 1 None].
Proof. apply (C64_links_refuted [] [5] [7]); [discriminate| |apply (reg_watch [] []); constructor]. intros w l R H. apply registered_ok in R. subst l. destruct H. Qed.
