(** C68: hovers. *)
From Coq Require Import List Arith Lia Bool.
From Verif Require Import Base HoverModel HoverSpec HoverProofs.
Import ListNotations.

(** While no view is closed, what was shown are the answers, in the order in which they came, each in the view that asked and
    with the id it asked with. Missing: views that are closed, see below. *)
Theorem C68_shown_partial : forall vs h s, all_open vs h -> hover_run (hs_new vs) h = Some s ->
  exists l rest, answers h l /\ (forall l', answers h l' -> l' = l) /\ l = shown s ++ rest /\ length rest = length (results s).
Proof.
  intros vs h s A H. pose proof (inv_run vs h s A H) as I. exists (shown s ++ waiting s), (waiting s). pose proof (i_answers _ _ _ I) as X. split; auto. split; [now apply answers_unique|]. split; auto. unfold waiting. rewrite map_length, combine_length, (i_same _ _ _ I). apply Nat.min_id.
Qed.
Print Assumptions C68_shown_partial.
(** And all are shown when the main loop has been idle often enough. *)
Theorem C68_all_shown_partial : forall vs h s, all_open vs h -> hover_run (hs_new vs) h = Some s ->
  exists s', hover_run s (repeat Idle (length (results s))) = Some s' /\ answers h (shown s') /\ results s' = [].
Proof.
  intros vs h s A H. pose proof (inv_run vs h s A H) as I. destruct (idle_all vs h _ s I eq_refl) as (s' & E & S & R). exists s'. split; auto. split; auto. rewrite S. apply (i_answers _ _ _ I).
Qed.
Print Assumptions C68_all_shown_partial.
(** The first answer to a request is taken; *)
Theorem C68_first : forall vs h s id c r, all_open vs h -> hover_run (hs_new vs) h = Some s -> asked h id c -> (forall r', ~ In (Answer id r') h) ->
  exists s', hover_run (hs_new vs) (h ++ [Answer id r]) = Some s'.
Proof.
  intros vs h s id c r A H K N. pose proof (inv_run vs h s A H) as I. rewrite run_app, H. cbn [bind hover_run hover_step]. unfold handle_response. destruct (take id (pending s)) as [[c' p]|] eqn:T; [cbn; eauto|]. exfalso. apply (take_none _ _ T). apply in_map_iff. exists (id, c). split; auto. now apply (i_pending _ _ _ I).
Qed.
Print Assumptions C68_first.
(** but a second one, or one to a request that was not made, is a panic: a server can stop the plugin. *)
Theorem C68_second_refuted : forall vs h s id r, all_open vs h -> hover_run (hs_new vs) h = Some s -> (forall c, ~ asked h id c) \/ (exists r', In (Answer id r') h) ->
  hover_run (hs_new vs) (h ++ [Answer id r]) = None.
Proof.
  intros vs h s id r A H N. pose proof (inv_run vs h s A H) as I. rewrite run_app, H. cbn [bind hover_run hover_step]. unfold handle_response. destruct (take id (pending s)) as [[c' p]|] eqn:T; auto. exfalso. destruct (take_some _ _ _ _ T) as (p1 & p2 & E & _).
  assert (X : In (id, c') (pending s)) by (rewrite E; apply in_app_iff; right; now left). apply (i_pending _ _ _ I) in X. destruct X as [X1 X2]. destruct N as [N|[r' N]]; [now apply (N c')|now apply (X2 r')].
Qed.
Print Assumptions C68_second_refuted.
(** When the view that asked is closed before its answer is shown, the next view gets it instead of its own, and so on for ever: here the
    answer 7 to the request 100 of view 1 is shown in view 2, which asked with 200 and has been answered with 8. *)
Theorem C68_closed_refuted : exists h s, hover_run (hs_new [1; 2]) h = Some s /\ requests h = [(1, 100); (2, 200)] /\ In (Answer 2 8) h /\
  shown s = [(2, 100, Some 7)] /\ idle_queue s = [] /\ results s = [(200, Some 8)].
Proof.
  exists [Hover 1 100 true; Answer 1 7; Close 1; Idle; Hover 2 200 true; Answer 2 8; Idle]. eexists. split; [reflexivity|]. repeat split. cbn. intuition.
Qed.
Print Assumptions C68_closed_refuted.

(** ** Cases *)
(** Two views ask, the answers come in the other order, and one place is not found. *)
Definition ex_hovers : list event := [Hover 1 100 true; Hover 2 200 true; Answer 2 8; Hover 1 101 false; Idle; Answer 1 7].
Example ex_open : all_open [1; 2] ex_hovers. Proof. repeat (apply Forall_cons; [cbn; auto|]). apply Forall_nil. Qed.
Example ex_shown : exists s s', hover_run (hs_new [1; 2]) ex_hovers = Some s /\ shown s = [(2, 200, Some 8)] /\
  hover_run s (repeat Idle (length (results s))) = Some s' /\ shown s' = [(2, 200, Some 8); (1, 101, None); (1, 100, Some 7)].
Proof.
  eexists. destruct (C68_all_shown_partial [1; 2] ex_hovers _ ex_open eq_refl) as (s' & E & _). exists s'. split; [reflexivity|]. split; [reflexivity|]. split; [exact E|]. vm_compute in E. now injection E as <-.
Qed.
Example ex_first : exists s', hover_run (hs_new [1; 2]) ([Hover 1 100 true; Hover 2 200 true] ++ [Answer 2 9]) = Some s'.
Proof. eapply (C68_first [1; 2] [Hover 1 100 true; Hover 2 200 true] _ 2 (2, 200)); [repeat (apply Forall_cons; [cbn; auto|]); apply Forall_nil|reflexivity|split; [auto|reflexivity]|]. intros r' [|[|[]]]; discriminate. Qed.
Example ex_second : hover_run (hs_new [1; 2]) (ex_hovers ++ [Answer 2 9]) = None.
Proof. eapply (C68_second_refuted [1; 2] ex_hovers); [exact ex_open|reflexivity|]. right. exists 8. cbn. auto. Qed.
