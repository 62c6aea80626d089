(** C31: the client's line cache. The client's side, the histories and "in step" are in ShadowSpec.v. *)
From Coq Require Import List Arith Bool Lia ZifyBool.
From Verif Require Import Base ListLib ShadowModel ShadowSpec ShadowProofs ShadowSync.
Import ListNotations.

Section C31.
Context {T S : Type}.
Implicit Types (view : list (vline T S)) (l : list (vevent T S)).

(** ** Whatever happened before, an update brings the client in step: it can be carried out, the client
    then has as many lines as the view, every line it has shows the view's text, styles and
    number, and it has the lines of the window, with (if it takes absent carets for none) the right carets.
    In particular no subtraction of line numbers underflows on the way. *)
Theorem C31_update_in_step strict view l first height : lines_ok view -> events_ok view l ->
  exists st st', steps strict (session_start view) l = Some st /\ step strict st (Update first height) = Some st' /\
    in_step (s_view st) (s_cache st') /\
    forall i, in_window (s_view st) first height i ->
      has_line (s_cache st') i /\ (strict = false -> shows (s_view st) (s_cache st') i).
Proof.
  intros Hv Ho. destruct (steps_inv strict l (session_start view) (start_inv view Hv) Ho) as (st & A1 & A2).
  destruct (send_ok strict st (plan_for (s_view st) first height) A2) as (st' & B1 & B2 & B3 & B4 & B5 & B6); [rewrite plan_for_length; lia|].
  exists st, st'. split; [auto|]. split; [auto|]. split; [auto|]. intros i Hi. apply B5; [destruct Hi; auto|].
  destruct (nth_error (expand_plan (plan_for (s_view st) first height)) i) as [t|] eqn:E.
  - f_equal. apply (create_window _ _ _ _ _ E). exact Hi.
  - apply nth_error_None in E. rewrite plan_for_length in E. destruct Hi. lia.
Qed.
(** The same when lines are asked for: the client then has these too. *)
Theorem C31_request_in_step strict view l first height a b : lines_ok view -> events_ok view l -> a <= b ->
  exists st st', steps strict (session_start view) l = Some st /\ step strict st (Request first height a b) = Some st' /\
    in_step (s_view st) (s_cache st') /\
    forall i, in_window (s_view st) first height i \/ a <= i < b /\ i < length (s_view st) ->
      has_line (s_cache st') i /\ (strict = false -> shows (s_view st) (s_cache st') i).
Proof.
  intros Hv Ho Hab. destruct (steps_inv strict l (session_start view) (start_inv view Hv) Ho) as (st & A1 & A2).
  destruct (request_lines_ok (plan_for (s_view st) first height) a b Hab) as (p & E1 & E2).
  pose proof (plan_for_length (s_view st) first height) as Lp.
  destruct (send_ok strict st p A2) as (st' & B1 & B2 & B3 & B4 & B5 & B6).
  { rewrite E2, !app_length, firstn_length, repeat_length, skipn_length, plan_for_length. lia. }
  exists st, st'. split; [auto|]. cbn [step]. rewrite E1. split; [exact B1|]. split; [auto|]. intros i Hi.
  assert (Hl : i < length (s_view st)) by (destruct Hi as [[Hi _]|[_ Hi]]; auto). apply B5; auto. rewrite E2.
  assert (Hw : in_window (s_view st) first height i -> nth_error (expand_plan (plan_for (s_view st) first height)) i = Some Render).
  { intros Hin. destruct (nth_error (expand_plan (plan_for (s_view st) first height)) i) as [t|] eqn:E.
    - f_equal. apply (create_window _ _ _ _ _ E). exact Hin.
    - apply nth_error_None in E. lia. }
  destruct (Nat.lt_ge_cases i a).
  - rewrite nth_error_app1 by (rewrite firstn_length; lia). rewrite nth_error_firstn. replace (i <? a) with true by lia. apply Hw. destruct Hi; [auto|lia].
  - rewrite nth_error_app2 by (rewrite firstn_length; lia). rewrite firstn_length, Lp, Nat.min_l by lia.
    destruct (Nat.lt_ge_cases i b).
    + rewrite nth_error_app1 by (rewrite repeat_length; lia). apply nth_error_repeat. lia.
    + rewrite nth_error_app2 by (rewrite repeat_length; lia). rewrite repeat_length, nth_error_skipn.
      replace (b + (i - a - (b - a))) with i by lia. apply Hw. destruct Hi; [auto|lia].
Qed.
(** Outside the window the carets are right as well after an update that had to render something; what is missing
    is the other updates (see [C31_idle_carets_refuted]). *)
Theorem C31_carets_partial view l first height st st' : lines_ok view -> events_ok view l ->
  steps false (session_start view) l = Some st -> step false st (Update first height) = Some st' ->
  needs_render (s_shadow st) (plan_for (s_view st) first height) = true ->
  forall i, has_line (s_cache st') i -> shows (s_view st) (s_cache st') i.
Proof.
  intros Hv Ho H1 H2 Hn. destruct (steps_inv false l (session_start view) (start_inv view Hv) Ho) as (st0 & A1 & A2).
  rewrite H1 in A1. injection A1 as <-.
  destruct (send_ok false st (plan_for (s_view st) first height) A2) as (st1 & B1 & B2 & B3 & B4 & B5 & B6); [rewrite plan_for_length; lia|].
  cbn [step] in H2. rewrite B1 in H2. injection H2 as ->. auto.
Qed.

(** ** "In all cases, n is guaranteed positive" *)
Definition positive (o : update_op T S) : Prop :=
  match o with OpCopy n _ => 0 < n | OpSkip n => 0 < n | OpInvalidate n => 0 < n | OpUpdate ls _ => ls <> [] | OpInsert ls => ls <> [] end.
Lemma iter_positive : forall fuel sh sl p pl, full sh -> Forall (fun q : nat * tactic => 0 < fst q) p ->
  (match sh with [] => True | (n, _, _) :: _ => max sl pl < sl + n end) ->
  (match p with [] => True | (m, _) :: _ => max sl pl < pl + m end) ->
  Forall (fun g => 0 < seg_n g) (iter_plan fuel sh sl p pl).
Proof.
  induction fuel as [|fuel IH]; intros sh sl p pl Hf Hp Hs Hm; [constructor|].
  destruct sh as [|[[n s] v] sh']; [constructor|]. destruct p as [|[m t] p']; [constructor|]. cbn [iter_plan].
  inversion Hf as [|? ? F1 F2]; inversion Hp as [|? ? P1 P2]; subst. cbn [fst] in *.
  destruct (Nat.eqb_spec (min (sl + n) (pl + m)) (sl + n)); destruct (Nat.eqb_spec (min (sl + n) (pl + m)) (pl + m)); (constructor; [cbn [seg_n]; lia|]); apply IH; auto; try lia.
  - destruct sh' as [|[[n' s'] v'] sh'']; auto. inversion F2; subst. cbn in *. lia.
  - destruct p' as [|[m' t'] p'']; auto. inversion P2; subst. cbn in *. lia.
  - destruct sh' as [|[[n' s'] v'] sh'']; auto. inversion F2; subst. cbn in *. lia.
  - destruct p' as [|[m' t'] p'']; auto. inversion P2; subst. cbn in *. lia.
Qed.
Lemma render_positive view gs : forall ln b ops b', Forall (fun g => 0 < seg_n g) gs -> (forall g, In g gs -> our_line g + seg_n g <= length view) ->
  render_segs view gs ln b = Some (ops, b') -> Forall positive ops.
Proof.
  induction gs as [|g gs IH]; intros ln b ops b' Hp Hb H; cbn [render_segs] in H; [injection H as <- <-; constructor|].
  inversion Hp as [|? ? P1 P2]; subst. assert (Hb' : forall g, In g gs -> our_line g + seg_n g <= length view) by (intros; apply Hb; now right).
  specialize (Hb g (or_introl eq_refl)).
  assert (Hlen : length (firstn (seg_n g) (skipn (our_line g) view)) = seg_n g) by (rewrite firstn_length, skipn_length; lia).
  assert (Hf : forall i (vs : list (vline T S)), length vs = seg_n g -> encode_full view i vs <> [] /\ encode_carets view i vs <> []).
  { intros i [|x vs] E; [cbn in E; lia|]. cbn. split; discriminate. }
  assert (Hi : forall (r : option (list (update_op T S) * list span)) ln0 b0, r = render_segs view gs ln0 b0 -> (let? (ops, b') := r in Some (OpInvalidate (seg_n g) :: ops, b')) = Some (ops, b') -> Forall positive ops).
  { intros r ln0 b0 Er E. destruct r as [[ops1 b1]|]; [|discriminate]. cbn [bind] in E. injection E as <- <-. constructor; [exact P1|]. symmetry in Er. eauto. }
  assert (Hc : (check (ln <=? their_line g)
              (let? (ops, b') := render_segs view gs (their_line g + seg_n g) (add_span b (seg_n g) (our_line g) (seg_v g)) in
               Some ((if 0 <? their_line g - ln then [OpSkip (their_line g - ln)] else []) ++
                 (if v_cursor (seg_v g) then OpCopy (seg_n g) (line_number view (our_line g) - 1 + 1)
                  else OpUpdate (encode_carets view (our_line g) (firstn (seg_n g) (skipn (our_line g) view)))
                        (if line_number view (our_line g) - 1 =? 0 then None else Some (line_number view (our_line g) - 1 + 1))) :: ops, b'))) = Some (ops, b') -> Forall positive ops).
  { intros E. destruct (ln <=? their_line g); cbn [check] in E; [|discriminate]. clear H. destruct (render_segs view gs (their_line g + seg_n g) _) as [[ops1 b1]|] eqn:E1; [|discriminate].
    cbn [bind] in E. injection E as <- <-. apply Forall_app. split.
    - destruct (Nat.ltb_spec 0 (their_line g - ln)); constructor; auto.
    - constructor; [|eauto]. destruct (v_cursor (seg_v g)); cbn [positive]; [auto|]. now apply Hf. }
  destruct (seg_t g).
  - eapply Hi; [reflexivity|exact H].
  - destruct (v_text (seg_v g) && v_styles (seg_v g)); [now apply Hc|]. eapply Hi; [reflexivity|exact H].
  - destruct (v_text (seg_v g) && v_styles (seg_v g)); [now apply Hc|].
    destruct (render_segs view gs _ _) as [[ops1 b1]|] eqn:E1; [|discriminate]. cbn [bind] in H. injection H as <- <-. constructor; [now apply Hf|eauto].
Qed.
Lemma covers_bound our E P gs : covers our E P gs -> forall g, In g gs -> our_line g + seg_n g <= our + length E.
Proof.
  induction 1 as [|our their n v t E P gs _ _ IH]; intros g Hg; [contradiction|]. rewrite app_length, lines_length. destruct Hg as [<-|Hg]; [cbn; lia|].
  apply IH in Hg. lia.
Qed.
Lemma create_positive total first height : 0 < total -> Forall (fun q : nat * tactic => 0 < fst q) (plan_create total first height).
Proof.
  intros Ht. unfold plan_create. set (f := min first total). assert (Hf : f <= total) by (unfold f; lia). clearbody f.
  change PRESERVE_EXTENT with 1000. change SCROLL_SLOP with 2.
  destruct (Nat.ltb_spec 1000 f), (Nat.ltb_spec 2 f); try lia;
    destruct (Nat.ltb_spec (min (f + height + 2) total) (min (f + height + 1000) total));
    match goal with |- context [?x <? total] => destruct (Nat.ltb_spec x total) end;
    rewrite ?Forall_app; repeat split; repeat constructor; cbn [fst]; lia.
Qed.
Theorem C31_positive view l first height strict st ops sh : lines_ok view -> events_ok view l ->
  steps strict (session_start view) l = Some st ->
  send_update (s_view st) (s_shadow st) (plan_for (s_view st) first height) = Some (ops, sh) -> Forall positive ops.
Proof.
  intros Hv Ho H1 H2. destruct (steps_inv strict l (session_start view) (start_inv view Hv) Ho) as (st0 & A1 & A2).
  rewrite H1 in A1. injection A1 as <-. destruct A2 as [I1 I2 I3 I4 I5 I6].
  assert (Hpos : 0 < length (s_view st)) by (destruct (s_view st); [contradiction|cbn; lia]).
  unfold send_update in H2. destruct (needs_render _ _); [|injection H2 as <- <-; constructor; [exact Hpos|constructor]].
  destruct (render_segs _ _ _ _) as [[ops' b]|] eqn:E; [|discriminate]. cbn [bind] in H2. injection H2 as <- <-.
  eapply render_positive; [| |exact E].
  - unfold iter_with_plan. pose proof (create_positive (length (s_view st)) first height Hpos) as Hp. apply iter_positive; auto.
    + destruct (spans (s_shadow st)) as [|[[n s] v] r]; auto. inversion I2; subst. cbn in *. lia.
    + destruct (plan_for (s_view st) first height) as [|[m t] r] eqn:Ep; auto. unfold plan_for in Ep. rewrite Ep in Hp. inversion Hp; subst. cbn in *. lia.
  - intros g Hg. pose proof (covers_bound _ _ _ _ (iter_with_plan_ok (spans (s_shadow st)) (plan_for (s_view st) first height) I2) g Hg). lia.
Qed.
End C31.

(** ** Cases *)
(** Twenty lines, the text of line i is i; a caret on line 0. *)
Definition line_at (i caret : nat) : vline nat nat := VLine i 0 (if i =? 0 then [caret] else []) true.
Definition twenty (caret : nat) : list (vline nat nat) := map (fun i => line_at i caret) (seq 0 20).
Definition caret_moves (c : nat) : vevent nat nat := Change 0 1 (Validity false false true) (twenty c).
Definition show (c : cache nat nat) (i : nat) : option (nat * list nat * option nat) :=
  match nth_error c i with Some (Some x) => Some (ctext x, ccur x, cln x) | _ => None end.

(** An update that finds nothing to render leaves the client with an old caret: the caret on line 0 moves
    once in the window, so that the line is no longer marked valid; then, out of the window,
    it moves again. *)
Definition idle_story := [Update 0 10; caret_moves 1; Update 0 10; Update 15 2; caret_moves 2; Update 15 2].
Theorem C31_idle_carets_refuted : events_ok (twenty 0) idle_story /\
  (let? st := steps false (session_start (twenty 0)) idle_story in Some (show (s_cache st) 0, nth_error (map vcur (s_view st)) 0)) =
  Some (Some (0, [1], Some 1), Some [2]).
Proof.
  split; [|now vm_compute].
  assert (K : forall c c', event_ok (twenty c) (caret_moves c')).
  { intros c c'. cbn [event_ok caret_moves]. split; [lia|]. split; [reflexivity|]. split; [reflexivity|].
    intros i l l' H1 H2. unfold twenty in *. rewrite nth_error_map in H1, H2. destruct (nth_error (seq 0 20) i) as [j|] eqn:E; [|discriminate].
    assert (j = i). { assert (i < 20) by (rewrite <- (seq_length 20 0); apply nth_error_Some; congruence). apply nth_error_nth with (d := 0) in E. rewrite seq_nth in E by lia. lia. }
    cbn [option_map] in *. injection H1 as <-. injection H2 as <-. subst j. cbn [line_at vtext vhard vstyle vcur v_styles v_cursor].
    split; [reflexivity|]. split; [reflexivity|]. split; [now right|]. destruct (Nat.eqb_spec i 0); [left; lia|now right]. }
  cbn [events_ok idle_story view_after event_ok]. repeat (split; [first [exact Logic.I|apply K]|]). exact Logic.I.
Qed.
(** The document tells clients to keep the carets of an updated line if none are given; the core
    gives none when the last caret leaves a line. Such a client keeps showing it. *)
Definition two_lines (on_second : bool) : list (vline nat nat) :=
  if on_second then [VLine 7 0 [] true; VLine 8 0 [3] true] else [VLine 7 0 [3] true; VLine 8 0 [] true].
Definition leave_story := [Update 0 10; Change 0 1 (Validity false false true) [VLine 7 0 [] true; VLine 8 0 [] true];
  Change 1 2 (Validity false false true) (two_lines true); Update 0 10].
Theorem C31_absent_carets_refuted : events_ok (two_lines false) leave_story /\
  (let? st := steps true (session_start (two_lines false)) leave_story in
   Some (map (fun c => match c with Some x => Some (ccur x) | None => None end) (s_cache st), map vcur (s_view st))) =
  Some ([Some [3]; Some [3]], [[]; [3]]) /\
  (let? st := steps false (session_start (two_lines false)) leave_story in
   Some (map (fun c => match c with Some x => Some (ccur x) | None => None end) (s_cache st), map vcur (s_view st))) =
  Some ([Some []; Some [3]], [[]; [3]]).
Proof.
  split; [|split; now vm_compute].
  cbn [events_ok leave_story view_after event_ok two_lines]. split; [exact Logic.I|]. split; [|split; [|split; exact Logic.I]].
  - split; [lia|]. split; [reflexivity|]. split; [reflexivity|].
    intros [|[|[|i]]] l l' H1 H2; cbn in H1, H2; try discriminate; injection H1 as <-; injection H2 as <-; cbn; repeat split; auto; right; auto.
  - split; [lia|]. split; [reflexivity|]. split; [reflexivity|].
    intros [|[|[|i]]] l l' H1 H2; cbn in H1, H2; try discriminate; injection H1 as <-; injection H2 as <-; cbn; repeat split; auto; right; auto.
Qed.
(** Asking for no lines sends an operation for no lines. *)
Theorem C31_empty_request_refuted :
  (let? st := steps false (session_start (twenty 0)) [Update 0 20; caret_moves 1] in
   let? p := request_lines (plan_for (s_view st) 0 20) 5 5 in
   let? (ops, _) := send_update (s_view st) (s_shadow st) p in
   Some (existsb (fun o => match o with OpCopy n _ => n =? 0 | _ => false end) ops)) = Some true.
Proof. now vm_compute. Qed.
(** Asking for lines backwards panics. *)
Theorem C31_backward_request_refuted view a b f h st : b < a -> step false (Session view st []) (Request f h a b : vevent nat nat) = None.
Proof.
  intros H. cbn [step s_view]. unfold request_lines. destruct (request_head _ 0 a) as [[hd rest] k]. replace (a <=? b) with false by lia. reflexivity.
Qed.

(** A history with every kind of event; what the client shows at the end. *)
Definition full_story : list (vevent nat nat) :=
  [Update 0 3; Replace 2 4 [VLine 100 0 [] true; VLine 101 0 [] false; VLine 102 0 [] true]; Update 0 3;
   Request 0 3 15 17; Replace 0 1 [VLine 50 0 [1] true]; Update 18 2].
Example full_story_ok : events_ok (twenty 0) full_story /\
  (let? st := steps true (session_start (twenty 0)) full_story in Some (map (show (s_cache st)) (seq 0 21))) =
  Some [None; Some (1, [], Some 2); Some (100, [], Some 3); Some (101, [], None); Some (102, [], Some 4);
        Some (4, [], Some 5); None; None; None; None; None; None; None; None; None; Some (14, [], Some 15); Some (15, [], Some 16); Some (16, [], Some 17); Some (17, [], Some 18); Some (18, [], Some 19); Some (19, [], Some 20)].
Proof.
  split; [|now vm_compute]. cbn [events_ok full_story view_after event_ok twenty map seq firstn skipn app length].
  repeat (split; [first [exact Logic.I|lia|split; [lia|reflexivity]]|]). exact Logic.I.
Qed.

Print Assumptions C31_update_in_step.
Print Assumptions C31_request_in_step.
Print Assumptions C31_carets_partial.
Print Assumptions C31_positive.
Print Assumptions C31_idle_carets_refuted.
Print Assumptions C31_absent_carets_refuted.
Print Assumptions C31_empty_request_refuted.
Print Assumptions C31_backward_request_refuted.
