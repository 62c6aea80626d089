(** C32, C49, C50: undo and redo in the editor. The specification is EditorSpec.v: a list of at most twenty
    versions of the text, and a place in it. *)
From Coq Require Import List Arith Bool Lia ZifyBool.
From Verif Require Import Base ListLib DeltaModel DeltaSpec MultisetModel EngineModel EngineSpec PropertiesEngine EditorModel EditorSpec EditorProofs.
Import ListNotations.

Section Props.
Context {A : Type} (tok : rev_id -> nat).

(** Whatever a user does with a buffer - edit, undo, redo, move, play recordings that edit,
    while plugins answer late or not - nothing panics, and the text on screen is the one the list
    of versions says. *)
Theorem C32_timeline (t : list A) l sp : Forall proper l -> live_all (opened t) l = Some sp ->
  exists ed0 ed, with_text tok t = Some ed0 /\ run_inputs tok ed0 l = Some ed /\
    get_buffer ed = on_screen sp /\ in_flight ed = pending sp.
Proof.
  intros P H. destruct (opened_ok tok t) as (ed0 & E & S0). destruct (inputs_ok tok l ed0 _ _ S0 P H) as (ed & R & S1).
  exists ed0, ed. split; [auto|]. split; [auto|]. destruct S1 as ((s & C) & _ & _ & _ & _ & _ & _ & Hp & _). split; [|auto].
  apply (core_text tok _ _ _ _ C).
Qed.

(** The bookkeeping itself: between one and twenty groups are live, undo and redo have exactly
    the versions around [here] to go to, the groups marked undone are the ones redo would bring
    back and groups waiting to be collected, and no group is both live and waiting. *)
Theorem C32_bookkeeping (t : list A) l sp ed0 ed : Forall proper l -> live_all (opened t) l = Some sp ->
  with_text tok t = Some ed0 -> run_inputs tok ed0 l = Some ed ->
  cur_undo ed = S (here sp) /\ length (live_undos ed) = length (versions sp) /\
  1 <= cur_undo ed <= length (live_undos ed) /\ length (live_undos ed) <= 20 /\
  NoDup (live_undos ed) /\
  (forall g, In g (live_undos ed) -> (In g (undos ed) <-> In g (skipn (cur_undo ed) (live_undos ed)))) /\
  (forall g, In g (gc_groups ed) -> ~ In g (live_undos ed)).
Proof.
  intros P H E0 R0. destruct (opened_ok tok t) as (ed1 & E & S0). rewrite E0 in E. injection E as <-.
  destruct (inputs_ok tok l ed0 _ _ S0 P H) as (ed1 & R & S1). rewrite R0 in R. injection R as <-.
  destruct S1 as ((s & C) & _ & Hm & _). destruct C as [C1 C2 C3 C4 C5 C6 C7 C8 C9 C10 C11 C12 C13 C14 C15 C16 C17].
  split; [auto|]. split; [auto|]. split; [lia|]. split; [lia|]. split; [now apply sorted_nodup|]. split.
  - intros g Hg. rewrite C14, C13, C3; auto. reflexivity.
  - intros g Hg. apply C10 in Hg. tauto.
Qed.

(** Every event reports to the views the change from the text before it to the text after it,
    unless revision hashes collide. *)
Theorem C32_reports (t : list A) l sp ev n sp' ed0 ed : Forall proper l -> live_all (opened t) l = Some sp ->
  with_text tok t = Some ed0 -> run_inputs tok ed0 l = Some ed ->
  proper_event ev -> live sp (IEvent ev n) = Some sp' ->
  exists ed1 ed' r, dispatch_event tok ed ev = Some ed1 /\ do_edit tok ed ev n = Some (ed', r) /\
    (distinct_tokens tok (eng ed1) ->
     match r with
     | Some (d, before) => before = get_buffer ed /\ wf_delta d /\ base_len d = length before /\ apply d before = Some (get_buffer ed')
     | None => get_buffer ed' = get_buffer ed
     end).
Proof.
  intros P H E0 R0 Pe He. destruct (opened_ok tok t) as (ed1 & E & S0). rewrite E0 in E. injection E as <-.
  destruct (inputs_ok tok l ed0 _ _ S0 P H) as (ed1 & R & S1). rewrite R0 in R. injection R as <-.
  destruct (event_ok tok ed sp ev n sp' S1 Pe He) as (ed' & r & K1 & _ & K3).
  unfold do_edit in K1 |- *. destruct (dispatch_event tok ed ev) as [ed1|] eqn:Ed; cbn [bind] in K1; [|discriminate].
  exists ed1, ed', r. split; [auto|]. split; [exact K1|]. intros D. specialize (K3 ed1 eq_refl D).
  unfold reports in K3. destruct r as [[d b]|]; [|auto]. destruct K3 as (-> & K). auto.
Qed.

Lemma run_app l1 : forall (ed : editor A) l2, run_inputs tok ed (l1 ++ l2) = (let? ed1 := run_inputs tok ed l1 in run_inputs tok ed1 l2).
Proof. induction l1 as [|i l1 IH]; intros ed l2; cbn [app run_inputs]; [reflexivity|]. destruct (run_input tok ed i); cbn [bind]; auto. Qed.
Lemma live_app l1 : forall (s : timeline A) l2, live_all s (l1 ++ l2) = (let? s1 := live_all s l1 in live_all s1 l2).
Proof. induction l1 as [|i l1 IH]; intros s l2; cbn [app live_all]; [reflexivity|]. destruct (live s i); cbn [bind]; auto. Qed.

Lemma sim_text (x : editor A) (s : timeline A) : Sim tok x s -> get_buffer x = on_screen s.
Proof. intros ((y & C) & _). apply (core_text tok _ _ _ _ C). Qed.
(** Undo and redo around a new version. *)
Lemma around_push (ed : editor A) sp (ed1 : editor A) sp1 t' n2 n3 : Sim tok ed sp -> Sim tok ed1 sp1 ->
  versions sp1 = keep_twenty (firstn (S (here sp)) (versions sp) ++ [t']) -> here sp1 = length (versions sp1) - 1 ->
  get_buffer ed1 = t' /\ exists ed2 ed3, run_input tok ed1 (IEvent EUndo n2) = Some ed2 /\ get_buffer ed2 = get_buffer ed /\
    run_input tok ed2 (IEvent ERedo n3) = Some ed3 /\ get_buffer ed3 = t'.
Proof.
  intros S1 S2 Ev Eh. assert (Hh : here sp < length (versions sp)) by (destruct S1 as ((y & C) & _); apply C).
  set (vs := keep_twenty (firstn (S (here sp)) (versions sp) ++ [t'])) in *. rewrite Ev in Eh.
  assert (Lv : 2 <= length vs).
  { unfold vs. rewrite keep_app, app_length, skipn_length, firstn_length. cbn [length]. lia. }
  split. { rewrite (sim_text _ _ S2). unfold on_screen. rewrite Ev, Eh. apply keep_nth. }
  set (sp2 := Timeline vs (length vs - 1 - 1) TUndo (pending sp1 + n2)).
  assert (L2 : live sp1 (IEvent EUndo n2) = Some sp2).
  { cbn [live]. rewrite Ev, Eh. replace (0 <? length vs - 1) with true by lia. reflexivity. }
  destruct (input_ok tok ed1 sp1 (IEvent EUndo n2) sp2 S2 Logic.I L2) as (ed2 & K2 & S3).
  assert (On2 : on_screen sp2 = on_screen sp).
  { unfold on_screen, sp2. cbn [versions here]. unfold vs. rewrite keep_app. set (x := firstn (S (here sp)) (versions sp)).
    assert (Lx : length x = S (here sp)) by (unfold x; rewrite firstn_length; lia).
    rewrite app_length, skipn_length. cbn [length]. rewrite app_nth1 by (rewrite skipn_length; lia).
    rewrite Lx. replace (S (here sp) - (S (here sp) + 1 - 20) + 1 - 1 - 1) with (here sp - (S (here sp) + 1 - 20)) by lia.
    assert (Q : nth (here sp) x [] = nth (here sp) (versions sp) []).
    { unfold x. rewrite <- (firstn_skipn (S (here sp)) (versions sp)) at 2. rewrite app_nth1; auto. rewrite firstn_length. lia. }
    rewrite <- Q. rewrite <- (firstn_skipn (S (here sp) + 1 - 20) x) at 2. rewrite app_nth2; rewrite firstn_length; [|lia].
    f_equal. lia. }
  set (sp3 := Timeline vs (S (length vs - 1 - 1)) TRedo (pending sp2 + n3)).
  assert (L3 : live sp2 (IEvent ERedo n3) = Some sp3).
  { cbn [live]. unfold sp2. cbn [here versions pending]. replace (S (length vs - 1 - 1) <? length vs) with true by lia. reflexivity. }
  destruct (input_ok tok ed2 sp2 (IEvent ERedo n3) sp3 S3 Logic.I L3) as (ed3 & K3 & S4).
  exists ed2, ed3. split; [auto|]. split; [rewrite (sim_text _ _ S3), (sim_text _ _ S1); auto|].
  split; [auto|]. rewrite (sim_text _ _ S4). unfold on_screen, sp3. cbn [versions here]. replace (S (length vs - 1 - 1)) with (length vs - 1) by lia.
  apply keep_nth.
Qed.

(** After any history, an edit of its own and an undo are nothing, and a redo brings the edit
    back. *)
Theorem C32_undo_redo_edit (t : list A) l sp ed0 ed b a d n1 n2 n3 t' : Forall proper l -> live_all (opened t) l = Some sp ->
  with_text tok t = Some ed0 -> run_inputs tok ed0 l = Some ed ->
  b = Other \/ b = Transpose -> wf_delta d -> base_len d = length (get_buffer ed) -> apply d (get_buffer ed) = Some t' ->
  exists ed1 ed2 ed3, run_input tok ed (IEvent (EEdit b a d) n1) = Some ed1 /\ get_buffer ed1 = t' /\
    run_input tok ed1 (IEvent EUndo n2) = Some ed2 /\ get_buffer ed2 = get_buffer ed /\
    run_input tok ed2 (IEvent ERedo n3) = Some ed3 /\ get_buffer ed3 = t'.
Proof.
  intros P H E0 R0 Hb W Hl Ha. destruct (opened_ok tok t) as (edx & E & S0). rewrite E0 in E. injection E as <-.
  destruct (inputs_ok tok l ed0 _ _ S0 P H) as (edx & R & S1). rewrite R0 in R. injection R as <-.
  rewrite (sim_text _ _ S1) in Hl, Ha.
  assert (Hg : groups_with b (kind sp) = false) by (destruct Hb as [-> | ->]; reflexivity).
  set (sp1 := tell (set_kind (push sp t') a) n1).
  assert (L1 : live sp (IEvent (EEdit b a d) n1) = Some sp1).
  { cbn [live]. unfold edited. rewrite Hl, Nat.eqb_refl. cbn [check]. rewrite Ha. cbn [bind]. now rewrite Hg. }
  assert (Pb : proper (IEvent (EEdit b a d) n1)) by (cbn; split; [auto|]; split; intros ->; destruct Hb; discriminate).
  destruct (input_ok tok ed sp _ sp1 S1 Pb L1) as (ed1 & K1 & S2).
  destruct (around_push ed sp ed1 sp1 t' n2 n3 S1 S2 eq_refl eq_refl) as (T1 & ed2 & ed3 & K2 & T2 & K3 & T3).
  exists ed1, ed2, ed3. auto 10.
Qed.

(** ** C49
    The edits of a recording are played on top of each other and undone together. *)
Fixpoint played (evs : list (event (A:=A))) (t : list A) : option (list A) :=
  match evs with
  | [] => Some t
  | EEdit _ _ d :: evs' => let? t1 := edited d t in played evs' t1
  | EMove :: evs' => played evs' t
  | _ :: _ => None
  end.
Lemma amend_all_ok evs : forall s s' x c, amend_all s evs = Some s' -> versions s = keep_twenty (x ++ [c]) -> here s = length (versions s) - 1 ->
  exists c', played evs c = Some c' /\ versions s' = keep_twenty (x ++ [c']) /\ here s' = length (versions s') - 1.
Proof.
  induction evs as [|ev evs IH]; intros s s' x c H Hv Hh; cbn [amend_all played] in *.
  - injection H as <-. eauto.
  - destruct ev as [b a d| | |]; try discriminate; [|eapply IH; eauto].
    assert (Ho : on_screen s = c) by (unfold on_screen; rewrite Hh, Hv; apply keep_nth). rewrite Ho in H.
    destruct (edited d c) as [t1|]; cbn [bind] in *; [|discriminate].
    eapply IH; eauto; cbn [amend versions here].
    + rewrite Hv. apply keep_amend.
    + rewrite Hh. f_equal. symmetry. apply amend_len. rewrite Hv. apply keep_len.
Qed.
Lemma played_ok evs : forall s x c c', played evs c = Some c' -> versions s = keep_twenty (x ++ [c]) -> here s = length (versions s) - 1 ->
  exists s', amend_all s evs = Some s'.
Proof.
  induction evs as [|ev evs IH]; intros s x c c' H Hv Hh; cbn [amend_all played] in *; [eauto|].
  destruct ev as [b a d| | |]; try discriminate; [|eapply IH; eauto].
  assert (Ho : on_screen s = c) by (unfold on_screen; rewrite Hh, Hv; apply keep_nth). rewrite Ho.
  destruct (edited d c) as [t1|]; cbn [bind] in *; [|discriminate].
  eapply IH; eauto; cbn [amend versions here].
  - rewrite Hv. apply keep_amend.
  - rewrite Hh. f_equal. symmetry. apply amend_len. rewrite Hv. apply keep_len.
Qed.
Theorem C49_playback_is_one_step_partial (t : list A) l sp ed0 ed evs n1 n2 n3 t' : Forall proper l -> live_all (opened t) l = Some sp ->
  with_text tok t = Some ed0 -> run_inputs tok ed0 l = Some ed ->
  Forall proper_event evs -> has_edit evs = true -> played evs (get_buffer ed) = Some t' ->
  exists ed1 ed2 ed3, run_input tok ed (IPlay evs n1) = Some ed1 /\ get_buffer ed1 = t' /\
    run_input tok ed1 (IEvent EUndo n2) = Some ed2 /\ get_buffer ed2 = get_buffer ed /\
    run_input tok ed2 (IEvent ERedo n3) = Some ed3 /\ get_buffer ed3 = t'.
Proof.
  intros P H E0 R0 Pe He Hp. destruct (opened_ok tok t) as (edx & E & S0). rewrite E0 in E. injection E as <-.
  destruct (inputs_ok tok l ed0 _ _ S0 P H) as (edx & R & S1). rewrite R0 in R. injection R as <-.
  rewrite (sim_text _ _ S1) in Hp.
  destruct (played_ok evs (push sp (on_screen sp)) _ _ _ Hp eq_refl eq_refl) as (sp0 & A0).
  destruct (amend_all_ok evs _ _ _ _ A0 eq_refl eq_refl) as (c & Hc & V & Hh). rewrite Hp in Hc. injection Hc as <-.
  set (sp1 := tell (set_kind sp0 Other) n1).
  assert (L1 : live sp (IPlay evs n1) = Some sp1) by (cbn [live]; rewrite He; cbn [check]; rewrite A0; reflexivity).
  destruct (input_ok tok ed sp (IPlay evs n1) sp1 S1 Pe L1) as (ed1 & K1 & S2).
  destruct (around_push ed sp ed1 sp1 t' n2 n3 S1 S2 V Hh) as (T1 & ed2 & ed3 & K2 & T2 & K3 & T3).
  exists ed1, ed2, ed3. auto 10.
Qed.

(** ** C50
    A plugin's edit against any revision that is still known, in a group that is live and not
    undone, does to the text what it did to that revision; an edit against an unknown revision or of
    another length does nothing. *)
Theorem C50_plugin_edit_partial (t : list A) l sp ed0 ed rev p g d c : Forall proper l -> live_all (opened t) l = Some sp ->
  with_text tok t = Some ed0 -> run_inputs tok ed0 l = Some ed ->
  wf_delta d -> get_rev tok (eng ed) rev = Some (Some c) -> base_len d = length c ->
  In g (firstn (cur_undo ed) (live_undos ed)) ->
  exists ed1 nl, apply_plugin_edit tok ed rev p (Some g) d = Some ed1 /\
    base_text (olds nl) = c /\ head_text (olds nl) = get_buffer ed /\ deletes_base nl /\
    base_after 0 nl = denote (els d) /\ get_buffer ed1 = head_after nl.
Proof.
  intros P H E0 R0 W Hg Hb Hl. destruct (opened_ok tok t) as (edx & E & S0). rewrite E0 in E. injection E as <-.
  destruct (inputs_ok tok l ed0 _ _ S0 P H) as (edx & R & S1). rewrite R0 in R. injection R as <-.
  destruct S1 as ((s & C) & _). 
  destruct (C14_concurrent_edit tok (eng ed) rev c (c_reach _ _ _ _ _ C) Hg) as (al & A1 & A2 & _ & A3).
  destruct (A3 p g d W Hb) as (e' & nl & K1 & K2 & <- & K4 & K5 & K6).
  assert (Hu : mem g (undone_groups (eng ed)) = false).
  { apply mem_false. intros K. assert (Hin : In g (live_undos ed)) by (apply (in_firstn_skipn _ (cur_undo ed)); auto).
    apply (c_liveE _ _ _ _ _ C) in K; auto. rewrite (c_cur _ _ _ _ _ C) in Hl.
    now apply (firstn_skipn_disjoint _ _ g (sorted_nodup _ (c_sorted _ _ _ _ _ C)) Hl). }
  rewrite Hu in K6. exists (set_eng ed e'), nl. split; [|auto 10].
  unfold apply_plugin_edit. cbn [bind]. unfold edit_rev in K1. destruct (try_edit_rev tok (eng ed) p g rev d) as [[e1 [[]|er]]|]; cbn [bind snd fst] in *; congruence.
Qed.
Theorem C50_unknown_revision (t : list A) l sp ed0 ed rev p g d : Forall proper l -> live_all (opened t) l = Some sp ->
  with_text tok t = Some ed0 -> run_inputs tok ed0 l = Some ed -> wf_delta d ->
  match get_rev tok (eng ed) rev with Some (Some c) => base_len d <> length c | _ => True end ->
  exists ed1, apply_plugin_edit tok ed rev p (Some g) d = Some ed1 /\ eng ed1 = eng ed.
Proof.
  intros P H E0 R0 W Hg. destruct (opened_ok tok t) as (edx & E & S0). rewrite E0 in E. injection E as <-.
  destruct (inputs_ok tok l ed0 _ _ S0 P H) as (edx & R & S1). rewrite R0 in R. injection R as <-.
  destruct S1 as ((s & C) & _). pose proof (C18_edit_outcome tok (eng ed) p g rev d (c_reach _ _ _ _ _ C) W) as K.
  unfold apply_plugin_edit. cbn [bind]. destruct (get_rev tok (eng ed) rev) as [[c|]|]; [|rewrite K|contradiction].
  - destruct (base_len d =? length c) eqn:Eb; [lia|]. rewrite K. cbn [bind fst]. eexists. split; reflexivity.
  - cbn [bind fst]. eexists. split; reflexivity.
Qed.
End Props.

(** *** The hypotheses are met *)
Definition tk (r : rev_id) : nat := num r.
Definition add (x len : nat) : delta nat := Delta [Copy 0 len; Insert [x]] len.
Lemma add_wf x len : 0 < len -> wf_delta (add x len).
Proof. intros H. split; cbn; [lia|]. repeat constructor; discriminate. Qed.
Definition typed (t : edit_type) x len : input := IEvent (EEdit t t (add x len)) 1.
(** Two letters typed in a row, a deletion, two undos with the plugin answering once, a redo, a
    recording, a move, an undo. *)
Definition a_history : list (input (A:=nat)) :=
  [typed InsertChars 7 3; typed InsertChars 8 4; typed Delete 9 5; IEvent EUndo 1; IAck; IEvent EUndo 1; IEvent ERedo 1;
   IPlay [EEdit Other Other (add 1 5); EMove; EEdit Other Other (add 2 6)] 1; IEvent EMove 1; IEvent EUndo 1].
Example a_history_proper : Forall proper a_history.
Proof. repeat (constructor; [cbn; repeat (split || constructor); try discriminate; try (apply add_wf; lia); try (cbn; lia)|]). constructor. Qed.
Example a_history_lives : live_all (opened [4; 5; 6]) a_history =
  Some (Timeline [[4; 5; 6]; [4; 5; 6; 7; 8]; [4; 5; 6; 7; 8; 1; 2]] 1 TUndo 7).
Proof. now vm_compute. Qed.
Example a_history_runs :
  (let? ed := with_text tk [4; 5; 6] in let? ed' := run_inputs tk ed a_history in Some (get_buffer ed', live_undos ed', undos ed', gc_groups ed'))
  = Some ([4; 5; 6; 7; 8], [0; 1; 3], [3; 2], [2]).
Proof. now vm_compute. Qed.
(** A plugin that answers at once lets the groups be collected; twenty-five edits leave twenty
    versions. *)
Definition typed_now x len : input := IEvent (EEdit Other Other (add x len)) 0.
Definition many n len : list (input (A:=nat)) := map (fun i => typed_now (100 + i) (len + i)) (seq 0 n).
Example twenty_kept :
  (let? sp := live_all (opened [4]) (many 25 1) in Some (length (versions sp), here sp)) = Some (20, 19) /\
  (let? ed := with_text tk [4] in let? ed' := run_inputs tk ed (many 25 1 ++ repeat (IEvent EUndo 0) 30) in Some (get_buffer ed')) = Some [4; 100; 101; 102; 103; 104; 105].
Proof. now vm_compute. Qed.

(** A plugin that was told of the first revision after the two letters, and edits it after the
    deletion was undone. *)
Example a_plugin_edit :
  (let? ed0 := with_text tk [4; 5; 6] in
   let? ed := run_inputs tk ed0 [typed InsertChars 7 3; typed InsertChars 8 4; typed Delete 9 5; IEvent EUndo 1] in
   let? c := get_rev tk (eng ed) 3 in
   let? ed1 := apply_plugin_edit tk ed 3 0 (Some 1) (Delta [Copy 0 1; Insert [0]; Copy 2 5] 5) in
   Some (get_buffer ed, c, firstn (cur_undo ed) (live_undos ed), get_buffer ed1)) =
  Some ([4; 5; 6; 7; 8], Some [4; 5; 6; 7; 8], [0; 1], [4; 0; 6; 7; 8]).
Proof. now vm_compute. Qed.

(** *** Recordings that do not edit
    Playing a recording opens a new group even if nothing is edited in it. Twenty playbacks of a
    recording that only moves the caret push the group of the newest edit out of the live ones, and
    it is collected although its revision is the head and stays. Then a later collection is
    not a prefix of the history any more: twenty-two edits later the editor panics. *)
Theorem C49_idle_playback_refuted : exists l : list (input (A:=nat)),
  Forall proper l /\ ~ In IAck l /\
  (exists ed0, with_text tk [1; 2; 3] = Some ed0 /\ run_inputs tk ed0 l = None).
Proof.
  exists (typed_now 9 3 :: repeat (IPlay [EMove] 0) 20 ++ many 22 4). split; [|split].
  - constructor; [split; [apply add_wf; lia|split; discriminate]|]. apply Forall_app. split.
    + apply Forall_forall. intros i Hi. apply repeat_spec in Hi. subst i. cbn. repeat constructor.
    + apply Forall_forall. intros i Hi. apply in_map_iff in Hi as (k & <- & _). cbn [typed_now proper proper_event].
      split; [apply add_wf; lia|split; discriminate].
  - cbn. intuition discriminate.
  - eexists. split; [reflexivity|]. now vm_compute.
Qed.
(** All the edits fit: a buffer that keeps the versions as they should be accepts them. *)
Example idle_playback_edits_fit :
  (let? ed := with_text tk [1; 2; 3] in let? ed' := run_inputs tk ed (typed_now 9 3 :: repeat (IPlay [EMove] 0) 19 ++ many 22 4) in Some (length (get_buffer ed'))) = Some 26.
Proof. now vm_compute. Qed.

(** A plugin that answers an undo is told the newest group, which is the one just undone: what it
    then edits in that group does not appear. *)
Theorem C50_edit_after_undo_refuted :
  (let? ed0 := with_text tk [1; 2; 3] in
   let? ed := run_inputs tk ed0 [typed_now 9 3; IEvent EUndo 1] in
   let? head := get_head_rev_id (eng ed) in
   let? ed1 := apply_plugin_edit tk ed (tk head) 0 (Some (last (live_undos ed) 0)) (add 5 3) in
   Some (get_buffer ed, get_buffer ed1)) = Some ([1; 2; 3], [1; 2; 3]).
Proof. now vm_compute. Qed.

Print Assumptions C32_timeline.
Print Assumptions C32_bookkeeping.
Print Assumptions C32_reports.
Print Assumptions C32_undo_redo_edit.
Print Assumptions C49_playback_is_one_step_partial.
Print Assumptions C49_idle_playback_refuted.
Print Assumptions C50_plugin_edit_partial.
Print Assumptions C50_unknown_revision.
Print Assumptions C50_edit_after_undo_refuted.
