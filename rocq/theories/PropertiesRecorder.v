(** C41: recordings. *)
From Coq Require Import List Arith Bool Lia.
From Verif Require Import Base ListLib RecorderModel.
Import ListNotations.

(** ** Specification
    Which of the recorded events are still in effect: an event is [Alive], [Undone] (and can be
    redone) or [Gone] (undone, and something else was done since). The latest event comes first. *)
Inductive fate := Alive | Undone | Gone.
Fixpoint undo_last (l : list (revent * fate)) : list (revent * fate) :=
  match l with
  | [] => []
  | (ViewEv k, f) :: l' => (ViewEv k, f) :: undo_last l'
  | (e, Alive) :: l' => (e, Undone) :: l'
  | (e, f) :: l' => (e, f) :: undo_last l'
  end.
(** The undone event that was done first. *)
Fixpoint redo_first (l : list (revent * fate)) : list (revent * fate) * bool :=
  match l with
  | [] => ([], false)
  | (e, f) :: l' =>
      let (l1, found) := redo_first l' in
      if found then ((e, f) :: l1, true)
      else match f with Undone => ((e, Alive) :: l', true) | _ => ((e, f) :: l', false) end
  end.
Definition forget (l : list (revent * fate)) : list (revent * fate) :=
  map (fun p => match p with (e, Undone) => (e, Gone) | _ => p end) l.
Definition happen (l : list (revent * fate)) (e : revent) : list (revent * fate) :=
  match e with
  | UndoEv => undo_last l
  | RedoEv => fst (redo_first l)
  | ViewEv k => (ViewEv k, Alive) :: l
  | e => (e, Alive) :: forget l
  end.
Definition in_effect (l : list (revent * fate)) : list revent :=
  rev (map fst (filter (fun p => match snd p with Alive => true | _ => false end) l)).
Definition survivors (l : list revent) : list revent := in_effect (fold_left happen l []).

(** Undo and redo only take back and bring back the latest event: no undo directly after an undo,
    no redo but after an undo. *)
Inductive mood := Start | CanUndo | CanRedo.
Definition calm_step (q : option mood) (e : revent) : option mood :=
  match q, e with
  | None, _ => None
  | Some CanUndo, UndoEv => Some CanRedo
  | Some _, UndoEv => None
  | Some CanRedo, RedoEv => Some CanUndo
  | Some _, RedoEv => None
  | Some q, ViewEv _ => Some q
  | Some _, _ => Some CanUndo
  end.
Definition calm (l : list revent) : Prop := fold_left calm_step l (Some Start) <> None.

(** Insertions a character at a time. *)
Definition by_char (l : list revent) : list revent :=
  flat_map (fun e => match e with Typed s => map (fun c => Typed [c]) s | _ => [e] end) l.

(** ** Proofs *)
Definition undo_ev (e : revent) : bool := match e with UndoEv | RedoEv => true | _ => false end.
Lemma filter_back_no l : forall su sr, forallb (fun e => negb (undo_ev e)) (filter_back su sr l) = true.
Proof.
  induction l as [|e l IH]; intros su sr; cbn [filter_back]; auto. destruct e; cbn [keep_event]; auto.
  - destruct (negb su); cbn; auto.
  - destruct (negb su); cbn; auto.
  - cbn. auto.
Qed.
Lemma filter_back_plain l : forallb (fun e => negb (undo_ev e)) l = true -> filter_back false false l = l.
Proof. induction l as [|e l IH]; cbn [forallb filter_back]; auto. destruct e; cbn; intros H; try discriminate; now rewrite IH. Qed.

Definition state (l : list revent) := fold_left happen l [].
Lemma state_snoc l e : state (l ++ [e]) = happen (state l) e.
Proof. unfold state. now rewrite fold_left_app. Qed.
Definition mood_of (l : list revent) := fold_left calm_step l (Some Start).
Lemma mood_snoc l e : mood_of (l ++ [e]) = calm_step (mood_of l) e.
Proof. unfold mood_of. now rewrite fold_left_app. Qed.

(** In the mood [CanUndo] nothing can be redone; in the mood [CanRedo] exactly the latest. *)
Definition none_undone (l : list (revent * fate)) : bool := forallb (fun p => match snd p with Undone => false | _ => true end) l.
Fixpoint latest (f : fate) (l : list (revent * fate)) : Prop :=
  match l with
  | [] => False
  | (ViewEv _, Alive) :: l' => latest f l'
  | (ViewEv _, _) :: l' => False
  | (_, f') :: l' => f' = f /\ none_undone l' = true
  end.
Lemma redo_none l : none_undone l = true -> redo_first l = (l, false).
Proof.
  induction l as [|[e f] l IH]; intros H; cbn [redo_first]; auto.
  assert (none_undone l = true /\ f <> Undone) as [H1 H2].
  { destruct l; cbn in *; destruct f; try discriminate; auto; split; auto; discriminate. }
  rewrite IH by auto. destruct f; congruence.
Qed.
Lemma latest_undo l : latest Alive l -> latest Undone (undo_last l) /\ fst (redo_first (undo_last l)) = l /\
  snd (redo_first (undo_last l)) = true.
Proof.
  induction l as [|[e f] l IH]; cbn [latest]; [contradiction|].
  destruct e; cbn [undo_last]; try (intros [-> H]; cbn [latest redo_first]; rewrite (redo_none l H); cbn; auto; fail).
  destruct f; try contradiction. intros H. destruct (IH H) as (H1 & H2 & H3). cbn [latest redo_first].
  destruct (redo_first (undo_last l)) as [l1 b]. cbn in H2, H3. subst. cbn. auto.
Qed.
Lemma latest_redo l : latest Undone l -> latest Alive (fst (redo_first l)) /\ undo_last (fst (redo_first l)) = l /\ snd (redo_first l) = true.
Proof.
  induction l as [|[e f] l IH]; cbn [latest]; [contradiction|].
  destruct e; cbn [redo_first]; try (intros [-> H]; rewrite (redo_none l H); cbn; auto; fail).
  destruct f; try contradiction. intros H. destruct (IH H) as (H1 & H2 & H3).
  destruct (redo_first l) as [l1 b]. cbn in H1, H2, H3. subst. cbn. auto.
Qed.
Lemma forget_none l : none_undone (forget l) = true.
Proof.
  assert (H : forallb (fun p : revent * fate => match snd p with Undone => false | _ => true end) (forget l) = true).
  { induction l as [|[e f] l IH]; cbn; auto. destruct f; cbn; auto. }
  destruct (forget l); auto.
Qed.
Lemma forget_effect l : in_effect (forget l) = in_effect l.
Proof.
  unfold in_effect. f_equal. induction l as [|[e f] l IH]; cbn [forget map filter fst snd]; auto. fold (forget l).
  destruct f; cbn [filter map fst snd]; auto. now rewrite IH.
Qed.
Lemma mood_state l : match mood_of l with
  | Some Start => none_undone (state l) = true
  | Some CanUndo => latest Alive (state l)
  | Some CanRedo => latest Undone (state l)
  | None => True end.
Proof.
  induction l as [|e l IH] using rev_ind; [reflexivity|]. rewrite mood_snoc, state_snoc.
  destruct (mood_of l) as [[]|]; destruct e; cbn [calm_step happen]; auto; cbn [latest]; auto using forget_none; try (split; auto using forget_none; fail).
  - now apply latest_undo.
  - now apply latest_redo.
Qed.

Lemma effect_snoc l e : match e with UndoEv | RedoEv => False | _ => True end -> in_effect (happen l e) = in_effect l ++ [e].
Proof.
  destruct e; intros H; try contradiction; cbn [happen]; unfold in_effect at 1; cbn [filter snd map fst rev];
    [rewrite <- (forget_effect l)|rewrite <- (forget_effect l)|]; reflexivity.
Qed.
Lemma effect_view l k : in_effect (undo_last ((ViewEv k, Alive) :: l)) = in_effect (undo_last l) ++ [ViewEv k].
Proof. reflexivity. Qed.

Lemma back_ok l : mood_of l <> None ->
  rev (filter_back false false (rev l)) = in_effect (state l) /\
  (mood_of l = Some CanUndo -> rev (filter_back true false (rev l)) = in_effect (undo_last (state l))) /\
  (mood_of l = Some CanRedo -> rev (filter_back false true (rev l)) = in_effect (fst (redo_first (state l)))).
Proof.
  induction l as [|e l IH] using rev_ind; intros Hm; [now split|]. rewrite mood_snoc in *. rewrite state_snoc, rev_app_distr. cbn [rev app].
  pose proof (mood_state l) as Hs. destruct (mood_of l) as [q|] eqn:Eq; [|now destruct e]. specialize (IH ltac:(discriminate)) as (I1 & I2 & I3).
  destruct e as [s|k| | |k]; cbn [filter_back keep_event negb calm_step happen].
  - cbn [rev]. rewrite I1, <- effect_snoc by exact Logic.I. split; [reflexivity|]. split; [intros _|destruct q; discriminate].
    cbn [undo_last]. unfold in_effect at 2. cbn [filter snd]. fold (in_effect (forget (state l))). rewrite forget_effect. destruct (state l); reflexivity.
  - cbn [rev]. rewrite I1, <- effect_snoc by exact Logic.I. split; [reflexivity|]. split; [intros _|destruct q; discriminate].
    cbn [undo_last]. unfold in_effect at 2. cbn [filter snd]. fold (in_effect (forget (state l))). rewrite forget_effect. destruct (state l); reflexivity.
  - destruct q; cbn [calm_step] in Hm; try congruence. destruct (latest_undo _ Hs) as (_ & Hr & _).
    split; [auto|]. split; [discriminate|]. intros _. now rewrite Hr.
  - destruct q; cbn [calm_step] in Hm; try congruence. destruct (latest_redo _ Hs) as (_ & Hr & _).
    split; [auto|]. split; [|discriminate]. intros _. now rewrite Hr.
  - cbn [rev]. rewrite I1, <- effect_snoc by exact Logic.I. split; [reflexivity|]. split.
    + intros E. assert (q = CanUndo) as -> by (destruct q; congruence). rewrite I2 by reflexivity. reflexivity.
    + intros E. assert (q = CanRedo) as -> by (destruct q; congruence). rewrite I3 by reflexivity.
      destruct (latest_redo _ Hs) as (_ & _ & Hb). cbn [redo_first]. destruct (redo_first (state l)) as [l1 b]. cbn in Hb |- *. subst b. reflexivity.
Qed.

(** ** C41 *)
(** A saved recording is the events still in effect, if undo and redo only took back and
    brought back the latest one. *)
Theorem C41_survivors_partial l : calm l -> cleaned l = survivors l.
Proof. intros H. apply back_ok. exact H. Qed.
(** Without undo and redo it is the events. *)
Theorem C41_plain l : (forall e, In e l -> e <> UndoEv /\ e <> RedoEv) -> cleaned l = l.
Proof.
  intros H. unfold cleaned. rewrite filter_back_plain; [apply rev_involutive|]. apply forallb_forall. intros e He. apply in_rev in He.
  destruct (H e He). destruct e; auto; congruence.
Qed.
(** It never contains undo or redo, whatever was recorded and saved in whatever order. *)
Definition clean_recording (l : list revent) : Prop := forall e, In e l -> e <> UndoEv /\ e <> RedoEv.
Lemma cleaned_clean l : clean_recording (cleaned l).
Proof.
  intros e He. unfold cleaned in He. apply in_rev in He. pose proof (filter_back_no (rev l) false false) as K.
  rewrite forallb_forall in K. specialize (K e He). destruct e; cbn in K; try discriminate; split; discriminate.
Qed.
Definition all_clean (r : recorder) : Prop := (forall n l, In (n, l) (recordings r) -> clean_recording l) /\ (active r = None -> buffer r = []).
Lemma rcall_clean r c r' : all_clean r -> run_rcall r c = Some r' -> all_clean r'.
Proof.
  intros [H1 H2] H. destruct c as [[n|]|e|n]; cbn [run_rcall] in H.
  - injection H as <-. unfold toggle_recording. destruct (active r) as [l|] eqn:Ea.
    + destruct (l =? n).
      * split; cbn [recordings save_recording_buffer buffer]; auto. intros m x [[= <- <-]|K]; [apply cleaned_clean|eauto].
      * split; [exact H1|discriminate].
    + split; [auto|discriminate].
  - injection H as <-. unfold toggle_recording. destruct (active r) as [l|] eqn:Ea.
    + split; cbn [recordings save_recording_buffer buffer]; auto. intros m x [[= <- <-]|K]; [apply cleaned_clean|eauto].
    + split; auto.
  - unfold is_recording in H. destruct (active r) as [l|] eqn:Ea; [|injection H as <-; split; auto].
    unfold record, is_recording in H. rewrite Ea in H. cbn [check] in H. injection H as <-. split; cbn [recordings active]; auto; discriminate.
  - injection H as <-. split; cbn [clear recordings active buffer]; auto. intros m x K. apply filter_In in K as [K _]. eauto.
Qed.
Lemma rcalls_clean l : forall r r', all_clean r -> run_rcalls r l = Some r' -> all_clean r'.
Proof.
  induction l as [|c l IH]; intros r r' H E; cbn [run_rcalls] in E; [injection E as <-; auto|].
  destruct (run_rcall r c) as [r1|] eqn:E1; cbn [bind] in E; [|discriminate]. apply (IH r1); [|exact E]. exact (rcall_clean r c r1 H E1).
Qed.
Lemma lookup_in n l x : lookup n l = Some x -> In (n, x) l.
Proof. induction l as [|[m y] l IH]; cbn; [discriminate|]. destruct (Nat.eqb_spec n m); [intros [= ->]; subst; auto|auto]. Qed.
Theorem C41_never_undo l r n : run_rcalls recorder_new l = Some r -> forall e, In e (play r n) -> e <> UndoEv /\ e <> RedoEv.
Proof.
  intros H e He. destruct (rcalls_clean l recorder_new r) as [K _]; auto. { split; [contradiction|auto]. }
  unfold play in He. destruct (match active r with Some _ => _ | None => _ end); [contradiction|].
  destruct (lookup n (recordings r)) as [x|] eqn:El; [|contradiction]. apply lookup_in in El. apply (K _ _ El e He).
Qed.

(** What is recorded is the events in order; successive insertions become one. *)
Lemma by_char_app a b : by_char (a ++ b) = by_char a ++ by_char b.
Proof. apply flat_map_app. Qed.
Lemma record_ok r e r' : record r e = Some r' -> by_char (buffer r') = by_char (buffer r) ++ by_char [e] /\
  active r' = active r /\ recordings r' = recordings r.
Proof.
  unfold record. destruct (is_recording r); cbn [check]; [|discriminate]. intros [= <-]. cbn [buffer active recordings]. split; [|auto].
  destruct (rev (buffer r)) as [|x rest] eqn:Er; [apply by_char_app|].
  assert (Eb : buffer r = rev rest ++ [x]) by (rewrite <- (rev_involutive (buffer r)), Er; reflexivity).
  destruct x; try apply by_char_app. destruct e; try apply by_char_app. cbn [rev]. rewrite Eb, !by_char_app, <- app_assoc. f_equal.
  cbn. now rewrite !app_nil_r, map_app.
Qed.
Fixpoint record_all (r : recorder) (l : list revent) : option recorder :=
  match l with [] => Some r | e :: l' => let? r' := record r e in record_all r' l' end.
Lemma record_all_ok l : forall r, is_recording r = true -> exists r', record_all r l = Some r' /\
  by_char (buffer r') = by_char (buffer r) ++ by_char l /\ active r' = active r /\ recordings r' = recordings r.
Proof.
  induction l as [|e l IH]; intros r H; cbn [record_all].
  - exists r. cbn. rewrite app_nil_r. auto.
  - destruct (record r e) as [r1|] eqn:E; [|unfold record in E; rewrite H in E; discriminate]. cbn [bind].
    destruct (record_ok r e r1 E) as (H1 & H2 & H3). destruct (IH r1) as (r' & K1 & K2 & K3 & K4); [unfold is_recording in *; now rewrite H2|].
    exists r'. split; [auto|]. split; [|split; congruence]. rewrite K2, H1, <- app_assoc. f_equal. now rewrite <- by_char_app.
Qed.
(** A recording from start to end, at any time when nothing is being recorded: its
    playback is what was recorded, cleaned; no other recording changes. *)
Theorem C41_session calls r n l stop : run_rcalls recorder_new calls = Some r -> is_recording r = false ->
  stop = None \/ stop = Some n ->
  exists r1 kept, record_all (toggle_recording r (Some n)) l = Some r1 /\ by_char kept = by_char l /\
    let r2 := toggle_recording r1 stop in
    is_recording r2 = false /\ play r2 n = cleaned kept /\ forall m, m <> n -> play r2 m = play r m.
Proof.
  intros Hc Hr Hs. destruct (rcalls_clean calls recorder_new r) as [_ K]; auto. { split; [contradiction|auto]. }
  unfold is_recording in Hr. destruct (active r) as [|] eqn:Ea; [discriminate|]. specialize (K eq_refl).
  unfold toggle_recording at 1. rewrite Ea.
  destruct (record_all_ok l (Recorder (Some n) (buffer r) (recordings r)) eq_refl) as (r1 & H1 & H2 & H3 & H4).
  exists r1, (buffer r1). split; [auto|]. cbn [buffer active recordings] in *. rewrite K in H2. split; [exact H2|]. cbv zeta.
  unfold toggle_recording. rewrite H3.
  assert (Hp : forall m b, m <> n -> play (Recorder None b ((n, cleaned (buffer r1)) :: recordings r1)) m = play r m).
  { intros m b Hm. unfold play. cbn [active recordings lookup]. rewrite Ea, H4. destruct (Nat.eqb_spec m n); [congruence|reflexivity]. }
  assert (Hn : forall b, play (Recorder None b ((n, cleaned (buffer r1)) :: recordings r1)) n = cleaned (buffer r1)).
  { intros b. unfold play. cbn [active recordings lookup]. now rewrite Nat.eqb_refl. }
  destruct Hs as [-> | ->]; [|rewrite Nat.eqb_refl]; unfold save_recording_buffer; cbn [active buffer recordings]; auto.
Qed.
(** A recording is not played while it is being made. *)
Theorem C41_not_while_recording r n : active r = Some n -> play r n = [].
Proof. intros H. unfold play. now rewrite H, Nat.eqb_refl. Qed.

(** Two undos in a row take back two events, and the recording keeps one of them. *)
Theorem C41_nested_undo_refuted : cleaned [Buf 1; Buf 2; UndoEv; UndoEv] = [Buf 1] /\ survivors [Buf 1; Buf 2; UndoEv; UndoEv] = [].
Proof. now vm_compute. Qed.

(** *** The hypotheses are met *)
Example calm_case : calm [ViewEv 0; Buf 1; Typed [7]; UndoEv; ViewEv 3; RedoEv; UndoEv; Buf 2; UndoEv; Buf 4; UndoEv; RedoEv] /\
  cleaned [ViewEv 0; Buf 1; Typed [7]; UndoEv; ViewEv 3; RedoEv; UndoEv; Buf 2; UndoEv; Buf 4; UndoEv; RedoEv] = [ViewEv 0; Buf 1; ViewEv 3; Buf 4].
Proof. split; [discriminate|now vm_compute]. Qed.
Example session_case :
  (let? r := run_rcalls recorder_new [Toggle (Some 1); Rec (Typed [1]); Rec (Typed [2]); Rec (Buf 3); Toggle None; Rec (Buf 9); Toggle (Some 2); Rec (Buf 5); Toggle (Some 3); Rec (Buf 6); Toggle (Some 3)] in
   Some (play r 1, play r 2, play r 3, is_recording r)) = Some ([Typed [1; 2]; Buf 3], [], [Buf 6], false).
Proof. now vm_compute. Qed.

Print Assumptions C41_survivors_partial.
Print Assumptions C41_plain.
Print Assumptions C41_never_undo.
Print Assumptions C41_session.
Print Assumptions C41_not_while_recording.
Print Assumptions C41_nested_undo_refuted.
