(** C27: the difference of two texts, and reloading a file that changed on disk. *)
From Coq Require Import List Arith Bool Lia ZifyBool.
From Verif Require Import Base ListLib DeltaModel DeltaSpec TreeModel TreeSpec RopeModel RopeSpec RopeProofs RopeIterModel RopeIterProofs CompareModel PropertiesCompare
  DiffModel DiffSpec DiffProofs EngineModel EditorModel EditorSpec PropertiesEditor.
Import ListNotations.
Local Notation concat := List.concat.
Lemma ascii_utf8 s : Forall (fun b => b < 128) s -> utf8 s.
Proof.
  intros F. exists (map (fun b => [b]) s). split.
  - induction F as [|b s H F IH]; constructor; auto. cbn. lia.
  - induction s as [|b s IH]; auto. inversion F. cbn. now rewrite <- IH.
Qed.

(** The difference of two texts is a delta from the first to the second, unless some character
    of one ends with the same byte as another character of the other.
    Missing: texts with such characters; see below. *)
Theorem C27_diff_partial : forall base target hb ht, rope_wf hb base -> rope_wf ht target -> distinct_tails (rcontent base) (rcontent target) ->
  exists els r h, compute_delta base target = Some (els, length (rcontent base)) /\ rope_apply els base = Some r /\ rope_wf h r /\ rcontent r = rcontent target.
Proof.
  intros base target hb ht Wb Wt D. destruct (diff_ok base target hb ht Wb Wt D) as ([els n] & E & G1 & G2 & G3 & _). cbn [fst snd] in *. subst n.
  destruct (rope_apply_ok base hb els _ Wb G2 G3) as (r & h & E1 & W & C). exists els, r, h. auto.
Qed.
Print Assumptions C27_diff_partial.
(** In particular when either text is ASCII. *)
Theorem C27_diff_ascii : forall base target hb ht, rope_wf hb base -> rope_wf ht target ->
  Forall (fun b => b < 128) (rcontent base) \/ Forall (fun b => b < 128) (rcontent target) ->
  exists els r h, compute_delta base target = Some (els, length (rcontent base)) /\ rope_apply els base = Some r /\ rope_wf h r /\ rcontent r = rcontent target.
Proof. intros base target hb ht Wb Wt H. eapply C27_diff_partial; eauto using ascii_distinct. Qed.
Print Assumptions C27_diff_ascii.

(** editor.rs 172-176, [reload], and the [after_edit] that follows it in event_context.rs: it
    records the difference. Between events the type of the edit is [Other]. *)
Definition reload (tok : rev_id -> nat) (ed : editor nat) (base text : rope) (n : nat) : option (editor nat) :=
  let? (els, len) := compute_delta base text in
  run_input tok ed (IEvent (EEdit Other Other (Delta (map abs_el els) len)) n).
(** The buffer is [text], and it was another step that can be undone and redone. *)
Definition reloads tok ed base text n : Prop :=
  forall n1 n2, exists ed1 ed2 ed3, reload tok ed base text n = Some ed1 /\ get_buffer ed1 = rcontent text /\
    run_input tok ed1 (IEvent EUndo n1) = Some ed2 /\ get_buffer ed2 = get_buffer ed /\
    run_input tok ed2 (IEvent ERedo n2) = Some ed3 /\ get_buffer ed3 = rcontent text.

Section Reload.
Context (tok : rev_id -> nat) (t : list nat) (l : list (input (A:=nat))) (sp : timeline nat) (ed0 ed : editor nat).
Context (P : Forall proper l) (H : live_all (opened t) l = Some sp) (E0 : with_text tok t = Some ed0) (R0 : run_inputs tok ed0 l = Some ed).
Lemma reload_ok base text n d : rcontent base = get_buffer ed -> compute_delta base text = Some d -> good base text d ->
  sorted_copies 0 (map abs_el (fst d)) (snd d) -> reloads tok ed base text n.
Proof.
  destruct d as [els len]. intros Eb E (G1 & G2 & G3 & G4) Hs n1 n2. cbn [fst snd] in *. unfold reload. rewrite E. cbn [bind].
  apply (C32_undo_redo_edit tok t l sp ed0 ed Other Other (Delta (map abs_el els) len) n n1 n2 (rcontent text)); auto.
  - split; auto.
  - cbn [base_len]. congruence.
  - unfold apply. cbn. now rewrite <- Eb.
Qed.
(** After any history, reloading makes the buffer the new text if the delta goes through the old
    one from left to right.
    Missing: differences that move text; see below. *)
Theorem C27_reload_partial base text hb ht n : rope_wf hb base -> rope_wf ht text -> rcontent base = get_buffer ed -> distinct_tails (rcontent base) (rcontent text) ->
  (forall d, compute_delta base text = Some d -> sorted_copies 0 (map abs_el (fst d)) (snd d)) -> reloads tok ed base text n.
Proof.
  intros Wb Wt Eb D Hs. destruct (diff_ok base text hb ht Wb Wt D) as (d & E & G). eapply reload_ok; eauto.
Qed.
(** That is so when one stretch of the file was changed, if nothing was deleted there or less
    than 32 bytes were put there. *)
Theorem C27_reload_one_change base text hb ht n p x y q : rope_wf hb base -> rope_wf ht text -> rcontent base = get_buffer ed ->
  rcontent base = p ++ y ++ q -> rcontent text = p ++ x ++ q -> utf8 p -> utf8 x -> utf8 y -> utf8 q ->
  ~ near_miss (rcontent base) (rcontent text) -> y = [] \/ length x < 32 -> reloads tok ed base text n.
Proof.
  intros Wb Wt Eb E1 E2 Up Ux Uy Uq N Hs. destruct (one_change base text hb ht Wb Wt p x y q E1 E2 Up Ux Uy Uq N Hs) as (d & E & G & S0). eapply reload_ok; eauto.
Qed.
End Reload.
Print Assumptions C27_reload_partial.
Print Assumptions C27_reload_one_change.

(** ** Where it fails *)
Definition diff_line : list nat := repeat 97 34 ++ [10].
Definition diff_old : list nat := diff_line ++ [98; 99; 100; 10].
Definition diff_new : list nat := diff_line ++ [113; 10] ++ diff_line ++ [100; 101; 10].
(** A long line was doubled and another changed: the difference copies the line twice, the engine
    keeps one of the copies, and after reloading the buffer is not the file. *)
Definition tk (r : rev_id) : nat := num r.
Definition reload_case (old new : list nat) : option (option (list nat)) :=
  let? base := rope_from old in let? text := rope_from new in let? ed := with_text tk old in
  Some (option_map get_buffer (reload tk ed base text 0)).
Theorem C27_reload_refuted :
  utf8 diff_old /\ utf8 diff_new /\ distinct_tails diff_old diff_new /\
  reload_case diff_old diff_new = Some (Some (diff_line ++ [113; 10; 100; 101; 10])) /\ diff_line ++ [113; 10; 100; 101; 10] <> diff_new.
Proof.
  assert (A1 : Forall (fun b => b < 128) diff_old) by (apply Forall_forall; intros b Hb; assert (K : forallb (fun b => b <? 128) diff_old = true) by reflexivity; rewrite forallb_forall in K; apply K in Hb; lia).
  assert (A2 : Forall (fun b => b < 128) diff_new) by (apply Forall_forall; intros b Hb; assert (K : forallb (fun b => b <? 128) diff_new = true) by reflexivity; rewrite forallb_forall in K; apply K in Hb; lia).
  split; [now apply ascii_utf8|]. split; [now apply ascii_utf8|]. split; [apply ascii_distinct; auto|]. split; [vm_compute; reflexivity|]. vm_compute. discriminate.
Qed.
Print Assumptions C27_reload_refuted.
(** A file with "é" alone that becomes "ĩ" alone makes the difference panic: their last bytes are
    the same. *)
Theorem C27_near_miss_refuted : utf8 [195; 169] /\ utf8 [196; 169] /\ reload_case [195; 169] [196; 169] = Some None.
Proof. split; [|split]; [exists [[195; 169]]; split; auto|exists [[196; 169]]; split; auto|vm_compute; reflexivity]. Qed.
Print Assumptions C27_near_miss_refuted.

(** ** Cases *)
(** Two long lines swapped and a word changed at the end: matching by lines, the longest
    increasing run of matches, and a common end. *)
Definition line_of (b : nat) : list nat := [32; 32] ++ repeat b 40 ++ [10].
Definition swap_old : list nat := [113; 10] ++ line_of 97 ++ line_of 98 ++ line_of 99 ++ [104; 105; 10].
Definition swap_new : list nat := [114; 10] ++ line_of 98 ++ line_of 97 ++ line_of 99 ++ [104; 10].
Definition diff_case (old new : list nat) : option (list (element nat) * nat * bool) :=
  let? base := rope_from old in let? text := rope_from new in let? (els, n) := compute_delta base text in let? r := rope_apply els base in
  Some (map abs_el els, n, str_eqb (rcontent r) new).
Example C27_case :
  diff_case swap_old swap_new = Some ([Insert ([114; 10; 32; 32] ++ repeat 98 40); Copy 1 47; Insert (repeat 99 40 ++ [10; 104]); Copy 133 134], 134, true) /\
  reload_case swap_old swap_new = Some (Some swap_new).
Proof. vm_compute. split; reflexivity. Qed.
Example C27_case_hypotheses : (exists h r, rope_from swap_old = Some r /\ rope_wf h r /\ rcontent r = swap_old) /\ distinct_tails swap_old swap_new.
Proof.
  assert (A1 : Forall (fun b => b < 128) swap_old) by (apply Forall_forall; intros b Hb; assert (K : forallb (fun b => b <? 128) swap_old = true) by reflexivity; rewrite forallb_forall in K; apply K in Hb; lia).
  split; [|apply ascii_distinct; auto]. destruct (rope_from_ok swap_old) as (r & h & E & W & C); [now apply ascii_utf8|]. exists h, r. auto.
Qed.
(** A character put in the middle of others that end with the same byte. *)
Example C27_one_change_case : reload_case ([97; 195; 169; 10] ++ [] ++ [98; 10]) ([97; 195; 169; 10] ++ [196; 169; 10] ++ [98; 10]) = Some (Some [97; 195; 169; 10; 196; 169; 10; 98; 10]).
Proof. vm_compute. reflexivity. Qed.
