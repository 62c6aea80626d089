(** Model of the text and undo part of rust/core-lib/src/editor.rs, over the CRDT engine, and of
    the calls rust/core-lib/src/event_context.rs makes around it. [Editor::text] is always the
    engine's head, so it is not a field here. A [BTreeSet] of groups is a list. Views, layers and
    the contents sent to plugins are not modelled: a command is the delta it builds. *)
From Coq Require Import List Arith Bool NArith.
From Verif Require Import Base DeltaModel MultisetModel EngineModel.
Import ListNotations.

(** editor.rs 712-729, [EditType]. *)
Inductive edit_type := Other | InsertChars | InsertNewline | Indent | Delete | TUndo | TRedo | Transpose | Surround.
Definition edit_type_eqb (a b : edit_type) : bool :=
  match a, b with
  | Other, Other | InsertChars, InsertChars | InsertNewline, InsertNewline | Indent, Indent | Delete, Delete
  | TUndo, TUndo | TRedo, TRedo | Transpose, Transpose | Surround, Surround => true
  | _, _ => false
  end.
(** editor.rs 733-735, [breaks_undo_group]. *)
Definition breaks_undo_group (self previous : edit_type) : bool :=
  edit_type_eqb self Other || edit_type_eqb self Transpose || negb (edit_type_eqb self previous).
(** editor.rs 50. *)
Definition MAX_UNDOS := 20.

(** editor.rs 52-83, [Editor]. *)
Record editor (A : Type) := Editor {
  eng : engine A; last_rev_id : rev_id; undo_group_id : nat; live_undos : list nat; cur_undo : nat;
  undos : list nat; gc_groups : list nat; force_group : bool; this_type : edit_type; last_type : edit_type; in_flight : nat }.
Arguments Editor {A}.
Arguments eng {A}. Arguments last_rev_id {A}. Arguments undo_group_id {A}. Arguments live_undos {A}. Arguments cur_undo {A}.
Arguments undos {A}. Arguments gc_groups {A}. Arguments force_group {A}. Arguments this_type {A}. Arguments last_type {A}. Arguments in_flight {A}.

Section Editor.
Context {A : Type} (tok : rev_id -> nat).
Implicit Types ed : editor A.

(** editor.rs 93-123, [with_text]. *)
Definition with_text (s : list A) : option (editor A) :=
  let? e := engine_new tok s in
  let? id := get_head_rev_id e in
  Some (Editor e id 1 [0] 1 [] [] false Other Other 0).
(** editor.rs 125-127, [get_buffer]. *)
Definition get_buffer ed : list A := get_head (eng ed).

(** editor.rs 147-150, [update_edit_type]. *)
Definition update_edit_type ed : editor A :=
  Editor (eng ed) (last_rev_id ed) (undo_group_id ed) (live_undos ed) (cur_undo ed) (undos ed) (gc_groups ed) (force_group ed) Other (this_type ed) (in_flight ed).
Definition set_this_type ed t : editor A :=
  Editor (eng ed) (last_rev_id ed) (undo_group_id ed) (live_undos ed) (cur_undo ed) (undos ed) (gc_groups ed) (force_group ed) t (last_type ed) (in_flight ed).
Definition set_last_type ed t : editor A :=
  Editor (eng ed) (last_rev_id ed) (undo_group_id ed) (live_undos ed) (cur_undo ed) (undos ed) (gc_groups ed) (force_group ed) (this_type ed) t (in_flight ed).
Definition set_eng ed e : editor A :=
  Editor e (last_rev_id ed) (undo_group_id ed) (live_undos ed) (cur_undo ed) (undos ed) (gc_groups ed) (force_group ed) (this_type ed) (last_type ed) (in_flight ed).
(** editor.rs 165-168, [set_force_undo_group]. *)
Definition set_force_group ed b : editor A :=
  Editor (eng ed) (last_rev_id ed) (undo_group_id ed) (live_undos ed) (cur_undo ed) (undos ed) (gc_groups ed) b (this_type ed) (last_type ed) (in_flight ed).

(** editor.rs 210-230, [calculate_undo_group]; slicing from [cur_undo] panics beyond the end. *)
Definition calculate_undo_group ed : option (editor A * nat) :=
  let has_undos := match live_undos ed with [] => false | _ => true end in
  let is_unbroken_group := negb (breaks_undo_group (this_type ed) (last_type ed)) in
  if has_undos && (force_group ed || is_unbroken_group) then Some (ed, last (live_undos ed) 0)
  else
    check (cur_undo ed <=? length (live_undos ed))
      (let undo_group := undo_group_id ed in
       let gc1 := gc_groups ed ++ skipn (cur_undo ed) (live_undos ed) in
       let live := firstn (cur_undo ed) (live_undos ed) ++ [undo_group] in
       if length live <=? MAX_UNDOS then
         Some (Editor (eng ed) (last_rev_id ed) (undo_group_id ed + 1) live (cur_undo ed + 1) (undos ed) gc1 (force_group ed) (this_type ed) (last_type ed) (in_flight ed), undo_group)
       else
         match live with
         | oldest :: rest =>
             Some (Editor (eng ed) (last_rev_id ed) (undo_group_id ed + 1) rest (cur_undo ed) (undos ed) (gc1 ++ [oldest]) (force_group ed) (this_type ed) (last_type ed) (in_flight ed), undo_group)
         | [] => None
         end).

(** editor.rs 201-208, [add_delta]. *)
Definition add_delta ed (d : delta A) : option (editor A) :=
  let? head := get_head_rev_id (eng ed) in
  let? (ed1, undo_group) := calculate_undo_group ed in
  let ed2 := set_last_type ed1 (this_type ed1) in
  let priority := N.to_nat 65536 in
  let? e := edit_rev tok (eng ed2) priority undo_group (tok head) d in
  Some (set_eng ed2 e).

(** editor.rs 250-277, [commit_delta]: the delta from the last committed text and that text. *)
Definition commit_delta ed : option (editor A * option (delta A * list A)) :=
  let? head := get_head_rev_id (eng ed) in
  if rev_id_eqb head (last_rev_id ed) then Some (ed, None)
  else
    let? r := try_delta_rev_head tok (eng ed) (tok (last_rev_id ed)) in
    match r with
    | Err _ => None
    | Ok d =>
        let? last_text := get_rev tok (eng ed) (tok (last_rev_id ed)) in
        let? t := last_text in
        Some (Editor (eng ed) head (undo_group_id ed) (live_undos ed) (cur_undo ed) (undos ed) (gc_groups ed) (force_group ed) (this_type ed) (last_type ed) (in_flight ed), Some (d, t))
    end.

(** editor.rs 284-291, [gc_undos] (not on Fuchsia). *)
Definition gc_undos ed : option (editor A) :=
  match in_flight ed, gc_groups ed with
  | 0, _ :: _ =>
      let? e := gc (eng ed) (gc_groups ed) in
      Some (Editor e (last_rev_id ed) (undo_group_id ed) (live_undos ed) (cur_undo ed) (set_minus (undos ed) (gc_groups ed)) [] (force_group ed) (this_type ed) (last_type ed) (in_flight ed))
  | _, _ => Some ed
  end.
(** editor.rs 179-188, [increment_revs_in_flight] and [dec_revs_in_flight]; the subtraction
    panics at zero. *)
Definition add_in_flight ed (n : nat) : editor A :=
  Editor (eng ed) (last_rev_id ed) (undo_group_id ed) (live_undos ed) (cur_undo ed) (undos ed) (gc_groups ed) (force_group ed) (this_type ed) (last_type ed) (in_flight ed + n).
Definition dec_revs_in_flight ed : option (editor A) :=
  match in_flight ed with
  | 0 => None
  | S n => gc_undos (Editor (eng ed) (last_rev_id ed) (undo_group_id ed) (live_undos ed) (cur_undo ed) (undos ed) (gc_groups ed) (force_group ed) (this_type ed) (last_type ed) n)
  end.

(** editor.rs 407-410, [update_undos]. *)
Definition update_undos ed : option (editor A) :=
  let? e := undo (eng ed) (undos ed) in Some (set_eng ed e).
(** editor.rs 389-396, [do_undo]; [insert] answers whether the group was not there. *)
Definition do_undo ed : option (editor A) :=
  if 1 <? cur_undo ed then
    let? g := nth_error (live_undos ed) (cur_undo ed - 1) in
    check (negb (mem g (undos ed)))
      (update_undos (Editor (eng ed) (last_rev_id ed) (undo_group_id ed) (live_undos ed) (cur_undo ed - 1) (g :: undos ed) (gc_groups ed) (force_group ed) TUndo (last_type ed) (in_flight ed)))
  else Some ed.
(** editor.rs 398-405, [do_redo]; [remove] answers whether the group was there. *)
Definition do_redo ed : option (editor A) :=
  if cur_undo ed <? length (live_undos ed) then
    let? g := nth_error (live_undos ed) (cur_undo ed) in
    check (mem g (undos ed))
      (update_undos (Editor (eng ed) (last_rev_id ed) (undo_group_id ed) (live_undos ed) (cur_undo ed + 1) (set_minus (undos ed) [g]) (gc_groups ed) (force_group ed) TRedo (last_type ed) (in_flight ed)))
  else Some ed.

(** event_context.rs 312-352, [update_plugins] with [n] plugins. *)
Definition update_plugins ed (n : nat) : option (editor A) :=
  let? ed1 := dec_revs_in_flight (add_in_flight ed (S n)) in Some (update_edit_type ed1).
(** event_context.rs 273-283, [after_edit]. *)
Definition after_edit ed (n : nat) : option (editor A * option (delta A * list A)) :=
  let? (ed1, info) := commit_delta ed in
  match info with
  | None => Some (ed1, None)
  | Some i => let? ed2 := update_plugins ed1 n in Some (ed2, Some i)
  end.

(** What a user does to a buffer. An editing command sets the type of the edit before it
    records its delta (editor.rs 334-551) and may set it again afterwards, as newlines and
    indentation do (editor.rs 490-525). [EMove] is any event of the view. *)
Inductive event := EEdit (before_t after_t : edit_type) (d : delta A) | EMove | EUndo | ERedo.
(** event_context.rs 133-149, [dispatch_event], and editor.rs 553-599, [do_edit]. *)
Definition dispatch_event ed (ev : event) : option (editor A) :=
  match ev with
  | EEdit b a d => let? ed1 := add_delta (set_this_type ed b) d in Some (set_this_type ed1 a)
  | EMove => Some (update_edit_type ed)
  | EUndo => do_undo ed
  | ERedo => do_redo ed
  end.
(** event_context.rs 112-131, [do_edit], with [n] plugins. *)
Definition do_edit ed (ev : event) (n : nat) : option (editor A * option (delta A * list A)) :=
  let? ed1 := dispatch_event ed ev in after_edit ed1 n.
(** event_context.rs 518-525, [do_plugin_update]: a plugin answers. *)
Definition do_plugin_update ed : option (editor A) := dec_revs_in_flight ed.

(** event_context.rs 193-201: each event of a recording is committed as it is played. *)
Fixpoint play_events ed (evs : list event) : option (editor A) :=
  match evs with
  | [] => Some ed
  | ev :: evs' =>
      let? ed1 := dispatch_event ed ev in
      let? (ed2, _) := commit_delta ed1 in
      play_events ed2 evs'
  end.
(** event_context.rs 181-209, [PlayRecording]. The [after_edit] that follows it (line 129) has
    nothing to commit. *)
Definition play_recording ed (evs : list event) (n : nat) : option (editor A) :=
  let? start := get_head_rev_id (eng ed) in
  let? (ed1, _) := calculate_undo_group (update_edit_type ed) in
  let? ed2 := play_events (set_force_group ed1 true) evs in
  let ed3 := update_edit_type (set_force_group ed2 false) in
  let? r := try_delta_rev_head tok (eng ed3) (tok start) in
  match r with Ok _ => update_plugins ed3 n | Err _ => None end.

(** editor.rs 232-243, [apply_plugin_edit]. An error is logged and nothing happens. *)
Definition apply_plugin_edit ed (rev priority : nat) (group : option nat) (d : delta A) : option (editor A) :=
  let? (ed1, g) := (match group with Some g => Some (ed, g) | None => calculate_undo_group ed end) in
  let? r := try_edit_rev tok (eng ed1) priority g rev d in
  Some (set_eng ed1 (fst r)).

(** One thing that happens to a buffer. [n] is the number of plugins it is reported to. *)
Inductive input := IEvent (ev : event) (n : nat) | IPlay (evs : list event) (n : nat) | IAck.
Definition run_input ed (i : input) : option (editor A) :=
  match i with
  | IEvent ev n => let? r := do_edit ed ev n in Some (fst r)
  | IPlay evs n => let? ed1 := play_recording ed evs n in let? r := after_edit ed1 n in Some (fst r)
  | IAck => do_plugin_update ed
  end.
Fixpoint run_inputs ed (l : list input) : option (editor A) :=
  match l with [] => Some ed | i :: l' => let? ed1 := run_input ed i in run_inputs ed1 l' end.
End Editor.
Arguments EEdit {A}. Arguments EMove {A}. Arguments EUndo {A}. Arguments ERedo {A}.
Arguments IEvent {A}. Arguments IPlay {A}. Arguments IAck {A}.
