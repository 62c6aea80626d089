(** Model of the selection side of rust/core-lib/src/view.rs: gestures, commands, scrolling, and the
    carets and selections drawn on a line. The text, its grapheme boundaries, the visual lines and
    the range of a logical line (linewrap.rs 431-438) are those at hand when a command is done. Not
    modelled here: find, replace, annotations, styles; rendering is in [ShadowModel]. *)
From Coq Require Import List Arith ZArith Bool.
From Verif Require Import Base TreeModel CursorModel RopeModel WordModel SelectionModel DeltaModel ShadowModel MovementModel.
Import ListNotations.
Local Notation region := SelectionModel.region.
Local Open Scope nat_scope.

(** rpc.rs 288-299, [SelectionGranularity]. *)
Inductive granularity := GPoint | GWord | GLine.
(** rpc.rs 300-321, [GestureType]; the deprecated ones are translated (edit_types.rs 227-260). *)
Inductive gesture := Select (g : granularity) (multi : bool) | SelectExtend (g : granularity) | GDrag | GDeprecated.
(** view.rs 147-159, [DragState]. *)
Record drag_state := Drag { dg_base : list region; dg_min : nat; dg_max : nat; dg_gran : granularity }.
(** view.rs 50-104, [View]: the part modelled. *)
Record view := View { vw_sel : list region; vw_drag : option drag_state; vw_first : nat; vw_height : nat; vw_scroll : option nat; vw_shadow : shadow }.
(** view.rs 162-184, [new]. *)
Definition view_new : view := View [caret 0] None 0 10 (Some 0) (Shadow [] false).

Definition with_sel (v : view) (s : list region) : view := View s (vw_drag v) (vw_first v) (vw_height v) (vw_scroll v) (vw_shadow v).
Definition with_drag (v : view) (d : option drag_state) : view := View (vw_sel v) d (vw_first v) (vw_height v) (vw_scroll v) (vw_shadow v).
Definition with_first (v : view) (f : nat) : view := View (vw_sel v) (vw_drag v) f (vw_height v) (vw_scroll v) (vw_shadow v).
Definition with_scroll (v : view) (o : option nat) : view := View (vw_sel v) (vw_drag v) (vw_first v) (vw_height v) o (vw_shadow v).
Definition with_shadow (v : view) (s : shadow) : view := View (vw_sel v) (vw_drag v) (vw_first v) (vw_height v) (vw_scroll v) s.
(** The last of some regions; [last().unwrap()] panics when there is none. *)
Definition last_region (s : list region) : option region := hd_error (rev s).

(** view.rs 329-334, [set_scroll]; the subtraction panics below zero. *)
Definition set_scroll (v : view) (first last : Z) : option view :=
  let f := Z.to_nat first in
  let l := Z.to_nat last in
  check (f <=? l) (Some (View (vw_sel v) (vw_drag v) f (l - f) (vw_scroll v) (vw_shadow v))).

Section Model.
Context (gb : nat -> bool) (text : rope) (lo : line_off) (line_range : nat -> option (nat * nat)).

(** view.rs 340-353, [scroll_to_cursor]; the subtractions panic below zero. *)
Definition scroll_to_cursor (v : view) : option view :=
  let? r := last_region (vw_sel v) in
  let? line := lo_line_of_offset lo (r_end r) in
  let? v1 :=
    if line <? vw_first v then Some (with_first v line)
    else if vw_first v + vw_height v <=? line then
      check ((1 <=? vw_height v) && (vw_height v - 1 <=? line)) (Some (with_first v (line - (vw_height v - 1))))
    else Some v in
  Some (with_scroll v1 (Some (r_end r))).

(** view.rs 404-416, [invalidate_selection]. *)
Definition invalidate_selection (v : view) : option view :=
  let? f := hd_error (vw_sel v) in
  let? first_line := lo_line_of_offset lo (rmin f) in
  let? l := last_region (vw_sel v) in
  let? last_line := lo_line_of_offset lo (rmax l) in
  let invalid := if forallb is_caret (vw_sel v) then Validity false false true else Validity false true true in
  Some (with_shadow v (partial_invalidate (vw_shadow v) first_line (last_line + 1) invalid)).
(** view.rs 394-399, [set_selection_raw]. *)
Definition set_selection_raw (v : view) (s : list region) : option view :=
  let? v1 := invalidate_selection v in
  invalidate_selection (with_sel v1 s).
(** view.rs 382-386, [set_selection]. *)
Definition set_selection (v : view) (s : list region) : option view :=
  let? v1 := set_selection_raw v s in
  scroll_to_cursor v1.
(** view.rs 388-392, [set_selection_for_edit]. *)
Definition set_selection_for_edit (v : view) (s : list region) : option view := scroll_to_cursor (with_sel v s).

(** view.rs 356-369, [deselect_at_offset]; [None] if nothing was removed. *)
Definition deselect_at_offset (v : view) (offset : nat) : option (option view) :=
  let? at_ := regions_in_range (vw_sel v) offset offset in
  match at_ with
  | [] => Some None
  | _ =>
      let? s := sel_delete_range (vw_sel v) offset offset true in
      match s with
      | [] => Some None
      | _ => let? v1 := set_selection_raw (with_drag v None) s in Some (Some v1)
      end
  end.

(** view.rs 374-380, [do_move]. *)
Definition do_move (v : view) (m : movement) (modify : bool) : option view :=
  let? s := selection_movement gb text lo m (vw_sel v) (vw_height v) modify in
  set_selection (with_drag v None) s.
(** view.rs 418-428, [add_selection_by_movement]. *)
Fixpoint add_loop (m : movement) (height : nat) (rs acc : list region) : option (list region) :=
  match rs with
  | [] => Some acc
  | r :: rs' =>
      let? acc1 := add_region acc r in
      let? r' := region_movement gb text lo m r height false in
      let? acc2 := add_region acc1 r' in
      add_loop m height rs' acc2
  end.
Definition add_selection_by_movement (v : view) (m : movement) : option view :=
  let? s := add_loop m (vw_height v) (vw_sel v) [] in
  set_selection v s.
(** view.rs 449-452, [select_all]. *)
Definition select_all (v : view) : option view := set_selection_raw v [region_new 0 (n_len text)].
(** view.rs 454-469, [unit]. *)
Definition unit_at (offset : nat) (g : granularity) : option (nat * nat) :=
  match g with
  | GPoint => Some (offset, offset)
  | GWord =>
      let? c := c_new text offset in
      let? (s, e, _) := select_word text (n_len text) c in
      Some (s, e)
  | GLine =>
      let? (line, _) := lo_offset_to_line_col lo offset in
      line_range line
  end.
(** view.rs 472-500, [select]. *)
Definition select (v : view) (offset : nat) (g : granularity) (multi : bool) : option view :=
  let? toggled := match g with GPoint => if multi then deselect_at_offset v offset else Some None | _ => Some None end in
  match toggled with
  | Some v1 => Some v1
  | None =>
      let? (a, b) := unit_at offset g in
      let base := if multi then vw_sel v else [] in
      let? s := add_region base (region_new a b) in
      let? v1 := set_selection v s in
      Some (with_drag v1 (Some (Drag base a b g)))
  end.
(** view.rs 579-594, [range_region]. *)
Definition range_region (min_start max_start offset : nat) (g : granularity) : option region :=
  let? (min_end, max_end) := unit_at offset g in
  Some (if min_start <=? offset then region_new min_start max_end else region_new max_start min_end).
(** view.rs 502-534, [extend_selection]: [base_sel] is built by adding the regions but the last. *)
Fixpoint add_regions (acc rs : list region) : option (list region) :=
  match rs with [] => Some acc | r :: rs' => let? acc' := add_region acc r in add_regions acc' rs' end.
Definition extend_selection (v : view) (offset : nat) (g : granularity) : option view :=
  match last_region (vw_sel v) with
  | None => Some v
  | Some last =>
      let? base := add_regions [] (removelast (vw_sel v)) in
      let? new_region := range_region (r_start last) (r_start last) offset g in
      let? s := add_region base new_region in
      set_selection (with_drag v (Some (Drag base (r_start last) (r_start last) g))) s
  end.
(** view.rs 546-558: the lines of one region; [max(0, x - 1)] panics at zero. *)
Fixpoint split_loop (fuel : nat) (c : cursor (L:=list nat) (I:=rope_info)) (e : nat) (acc : list region) : option (list region) :=
  if c_pos c <? e then
    match fuel with
    | 0 => None
    | S fuel' =>
        let sel_start := c_pos c in
        let? (next, c') := c_next rope_ops text lines_metric c in
        match next with
        | Some x =>
            check (1 <=? x) (check (1 <=? e)
              (let end_of_line := if e <=? x then e - 1 else x - 1 in
               let? acc' := add_region acc (region_new sel_start end_of_line) in
               split_loop fuel' c' e acc'))
        | None =>
            if c_pos c' =? n_len text then
              let? acc' := add_region acc (region_new sel_start (c_pos c')) in
              split_loop fuel' c' e acc'
            else Some acc
        end
    end
  else Some acc.
Fixpoint split_regions (rs acc : list region) : option (list region) :=
  match rs with
  | [] => Some acc
  | r :: rs' =>
      let? acc' :=
        if is_caret r then add_region acc (caret (rmax r))
        else let? c := c_new text (rmin r) in split_loop (n_len text) c (rmax r) acc in
      split_regions rs' acc'
  end.
(** view.rs 536-561, [do_split_selection_into_lines]. *)
Definition split_selection_into_lines (v : view) : option view :=
  let? s := split_regions (vw_sel v) [] in
  set_selection_raw v s.
(** view.rs 563-577, [do_drag]; the affinity is the default one. *)
Definition do_drag (v : view) (offset : nat) : option view :=
  match vw_drag v with
  | None => Some v
  | Some d =>
      let? r := range_region (dg_min d) (dg_max d) offset (dg_gran d) in
      let? s := add_region (dg_base d) (with_affinity (with_horiz r None) Downstream) in
      set_selection v s
  end.
(** view.rs 602-607, [collapse_selections]. *)
Definition collapse_selections (v : view) : option view :=
  let? s := collapse (vw_sel v) in
  set_selection v s.
(** view.rs 298-318, [do_gesture]. *)
Definition do_gesture (v : view) (line col : nat) (ty : gesture) : option view :=
  let? offset := lo_line_col_to_offset gb text lo line col in
  match ty with
  | Select g multi => select v offset g multi
  | SelectExtend g => extend_selection v offset g
  | GDrag => do_drag v offset
  | GDeprecated => Some v
  end.
(** view.rs 320-323, [goto_line]. *)
Definition goto_line (v : view) (line : nat) : option view :=
  let? offset := lo_line_col_to_offset gb text lo line 0 in
  set_selection v [caret offset].

(** edit_types.rs 30-52, [ViewEvent]: those modelled. A click has a shift flag and a count. *)
Inductive view_event :=
| EMove (m : movement) | EModify (m : movement) | ESelectAll | EScroll (first last : Z) | EAddAbove | EAddBelow
| EGesture (line col : nat) (ty : gesture) | EGotoLine (line : nat) | ECollapse | EIntoLines
| EClick (line col : nat) (shift : bool) (count : option nat) | EDrag (line col : nat).
(** view.rs 233-296, [do_edit]. The gestures made of a click that is not with shift are the deprecated
    ones: it is [edit_types.rs] that translates those of a gesture. *)
Definition do_edit (v : view) (e : view_event) : option view :=
  match e with
  | EMove m => do_move v m false
  | EModify m => do_move v m true
  | ESelectAll => select_all v
  | EScroll f l => set_scroll v f l
  | EAddAbove => add_selection_by_movement v MUpExactPosition
  | EAddBelow => add_selection_by_movement v MDownExactPosition
  | EGesture line col ty => do_gesture v line col ty
  | EGotoLine line => goto_line v line
  | ECollapse => collapse_selections v
  | EIntoLines => split_selection_into_lines v
  | EClick line col shift _ => if shift then do_gesture v line col (SelectExtend GPoint) else do_gesture v line col GDeprecated
  | EDrag line col => do_gesture v line col GDrag
  end.

(** view.rs 995-997 and 1011-1012, [after_edit]: the drag state and the selection. [lo] is that of
    the new text. The rest of it is in [LinewrapModel] and [ShadowModel]. *)
Definition after_edit_selection {A} (v : view) (d : delta A) (dr : drift) : option view :=
  let? s := sel_apply_delta (vw_sel v) d true dr in
  set_selection_for_edit (with_drag v None) s.
End Model.

(** view.rs 1300-1309, [clamp]. *)
Definition clamp (x mn mx : nat) : nat := if x <? mn then mn else if x <? mx then x else mx.
(** view.rs 627-650, the carets and selections of [encode_line]. *)
Definition is_upstream (r : region) : bool := match r_aff r with Upstream => true | Downstream => false end.
Definition line_cursors (sel : list region) (start_pos pos last_pos : nat) : option (list nat) :=
  let? rs := regions_in_range sel start_pos pos in
  Some (flat_map (fun r => let c := r_end r in
    if ((start_pos <? c) && (c <? pos)) || (negb (is_upstream r) && (c =? start_pos)) || (is_upstream r && (c =? pos)) || ((c =? pos) && (c =? last_pos))
    then [c - start_pos] else []) rs).
Definition line_selections (sel : list region) (start_pos pos : nat) : option (list (nat * nat)) :=
  let? rs := regions_in_range sel start_pos pos in
  Some (flat_map (fun r =>
    let a := clamp (rmin r) start_pos pos - start_pos in
    let b := clamp (rmax r) start_pos pos - start_pos in
    if a <? b then [(a, b)] else []) rs).
