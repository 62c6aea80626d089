(** Model of rust/core-lib/src/movement.rs and of the provided methods of the [LineOffset] trait
    (line_offset.rs). A [&dyn LineOffset] is the record of its two required answers for the text at
    hand. [saturating_add] is addition: the offsets are of texts in memory. *)
From Coq Require Import List Arith Bool.
From Verif Require Import Base TreeModel CursorModel RopeModel RopeIterModel WordModel SelectionModel EditOpsModel.
Import ListNotations.
Local Notation region := SelectionModel.region.

(** line_offset.rs 30-37, [offset_of_line] and [line_of_offset]. *)
Record line_off := LineOff { lo_offset_of_line : nat -> option nat; lo_line_of_offset : nat -> option nat }.

(** movement.rs 26-61, [Movement]. *)
Inductive movement :=
| MLeft | MRight | MLeftWord | MRightWord | MLeftOfLine | MRightOfLine | MUp | MDown | MUpPage | MDownPage
| MUpExactPosition | MDownExactPosition | MStartOfParagraph | MEndOfParagraph | MEndOfParagraphKill
| MStartOfDocument | MEndOfDocument.

(** selection.rs 310-312, [with_horiz]. *)
Definition with_horiz (r : region) (h : option nat) : region := Region (r_start r) (r_end r) h (r_aff r).

Section Model.
(** The grapheme boundaries of the text, the text, and the lines. *)
Context (gb : nat -> bool) (text : rope) (lo : line_off).

(** line_offset.rs 49-52, [offset_to_line_col]; the subtraction panics below zero. *)
Definition lo_offset_to_line_col (offset : nat) : option (nat * nat) :=
  let? line := lo_line_of_offset lo offset in
  let? o := lo_offset_of_line lo line in
  check (o <=? offset) (Some (line, offset - o)).
(** line_offset.rs 54-74, [line_col_to_offset]. *)
Definition lo_line_col_to_offset (line col : nat) : option nat :=
  let clamp (offset : nat) : option nat :=
    let? next_line_offset := lo_offset_of_line lo (line + 1) in
    if next_line_offset <=? offset then
      match prev_grapheme_offset gb next_line_offset with Some prev => Some prev | None => Some offset end
    else Some offset in
  let? o := lo_offset_of_line lo line in
  let offset := o + col in
  if n_len text <=? offset then
    let? l := lo_line_of_offset lo (n_len text) in
    if l <=? line then Some (n_len text) else clamp (n_len text)
  else
    let? p := prev_grapheme_offset gb (offset + 1) in clamp p.

(** movement.rs 139-158, [selection_position]. *)
Definition selection_position (r : region) (move_up modify : bool) : option (nat * nat) :=
  let active := if modify then r_end r else if move_up then rmin r else rmax r in
  let? col := match r_horiz r with
              | Some col => Some col
              | None => let? (_, col) := lo_offset_to_line_col active in Some col
              end in
  let? line := lo_line_of_offset lo active in
  Some (col, line).

(** movement.rs 67-92, [vertical_motion]; [line_delta] is its sign and its size. *)
Definition vertical_motion (r : region) (up : bool) (delta : nat) (modify : bool) : option (nat * option nat) :=
  let? (col, line) := selection_position r up modify in
  let? n_lines := lo_line_of_offset lo (n_len text) in
  if up && (line <? delta) then Some (0, Some col)
  else
    let line := if up then line - delta else line + delta in
    if n_lines <? line then Some (n_len text, Some col)
    else
      let? new_offset := lo_line_col_to_offset line col in
      Some (new_offset, Some col).

(** The length of a line with its newline: movement.rs 106-107 and 117; the subtraction panics
    below zero. *)
Definition line_length (line : nat) : option nat :=
  let? b := lo_offset_of_line lo (line + 1) in
  let? a := lo_offset_of_line lo line in
  check (a <=? b) (Some (b - a)).
(** movement.rs 116-132, the loop: the line it ends with; [fuel] turns. *)
Fixpoint exact_loop (fuel : nat) (col n_lines init_line : nat) (move_up : bool) (line : nat) : option nat :=
  let? len := line_length line in
  if col <? len then Some line
  else if (n_lines <=? line) || ((line =? 0) && move_up) then Some init_line
  else match fuel with
       | 0 => None
       | S f => exact_loop f col n_lines init_line move_up (if move_up then line - 1 else line + 1)
       end.
(** movement.rs 96-135, [vertical_motion_exact_pos]; [line_length - 1] panics below zero. *)
Definition vertical_motion_exact_pos (r : region) (move_up modify : bool) : option (nat * option nat) :=
  let? (col, init_line) := selection_position r move_up modify in
  let? n_lines := lo_line_of_offset lo (n_len text) in
  let? len := line_length init_line in
  if move_up && (init_line =? 0) then
    let? o := lo_line_col_to_offset init_line col in Some (o, Some col)
  else
    let line := if move_up then init_line - 1 else init_line + 1 in
    let? col := (if len <? col then check (0 <? len) (Some (len - 1)) else Some col) in
    let? line := exact_loop (init_line + n_lines + 1) col n_lines init_line move_up line in
    let? o := lo_line_col_to_offset line col in Some (o, Some col).

(** movement.rs 160-168, [SCROLL_OVERLAP] and [scroll_height]. *)
Definition SCROLL_OVERLAP := 2.
Definition scroll_height (height : nat) : nat := Nat.max (height - SCROLL_OVERLAP) 1.

(** movement.rs 175-284, [region_movement]. *)
Definition movement_target (m : movement) (r : region) (height : nat) (modify : bool) : option (nat * option nat) :=
  match m with
  | MLeft =>
      if is_caret r || modify then
        match prev_grapheme_offset gb (r_end r) with
        | Some offset => Some (offset, None)
        | None => Some (0, r_horiz r)
        end
      else Some (rmin r, None)
  | MRight =>
      if is_caret r || modify then
        match next_grapheme_offset gb text (r_end r) with
        | Some offset => Some (offset, None)
        | None => Some (r_end r, r_horiz r)
        end
      else Some (rmax r, None)
  | MLeftWord =>
      let? c := c_new text (r_end r) in
      let? (b, _) := prev_boundary text (n_len text) c in
      Some (match b with Some o => o | None => 0 end, None)
  | MRightWord =>
      let? c := c_new text (r_end r) in
      let? (b, _) := next_boundary text (n_len text) c in
      Some (match b with Some o => o | None => n_len text end, None)
  | MLeftOfLine =>
      let? line := lo_line_of_offset lo (r_end r) in
      let? offset := lo_offset_of_line lo line in
      Some (offset, None)
  | MRightOfLine =>
      let? line := lo_line_of_offset lo (r_end r) in
      let? next_line_offset := lo_offset_of_line lo (line + 1) in
      let? last := lo_line_of_offset lo (n_len text) in
      if line <? last then
        Some (match prev_grapheme_offset gb next_line_offset with Some prev => prev | None => n_len text end, None)
      else Some (n_len text, None)
  | MUp => vertical_motion r true 1 modify
  | MDown => vertical_motion r false 1 modify
  | MUpExactPosition => vertical_motion_exact_pos r true modify
  | MDownExactPosition => vertical_motion_exact_pos r false modify
  | MStartOfParagraph =>
      let? c := c_new text (r_end r) in
      let? (b, _) := c_prev rope_ops text lines_metric c in
      Some (match b with Some o => o | None => 0 end, None)
  | MEndOfParagraph =>
      let? c := c_new text (r_end r) in
      let? (b, c1) := c_next rope_ops text lines_metric c in
      match b with
      | Some next_para_offset =>
          let? (is_b, c2) := c_is_boundary rope_ops text lines_metric c1 in
          if is_b then
            Some (match prev_grapheme_offset gb next_para_offset with Some eol => eol | None => r_end r end, None)
          else Some (if c_pos c2 =? n_len text then n_len text else r_end r, None)
      | None => Some (n_len text, None)
      end
  | MEndOfParagraphKill =>
      let? c := c_new text (r_end r) in
      let? (b, c1) := c_next rope_ops text lines_metric c in
      match b with
      | Some next_para_offset =>
          let? (is_b, _) := c_is_boundary rope_ops text lines_metric c1 in
          Some (if is_b then
                  match prev_grapheme_offset gb next_para_offset with
                  | Some eol => if eol =? r_end r then next_para_offset else eol
                  | None => next_para_offset
                  end
                else next_para_offset, None)
      | None => Some (r_end r, None)
      end
  | MUpPage => vertical_motion r true (scroll_height height) modify
  | MDownPage => vertical_motion r false (scroll_height height) modify
  | MStartOfDocument => Some (0, None)
  | MEndOfDocument => Some (n_len text, None)
  end.
Definition region_movement (m : movement) (r : region) (height : nat) (modify : bool) : option region :=
  let? (offset, horiz) := movement_target m r height modify in
  Some (with_horiz (region_new (if modify then r_start r else offset) offset) horiz).

(** movement.rs 297-311, [selection_movement]. *)
Fixpoint movement_loop (m : movement) (rs : list region) (height : nat) (modify : bool) (result : list region) : option (list region) :=
  match rs with
  | [] => Some result
  | r :: rs' =>
      let? new_region := region_movement m r height modify in
      let? result' := add_region result new_region in
      movement_loop m rs' height modify result'
  end.
Definition selection_movement (m : movement) (s : list region) (height : nat) (modify : bool) : option (list region) :=
  movement_loop m s height modify [].
End Model.
