(** Model of rust/core-lib/src/edit_ops.rs, backspace.rs and the default lines of line_offset.rs:
    from a text and a selection to the delta of a command. A text to be inserted is the list of
    its bytes. Grapheme boundaries (the unicode-segmentation crate), the Unicode properties of a
    character (xi-unicode), white space, upper and lower case and the parsing, changing and
    printing of a number are parameters. *)
From Coq Require Import List Arith Bool.
From Verif Require Import Base TreeModel CursorModel RopeModel RopeIterModel WordModel DeltaModel SelectionModel.
Import ListNotations.
Local Notation str := (list nat) (only parsing).
Local Notation region := SelectionModel.region.
Local Notation concat := List.concat.

(** config.rs, the fields of [BufferItems] the commands read. *)
Record config := Config { tab_size : nat; translate_tabs : bool; use_tab_stops : bool; line_ending : str }.
Notation cdelta := (delta nat).
Notation cbuilder := (@dbuilder nat).

Section Model.
(** The grapheme boundaries of the text. *)
Context (gb : nat -> bool).
Context (r : rope).
(** The trees are at most this deep (see [line_of_offset]). *)
Definition tree_fuel : nat := S (S (S (n_height r))).

(** rope.rs 472-499, [prev_grapheme_offset] and [next_grapheme_offset]: by what the segmentation
    returns, the nearest boundary before or after an offset, if there is one. *)
Fixpoint prev_grapheme_offset (offset : nat) : option nat :=
  match offset with
  | 0 => None
  | S o => if gb o then Some o else prev_grapheme_offset o
  end.
Fixpoint next_grapheme_loop (n offset : nat) : option nat :=
  match n with
  | 0 => None
  | S m => if gb (S offset) then Some (S offset) else next_grapheme_loop m (S offset)
  end.
Definition next_grapheme_offset (offset : nat) : option nat := next_grapheme_loop (n_len r - offset) offset.

(** line_offset.rs 45-48, [offset_to_line_col]. *)
Definition offset_to_line_col (offset : nat) : option (nat * nat) :=
  let? line := line_of_offset tree_fuel r offset in
  let? o := offset_of_line tree_fuel r line in
  if offset <? o then None else Some (line, offset - o).
(** line_offset.rs 50-70, [line_col_to_offset]. *)
Definition line_col_to_offset (line col : nat) : option nat :=
  let clamp (offset : nat) : option nat :=
    let? next_line_offset := offset_of_line tree_fuel r (line + 1) in
    if next_line_offset <=? offset then
      match prev_grapheme_offset next_line_offset with Some prev => Some prev | None => Some offset end
    else Some offset in
  let? o := offset_of_line tree_fuel r line in
  let offset := o + col in
  if n_len r <=? offset then
    let? l := line_of_offset tree_fuel r (n_len r) in
    if l <=? line then Some (n_len r) else clamp (n_len r)
  else
    let? p := prev_grapheme_offset (offset + 1) in clamp p.
(** line_offset.rs 73-81, [get_line_range]: the lines of the range. *)
Definition get_line_range (x : region) : option (list nat) :=
  let? (first_line, _) := offset_to_line_col (rmin x) in
  let? (last_line, last_col) := offset_to_line_col (rmax x) in
  let last := if (last_col =? 0) && (first_line <? last_line) then last_line - 1 else last_line in
  Some (seq first_line (last + 1 - first_line)).

(** edit_ops.rs 37-46, [insert]. *)
Fixpoint insert_loop (text : str) (rs : list region) (b : cbuilder) : option cbuilder :=
  match rs with
  | [] => Some b
  | x :: rs' => let? b1 := db_replace b (rmin x) (rmax x) text in insert_loop text rs' b1
  end.
Definition insert (rs : list region) (text : str) : option cdelta :=
  let? b := insert_loop text rs (dbuilder_new (n_len r)) in Some (db_build b).

(** edit_ops.rs 49-71, [surround]. *)
Fixpoint surround_loop (before after : str) (rs : list region) (b : cbuilder) : option cbuilder :=
  match rs with
  | [] => Some b
  | x :: rs' =>
      let? b1 := db_replace b (rmin x) (rmin x) before in
      let? b2 := db_replace b1 (rmax x) (rmax x) after in
      surround_loop before after rs' b2
  end.
Definition surround (rs : list region) (before after : str) : option cdelta :=
  let? b := surround_loop before after rs (dbuilder_new (n_len r)) in Some (db_build b).

(** A [BTreeSet] of pairs and one of numbers: the sorted list of the members. *)
Fixpoint pair_insert (x : nat * nat) (s : list (nat * nat)) : list (nat * nat) :=
  match s with
  | [] => [x]
  | y :: s' =>
      if (fst x <? fst y) || ((fst x =? fst y) && (snd x <? snd y)) then x :: s
      else if (fst x =? fst y) && (snd x =? snd y) then s
      else y :: pair_insert x s'
  end.
Fixpoint nat_insert (x : nat) (s : list nat) : list nat :=
  match s with
  | [] => [x]
  | y :: s' => if x <? y then x :: s else if x =? y then s else y :: nat_insert x s'
  end.

(** edit_ops.rs 73-98, [duplicate_line], the first loop. *)
Fixpoint dup_lines (rs : list region) (acc : list (nat * nat)) : option (list (nat * nat)) :=
  match rs with
  | [] => Some acc
  | x :: rs' =>
      let? (first_line, _) := offset_to_line_col (rmin x) in
      let? line_start := offset_of_line tree_fuel r first_line in
      let? c := (if is_caret x then c_new r line_start
                 else
                   let? (last_line, _) := offset_to_line_col (rmax x) in
                   let? line_end := offset_of_line tree_fuel r last_line in
                   c_new r line_end) in
      let? (e, _) := c_next rope_ops r lines_metric c in
      dup_lines rs' (match e with Some line_end => pair_insert (line_start, line_end) acc | None => acc end)
  end.
(** edit_ops.rs 100-111, the second loop; the slice is read as a string. *)
Fixpoint dup_insert (ending : str) (ls : list (nat * nat)) (b : cbuilder) : option cbuilder :=
  match ls with
  | [] => Some b
  | (s, e) :: ls' =>
      let? t := slice_to_cow r s e in
      let? b1 := db_replace b s s t in
      let? b2 := (if e =? n_len r then db_replace b1 s s ending else Some b1) in
      dup_insert ending ls' b2
  end.
Definition duplicate_line (rs : list region) (cfg : config) : option cdelta :=
  let? ls := dup_lines rs [] in
  let? b := dup_insert (line_ending cfg) ls (dbuilder_new (n_len r)) in
  Some (db_build b).

(** edit_ops.rs 177-188, [delete_sel_regions]. *)
Fixpoint delete_loop (rs : list region) (b : cbuilder) : option cbuilder :=
  match rs with
  | [] => Some b
  | x :: rs' =>
      let? b1 := (if rmax x <=? rmin x then Some b else db_delete b (rmin x) (rmax x)) in
      delete_loop rs' b1
  end.
Definition delete_sel_regions (rs : list region) : option cdelta :=
  let? b := delete_loop rs (dbuilder_new (n_len r)) in Some (db_build b).
(** edit_ops.rs 192-210, [extract_sel_regions]. *)
Fixpoint extract_loop (rs : list region) (saved : option str) : option (option str) :=
  match rs with
  | [] => Some saved
  | x :: rs' =>
      if is_caret x then extract_loop rs' saved
      else
        let? val := slice_to_cow r (rmin x) (rmax x) in
        extract_loop rs' (match saved with None => Some val | Some s => Some (s ++ [NL] ++ val) end)
  end.
Definition extract_sel_regions (rs : list region) : option (option str) := extract_loop rs None.
(** edit_ops.rs 141-174, [delete_by_movement]; where the movement takes a caret is a parameter. *)
Fixpoint deletions_loop (move : region -> option region) (rs : list region) (ds : list region) : option (list region) :=
  match rs with
  | [] => Some ds
  | x :: rs' =>
      let? y := (if is_caret x then move x else Some x) in
      let? ds1 := add_region ds y in
      deletions_loop move rs' ds1
  end.
Definition delete_by_movement (move : region -> option region) (rs : list region) (save : bool) : option (cdelta * option str) :=
  let? ds := deletions_loop move rs [] in
  let? kill_ring := (if save then
                       let? e := extract_sel_regions ds in
                       Some (Some (match e with Some s => s | None => [] end))
                     else Some None) in
  let? d := delete_sel_regions ds in
  Some (d, kill_ring).

(** edit_ops.rs 212-214, [insert_newline]. *)
Definition insert_newline (rs : list region) (cfg : config) : option cdelta := insert rs (line_ending cfg).
(** edit_ops.rs 425-436, [get_tab_text] and [n_spaces]. *)
Definition n_spaces (n : nat) : option str := if n <=? 32 then Some (repeat 32 n) else None.
Definition get_tab_text (cfg : config) (size : option nat) : option str :=
  let n := match size with Some n => n | None => tab_size cfg end in
  if translate_tabs cfg then n_spaces n else Some [9].
(** edit_ops.rs 216-243, [insert_tab]; [%] by zero panics. *)
Fixpoint tab_lines (text : str) (ls : list nat) (b : cbuilder) : option cbuilder :=
  match ls with
  | [] => Some b
  | line :: ls' =>
      let? o := line_col_to_offset line 0 in
      let? b1 := db_replace b o o text in
      tab_lines text ls' b1
  end.
Definition tab_region (cfg : config) (const_tab_text : str) (x : region) (b : cbuilder) : option cbuilder :=
  let? ls := get_line_range x in
  if 1 <? length ls then tab_lines const_tab_text ls b
  else
    let? (_, col) := offset_to_line_col (r_start x) in
    if tab_size cfg =? 0 then None
    else
      let? tab_text := get_tab_text cfg (Some (tab_size cfg - col mod tab_size cfg)) in
      db_replace b (rmin x) (rmax x) tab_text.
Fixpoint tab_loop (cfg : config) (const_tab_text : str) (rs : list region) (b : cbuilder) : option cbuilder :=
  match rs with
  | [] => Some b
  | x :: rs' => let? b1 := tab_region cfg const_tab_text x b in tab_loop cfg const_tab_text rs' b1
  end.
Definition insert_tab (rs : list region) (cfg : config) : option cdelta :=
  let? t := get_tab_text cfg None in
  let? b := tab_loop cfg t rs (dbuilder_new (n_len r)) in Some (db_build b).

(** edit_ops.rs 250-269, [modify_indent], the lines it collects. *)
Fixpoint indent_lines (rs : list region) (acc : list nat) : option (list nat) :=
  match rs with
  | [] => Some acc
  | x :: rs' =>
      let? ls := get_line_range x in
      indent_lines rs' (fold_left (fun acc l => nat_insert l acc) ls acc)
  end.
(** edit_ops.rs 271-279, [indent]: the loop of [tab_lines]. *)
Definition indent (ls : list nat) (tab_text : str) : option cdelta :=
  let? b := tab_lines tab_text ls (dbuilder_new (n_len r)) in Some (db_build b).

Fixpoint bytes_eqb (a b : str) : bool :=
  match a, b with
  | [], [] => true
  | x :: a', y :: b' => (x =? y) && bytes_eqb a' b'
  | _, _ => false
  end.
Section Outdent.
(** Whether a character, given by its bytes, is white space. *)
Context (white : str -> bool).
(** Rust's [str::find] of the first character that is not white space; the string is whole
    characters, so the first byte gives the length of each. *)
Fixpoint find_non_white (fuel : nat) (s : str) (pos : nat) : option nat :=
  match fuel, s with
  | S f, b :: _ =>
      let n := len_utf8_from_first_byte b in
      if white (firstn n s) then find_non_white f (skipn n s) (pos + n) else Some pos
  | _, _ => None
  end.
(** edit_ops.rs 281-298, [outdent]. *)
Fixpoint outdent_loop (tab_text : str) (ls : list nat) (b : cbuilder) : option cbuilder :=
  match ls with
  | [] => Some b
  | line :: ls' =>
      let? o := line_col_to_offset line 0 in
      let? tab_offset := line_col_to_offset line (length tab_text) in
      let? leading := (if tab_offset <? o then None else slice_to_cow r o tab_offset) in
      let? b1 :=
        (if bytes_eqb leading tab_text then db_delete b o tab_offset
         else match find_non_white (length leading) leading 0 with
              | Some col =>
                  let? first_char_offset := line_col_to_offset line col in
                  if first_char_offset <? o then None else db_delete b o first_char_offset
              | None => Some b
              end) in
      outdent_loop tab_text ls' b1
  end.
Definition outdent (ls : list nat) (tab_text : str) : option cdelta :=
  let? b := outdent_loop tab_text ls (dbuilder_new (n_len r)) in Some (db_build b).
(** edit_ops.rs 250-269, [modify_indent]; [true] is [In]. *)
Definition modify_indent (rs : list region) (cfg : config) (direction : bool) : option cdelta :=
  let? tab_text := get_tab_text cfg None in
  let? ls := indent_lines rs [] in
  if direction then indent ls tab_text else outdent ls tab_text.
End Outdent.

(** edit_ops.rs 300-347, [transpose]. The interval is taken for [start <= end]. *)
Definition last_selection_region (rs : list region) : option region := find (fun x => negb (is_caret x)) (rev rs).
Definition region_text (x : region) : option (nat * nat * str) :=
  let? t := slice_to_cow r (rmin x) (rmax x) in Some (rmin x, rmax x, t).
Fixpoint transpose_loop (rs : list region) (last : nat) (previous : option (nat * nat * str)) (b : cbuilder) : option cbuilder :=
  match rs with
  | [] => Some b
  | x :: rs' =>
      if is_caret x then
        let middle := r_end x in
        let start := match prev_grapheme_offset middle with Some o => o | None => 0 end in
        let end_ := match next_grapheme_offset middle with Some o => o | None => middle end in
        if last <=? start then
          let? l := line_of_offset tree_fuel r end_ in
          let? end_line_offset := offset_of_line tree_fuel r l in
          let '(middle, start, end_) :=
            if ((end_ =? middle) || (end_ =? end_line_offset)) && negb (end_ =? n_len r) then
              (start, match prev_grapheme_offset start with Some o => o | None => 0 end, start + 1)
            else (middle, start, end_) in
          let? before := slice_to_cow r start middle in
          let? after := slice_to_cow r middle end_ in
          let? b1 := db_replace b start end_ (after ++ before) in
          transpose_loop rs' end_ previous b1
        else transpose_loop rs' last previous b
      else
        match previous with
        | Some (_, _, text) =>
            let? current := region_text x in
            let? b1 := db_replace b (rmin x) (rmax x) text in
            transpose_loop rs' last (Some current) b1
        | None => transpose_loop rs' last previous b
        end
  end.
Definition transpose (rs : list region) : option cdelta :=
  let? previous := (match last_selection_region rs with
                    | Some x => let? p := region_text x in Some (Some p)
                    | None => Some None
                    end) in
  let? b := transpose_loop rs 0 previous (dbuilder_new (n_len r)) in Some (db_build b).

(** edit_ops.rs 327-341, [transform_text]. *)
Fixpoint transform_loop (f : str -> str) (rs : list region) (b : cbuilder) : option cbuilder :=
  match rs with
  | [] => Some b
  | x :: rs' =>
      let? t := slice_to_cow r (rmin x) (rmax x) in
      let? b1 := db_replace b (rmin x) (rmax x) (f t) in
      transform_loop f rs' b1
  end.
Definition transform_text (rs : list region) (f : str -> str) : option cdelta :=
  let? b := transform_loop f rs (dbuilder_new (n_len r)) in Some (db_build b).

(** edit_ops.rs 354-378, [change_number]; the number parsed, changed and printed is a parameter. *)
Fixpoint number_loop (change : str -> option str) (rs : list region) (b : cbuilder) : option cbuilder :=
  match rs with
  | [] => Some b
  | x :: rs' =>
      let? c := c_new r (r_end x) in
      let? (start0, end_, _) := select_word r (n_len r) c in
      let? start := (if 0 <? start0 then
                       let? y := byte_at r (start0 - 1) in
                       Some (if y =? 45 then start0 - 1 else start0)
                     else Some start0) in
      let? word := slice_to_cow r start end_ in
      let? b1 := (match change word with
                  | Some t => db_replace b start end_ t
                  | None => Some b
                  end) in
      number_loop change rs' b1
  end.
Definition change_number (rs : list region) (change : str -> option str) : option cdelta :=
  let? b := number_loop change rs (dbuilder_new (n_len r)) in Some (db_build b).

(** edit_ops.rs 381-411, [capitalize_text]; one pass of the outer loop, whose inner loop moves the
    cursor on at every turn. *)
Fixpoint capitalize_words (fuel : nat) (upper lower : str -> str) (top : nat) (c : rcursor) (b : cbuilder) : option cbuilder :=
  let? (start, end_, c1) := select_word r (n_len r) c in
  let? b1 := (if start <? end_ then
                let? word := slice_to_cow r start end_ in
                let? first := str_slice word 0 1 in
                let? rest := str_slice word 1 (length word) in
                db_replace b start end_ (upper first ++ lower rest)
              else Some b) in
  let? (nb, c2) := next_boundary r (n_len r) c1 in
  match nb with
  | None => Some b1
  | Some _ =>
      if top <? end_ then Some b1
      else match fuel with 0 => None | S f => capitalize_words f upper lower top c2 b1 end
  end.
Fixpoint capitalize_loop (upper lower : str -> str) (rs : list region) (b : cbuilder) (final : list region) : option (cbuilder * list region) :=
  match rs with
  | [] => Some (b, final)
  | x :: rs' =>
      let? final1 := add_region final (region_new (rmax x) (rmax x)) in
      let? c := c_new r (rmin x) in
      let? b1 := capitalize_words (n_len r) upper lower (rmax x) c b in
      capitalize_loop upper lower rs' b1 final1
  end.
Definition capitalize_text (rs : list region) (upper lower : str -> str) : option (cdelta * list region) :=
  let? (b, final) := capitalize_loop upper lower rs (dbuilder_new (n_len r)) [] in Some (db_build b, final).

(** editor.rs 748-754, [count_lines], and Rust's [str::lines]. *)
Definition count_lines (s : str) : nat :=
  let newlines := count_occ Nat.eq_dec s NL in
  1 + (if match rev s with x :: _ => x =? NL | [] => false end then newlines - 1 else newlines).
Fixpoint zip_paste (rs : list region) (ls : list str) (b : cbuilder) : option cbuilder :=
  match rs, ls with
  | x :: rs', l :: ls' => let? b1 := db_replace b (rmin x) (rmax x) l in zip_paste rs' ls' b1
  | _, _ => Some b
  end.
(** editor.rs 358-369, [do_paste]: the delta it adds; [lines] is [chars.lines()]. *)
Definition do_paste (lines : str -> list str) (rs : list region) (chars : str) : option cdelta :=
  if (length rs =? 1) || negb (length rs =? count_lines chars) then insert rs chars
  else let? b := zip_paste rs (lines chars) (dbuilder_new (n_len r)) in Some (db_build b).

(** backspace.rs 41-56, the states. *)
Inductive bstate := BStart | BLf | BBeforeKeycap | BBeforeVsAndKeycap | BBeforeEmojiModifier
  | BBeforeVSAndEmojiModifier | BBeforeVS | BBeforeEmoji | BBeforeZwj | BBeforeVSAndZWJ
  | BOddRIS | BEvenRIS | BInTagSequence | BFinished.
(** The Unicode properties backspace asks of a character. *)
Record emoji_props := EmojiProps {
  is_variation_selector : str -> bool; is_ris : str -> bool; is_emoji_modifier : str -> bool;
  is_keycap : str -> bool; is_emoji : str -> bool; is_cancel_tag : str -> bool;
  is_keycap_base : str -> bool; is_modifier_base : str -> bool; is_zwj : str -> bool; is_tag_spec : str -> bool }.
Section Backspace.
Context (P : emoji_props).
(** backspace.rs 69-193, one turn of the match: the state, the number of code points to delete and
    the number of variation selectors seen. *)
Definition bstep (st : bstate) (ch : str) (n vs : nat) : bstate * nat * nat :=
  match st with
  | BStart =>
      (if bytes_eqb ch [NL] then BLf
       else if is_variation_selector P ch then BBeforeVS
       else if is_ris P ch then BOddRIS
       else if is_emoji_modifier P ch then BBeforeEmojiModifier
       else if is_keycap P ch then BBeforeKeycap
       else if is_emoji P ch then BBeforeEmoji
       else if is_cancel_tag P ch then BInTagSequence
       else BFinished, 1, vs)
  | BLf => (BFinished, if bytes_eqb ch [CR] then n + 1 else n, vs)
  | BOddRIS => if is_ris P ch then (BEvenRIS, n + 1, vs) else (BFinished, n, vs)
  | BEvenRIS => if is_ris P ch then (BOddRIS, n - 1, vs) else (BFinished, n, vs)
  | BBeforeKeycap =>
      if is_variation_selector P ch then (BBeforeVsAndKeycap, n, 1)
      else (BFinished, if is_keycap_base P ch then n + 1 else n, vs)
  | BBeforeVsAndKeycap => (BFinished, if is_keycap_base P ch then n + (vs + 1) else n, vs)
  | BBeforeEmojiModifier =>
      if is_variation_selector P ch then (BBeforeVSAndEmojiModifier, n, 1)
      else (BFinished, if is_modifier_base P ch then n + 1 else n, vs)
  | BBeforeVSAndEmojiModifier => (BFinished, if is_modifier_base P ch then n + (vs + 1) else n, vs)
  | BBeforeVS =>
      if is_emoji P ch then (BBeforeEmoji, n + 1, vs)
      else (BFinished, if is_variation_selector P ch then n else n + 1, vs)
  | BBeforeEmoji => (if is_zwj P ch then BBeforeZwj else BFinished, n, vs)
  | BBeforeZwj =>
      if is_emoji P ch then ((if is_emoji_modifier P ch then BBeforeEmojiModifier else BBeforeEmoji), n + 2, vs)
      else if is_variation_selector P ch then (BBeforeVSAndZWJ, n, 1)
      else (BFinished, n, vs)
  | BBeforeVSAndZWJ => if is_emoji P ch then (BBeforeEmoji, n + (vs + 2), 0) else (BFinished, n, vs)
  | BInTagSequence =>
      if is_tag_spec P ch then (BInTagSequence, n + 1, vs)
      else if is_emoji P ch then (BFinished, n + 1, vs)
      else (BFinished, 1, vs)
  | BFinished => (BFinished, n, vs)
  end.
Definition finished (st : bstate) : bool := match st with BFinished => true | _ => false end.
(** backspace.rs 63-196, the first loop; every turn moves the offset back. *)
Fixpoint bloop (fuel : nat) (st : bstate) (off n vs : nat) : option nat :=
  if finished st || (off =? 0) then Some n
  else
    let? c := c_new r off in
    let? (x, _) := prev_codepoint r c in
    let ch := match x with Some ch => ch | None => [48] end in
    let? p := prev_codepoint_offset r off in
    let off' := match p with Some o => o | None => 0 end in
    let '(st', n', vs') := bstep st ch n vs in
    match fuel with 0 => None | S f => bloop f st' off' n' vs' end.
(** backspace.rs 198-202, the second loop. *)
Fixpoint bback (n start : nat) : option nat :=
  match n with
  | 0 => Some start
  | S m =>
      let? p := prev_codepoint_offset r start in
      bback m (match p with Some o => o | None => 0 end)
  end.
(** backspace.rs 31-34, the bytes before the caret are spaces. *)
Fixpoint all_spaces (offs : list nat) : option bool :=
  match offs with
  | [] => Some true
  | i :: offs' => let? y := byte_at r i in if y =? 32 then all_spaces offs' else Some false
  end.
(** backspace.rs 24-205, [offset_for_delete_backwards]; [%] by zero panics. *)
Definition offset_for_delete_backwards (x : region) (cfg : config) : option nat :=
  if negb (is_caret x) then Some (rmin x)
  else
    let? (_, c) := offset_to_line_col (r_start x) in
    if tab_size cfg =? 0 then None
    else
      let tab_off := c mod tab_size cfg in
      let size := if tab_off =? 0 then tab_size cfg else tab_off in
      let tab_start := r_start x - size in
      let? preceded := (if 0 <? r_start x then all_spaces (seq tab_start (r_start x - tab_start)) else Some false) in
      if preceded && translate_tabs cfg && use_tab_stops cfg then Some tab_start
      else
        let? n := bloop (r_end x) BStart (r_end x) 0 0 in
        bback n (r_end x).
(** edit_ops.rs 114-127, [delete_backward]. *)
Fixpoint backward_loop (cfg : config) (rs : list region) (b : cbuilder) : option cbuilder :=
  match rs with
  | [] => Some b
  | x :: rs' =>
      let? start := offset_for_delete_backwards x cfg in
      let? b1 := (if rmax x <=? start then Some b else db_delete b start (rmax x)) in
      backward_loop cfg rs' b1
  end.
Definition delete_backward (rs : list region) (cfg : config) : option cdelta :=
  let? b := backward_loop cfg rs (dbuilder_new (n_len r)) in Some (db_build b).
End Backspace.
End Model.
