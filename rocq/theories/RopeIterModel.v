(** Model of rust/rope/src/rope.rs: reading a rope (codepoints, chunks, lines). *)
From Coq Require Import List Arith Bool.
From Verif Require Import Base TreeModel CursorModel RopeModel.
Import ListNotations.
Local Notation str := (list nat) (only parsing).
Notation rcursor := (cursor (L:=list nat) (I:=rope_info)).

(** rope.rs 402-437, the codepoint methods of [Rope]. *)
Definition is_codepoint_boundary (r : rope) (offset : nat) : option bool :=
  let? c := c_new r offset in
  let? (b, _) := c_is_boundary rope_ops r base_metric c in Some b.
Definition prev_codepoint_offset (r : rope) (offset : nat) : option (option nat) :=
  let? c := c_new r offset in
  let? (o, _) := c_prev rope_ops r base_metric c in Some o.
Definition next_codepoint_offset (r : rope) (offset : nat) : option (option nat) :=
  let? c := c_new r offset in
  let? (o, _) := c_next rope_ops r base_metric c in Some o.
Definition at_or_next_codepoint_boundary (r : rope) (offset : nat) : option (option nat) :=
  let? b := is_codepoint_boundary r offset in
  if b then Some (Some offset) else next_codepoint_offset r offset.
Definition at_or_prev_codepoint_boundary (r : rope) (offset : nat) : option (option nat) :=
  let? b := is_codepoint_boundary r offset in
  if b then Some (Some offset) else prev_codepoint_offset r offset.

(** Rust's [s[offset..].chars().next()]: the bytes of the first character. *)
Definition first_char (s : str) (offset : nat) : option (option str) :=
  let? rest := str_slice s offset (length s) in
  match rest with
  | [] => Some None
  | b :: _ => Some (Some (firstn (len_utf8_from_first_byte b) rest))
  end.
(** rope.rs 650-675, the codepoint methods of [Cursor]. *)
Definition peek_next_codepoint (r : rope) (c : rcursor) : option (option str) :=
  let? g := c_get_leaf c in
  match g with
  | Some (l, offset) => first_char l offset
  | None => Some None
  end.
Definition prev_codepoint (r : rope) (c : rcursor) : option (option str * rcursor) :=
  let? (_, c1) := c_prev rope_ops r base_metric c in
  let? ch := peek_next_codepoint r c1 in
  Some (ch, c1).
Definition next_codepoint (r : rope) (c : rcursor) : option (option str * rcursor) :=
  let? g := c_get_leaf c in
  match g with
  | Some (l, offset) =>
      let? (_, c1) := c_next rope_ops r base_metric c in
      let? ch := first_char l offset in
      Some (ch, c1)
  | None => Some (None, c)
  end.

(** rope.rs 531-535, [byte_at]. *)
Definition byte_at (r : rope) (offset : nat) : option nat :=
  let? c := c_new r offset in
  let? g := c_get_leaf c in
  let? (leaf, pos) := g in
  nth_error leaf pos.

(** rope.rs 558-577, [ChunkIter]; [iter_chunks] (501-505) starts one. *)
Record chunk_iter := ChunkIter { ci_cursor : rcursor; ci_end : nat }.
Definition iter_chunks (r : rope) (start end_ : nat) : option chunk_iter :=
  let? c := c_new r start in Some (ChunkIter c end_).
Definition chunk_next (r : rope) (it : chunk_iter) : option (option str * chunk_iter) :=
  let c := ci_cursor it in
  if ci_end it <=? c_pos c then Some (None, it)
  else
    let? g := c_get_leaf c in
    let? (leaf, start_pos) := g in
    if length leaf <? start_pos then None
    else
      let len := Nat.min (ci_end it - c_pos c) (length leaf - start_pos) in
      let? (_, c') := next_leaf rope_ops r c in
      let? chunk := str_slice leaf start_pos (start_pos + len) in
      Some (Some chunk, ChunkIter c' (ci_end it)).

(** The rest of the chunks. *)
Fixpoint chunks_rest (fuel : nat) (r : rope) (it : chunk_iter) : option (list str) :=
  let? (x, it') := chunk_next r it in
  match x with
  | None => Some []
  | Some c =>
      match fuel with
      | 0 => None
      | S f => let? rest := chunks_rest f r it' in Some (c :: rest)
      end
  end.
(** rope.rs 537-554, [slice_to_cow]; the iteration is bounded by the number of bytes. *)
Definition slice_to_cow (r : rope) (start end_ : nat) : option str :=
  let? it := iter_chunks r start end_ in
  let? (first, it1) := chunk_next r it in
  let? (second, it2) := chunk_next r it1 in
  match first, second with
  | None, None => Some []
  | Some s, None => Some s
  | Some one, Some two =>
      let? rest := chunks_rest (n_len r) r it2 in
      Some (fold_left (fun result chunk => result ++ chunk) rest (one ++ two))
  | None, Some _ => None
  end.
(** rope.rs 611-615, [String::from]. *)
Definition to_string (r : rope) : option str := slice_to_cow r 0 (n_len r).
(** rope.rs 617-624, [Display]. *)
Definition display (r : rope) : option str :=
  let? it := iter_chunks r 0 (n_len r) in
  let? cs := chunks_rest (n_len r) r it in
  Some (fold_left (fun out s => out ++ s) cs []).

(** rope.rs 734-776, [LinesRaw]; the loop takes a chunk at every turn but the first. *)
Record lines_raw := LinesRaw { lr_inner : chunk_iter; lr_fragment : str }.
Fixpoint lines_raw_loop (fuel : nat) (r : rope) (it : lines_raw) (result : str) : option (option str * lines_raw) :=
  let finish (it1 : lines_raw) :=
    match memchr NL (lr_fragment it1) with
    | Some i =>
        let? line := str_slice (lr_fragment it1) 0 (i + 1) in
        let? rest := str_slice (lr_fragment it1) (i + 1) (length (lr_fragment it1)) in
        Some (Some (result ++ line), LinesRaw (lr_inner it1) rest)
    | None =>
        match fuel with
        | 0 => None
        | S f => lines_raw_loop f r (LinesRaw (lr_inner it1) []) (result ++ lr_fragment it1)
        end
    end in
  match lr_fragment it with
  | [] =>
      let? (x, inner') := chunk_next r (lr_inner it) in
      match x with
      | None => Some (match result with [] => None | _ => Some result end, LinesRaw inner' [])
      | Some [] => Some (None, LinesRaw inner' [])
      | Some chunk => finish (LinesRaw inner' chunk)
      end
  | _ => finish it
  end.
Definition lines_raw_next (fuel : nat) (r : rope) (it : lines_raw) : option (option str * lines_raw) :=
  lines_raw_loop fuel r it [].
Fixpoint lines_raw_rest (fuel : nat) (r : rope) (it : lines_raw) : option (list str) :=
  let? (x, it') := lines_raw_next (S (n_len r)) r it in
  match x with
  | None => Some []
  | Some l =>
      match fuel with
      | 0 => None
      | S f => let? rest := lines_raw_rest f r it' in Some (l :: rest)
      end
  end.
(** rope.rs 512-514, collected. *)
Definition rope_lines_raw (r : rope) (start end_ : nat) : option (list str) :=
  let? it := iter_chunks r start end_ in
  lines_raw_rest (S (n_len r)) r (LinesRaw it []).

(** rope.rs 778-806, [Lines]: a line without its ending. *)
Definition ends_with (s : str) (b : nat) : bool :=
  match rev s with [] => false | x :: _ => x =? b end.
Definition strip_ending (s : str) : str :=
  if ends_with s NL then
    let s' := firstn (length s - 1) s in
    if ends_with s' CR then firstn (length s' - 1) s' else s'
  else s.
(** rope.rs 527-529, collected. *)
Definition rope_lines (r : rope) (start end_ : nat) : option (list str) :=
  let? ls := rope_lines_raw r start end_ in Some (map strip_ending ls).

(** delta.rs 136-146, [apply] on a rope; the elements of a delta, with ropes to insert. *)
Inductive relement := RCopy (b e : nat) | RInsert (n : rope).
Fixpoint apply_rels (els : list relement) (base : rope) (b : builder) : option builder :=
  match els with
  | [] => Some b
  | RCopy s e :: r => let? b' := push_subseq rope_ops base b s e in apply_rels r base b'
  | RInsert n :: r => let? b' := b_push rope_ops b n in apply_rels r base b'
  end.
Definition rope_apply (els : list relement) (base : rope) : option rope :=
  let? b := apply_rels els base b_new in build rope_ops b.
