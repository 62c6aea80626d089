(** Model of rust/rope/src/rope.rs: text ropes.
    A [str] is its list of bytes; a byte is a [nat]. *)
From Coq Require Import List Arith Bool.
From Verif Require Import Base TreeModel.
Import ListNotations.

Notation byte := nat (only parsing).
Notation str := (list nat) (only parsing).

(** rope.rs 34-35. *)
Definition MIN_LEAF := 511.
Definition MAX_LEAF := 1024.

(** Rust's [str::is_char_boundary]: [(b as i8) >= -0x40] says that [b] does not continue a
    character. *)
Definition is_start (b : byte) : bool := (b <? 128) || (192 <=? b).
Definition is_char_boundary (s : str) (i : nat) : bool :=
  if i =? 0 then true
  else match nth_error s i with
       | None => i =? length s
       | Some b => is_start b
       end.
(** Rust's [&s[b..e]]: panics if out of range or off a character boundary. *)
Definition str_slice (s : str) (b e : nat) : option str :=
  if (b <=? e) && is_char_boundary s b && is_char_boundary s e then Some (slice s b e) else None.

(** The [memchr] crate: the first and the last place of a byte. *)
Fixpoint memchr (x : byte) (s : str) : option nat :=
  match s with
  | [] => None
  | b :: s' => if b =? x then Some 0 else match memchr x s' with Some i => Some (S i) | None => None end
  end.
Fixpoint memrchr (x : byte) (s : str) : option nat :=
  match s with
  | [] => None
  | b :: s' =>
      match memrchr x s' with
      | Some i => Some (S i)
      | None => if b =? x then Some 0 else None
      end
  end.
Definition NL : byte := 10.
Definition CR : byte := 13.

(** rope.rs 335-337, [count_newlines]. *)
Fixpoint count_newlines (s : str) : nat :=
  match s with [] => 0 | b :: s' => (if b =? NL then 1 else 0) + count_newlines s' end.
(** rope.rs 339-350, [count_utf16_code_units]. *)
Fixpoint count_utf16 (s : str) : nat :=
  match s with
  | [] => 0
  | b :: s' => (if is_start b then 1 else 0) + (if 240 <=? b then 1 else 0) + count_utf16 s'
  end.

(** rope.rs 366-369, [while !s.is_char_boundary(splitpoint) { splitpoint -= 1 }]. *)
Fixpoint back_to_boundary (s : str) (k : nat) : nat :=
  if is_char_boundary s k then k else match k with S k' => back_to_boundary s k' | 0 => 0 end.
(** rope.rs 361-372, [find_leaf_split]; [s.len() - MIN_LEAF], [minsplit - 1] and the byte
    range panic when out of range. *)
Definition find_leaf_split (s : str) (minsplit : nat) : option nat :=
  if (length s <? MIN_LEAF) || (minsplit =? 0) then None
  else
    let splitpoint := Nat.min MAX_LEAF (length s - MIN_LEAF) in
    if splitpoint <? minsplit - 1 then None
    else
      match memrchr NL (slice s (minsplit - 1) splitpoint) with
      | Some pos => Some (minsplit + pos)
      | None => Some (back_to_boundary s splitpoint)
      end.
(** rope.rs 352-358. *)
Definition find_leaf_split_for_bulk (s : str) : option nat := find_leaf_split s MIN_LEAF.
Definition find_leaf_split_for_merge (s : str) : option nat :=
  if length s <? MAX_LEAF then None else find_leaf_split s (Nat.max MIN_LEAF (length s - MAX_LEAF)).

(** rope.rs 103-117, [push_maybe_split]. *)
Definition push_maybe_split (self other : str) (b e : nat) : option (str * option str) :=
  let? piece := str_slice other b e in
  let s := self ++ piece in
  if length s <=? MAX_LEAF then Some (s, None)
  else
    let? splitpoint := find_leaf_split_for_merge s in
    let? right_str := str_slice s splitpoint (length s) in
    Some (firstn splitpoint s, Some right_str).

(** rope.rs 120-141, [RopeInfo]. *)
Record rope_info := RInfo { ri_lines : nat; ri_utf16 : nat }.
Definition compute_info (s : str) : rope_info := RInfo (count_newlines s) (count_utf16 s).
Definition ri_acc (a b : rope_info) : rope_info :=
  RInfo (ri_lines a + ri_lines b) (ri_utf16 a + ri_utf16 b).

(** rope.rs 94-117, [Leaf for String]. *)
Definition rope_ops : leafops str rope_info :=
  LeafOps (@length byte) (fun s => MIN_LEAF <=? length s) push_maybe_split [] ri_acc compute_info.
Definition rope := node str rope_info.

(** rope.rs 577-589, [push_str]; every turn of the loop takes at least one byte, [fuel]
    bounds it. *)
Fixpoint push_str_loop (fuel : nat) (b : builder (L:=str) (I:=rope_info)) (s : str) : option builder :=
  match s with
  | [] => Some b
  | _ =>
      match fuel with
      | 0 => None
      | S f =>
          let? splitpoint := if MAX_LEAF <? length s then find_leaf_split_for_bulk s else Some (length s) in
          let? l := str_slice s 0 splitpoint in
          let? b' := push_leaf rope_ops b l in
          let? s' := str_slice s splitpoint (length s) in
          push_str_loop f b' s'
      end
  end.
Definition push_str (b : builder) (s : str) : option builder :=
  if length s <=? MAX_LEAF then
    match s with [] => Some b | _ => push_leaf rope_ops b s end
  else push_str_loop (length s) b s.

(** rope.rs 376-383, [from_str]. *)
Definition rope_from (s : str) : option rope :=
  let? b := push_str b_new s in build rope_ops b.
(** rope.rs 628-636, [Add]. *)
Definition rope_add (a b : rope) : option rope :=
  let? b1 := b_push rope_ops b_new a in
  let? b2 := b_push rope_ops b1 b in
  build rope_ops b2.
(** rope.rs 394-396, [slice]. *)
Definition rope_slice (r : rope) (b e : nat) : option rope := subseq rope_ops r b e.
(** tree.rs 415-426 with a string. *)
Definition rope_edit (r : rope) (b e : nat) (s : str) : option rope :=
  let? new := rope_from s in edit rope_ops r b e new.

(** ** Metrics *)

(** rope.rs 213-223, [len_utf8_from_first_byte]. *)
Definition len_utf8_from_first_byte (b : byte) : nat :=
  if b <? 128 then 1 else if b <? 224 then 2 else if b <? 240 then 3 else 4.

(** rope.rs 183-195, [prev]; the loop goes down to a boundary. *)
Definition cp_prev (s : str) (offset : nat) : option (option nat) :=
  match offset with 0 => Some None | S o => Some (Some (back_to_boundary s o)) end.
(** rope.rs 197-206, [next]. *)
Definition cp_next (s : str) (offset : nat) : option (option nat) :=
  if offset =? length s then Some None
  else
    let? b := nth_error s offset in
    Some (Some (offset + len_utf8_from_first_byte b)).

(** rope.rs 164-211, [BaseMetric]. *)
Definition base_metric : metric (L:=str) (I:=rope_info) := Metric
  (fun _ len => len)
  (fun s m => if is_char_boundary s m then Some m else None)
  (fun s o => if is_char_boundary s o then Some o else None)
  (fun s o => Some (is_char_boundary s o))
  cp_prev cp_next false.

(** rope.rs 245-254, [to_base_units]. *)
Fixpoint lines_to_base (s : str) (m : nat) (offset : nat) : option nat :=
  match m with
  | 0 => Some offset
  | S m' =>
      let? pos := memchr NL (skipn offset s) in
      lines_to_base s m' (offset + pos + 1)
  end.
(** rope.rs 228-273, [LinesMetric]. *)
Definition lines_metric : metric (L:=str) (I:=rope_info) := Metric
  (fun i _ => ri_lines i)
  (fun s m => lines_to_base s m 0)
  (fun s o => let? p := str_slice s 0 o in Some (count_newlines p))
  (fun s o => match o with 0 => Some false | S o' => let? b := nth_error s o' in Some (b =? NL) end)
  (fun s o => match o with
              | 0 => None
              | S o' => if length s <? o' then None
                        else Some (match memrchr NL (firstn o' s) with Some p => Some (p + 1) | None => None end)
              end)
  (fun s o => if length s <? o then None
              else Some (match memchr NL (skipn o s) with Some p => Some (o + p + 1) | None => None end))
  true.

(** rope.rs 287-298, [to_base_units]: a character is read from its first byte (Rust's
    [chars] decodes; here only its length and its number of UTF-16 units are used). *)
Fixpoint utf16_to_base (fuel : nat) (s : str) (m : nat) (cur16 cur8 : nat) : option nat :=
  match skipn cur8 s with
  | [] => Some cur8
  | b :: _ =>
      if m <=? cur16 then Some cur8
      else
        match fuel with
        | 0 => None
        | S f => utf16_to_base f s m (cur16 + (if 240 <=? b then 2 else 1)) (cur8 + len_utf8_from_first_byte b)
        end
  end.
(** rope.rs 278-332, [Utf16CodeUnitsMetric]. *)
Definition utf16_metric : metric (L:=str) (I:=rope_info) := Metric
  (fun i _ => ri_utf16 i)
  (fun s m => utf16_to_base (length s) s m 0 0)
  (fun s o => let? p := str_slice s 0 o in Some (count_utf16 p))
  (fun s o => Some (is_char_boundary s o))
  cp_prev cp_next false.

(** rope.rs 460-462, [line_of_offset]; tree.rs 471-473, [count].  The loop of
    [convert_metrics] is bounded by the height of the tree plus two unless the argument is
    out of range, when it may wrap around more often ([fuel]). *)
Definition line_of_offset (fuel : nat) (r : rope) (offset : nat) : option nat :=
  convert_metrics fuel base_metric lines_metric r offset.
(** rope.rs 477-488, [offset_of_line]. *)
Definition offset_of_line (fuel : nat) (r : rope) (line : nat) : option nat :=
  let max_line := measure lines_metric r + 1 in
  match Nat.compare line max_line with
  | Gt => None
  | Eq => Some (n_len r)
  | Lt => convert_metrics fuel lines_metric base_metric r line
  end.
(** tree.rs 471-490, [count] and [count_base_units] for UTF-16. *)
Definition utf16_of_offset (fuel : nat) (r : rope) (offset : nat) : option nat :=
  convert_metrics fuel base_metric utf16_metric r offset.
Definition offset_of_utf16 (fuel : nat) (r : rope) (m : nat) : option nat :=
  convert_metrics fuel utf16_metric base_metric r m.
