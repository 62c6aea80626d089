(** Model of rust/rope/src/compare.rs.

    Simplifications: a vector register is the list of its bytes, and a mask the list of its bits
    from position 0 up. Debug assertions are left out. The scanner compares with the portable
    functions; the vector ones are shown to agree with them. *)
From Coq Require Import List Arith Bool.
From Verif Require Import Base TreeModel CursorModel RopeModel RopeIterModel.
Import ListNotations.
Local Notation str := (list nat) (only parsing).

(** compare.rs 177-179 and 184-186, [ne_idx_fallback], [ne_idx_rev_fallback]. *)
Fixpoint ne_idx_fallback (one two : str) : option nat :=
  match one, two with
  | a :: one', b :: two' => if a =? b then option_map S (ne_idx_fallback one' two') else Some 0
  | _, _ => None
  end.
Definition ne_idx_rev_fallback (one two : str) : option nat := ne_idx_fallback (rev one) (rev two).

Definition SSE_STRIDE := 16.
Definition AVX_STRIDE := 32.
(** compare.rs 46-58 and 68-75, [sse_compare_mask], [avx_compare_mask]: true where the bytes
    differ. *)
Definition compare_mask (one two : str) : list bool := map (fun '(a, b) => negb (a =? b)) (combine one two).
(** The number of zeros before the first one of a mask, from position 0 and from the top. *)
Fixpoint trailing_zeros (mask : list bool) : nat :=
  match mask with [] => 0 | b :: m => if b then 0 else S (trailing_zeros m) end.
Definition leading_zeros (mask : list bool) : nat := trailing_zeros (rev mask).
Definition mask_zero (mask : list bool) : bool := negb (existsb (fun b => b) mask).

(** A load of [stride] bytes from [idx] on: it may go beyond the slice, into whatever memory
    [after] comes next. *)
Definition load (stride : nat) (s after : str) (idx : nat) : str := firstn stride (skipn idx (s ++ after)).
(** compare.rs 104-121 and 126-142, the loops of [ne_idx_avx] and [ne_idx_sse]; they differ in
    the stride. The loop takes [stride] more bytes at each turn. *)
Fixpoint ne_idx_loop (fuel stride : nat) (one two after1 after2 : str) (idx : nat) : option (option nat) :=
  let min_len := Nat.min (length one) (length two) in
  if idx <? min_len then
    let mask := compare_mask (load stride one after1 idx) (load stride two after2 idx) in
    if negb (mask_zero mask) && (idx + trailing_zeros mask <? min_len) then Some (Some (idx + trailing_zeros mask))
    else match fuel with 0 => None | S f => ne_idx_loop f stride one two after1 after2 (idx + stride) end
  else Some None.
Definition ne_idx_avx (one two after1 after2 : str) : option (option nat) := ne_idx_loop (length one) AVX_STRIDE one two after1 after2 0.
Definition ne_idx_sse (one two after1 after2 : str) : option (option nat) := ne_idx_loop (length one) SSE_STRIDE one two after1 after2 0.

(** compare.rs 152-170, the loop of [ne_idx_rev_sse]. *)
Fixpoint ne_idx_rev_loop (fuel : nat) (one two : str) (min_len idx : nat) : option (option nat) :=
  let mask :=
    if idx <? SSE_STRIDE then
      compare_mask (repeat 0 (SSE_STRIDE - idx) ++ firstn idx one) (repeat 0 (SSE_STRIDE - idx) ++ firstn idx two)
    else compare_mask (slice one (idx - SSE_STRIDE) idx) (slice two (idx - SSE_STRIDE) idx) in
  let i := leading_zeros mask in
  if negb (i =? SSE_STRIDE) then (if i <=? idx then Some (Some (min_len - (idx - i))) else None)
  else if idx <? SSE_STRIDE then Some None
  else match fuel with 0 => None | S f => ne_idx_rev_loop f one two min_len (idx - SSE_STRIDE) end.
(** compare.rs 146-172, [ne_idx_rev_sse]. *)
Definition ne_idx_rev_sse (one two : str) : option (option nat) :=
  let min_len := Nat.min (length one) (length two) in
  ne_idx_rev_loop (length one) (skipn (length one - min_len) one) (skipn (length two - min_len) two) min_len min_len.

(** compare.rs 189-195, [RopeScanner]; the two ropes are arguments of the functions. *)
Record scanner := Scanner { sc_base : rcursor; sc_target : rcursor; sc_bchunk : str; sc_tchunk : str; sc_scanned : nat }.

Section Scan.
Context (base target : rope).

(** compare.rs 198-206, [new]. *)
Definition scanner_new : option scanner :=
  let? b := c_new base 0 in let? t := c_new target 0 in Some (Scanner b t [] [] 0).
(** A [stop] of [None] is [usize::max_value()]. *)
Definition smin (stop : option nat) (n : nat) : nat := match stop with None => n | Some s => Nat.min s n end.
Definition stop_le (stop : option nat) (n : nat) : bool := match stop with None => false | Some s => s <=? n end.

(** compare.rs 390-402, [load_next_chunk], for one of the ropes. *)
Definition load_next (r : rope) (c : rcursor) (chunk : str) : option (rcursor * str) :=
  match chunk with
  | [] =>
      let? (found, c1) := next_leaf rope_ops r c in
      if found then let? g := c_get_leaf c1 in let? (l, _) := g in Some (c1, l) else Some (c1, chunk)
  | _ => Some (c, chunk)
  end.
(** compare.rs 376-388, [load_prev_chunk], for one of the ropes. *)
Definition load_prev (r : rope) (c : rcursor) (chunk : str) : option (rcursor * str) :=
  match chunk with
  | [] =>
      let? (found, c1) := prev_leaf rope_ops r c in
      if found then let? g := c_get_leaf c1 in let? (l, _) := g in Some (c1, l) else Some (c1, chunk)
  | _ => Some (c, chunk)
  end.

(** compare.rs 314-316, to the character boundary before [idx]. *)
Fixpoint snap (chunk : str) (idx : nat) : nat :=
  match idx with 0 => 0 | S i => if is_char_boundary chunk idx then idx else snap chunk i end.
(** compare.rs 251-253; note that it stops at 1. *)
Fixpoint snap_back (chunk : str) (idx : nat) : nat :=
  match idx with
  | 0 => 0
  | S i => match i with 0 => 1 | _ => if is_char_boundary chunk (length chunk - idx) then idx else snap_back chunk i end
  end.

Definition is_nil {A} (l : list A) : bool := match l with [] => true | _ => false end.

(** compare.rs 311-331, the loop of [find_ne_char]. *)
Fixpoint ne_char_loop (fuel : nat) (s : scanner) (stop : option nat) : option (nat * scanner) :=
  match ne_idx_fallback (sc_bchunk s) (sc_tchunk s) with
  | Some idx => Some (smin stop (sc_scanned s + snap (sc_bchunk s) idx), s)
  | None =>
      let scan_len := Nat.min (length (sc_tchunk s)) (length (sc_bchunk s)) in
      let? bc := str_slice (sc_bchunk s) scan_len (length (sc_bchunk s)) in
      let? tc := str_slice (sc_tchunk s) scan_len (length (sc_tchunk s)) in
      let scanned := sc_scanned s + scan_len in
      if stop_le stop scanned then Some (smin stop scanned, Scanner (sc_base s) (sc_target s) bc tc scanned)
      else
        let? (b1, bc1) := load_next base (sc_base s) bc in
        let? (t1, tc1) := load_next target (sc_target s) tc in
        let s1 := Scanner b1 t1 bc1 tc1 scanned in
        if is_nil bc1 || is_nil tc1 then Some (smin stop scanned, s1)
        else match fuel with 0 => None | S f => ne_char_loop f s1 stop end
  end.
(** compare.rs 293-333, [find_ne_char]. Each turn of the loop loads a chunk of one of the
    ropes. *)
Definition find_ne_char (s : scanner) (base_off targ_off : nat) (stop : option nat) : option (nat * scanner) :=
  let? b := c_set rope_ops base (sc_base s) base_off in
  let? t := c_set rope_ops target (sc_target s) targ_off in
  let? gb := c_get_leaf b in
  let? (base_leaf, base_leaf_off) := gb in
  let? gt := c_get_leaf t in
  let? (target_leaf, target_leaf_off) := gt in
  let? bc := str_slice base_leaf base_leaf_off (length base_leaf) in
  let? tc := str_slice target_leaf target_leaf_off (length target_leaf) in
  ne_char_loop (n_len base + n_len target) (Scanner b t bc tc 0) stop.

(** compare.rs 246-268, the loop of [find_ne_char_back]. *)
Fixpoint ne_char_back_loop (fuel : nat) (s : scanner) (stop : option nat) : option (nat * scanner) :=
  match ne_idx_rev_fallback (sc_bchunk s) (sc_tchunk s) with
  | Some idx => Some (smin stop (sc_scanned s + snap_back (sc_bchunk s) idx), s)
  | None =>
      let scan_len := Nat.min (length (sc_tchunk s)) (length (sc_bchunk s)) in
      let? bc := str_slice (sc_bchunk s) 0 (length (sc_bchunk s) - scan_len) in
      let? tc := str_slice (sc_tchunk s) 0 (length (sc_tchunk s) - scan_len) in
      let scanned := sc_scanned s + scan_len in
      if stop_le stop scanned then Some (smin stop scanned, Scanner (sc_base s) (sc_target s) bc tc scanned)
      else
        let? (b1, bc1) := load_prev base (sc_base s) bc in
        let? (t1, tc1) := load_prev target (sc_target s) tc in
        let s1 := Scanner b1 t1 bc1 tc1 scanned in
        if is_nil bc1 || is_nil tc1 then Some (smin stop scanned, s1)
        else match fuel with 0 => None | S f => ne_char_back_loop f s1 stop end
  end.
(** compare.rs 226-270, [find_ne_char_back]. *)
Definition find_ne_char_back (s : scanner) (base_off targ_off : nat) (stop : option nat) : option (nat * scanner) :=
  let? b := c_set rope_ops base (sc_base s) base_off in
  let? t := c_set rope_ops target (sc_target s) targ_off in
  let? gb := c_get_leaf b in
  let? (base_leaf, base_leaf_off) := gb in
  let? gt := c_get_leaf t in
  let? (target_leaf, target_leaf_off) := gt in
  let? bc := str_slice base_leaf 0 base_leaf_off in
  let? tc := str_slice target_leaf 0 target_leaf_off in
  ne_char_back_loop (n_len base + n_len target) (Scanner b t bc tc 0) stop.

(** compare.rs 359-374, [find_min_diff_range]; [total_len] (tree.rs) is the length of the
    rope. *)
Definition find_min_diff_range (s : scanner) : option (nat * nat * scanner) :=
  let b_end := n_len base in
  let t_end := n_len target in
  let? (start, s1) := find_ne_char s 0 0 None in
  if Nat.min b_end t_end <? start then None
  else
    let unscanned := Nat.min b_end t_end - start in
    match unscanned with
    | 0 => Some (start, 0, s1)
    | n => let? (end_, s2) := find_ne_char_back s1 b_end t_end (Some n) in Some (start, end_, s2)
    end.
End Scan.
