(** Model of rust/rope/src/diff.rs.

    Simplification: the map from lines to offsets is an association list; only what it maps each
    line to is observable. *)
From Coq Require Import List Arith Bool.
From Verif Require Import Base TreeModel CursorModel RopeModel RopeIterModel CompareModel.
Import ListNotations.
Local Notation str := (list nat) (only parsing).

(** diff.rs 33. *)
Definition MIN_SIZE := 32.
(** diff.rs 206-209, [non_ws_offset]. *)
Fixpoint non_ws_offset (s : str) : nat :=
  match s with b :: s' => if (b =? 32) || (b =? 9) then S (non_ws_offset s') else 0 | [] => 0 end.

(** diff.rs 211-217, [DiffOp]. *)
Record diff_op := DiffOp { target_idx : nat; base_idx : nat; op_len : nat }.
(** diff.rs 226-237, [copy]. The operations are listed last first. *)
Definition db_copy (ops : list diff_op) (base target len : nat) : option (list diff_op) :=
  match ops with
  | prev :: rest =>
      let prev_end := target_idx prev + op_len prev in
      let base_end := base_idx prev + op_len prev in
      check (prev_end <=? target)
        (if (prev_end =? target) && (base_end =? base) then Some (DiffOp (target_idx prev) (base_idx prev) (op_len prev + len) :: rest)
         else Some (DiffOp target base len :: ops))
  | [] => Some [DiffOp target base len]
  end.
(** diff.rs 239-257, [to_delta]: the loop, over the operations first first. *)
Fixpoint to_delta_loop (target : rope) (ops : list diff_op) (targ_pos : nat) : option (list relement) :=
  match ops with
  | [] =>
      if targ_pos <? n_len target then let? t := rope_slice target targ_pos (n_len target) in Some [RInsert t] else Some []
  | op :: ops' =>
      let? els := to_delta_loop target ops' (target_idx op + op_len op) in
      let els1 := RCopy (base_idx op) (base_idx op + op_len op) :: els in
      if targ_pos <? target_idx op then let? t := rope_slice target targ_pos (target_idx op) in Some (RInsert t :: els1)
      else Some els1
  end.
(** The elements of the delta and its [base_len]. *)
Definition to_delta (ops : list diff_op) (base target : rope) : option (list relement * nat) :=
  let? els := to_delta_loop target (rev ops) 0 in Some (els, n_len base).

(** diff.rs 260-277, [make_line_hashes]. *)
Definition str_eqb (a b : str) : bool := if list_eq_dec Nat.eq_dec a b then true else false.
Fixpoint lookup (m : list (str * nat)) (k : str) : option nat :=
  match m with [] => None | (k', v) :: m' => if str_eqb k k' then Some v else lookup m' k end.
Fixpoint hash_lines (ls : list str) (min_size offset : nat) (m : list (str * nat)) : list (str * nat) :=
  match ls with
  | [] => m
  | line :: ls' =>
      let non_ws := non_ws_offset line in
      let m1 := if min_size <=? length line - non_ws then (skipn non_ws line, offset + non_ws) :: m else m in
      hash_lines ls' min_size (offset + length line) m1
  end.
Definition make_line_hashes (base : rope) (min_size : nat) : option (list (str * nat)) :=
  let? ls := rope_lines_raw base 0 (n_len base) in Some (hash_lines ls min_size 0 []).

(** diff.rs 85-102, the loop over the lines of the target. The matches are listed last first. *)
Fixpoint match_lines (hashes : list (str * nat)) (start_offset : nat) (ls : list str) (targ_line_offset prev_base : nat)
    (matches : list (nat * nat)) (needs_subseq : bool) : list (nat * nat) * bool :=
  match ls with
  | [] => (rev matches, needs_subseq)
  | line :: ls' =>
      let non_ws := non_ws_offset line in
      let next := targ_line_offset + length line in
      match (if MIN_SIZE <=? length line - non_ws then lookup hashes (skipn non_ws line) else None) with
      | Some base_off =>
          match_lines hashes start_offset ls' next base_off ((start_offset + (targ_line_offset + non_ws), base_off) :: matches)
            (needs_subseq || (base_off <? prev_base))
      | None => match_lines hashes start_offset ls' next prev_base matches needs_subseq
      end
  end.

(** diff.rs 182-185: [binary_search_by] in indices whose items increase ([lis_loop_ok] and
    [search_ok] in DiffProofs.v) gives the first that is not less. *)
Fixpoint search (items : list (nat * nat)) (result : list nat) (x : nat) : option (nat * bool) :=
  match result with
  | [] => Some (0, false)
  | j :: result' =>
      let? it := nth_error items j in
      if snd it <? x then let? (i, b) := search items result' x in Some (S i, b)
      else Some (0, snd it =? x)
  end.
Definition set_nth {A} (l : list A) (i : nat) (x : A) : option (list A) :=
  check (i <? length l) (Some (firstn i l ++ x :: skipn (S i) l)).
(** diff.rs 172-193, the loop of [longest_increasing_region_set]; [n] items are left, from [i]
    on. *)
Fixpoint lis_loop (items : list (nat * nat)) (n i : nat) (result prev_chain : list nat) : option (list nat * list nat) :=
  match n with
  | 0 => Some (result, prev_chain)
  | S n' =>
      let? last_idx := nth_error (rev result) 0 in
      let? lit := nth_error items last_idx in
      let? it := nth_error items i in
      if snd lit <? snd it then
        let? pc := set_nth prev_chain i last_idx in lis_loop items n' (S i) (result ++ [i]) pc
      else
        let? (next_idx, found) := search items result (snd it) in
        if found then lis_loop items n' (S i) result prev_chain
        else
          let? j := nth_error result next_idx in
          let? jt := nth_error items j in
          if snd it <? snd jt then
            let? pc := (if 0 <? next_idx then let? p := nth_error result (next_idx - 1) in set_nth prev_chain i p else Some prev_chain) in
            let? r := set_nth result next_idx i in
            lis_loop items n' (S i) r pc
          else lis_loop items n' (S i) result prev_chain
  end.
(** diff.rs 195-202, walking back from item [v] for [u] steps; the items found, last first, are
    put in order. *)
Fixpoint walk_back (items : list (nat * nat)) (prev_chain : list nat) (u v : nat) (acc : list (nat * nat)) : option (list (nat * nat)) :=
  match u with
  | 0 => Some acc
  | S u' =>
      let? it := nth_error items v in
      let? v' := nth_error prev_chain v in
      walk_back items prev_chain u' v' (it :: acc)
  end.
(** diff.rs 165-204, [longest_increasing_region_set]. *)
Definition longest_increasing_region_set (items : list (nat * nat)) : option (list (nat * nat)) :=
  let? (result, prev_chain) := lis_loop items (length items - 1) 1 [0] (repeat 0 (length items)) in
  let? v := nth_error (rev result) 0 in
  walk_back items prev_chain (length result) v [].

(** diff.rs 150-163, [expand_match]. *)
Definition expand_match (base target : rope) (base_off targ_off prev_match_targ_end : nat) : option (nat * nat) :=
  let? s := scanner_new base target in
  check (prev_match_targ_end <=? targ_off)
    (let max_left := targ_off - prev_match_targ_end in
     let? (start, s1) := find_ne_char_back base target s base_off targ_off (Some max_left) in
     let? (end_, _) := find_ne_char base target s1 base_off targ_off None in
     Some (Nat.min start max_left, end_)).

(** diff.rs 116-134, the loop that extends the matches. *)
Fixpoint extend_loop (base target : rope) (target_end : nat) (ms : list (nat * nat)) (prev_end : nat) (ops : list diff_op) : option (list diff_op) :=
  match ms with
  | [] => Some ops
  | (targ_off, base_off) :: ms' =>
      if targ_off <=? prev_end then extend_loop base target target_end ms' prev_end ops
      else
        let? (left_dist, right0) := expand_match base target base_off targ_off prev_end in
        check (targ_off <=? target_end)
          (let right_dist := Nat.min right0 (target_end - targ_off) in
           check ((left_dist <=? targ_off) && (left_dist <=? base_off))
             (let targ_start := targ_off - left_dist in
              let base_start := base_off - left_dist in
              let len := left_dist + right_dist in
              let? ops1 := db_copy ops base_start targ_start len in
              extend_loop base target target_end ms' (targ_start + len) ops1))
  end.

(** diff.rs 50-142, [LineHashDiff::compute_delta]. *)
Definition compute_delta (base target : rope) : option (list relement * nat) :=
  let? s := scanner_new base target in
  let? (start_offset, diff_end, _) := find_min_diff_range base target s in
  check (diff_end <=? n_len target)
    (let target_end := n_len target - diff_end in
     let? ops := (if 0 <? start_offset then db_copy [] 0 0 start_offset else Some []) in
     if (start_offset =? n_len base) && (n_len target =? n_len base) then to_delta ops base target
     else if (n_len target <? n_len base) && (start_offset + diff_end =? n_len target)
          || (n_len base <? n_len target) && (start_offset + diff_end =? n_len base) then
       check (diff_end <=? n_len base)
         (let? ops1 := db_copy ops (n_len base - diff_end) target_end diff_end in to_delta ops1 base target)
     else
       let? line_hashes := make_line_hashes base MIN_SIZE in
       let? lines := rope_lines_raw target start_offset target_end in
       let (matches, needs_subseq) := match_lines line_hashes start_offset lines 0 0 [] false in
       let? longest_subseq := (if needs_subseq then longest_increasing_region_set matches else Some matches) in
       let? ops1 := extend_loop base target target_end longest_subseq start_offset ops in
       let? ops2 := (if 0 <? diff_end then check (diff_end <=? n_len base) (db_copy ops1 (n_len base - diff_end) (n_len target - diff_end) diff_end) else Some ops1) in
       to_delta ops2 base target).
