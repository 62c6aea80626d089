(** Model of rust/rope/src/tree.rs 616-1033: cursors.
    The root is a parameter (a cursor never changes it).  Loops that walk down the tree
    take as fuel the height of the root. *)
From Coq Require Import List Arith Bool.
From Verif Require Import Base TreeModel.
Import ListNotations.

Section Cursor.
Context {L I : Type} (ops : leafops L I).
Notation node := (node L I).
Context (root : node).

(** tree.rs 616. *)
Definition CACHE_SIZE := 4.
Notation entry := (option (node * nat)).

(** tree.rs 629-650. *)
Record cursor := Cursor {
  c_pos : nat;
  c_cache : list entry;
  c_leaf : option L;
  c_off : nat }.

(** [self.cache[i] = x]. *)
Fixpoint upd (cache : list entry) (i : nat) (x : entry) : list entry :=
  match cache, i with
  | [], _ => []
  | _ :: r, 0 => x :: r
  | y :: r, S i' => y :: upd r i' x
  end.
Definition set_cache (cache : list entry) (height : nat) (x : entry) : list entry :=
  if height - 1 <? CACHE_SIZE then upd cache (height - 1) x else cache.

(** tree.rs 954-965, the inner loop of [descend]: the index of the child, its offset and
    the child. *)
Fixpoint pick (cs : list node) (offset pos i : nat) : option (nat * nat * node) :=
  match cs with
  | [] => None
  | [c] => Some (i, offset, c)
  | c :: rest =>
      if pos <? offset + n_len c then Some (i, offset, c)
      else pick rest (offset + n_len c) pos (S i)
  end.
(** tree.rs 949-974, [descend]. *)
Fixpoint descend_f (fuel : nat) (n : node) (offset pos : nat) (cache : list entry) : option (L * nat * list entry) :=
  match n with
  | NLeaf _ _ l => Some (l, offset, cache)
  | NInt h _ _ cs =>
      match fuel with
      | 0 => None
      | S f =>
          let? (i, offset', c) := pick cs offset pos 0 in
          descend_f f c offset' pos (set_cache cache h (Some (n, i)))
      end
  end.
Definition descend (c : cursor) : option cursor :=
  let? (l, off, cache) := descend_f (n_height root) root 0 (c_pos c) (c_cache c) in
  Some (Cursor (c_pos c) cache (Some l) off).

(** tree.rs 655-665. *)
Definition c_new (position : nat) : option cursor :=
  descend (Cursor position (repeat None CACHE_SIZE) None 0).

(** tree.rs 682-684; a position before the leaf would make the subtraction panic. *)
Definition c_get_leaf (c : cursor) : option (option (L * nat)) :=
  match c_leaf c with
  | None => Some None
  | Some l => if c_pos c <? c_off c then None else Some (Some (l, c_pos c - c_off c))
  end.

(** tree.rs 691-701. *)
Definition c_set (c : cursor) (position : nat) : option cursor :=
  let c' := Cursor position (c_cache c) (c_leaf c) (c_off c) in
  match c_leaf c with
  | Some l =>
      if (c_off c <=? position) && (position <? c_off c + l_len ops l) then Some c' else descend c'
  | None => descend c'
  end.

(** tree.rs 890-893 and 926-930: to the first or last leaf under a node, [i] levels down;
    the entries, bottom first. *)
Fixpoint go_left (i : nat) (n : node) (acc : list entry) : option (list entry * L) :=
  match i with
  | 0 => let? l := get_leaf n in Some (acc, l)
  | S i' =>
      let? cs := get_children n in
      let? c := nth_error cs 0 in
      go_left i' c (Some (n, 0) :: acc)
  end.
Fixpoint go_right (i : nat) (n : node) (acc : list entry) : option (list entry * L) :=
  match i with
  | 0 => let? l := get_leaf n in Some (acc, l)
  | S i' =>
      let? cs := get_children n in
      let? c := nth_error cs (length cs - 1) in
      go_right i' c (Some (n, length cs - 1) :: acc)
  end.

(** The three ways the loops of [next_leaf] and [prev_leaf] end. *)
Inductive scan := Found (cache : list entry) (l : L) | Hole | Exhausted.
(** tree.rs 881-900. *)
Fixpoint scan_next (i : nat) (rest : list entry) : option scan :=
  match rest with
  | [] => Some Exhausted
  | None :: _ => Some Hole
  | Some (node, j) :: rest' =>
      let? cs := get_children node in
      if j + 1 <? length cs then
        let? c := nth_error cs (j + 1) in
        let? (acc, l) := go_left i c [] in
        Some (Found (acc ++ Some (node, j + 1) :: rest') l)
      else scan_next (S i) rest'
  end.
(** tree.rs 917-938. *)
Fixpoint scan_prev (i : nat) (rest : list entry) : option scan :=
  match rest with
  | [] => Some Exhausted
  | None :: _ => Some Hole
  | Some (node, j) :: rest' =>
      let? cs := get_children node in
      if 0 <? j then
        let? c := nth_error cs (j - 1) in
        let? (acc, l) := go_right i c [] in
        Some (Found (acc ++ Some (node, j - 1) :: rest') l)
      else scan_prev (S i) rest'
  end.

(** tree.rs 878-907, [next_leaf]; the result is whether there is a leaf. *)
Definition next_leaf (c : cursor) : option (bool * cursor) :=
  match c_leaf c with
  | None => Some (false, c)
  | Some leaf =>
      let pos := c_off c + l_len ops leaf in
      let? r := scan_next 0 (c_cache c) in
      match r with
      | Hole => Some (false, Cursor pos (c_cache c) None (c_off c))
      | Found cache l => Some (true, Cursor pos cache (Some l) pos)
      | Exhausted =>
          if pos =? n_len root then Some (false, Cursor pos (c_cache c) None (c_off c))
          else let? c' := descend (Cursor pos (c_cache c) (c_leaf c) (c_off c)) in Some (true, c')
      end
  end.

(** tree.rs 911-943, [prev_leaf]. *)
Definition prev_leaf (c : cursor) : option (bool * cursor) :=
  if c_off c =? 0 then Some (false, Cursor 0 (c_cache c) None (c_off c))
  else
    let? r := scan_prev 0 (c_cache c) in
    match r with
    | Hole => Some (false, Cursor (c_pos c) (c_cache c) None (c_off c))
    | Found cache l =>
        if c_off c <? l_len ops l then None
        else let off := c_off c - l_len ops l in Some (true, Cursor off cache (Some l) off)
    | Exhausted =>
        let? c' := descend (Cursor (c_off c - 1) (c_cache c) (c_leaf c) (c_off c)) in
        Some (true, Cursor (c_off c') (c_cache c') (c_leaf c') (c_off c'))
    end.

Section WithMetric.
Context (M : metric (L:=L) (I:=I)).

(** tree.rs 979-994, [measure_leaf]; a position past the end would make it loop for ever. *)
Fixpoint ml_find (cs : list node) (pos m : nat) : option (node * nat * nat) :=
  match cs with
  | [] => None
  | c :: rest => if pos <? n_len c then Some (c, pos, m) else ml_find rest (pos - n_len c) (m + measure M c)
  end.
Fixpoint measure_leaf_f (fuel : nat) (n : node) (pos m : nat) : option nat :=
  match n with
  | NLeaf _ _ _ => Some m
  | NInt _ _ _ cs =>
      match fuel with
      | 0 => None
      | S f => let? (c, pos', m') := ml_find cs pos m in measure_leaf_f f c pos' m'
      end
  end.
Definition measure_leaf (pos : nat) : option nat := measure_leaf_f (n_height root) root pos 0.

(** tree.rs 1009-1022, the inner loop of [descend_metric]. *)
Fixpoint pick_metric (cs : list node) (offset m i : nat) : option (nat * nat * nat * node) :=
  match cs with
  | [] => None
  | [c] => Some (i, offset, m, c)
  | c :: rest =>
      if m <=? measure M c then Some (i, offset, m, c)
      else pick_metric rest (offset + n_len c) (m - measure M c) (S i)
  end.
(** tree.rs 1004-1033, [descend_metric]. *)
Fixpoint descend_metric_f (fuel : nat) (n : node) (offset m : nat) (cache : list entry) : option (L * nat * list entry) :=
  match n with
  | NLeaf _ _ l => Some (l, offset, cache)
  | NInt h _ _ cs =>
      match fuel with
      | 0 => None
      | S f =>
          let? (i, offset', m', c) := pick_metric cs offset m 0 in
          descend_metric_f f c offset' m' (set_cache cache h (Some (n, i)))
      end
  end.
Definition descend_metric (c : cursor) (m : nat) : option cursor :=
  let? (l, off, cache) := descend_metric_f (n_height root) root 0 m (c_cache c) in
  Some (Cursor off cache (Some l) off).

(** tree.rs 849-859, [last_inside_leaf]. *)
Definition last_inside_leaf (c : cursor) (orig_pos : nat) : option (option nat * cursor) :=
  let? l := c_leaf c in
  let len := l_len ops l in
  let? at_end := if c_off c + len <? orig_pos then m_is_boundary M l len else Some false in
  if at_end then
    let? (_, c') := next_leaf c in Some (Some (c_pos c'), c')
  else
    let? r := m_prev M l len in
    match r with
    | None => Some (None, c)
    | Some o => Some (Some (c_off c + o), Cursor (c_off c + o) (c_cache c) (c_leaf c) (c_off c))
    end.

(** tree.rs 863-873, [next_inside_leaf]. *)
Definition next_inside_leaf (c : cursor) : option (option nat * cursor) :=
  let? l := c_leaf c in
  if c_pos c <? c_off c then None
  else
    let? r := m_next M l (c_pos c - c_off c) in
    match r with
    | None => Some (None, c)
    | Some o =>
        if (o =? l_len ops l) && negb (c_off c + o =? n_len root) then
          let? (_, c') := next_leaf c in Some (Some (c_pos c'), c')
        else Some (Some (c_off c + o), Cursor (c_off c + o) (c_cache c) (c_leaf c) (c_off c))
    end.

(** tree.rs 712-731, [is_boundary]. *)
Definition c_is_boundary (c : cursor) : option (bool * cursor) :=
  match c_leaf c with
  | None => Some (false, c)
  | Some l =>
      if (c_pos c =? c_off c) && negb (m_can_fragment M) then Some (true, c)
      else if (c_pos c =? 0) || (c_off c <? c_pos c) then
        if c_pos c <? c_off c then None
        else let? b := m_is_boundary M l (c_pos c - c_off c) in Some (b, c)
      else
        let? (_, c1) := prev_leaf c in
        let? l1 := c_leaf c1 in
        let? b := m_is_boundary M l1 (l_len ops l1) in
        let? (_, c2) := next_leaf c1 in
        Some (b, c2)
  end.

(** tree.rs 737-767, [prev]. *)
Definition c_prev (c : cursor) : option (option nat * cursor) :=
  let dead := Cursor (c_pos c) (c_cache c) None (c_off c) in
  match c_leaf c with
  | None => Some (None, dead)
  | Some l =>
      if c_pos c =? 0 then Some (None, dead)
      else if c_pos c <? c_off c then None
      else
        let orig_pos := c_pos c in
        let offset_in_leaf := orig_pos - c_off c in
        let? r := if 0 <? offset_in_leaf then m_prev M l offset_in_leaf else Some None in
        match r with
        | Some o => Some (Some (c_off c + o), Cursor (c_off c + o) (c_cache c) (c_leaf c) (c_off c))
        | None =>
            let? (found, c1) := prev_leaf c in
            if negb found then Some (None, c1)
            else
              let? (r1, c2) := last_inside_leaf c1 orig_pos in
              match r1 with
              | Some o => Some (Some o, c2)
              | None =>
                  let? m := measure_leaf (c_pos c2) in
                  if m =? 0 then Some (None, Cursor 0 (c_cache c2) None (c_off c2))
                  else
                    let? c3 := descend_metric c2 m in
                    last_inside_leaf c3 orig_pos
              end
        end
  end.

(** tree.rs 774-799, [next]. *)
Definition c_next (c : cursor) : option (option nat * cursor) :=
  match c_leaf c with
  | None => Some (None, c)
  | Some _ =>
      if n_len root <=? c_pos c then Some (None, Cursor (c_pos c) (c_cache c) None (c_off c))
      else
        let? (r, c1) := next_inside_leaf c in
        match r with
        | Some o => Some (Some o, c1)
        | None =>
            let? (found, c2) := next_leaf c1 in
            if negb found then Some (None, c2)
            else
              let? (r2, c3) := next_inside_leaf c2 in
              match r2 with
              | Some o => Some (Some o, c3)
              | None =>
                  let? m := measure_leaf (c_pos c3) in
                  let? c4 := descend_metric c3 (m + 1) in
                  let? (r3, c5) := next_inside_leaf c4 in
                  match r3 with
                  | Some o => Some (Some o, c5)
                  | None => Some (None, Cursor (n_len root) (c_cache c5) None (c_off c5))
                  end
              end
        end
  end.

(** tree.rs 806-824, [at_or_next] and [at_or_prev]. *)
Definition c_at_or_next (c : cursor) : option (option nat * cursor) :=
  let? (b, c1) := c_is_boundary c in
  if b then Some (Some (c_pos c1), c1) else c_next c1.
Definition c_at_or_prev (c : cursor) : option (option nat * cursor) :=
  let? (b, c1) := c_is_boundary c in
  if b then Some (Some (c_pos c1), c1) else c_prev c1.
End WithMetric.
End Cursor.
