(** Model of rust/rope/src/breaks.rs: sequences of (soft) line breaks. *)
From Coq Require Import List Arith Bool.
From Verif Require Import Base TreeModel.
Import ListNotations.

(** breaks.rs 26-27. *)
Definition BR_MIN := 32.
Definition BR_MAX := 64.

(** breaks.rs 33-38, [BreaksLeaf]. *)
Record bleaf := BLeaf { bl_len : nat; bl_data : list nat }.
Notation breaks := (node bleaf nat).

(** breaks.rs 53-80, [push_maybe_split]; [v - start] cannot underflow, [min(end, other.len()) -
    start] panics if it does. *)
Definition bl_push (self other : bleaf) (start e : nat) : option (bleaf * option bleaf) :=
  let data := bl_data self ++
    map (fun v => v - start + bl_len self) (filter (fun v => (start <? v) && (v <=? e)) (bl_data other)) in
  check (start <=? Nat.min e (bl_len other)) (
  let len := bl_len self + (Nat.min e (bl_len other) - start) in
  if length data <=? BR_MAX then Some (BLeaf len data, None)
  else
    let splitpoint := length data / 2 in
    let? units := nth_error data (splitpoint - 1) in
    let new := skipn splitpoint data in
    check (forallb (fun x => units <=? x) new) (
    check (units <=? len) (
    Some (BLeaf units (firstn splitpoint data), Some (BLeaf (len - units) (map (fun x => x - units) new)))))).

(** breaks.rs 44-51, 83-94: the number of breaks is the summary. *)
Definition br_ops : leafops bleaf nat :=
  LeafOps bl_len (fun l => BR_MIN <=? length (bl_data l)) bl_push (BLeaf 0 []) Nat.add (fun l => length (bl_data l)).

(** [slice::binary_search] of the standard library on a strictly increasing vector: [Ok n] is
    [(true, n)] and [Err n] is [(false, n)]. Modelled by its contract, as a linear scan. *)
Fixpoint bsearch (d : list nat) (x : nat) : bool * nat :=
  match d with
  | [] => (false, 0)
  | v :: d' => if v =? x then (true, 0) else if x <? v then (false, 0) else let (f, n) := bsearch d' x in (f, S n)
  end.
(** breaks.rs 123-128, 151-154: the index after a break at [x]. *)
Definition bs_after (d : list nat) (x : nat) : nat := let (f, n) := bsearch d x in if f then n + 1 else n.

(** breaks.rs 113-121, [to_base_units]. *)
Definition br_to_base (l : bleaf) (m : nat) : option nat :=
  if length (bl_data l) <? m then Some (bl_len l + 1) else if m =? 0 then Some 0 else nth_error (bl_data l) (m - 1).
(** breaks.rs 134-145, [prev], the loop from index [i]; [before] is the element before it. *)
Fixpoint br_prev_loop (d : list nat) (before : option nat) (offset : nat) : option nat :=
  match d with
  | [] => before
  | v :: d' => if offset <=? v then before else br_prev_loop d' (Some v) offset
  end.
Definition br_prev (l : bleaf) (offset : nat) : option (option nat) := Some (br_prev_loop (bl_data l) None offset).
(** breaks.rs 147-158, [next]. *)
Definition br_next (l : bleaf) (offset : nat) : option (option nat) :=
  let n := bs_after (bl_data l) offset in
  if n =? length (bl_data l) then Some None else let? v := nth_error (bl_data l) n in Some (Some v).
(** breaks.rs 108-162, [BreaksMetric]. *)
Definition br_metric : metric (L:=bleaf) (I:=nat) :=
  Metric (fun i _ => i) br_to_base (fun l x => Some (bs_after (bl_data l) x))
    (fun l x => Some (fst (bsearch (bl_data l) x))) br_prev br_next true.
(** breaks.rs 168-197, [BreaksBaseMetric], the default metric (97-99). *)
Definition br_base : metric (L:=bleaf) (I:=nat) :=
  Metric (fun _ k => k) (fun _ x => Some x) (fun _ x => Some x)
    (fun l x => Some (fst (bsearch (bl_data l) x))) br_prev br_next true.
(** tree.rs 471-494, [count] and [count_base_units] for breaks. *)
Definition br_count (fuel : nat) (b : breaks) (offset : nat) : option nat := convert_metrics fuel br_base br_metric b offset.
Definition br_offset (fuel : nat) (b : breaks) (m : nat) : option nat := convert_metrics fuel br_metric br_base b m.

(** breaks.rs 204-207, [new_no_break]. *)
Definition new_no_break (len : nat) : breaks := from_leaf br_ops (BLeaf len []).
(** breaks.rs 210-221, [BreakBuilder]. *)
Record bbuilder := BBuilder { bb_b : builder (L:=bleaf) (I:=nat); bb_leaf : bleaf }.
Definition bb_new : bbuilder := BBuilder b_new (BLeaf 0 []).
(** breaks.rs 228-235, [add_break]. *)
Definition add_break (b : bbuilder) (len : nat) : option bbuilder :=
  let? (b0, leaf) :=
    (if length (bl_data (bb_leaf b)) =? BR_MAX
     then let? b' := b_push br_ops (bb_b b) (from_leaf br_ops (bb_leaf b)) in Some (b', BLeaf 0 [])
     else Some (bb_b b, bb_leaf b)) in
  let k := bl_len leaf + len in
  Some (BBuilder b0 (BLeaf k (bl_data leaf ++ [k]))).
(** breaks.rs 237-239, [add_no_break]. *)
Definition add_no_break (b : bbuilder) (len : nat) : option bbuilder :=
  Some (BBuilder (bb_b b) (BLeaf (bl_len (bb_leaf b) + len) (bl_data (bb_leaf b)))).
(** breaks.rs 241-244, [build]. *)
Definition bb_build (b : bbuilder) : option breaks :=
  let? b' := b_push br_ops (bb_b b) (from_leaf br_ops (bb_leaf b)) in build br_ops b'.

(** The builder driven by a list of calls: [(true, k)] is [add_break(k)]. *)
Fixpoint bb_run (b : bbuilder) (calls : list (bool * nat)) : option bbuilder :=
  match calls with
  | [] => Some b
  | (f, k) :: cs => let? b' := (if f then add_break b k else add_no_break b k) in bb_run b' cs
  end.
