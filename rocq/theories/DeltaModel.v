(** Model of rust/rope/src/delta.rs.

    Simplifications: a [Node<N>] is the list of its elements ([list A]); [usize] is
    [nat]; a [RangeIter] that is only consumed with [next] is the list of ranges it
    still has to yield ([MultisetModel.ranges]). *)
From Coq Require Import List Arith Bool.
From Verif Require Import Base MultisetModel.
Import ListNotations.

(** delta.rs 28-32, [DeltaElement]. *)
Inductive element (A : Type) := Copy (b e : nat) | Insert (n : list A).
Arguments Copy {A} b e.
Arguments Insert {A} n.

(** delta.rs 42-45, [Delta]; delta.rs 51, [InsertDelta] is the same data. *)
Record delta (A : Type) := Delta { els : list (element A); base_len : nat }.
Arguments Delta {A} els base_len.
Arguments els {A} d.
Arguments base_len {A} d.

Section Delta.
Context {A : Type}.
Implicit Types (d : delta A) (l : list (element A)).

(** delta.rs 65-89, [as_simple_insert]. *)
Definition as_simple_insert d : option (list A) :=
  let tail (i : nat) (rest : list (element A)) :=
    match rest with
    | Insert n :: rest' =>
        match rest' with
        | [] => if i =? base_len d then Some n else None
        | Copy b e :: rest'' =>
            if (i =? b) && (e =? base_len d) &&
               (match rest'' with [] => true | _ => false end)
            then Some n else None
        | Insert _ :: _ => None
        end
    | _ => None
    end in
  match els d with
  | Copy b e :: rest => if b =? 0 then tail e rest else None
  | rest => tail 0 rest
  end.

(** delta.rs 96-118, [is_simple_delete]. *)
Definition is_simple_delete d : bool :=
  match els d with
  | [] => 0 <? base_len d
  | Copy b e :: rest =>
      if b =? 0 then
        match rest with
        | [] => e <? base_len d
        | Copy b1 e1 :: rest' =>
            (match rest' with [] => true | _ => false end) && (e <? b1) && (e1 =? base_len d)
        | Insert _ :: _ => false
        end
      else (e =? base_len d) && (match rest with [] => true | _ => false end)
  | Insert _ :: _ => false
  end.

(** delta.rs 121-132, [is_identity]. *)
Definition is_identity d : bool :=
  match els d with
  | [Copy b e] => (b =? 0) && (e =? base_len d)
  | [] => base_len d =? 0
  | _ => false
  end.

(** delta.rs 136-146, [apply]. An interval that is not within [base] is a panic
    here; the tree code may also truncate it, and no theorem depends on that case. *)
Fixpoint apply_els l (base : list A) : option (list A) :=
  match l with
  | [] => Some []
  | Copy b e :: l' =>
      if (b <=? e) && (e <=? length base) then
        let? r := apply_els l' base in Some (slice base b e ++ r)
      else None
  | Insert n :: l' => let? r := apply_els l' base in Some (n ++ r)
  end.
Definition apply d (base : list A) : option (list A) := apply_els (els d) base.

(** delta.rs 161-187, [factor]: the loop, with [ins] accumulated in order. *)
Record fstate := FState { f_ins : list (element A); f_sb : builder; f_b1 : nat; f_e1 : nat }.
Fixpoint factor_loop l (st : fstate) : option fstate :=
  match l with
  | [] => Some st
  | Copy b e :: l' =>
      let? sb' := add_range (f_sb st) (f_e1 st) b 1 in
      factor_loop l' (FState (f_ins st) sb' (f_b1 st) e)
  | Insert n :: l' =>
      let ins1 := if f_b1 st <? f_e1 st
                  then f_ins st ++ [Copy (f_b1 st) (f_e1 st)] else f_ins st in
      factor_loop l' (FState (ins1 ++ [Insert n]) (f_sb st) (f_e1 st) (f_e1 st))
  end.
Definition factor d : option (delta A * subset) :=
  let? st := factor_loop (els d) (FState [] builder_new 0 0) in
  let ins := if f_b1 st <? base_len d
             then f_ins st ++ [Copy (f_b1 st) (base_len d)] else f_ins st in
  let? sb1 := add_range (f_sb st) (f_e1 st) (base_len d) 1 in
  let? sb2 := pad_to_len sb1 (base_len d) in
  Some (Delta ins (base_len d), build sb2).

(** delta.rs 219-278, [synthesize]: loop state. *)
Record sstate := SState {
  sy_x : nat; sy_old : list (nat * nat); (* [last_old] followed by [old_ranges] *)
  sy_m : mapper; sy_els : list (element A) }.

(** delta.rs 233-239, skip over the old ranges that end at or before [beg]. *)
Fixpoint synth_skip (old : list (nat * nat)) (x beg : nat) : list (nat * nat) * nat :=
  match old with
  | [] => ([], x)
  | (ib, ie) :: old' =>
      if beg <? ie then (old, x) else synth_skip old' (x + (ie - ib)) beg
  end.

(** delta.rs 247-261, push a [Copy], merging it with a contiguous last [Copy]. *)
Fixpoint push_copy l (b e : nat) : list (element A) :=
  match l with
  | [] => [Copy b e]
  | [Copy lb le] => if le =? b then [Copy lb e] else [Copy lb le; Copy b e]
  | x :: l' => x :: push_copy l' b e
  end.

(** delta.rs 231-275, [while beg < e]. *)
Fixpoint synth_fill (fuel : nat) (tomb : list A) (st : sstate) (beg e : nat) : option sstate :=
  match fuel with
  | 0 => None
  | S f =>
      if beg <? e then
        let '(old, x) := synth_skip (sy_old st) (sy_x st) beg in
        let as_insert (lim : nat) :=
          let? (p, m1) := doc_index_to_subset (sy_m st) beg in
          let? (q, m2) := doc_index_to_subset m1 lim in
          if (p <=? q) && (q <=? length tomb) then
            synth_fill f tomb (SState x old m2 (sy_els st ++ [Insert (slice tomb p q)])) lim e
          else None in
        match old with
        | (ib, ie) :: _ =>
            if ib <=? beg then
              let lim := Nat.min e ie in
              synth_fill f tomb
                (SState x old (sy_m st) (push_copy (sy_els st) (beg + x - ib) (lim + x - ib)))
                lim e
            else as_insert (Nat.min e ib)
        | [] => as_insert e
        end
      else Some st
  end.

(** delta.rs 228-276, [for (b, e) in to_dels.complement_iter()]. *)
Fixpoint synth_for (tomb : list A) (rs : list (nat * nat)) (st : sstate) : option sstate :=
  match rs with
  | [] => Some st
  | (b, e) :: rs' =>
      let? st' := synth_fill (S (e - b)) tomb st b e in
      synth_for tomb rs' st'
  end.

Definition synthesize (tomb : list A) (from_dels to_dels : subset) : option (delta A) :=
  let? st := synth_for tomb (ranges to_dels Zero)
               (SState 0 (ranges from_dels Zero) (mapper_of from_dels NonZero) []) in
  Some (Delta (sy_els st) (len_after_delete from_dels)).

(** delta.rs 314-321, [total_element_len]. *)
Fixpoint total_element_len l : nat :=
  match l with
  | [] => 0
  | Copy b e :: l' => (e - b) + total_element_len l'
  | Insert n :: l' => length n + total_element_len l'
  end.

(** delta.rs 289-304, [summary]: interval start, interval end, new length. *)
Definition summary d : (nat * nat) * nat :=
  let '(iv_start, l1) :=
    match els d with
    | Copy 0 e :: rest => (e, rest)
    | l => (0, l)
    end in
  let '(iv_end, l2) :=
    match rev l1 with
    | Copy b e :: init => if e =? base_len d then (b, rev init) else (base_len d, l1)
    | _ => (base_len d, l1)
    end in
  ((iv_start, iv_end), total_element_len l2).

(** delta.rs 310-312, [new_document_len]. *)
Definition new_document_len d : nat := total_element_len (els d).

(** delta.rs 324-331, [inserts_len]. *)
Fixpoint inserts_len_els l : nat :=
  match l with
  | [] => 0
  | Copy _ _ :: l' => inserts_len_els l'
  | Insert n :: l' => length n + inserts_len_els l'
  end.
Definition inserts_len d : nat := inserts_len_els (els d).

(** delta.rs 394-448, [InsertDelta::transform_expand]: loop state. [te_i] is
    [cur_els[i..]]; [te_r] is [last_xform] followed by [xform_ranges]. *)
Record testate := TEState {
  te_els : list (element A); te_x : nat; te_y : nat; te_i : list (element A);
  te_b1 : nat; te_r : list (nat * nat) }.

(** delta.rs 410-439, the inner [while i < cur_els.len()]: push inserts, then at most
    one step of a copy. *)
Fixpoint te_inner (next_iv_beg : nat) (out : list (element A)) (x y b1 : nat)
  (r : list (nat * nat)) (i : list (element A)) : testate :=
  match i with
  | [] => TEState out x y [] b1 r
  | Insert n :: i' =>
      let out1 := if b1 <? y then out ++ [Copy b1 y] else out in
      te_inner next_iv_beg (out1 ++ [Insert n]) x y y r i'
  | Copy b e :: i' =>
      if next_iv_beg <=? y then
        let next_y := match r with
                      | (_, xe) :: _ => Nat.min (e + y - x) xe
                      | [] => e + y - x
                      end in
        let x' := x + (next_y - y) in
        let i1 := if x' =? e then i' else i in
        let r1 := match r with
                  | (_, xe) :: r' => if next_y =? xe then r' else r
                  | [] => r
                  end in
        TEState out x' next_y i1 b1 r1
      else TEState out x y i b1 r
  end.

(** delta.rs 404-443, the outer [while y < l || i < cur_els.len()]. *)
Fixpoint te_outer (fuel : nat) (len : nat) (after : bool) (st : testate) : option testate :=
  match fuel with
  | 0 => None
  | S f =>
      if (te_y st <? len) || (match te_i st with [] => false | _ => true end) then
        let next_iv_beg := match te_r st with (xb, _) :: _ => xb | [] => len end in
        let y1 := if after && (te_y st <? next_iv_beg) then next_iv_beg else te_y st in
        let st1 := te_inner next_iv_beg (te_els st) (te_x st) y1 (te_b1 st) (te_r st) (te_i st) in
        let y2 := if negb after && (te_y st1 <? next_iv_beg) then next_iv_beg else te_y st1 in
        te_outer f len after
          (TEState (te_els st1) (te_x st1) y2 (te_i st1) (te_b1 st1) (te_r st1))
      else Some st
  end.

Definition delta_transform_expand d (xform : subset) (after : bool) : option (delta A) :=
  let len := count xform All in
  let? st := te_outer (S (len + length (els d))) len after
               (TEState [] 0 0 (els d) 0 (ranges xform Zero)) in
  Some (Delta (if te_b1 st <? te_y st then te_els st ++ [Copy (te_b1 st) (te_y st)] else te_els st)
              len).

(** delta.rs 455-469, [InsertDelta::transform_shrink]. *)
Fixpoint shrink_els (m : mapper) l : option (list (element A)) :=
  match l with
  | [] => Some []
  | Copy b e :: l' =>
      let? (b', m1) := doc_index_to_subset m b in
      let? (e', m2) := doc_index_to_subset m1 e in
      let? r := shrink_els m2 l' in
      Some (Copy b' e' :: r)
  | Insert n :: l' => let? r := shrink_els m l' in Some (Insert n :: r)
  end.
Definition delta_transform_shrink d (xform : subset) : option (delta A) :=
  let? l := shrink_els (mapper_of xform Zero) (els d) in
  Some (Delta l (len_after_delete xform)).

(** delta.rs 474-487, [inserted_subset]; an underflowing [e - b] is a panic. *)
Fixpoint inserted_loop l (sb : builder) : option builder :=
  match l with
  | [] => Some sb
  | Copy b e :: l' =>
      if e <? b then None else let? sb' := push_segment sb (e - b) 0 in inserted_loop l' sb'
  | Insert n :: l' => let? sb' := push_segment sb (length n) 1 in inserted_loop l' sb'
  end.
Definition inserted_subset d : option subset :=
  let? sb := inserted_loop (els d) builder_new in Some (build sb).

(** delta.rs 520-542, [Transformer::transform]. *)
Fixpoint transform_els l (ix : nat) (after : bool) (result : nat) : nat :=
  match l with
  | [] => result
  | Copy b e :: l' =>
      if ix <=? b then result
      else if (ix <? e) || ((ix =? e) && negb after) then result + ix - b
      else transform_els l' ix after (result + (e - b))
  | Insert n :: l' => transform_els l' ix after (result + length n)
  end.
Definition transform_ix d (ix : nat) (after : bool) : nat :=
  if (ix =? 0) && negb after then 0 else transform_els (els d) ix after 0.

(** delta.rs 545-572, [Transformer::interval_untouched]; interval.rs 78-91 for
    [is_before], [is_after]. *)
Fixpoint untouched_els l (is ie : nat) (last_was_ins : bool) : bool :=
  match l with
  | [] => false
  | Copy b e :: l' =>
      if ie <=? e then
        if last_was_ins then
          if b <? is then true else untouched_els l' is ie false
        else
          if negb (ie <=? b) then true else untouched_els l' is ie false
      else false
  | Insert _ :: l' => untouched_els l' is ie true
  end.
Definition interval_untouched d (is ie : nat) : bool := untouched_els (els d) is ie true.

(** delta.rs 579-582, [Builder]. *)
Record dbuilder := DBuilder { db_els : list (element A); db_base : nat; db_last : nat }.
(** delta.rs 586-588, [Builder::new]. *)
Definition dbuilder_new (n : nat) : dbuilder := DBuilder [] n 0.
(** delta.rs 591-599, [Builder::delete]. *)
Definition db_delete (b : dbuilder) (s e : nat) : option dbuilder :=
  if s <? db_last b then None
  else
    let l := if db_last b <? s then db_els b ++ [Copy (db_last b) s] else db_els b in
    Some (DBuilder l (db_base b) e).
(** delta.rs 603-608, [Builder::replace]. *)
Definition db_replace (b : dbuilder) (s e : nat) (r : list A) : option dbuilder :=
  let? b' := db_delete b s e in
  Some (match r with
        | [] => b'
        | _ => DBuilder (db_els b' ++ [Insert r]) (db_base b') (db_last b')
        end).
(** delta.rs 611-613, [Builder::is_empty]. *)
Definition db_is_empty (b : dbuilder) : bool :=
  (db_last b =? 0) && (match db_els b with [] => true | _ => false end).
(** delta.rs 616-621, [Builder::build]. *)
Definition db_build (b : dbuilder) : delta A :=
  Delta (if db_last b <? db_base b then db_els b ++ [Copy (db_last b) (db_base b)] else db_els b)
        (db_base b).

(** delta.rs 54-62, [Delta::simple_edit]. *)
Definition simple_edit (s e : nat) (r : list A) (n : nat) : option (delta A) :=
  let? b := (match r with
             | [] => db_delete (dbuilder_new n) s e
             | _ => db_replace (dbuilder_new n) s e r
             end) in
  Some (db_build b).

(** delta.rs 631-635, [DeltaRegion]: old offset, new offset, length. *)
Definition region := (nat * nat * nat)%type.

(** delta.rs 646-663, [InsertsIter]: all the items it yields, from [pos], [last_end]. *)
Fixpoint inserts_from l (pos last_end : nat) : list region :=
  match l with
  | [] => []
  | Copy b e :: l' => inserts_from l' (pos + (e - b)) e
  | Insert n :: l' =>
      (last_end, pos, length n) :: inserts_from l' (pos + length n) (last_end + length n)
  end.
Definition iter_inserts d : list region := inserts_from (els d) 0 0.

(** delta.rs 676-701, [DeletionsIter]: all the items it yields. When the elements are
    exhausted a last region up to [base_len] is reported. *)
Fixpoint deletions_from l (pos last_end n : nat) : list region :=
  match l with
  | [] => if last_end <? n then [(last_end, pos, n - last_end)] else []
  | Copy b e :: l' =>
      (if last_end <? b then [(last_end, pos, b - last_end)] else [])
        ++ deletions_from l' (pos + (e - b)) e n
  | Insert i :: l' => deletions_from l' (pos + length i) (last_end + length i) n
  end.
Definition iter_deletions d : list region := deletions_from (els d) 0 0 (base_len d).

End Delta.
