(** Model of rust/core-lib/src/index_set.rs. A [Vec] is a list; loops over an index are
    recursions over the list from that index. *)
From Coq Require Import List Arith Bool.
From Verif Require Import Base DeltaModel.
Import ListNotations.

(** index_set.rs 28-42, [remove_n_at]: one element is removed with [Vec::remove] (a panic if out
    of range), more are shifted over. *)
Definition remove_n_at {T} (v : list T) (index n : nat) : option (list T) :=
  match n with
  | 0 => Some v
  | 1 => check (index <? length v) (Some (firstn index v ++ skipn (S index) v))
  | _ => check (n <=? length v) (Some (firstn (length v - n) (firstn index v ++ skipn (index + n) v)))
  end.

Notation range := (nat * nat)%type.
Notation ranges := (list (nat * nat)).

(** index_set.rs 67-70, the [while] loop: from the range whose end is [last], how many of the
    following ranges are reached by [end], and the end of the last of them. *)
Fixpoint union_absorb (e last : nat) (rest : ranges) : nat * nat :=
  match rest with
  | (s1, e1) :: rest' => if s1 <=? e then let (k, l) := union_absorb e e1 rest' in (S k, l) else (0, last)
  | [] => (0, last)
  end.
(** index_set.rs 55-78, [union_one_range]; [remove_n_at(i + 1, j - i)] drops the ranges
    absorbed, which come first in [rest]. *)
Fixpoint union_one_range (rs : ranges) (start e : nat) : ranges :=
  match rs with
  | [] => [(start, e)]
  | (istart, iend) :: rest =>
      if iend <? start then (istart, iend) :: union_one_range rest start e
      else if e <? istart then (start, e) :: (istart, iend) :: rest
      else
        let (k, jend) := union_absorb e iend rest in
        (Nat.min start istart, Nat.max e jend) :: skipn k rest
  end.

(** index_set.rs 82-85, [binary_search_by(|r| r.1.cmp(&start))] on ranges with strictly
    increasing ends: the index of the first range that does not end before [start]. *)
Fixpoint search_end (rs : ranges) (start : nat) : nat :=
  match rs with [] => 0 | (_, b) :: rs' => if b <? start then S (search_end rs' start) else 0 end.
(** index_set.rs 87-110, the loop from index [ix] on: the new ranges from there, where deletion
    is to start and how many are to be deleted. After an insertion the loop looks at the inserted
    range, which starts at [end], and stops. *)
Fixpoint delete_loop (rs : ranges) (ix start e : nat) (del_from : option nat) (del_len : nat) : ranges * option nat * nat :=
  match rs with
  | [] => ([], del_from, del_len)
  | (a, b) :: rest =>
      if e <=? a then (rs, del_from, del_len)
      else if a <? start then
        if e <? b then
          ((a, start) :: (e, b) :: rest, del_from, del_len)
        else let '(r, f, n) := delete_loop rest (S ix) start e del_from del_len in ((a, start) :: r, f, n)
      else if e <? b then
        let '(r, f, n) := delete_loop rest (S ix) start e del_from del_len in ((e, b) :: r, f, n)
      else
        let '(r, f, n) := delete_loop rest (S ix) start e (match del_from with None => Some ix | x => x end) (S del_len) in
        ((a, b) :: r, f, n)
  end.
(** index_set.rs 81-115, [delete_range]. *)
Definition delete_range (rs : ranges) (start e : nat) : option ranges :=
  let ix := search_end rs start in
  let '(tail, f, n) := delete_loop (skipn ix rs) ix start e None 0 in
  let rs' := firstn ix rs ++ tail in
  match f with Some from => remove_n_at rs' from n | None => Some rs' end.

(** index_set.rs 154-158, [MinusIter]. *)
Record minus_iter := MinusIter { mi_ranges : ranges; mi_start : nat; mi_end : nat }.
(** index_set.rs 118-124, [minus_one_range]. *)
Fixpoint drop_before (rs : ranges) (start : nat) : ranges :=
  match rs with (a, b) :: rs' => if b <=? start then drop_before rs' start else rs | [] => [] end.
Definition minus_one_range (rs : ranges) (start e : nat) : minus_iter := MinusIter (drop_before rs start) start e.
(** index_set.rs 163-178, [next]. *)
Fixpoint minus_next (rs : ranges) (start e : nat) : option range * minus_iter :=
  if e <=? start then (None, MinusIter rs start e)
  else
    match rs with
    | [] => (Some (start, e), MinusIter [] e e)
    | (a, b) :: rest =>
        if e <=? a then (Some (start, e), MinusIter rs e e)
        else if start <? a then (Some (start, a), MinusIter rest b e)
        else minus_next rest b e
    end.
Definition mi_next (m : minus_iter) := minus_next (mi_ranges m) (mi_start m) (mi_end m).
(** index_set.rs 182-198, [next_back]; [rs] is the ranges in reverse. *)
Fixpoint minus_next_back (rs : ranges) (start e : nat) : option range * minus_iter :=
  if e <=? start then (None, MinusIter (rev rs) start e)
  else
    match rs with
    | [] => (Some (start, e), MinusIter [] e e)
    | (a, b) :: rest =>
        if b <=? start then (Some (start, e), MinusIter (rev rs) e e)
        else if b <? e then (Some (b, e), MinusIter (rev rest) start a)
        else minus_next_back rest start a
    end.
Definition mi_next_back (m : minus_iter) := minus_next_back (rev (mi_ranges m)) (mi_start m) (mi_end m).
(** Iterating to the end: each turn but the last yields a range. *)
Fixpoint minus_all (next : minus_iter -> option range * minus_iter) (fuel : nat) (m : minus_iter) : option ranges :=
  match fuel with
  | 0 => None
  | S f =>
      match next m with
      | (None, _) => Some []
      | (Some r, m') => let? rs := minus_all next f m' in Some (r :: rs)
      end
  end.

(** index_set.rs 128-147, [apply_delta]; [acc] is the new ranges in reverse. *)
Fixpoint iset_apply {A} (d : delta A) (rs acc : ranges) : ranges :=
  match rs with
  | [] => rev acc
  | (s, e) :: rest =>
      let s' := transform_ix d s false in
      let e' := transform_ix d e false in
      if s' =? e' then iset_apply d rest acc
      else
        match acc with
        | (s0, e0) :: acc' => if e0 =? s' then iset_apply d rest ((s0, e') :: acc') else iset_apply d rest ((s', e') :: acc)
        | [] => iset_apply d rest [(s', e')]
        end
  end.
Definition iset_apply_delta {A} (rs : ranges) (d : delta A) : ranges := iset_apply d rs [].
