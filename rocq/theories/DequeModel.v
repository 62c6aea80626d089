(** Model of rust/trace/src/fixed_lifo_deque.rs. The underlying [VecDeque] is a list, front
    first; its capacity is not modelled. *)
From Coq Require Import List Arith Bool.
From Verif Require Import Base.
Import ListNotations.

Section Deque.
Context {T : Type}.
(** fixed_lifo_deque.rs 34-37. *)
Record deque := Deque { d_storage : list T; d_limit : nat }.
(** fixed_lifo_deque.rs 44-53, [new] and [with_limit]. *)
Definition d_with_limit (n : nat) : deque := Deque [] n.
(** fixed_lifo_deque.rs 171-177, [drop_excess_for_inserting]. *)
Definition drop_excess (d : deque) (n : nat) : deque :=
  let len := length (d_storage d) in
  if d_limit d <? len + n then Deque (skipn (Nat.min len (len + n - d_limit d)) (d_storage d)) (d_limit d) else d.
(** fixed_lifo_deque.rs 59-68, [reset_limit], with its [debug_assert!]. *)
Definition reset_limit (d : deque) (n : nat) : option deque :=
  let d1 := if n <? d_limit d then drop_excess d (d_limit d - n) else d in
  let d2 := Deque (d_storage d1) n in
  check (length (d_storage d2) <=? d_limit d2) (Some d2).
(** fixed_lifo_deque.rs 189-194, [push_back]. *)
Definition push_back (d : deque) (x : T) : deque :=
  let d1 := drop_excess d 1 in
  drop_excess (Deque (d_storage d1 ++ [x]) (d_limit d1)) 0.
(** fixed_lifo_deque.rs 223-228, [append]. *)
Definition append (d : deque) (xs : list T) : deque :=
  let d1 := drop_excess d (length xs) in
  drop_excess (Deque (d_storage d1 ++ xs) (d_limit d1)) 0.
(** fixed_lifo_deque.rs 180-182, 197-200, [pop_front] and [pop_back]. *)
Definition pop_front (d : deque) : deque := Deque (tl (d_storage d)) (d_limit d).
Definition pop_back (d : deque) : deque := Deque (removelast (d_storage d)) (d_limit d).
(** fixed_lifo_deque.rs 143-145, 231-236, [clear] and [retain]. *)
Definition d_clear (d : deque) : deque := Deque [] (d_limit d).
Definition d_retain (d : deque) (f : T -> bool) : deque := Deque (filter f (d_storage d)) (d_limit d).
(** fixed_lifo_deque.rs 218-220, [split_off]: what is kept and what is returned. *)
Definition d_split_off (d : deque) (k : nat) : option (deque * deque) :=
  check (k <=? length (d_storage d))
    (Some (Deque (firstn k (d_storage d)) (d_limit d), Deque (skipn k (d_storage d)) (d_limit d))).
(** fixed_lifo_deque.rs 243-250, [resize]. *)
Definition d_resize (d : deque) (new_len : nat) (x : T) : deque :=
  let len := length (d_storage d) in
  if new_len <? len then Deque (skipn (len - new_len) (d_storage d)) (d_limit d)
  else let k := Nat.min (d_limit d) new_len in
       Deque (firstn k (d_storage d) ++ repeat x (k - len)) (d_limit d).
End Deque.
Arguments deque : clear implicits.
