(** What a break sequence means: a list of booleans, one for each base unit; the [i]th says
    whether there is a break after unit [i], that is at offset [i + 1]. *)
From Coq Require Import List Arith Bool.
Import ListNotations.

(** The number of breaks of a sequence, and whether there is one at an offset. *)
Definition rank (s : list bool) : nat := count_occ bool_dec s true.
Definition at_break (s : list bool) (o : nat) : Prop := 0 < o /\ nth_error s (o - 1) = Some true.
(** What a call of the builder adds: [(true, k)] is [add_break(k)], [k] units and a break after
    them; [(false, k)] is [add_no_break(k)]. *)
Definition call_bits (c : bool * nat) : list bool :=
  let (f, k) := c in if f then repeat false (k - 1) ++ [true] else repeat false k.
