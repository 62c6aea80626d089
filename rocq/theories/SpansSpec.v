(** What spans mean: a list of intervals with values. *)
From Coq Require Import List Arith Bool.
Import ListNotations.

Section Spec.
Context {T : Type}.
(** The spans are not empty, go from left to right without overlap, and lie between [lo] and
    [n]. *)
Fixpoint ordered (lo : nat) (l : list (nat * nat * T)) (n : nat) : Prop :=
  match l with [] => lo <= n | (s, e, _) :: l' => lo <= s /\ s < e /\ ordered e l' n end.
(** The value over unit [i] of the text, if any. *)
Fixpoint value (l : list (nat * nat * T)) (i : nat) : option T :=
  match l with [] => None | (s, e, d) :: l' => if (s <=? i) && (i <? e) then Some d else value l' i end.
(** The values over all the [n] units of the text. *)
Definition values (l : list (nat * nat * T)) (n : nat) : list (option T) := map (value l) (seq 0 n).
End Spec.
