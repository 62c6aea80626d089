(** Shared vocabulary of the model.

    A Rust computation that can panic is an [option]: [None] is the panic (or, in
    a fuelled loop, running out of fuel; every theorem that concludes [Some] rules
    both out). *)
From Coq Require Import List Arith Lia Bool.
Import ListNotations.

Definition bind {A B} (x : option A) (k : A -> option B) : option B :=
  match x with Some a => k a | None => None end.

Notation "'let?' x := e 'in' k" := (bind e (fun x => k))
  (at level 200, x pattern, e at level 100, k at level 200, only parsing).

(** Rust's [assert!]. *)
Definition check {A} (b : bool) (k : option A) : option A := if b then k else None.

(** [s[b..e]] on an in-range interval. *)
Definition slice {A} (l : list A) (b e : nat) : list A := firstn (e - b) (skipn b l).
