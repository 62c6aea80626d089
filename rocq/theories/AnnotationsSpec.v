(** Who has annotated what. *)
From Coq Require Import List Arith.
From Verif Require Import Base TreeModel SpansModel SpansSpec PropertiesSpans AnnotationsModel.
Import ListNotations.

Section Spec.
Context {T : Type}.
(** What plugin [p] keeps under the type [ty]. *)
Definition kept_by (st : store T) (p ty : nat) : option (node (sleaf T) unit) :=
  match st_get st p with Some es => option_map snd (find (fun x => fst x =? ty) es) | None => None end.
(** These are the annotations [l], over [n] units of text. *)
Definition marks (st : store T) (p ty : nat) (l : list (nat * nat * T)) (n : nat) : Prop := exists t, kept_by st p ty = Some t /\ holds t l n.
(** Each kept sequence was made with the operations of the library. *)
Definition sound (st : store T) : Prop := Forall (fun x => exists l n, holds (snd x) l n) (flat_map snd st).
End Spec.
