(** The folders a document is in. *)
From Coq Require Import List.
From Verif Require Import WorkspaceModel.
Import ListNotations.

(** [p] is a folder that [doc] is in, right in it or deeper. *)
Definition above (p doc : path) : Prop := exists rest, rest <> [] /\ doc = p ++ rest.
Definition has (t : tree) (name : nat) (p : path) : Prop := exists l, t p = Some l /\ In (Some name) l.
Definition readable (t : tree) (p : path) : Prop := t p <> None.
(** [p] is the nearest folder [doc] is in with the property [Q]. *)
Definition nearest (Q : path -> Prop) (p doc : path) : Prop := above p doc /\ Q p /\ forall q, above q doc -> Q q -> length q <= length p.
