(** What it is to go to the next occurrence, independently of how it is looked for. *)
From Coq Require Import List Arith Bool.
From Verif Require Import Base RopeModel RopeSpec RopeProofs SelectionModel PropertiesSelection SearchModel ViewModel ViewSpec.
Import ListNotations.
Local Notation region := SelectionModel.region.
Local Notation lo := PropertiesSelection.lo.

(** Occurrences that are shown: in order, none empty, between characters. *)
Definition occurrences (s : list nat) (occ : list region) : Prop :=
  disjoint_in_order occ /\ forall o, In o occ -> proper s o /\ r_start o < r_end o.
(** The first, or last, of a list with a property. *)
Definition first_of {A} (P : A -> Prop) (l : list A) (x : A) : Prop := exists a b, l = a ++ x :: b /\ P x /\ forall y, In y a -> ~ P y.
Definition last_of {A} (P : A -> Prop) (l : list A) (x : A) : Prop := exists a b, l = a ++ x :: b /\ P x /\ forall y, In y b -> ~ P y.
(** The occurrence is ahead of the region [x]: it ends after it, or, if [x] is a caret, not before it. *)
Definition ahead (x o : region) : Prop := if is_caret x then hi x <= hi o else hi x < hi o.
(** It is behind it: it begins before it. *)
Definition behind (x o : region) : Prop := lo o < lo x.
(** It is apart from all that is selected. *)
Definition apart (sel : list region) (o : region) : Prop := forall x, In x sel -> hi x < lo o \/ hi o < lo x.

(** From the last region of a selection, [x], one goes on to the first occurrence ahead; if there is
    none, to the first one in the text that is not selected. And back likewise. *)
Definition next_from (sel : list region) (x : region) (reverse : bool) (occ : list region) (o : region) : Prop :=
  if reverse then last_of (behind x) occ o \/ (forall y, In y occ -> ~ behind x y) /\ last_of (apart sel) occ o
  else first_of (ahead x) occ o \/ (forall y, In y occ -> ~ ahead x y) /\ first_of (apart sel) occ o.
(** How far it is from [a] to [b], around the end of a text of [n] bytes. *)
Definition around_to (n a b : nat) : nat := if a <=? b then b - a else n - a + b.
Definition far (n : nat) (x : region) (reverse : bool) (o : region) : nat := if reverse then around_to n (hi o) (hi x) else around_to n (lo x) (lo o).
(** Of several queries, the nearest. *)
Definition nearest_from (n : nat) (sel : list region) (x : region) (reverse : bool) (occs : list (list region)) (o : region) : Prop :=
  (exists occ, In occ occs /\ next_from sel x reverse occ o) /\ forall occ o', In occ occs -> next_from sel x reverse occ o' -> far n x reverse o <= far n x reverse o'.
(** What is then selected. *)
Definition takes (m : selection_modifier) (rs : list region) (x o : region) (sel' : list region) : Prop :=
  match m with
  | ModSet => sel' = [o]
  | ModAdd => unites (rs ++ [x]) sel' o
  | ModAddRemovingCurrent => unites (if is_caret x then rs ++ [x] else rs) sel' o
  | ModNone => sel' = rs ++ [x]
  end.
Definition comes_in_view (e : env) (v : view) (m : selection_modifier) (v' : view) : Prop := match m with ModNone => v' = v | _ => in_view e v v' end.
