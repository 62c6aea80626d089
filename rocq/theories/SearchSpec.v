(** What it is to find all of a query in a text, independently of the search. *)
From Coq Require Import List Arith.
From Verif Require Import Base RopeSpec SelectionModel FindModel PropertiesFind PropertiesSelection.
Import ListNotations.
Local Notation region := SelectionModel.region.

(** The query is in the text from [i] to [e]: as it is, or, if case does not matter, the shortest
    piece from [i] on that is it in lowercase. *)
Definition is_match (lower : list nat -> list (list nat)) (slow : list nat -> list nat) (cm : case_matching) (q t : list nat) (i e : nat) : Prop :=
  match cm with
  | Exact => occurs t q i /\ e = i + length q
  | CaseInsensitive => occurs_lower lower t (slow q) i e /\ forall e', e' < e -> ~ occurs_lower lower t (slow q) i e'
  end.
(** A query that is text. If case does not matter, what is taken of Unicode's tables: see C24. *)
Definition searchable (lower : list nat -> list (list nat)) (slow : list nat -> list nat) (cm : case_matching) (q : list nat) : Prop :=
  utf8 q /\ q <> [] /\
  match cm with
  | Exact => True
  | CaseInsensitive => lower_table lower /\ utf8 (slow q) /\ slow q <> [] /\ first_kept q (slow q)
  end.
(** Two pieces have a character in common. *)
Definition overlap (a b c d : nat) : Prop := a < d /\ c < b.
(** A piece is one of those found. *)
Definition found (rs : list region) (i e : nat) : Prop := exists r, In r rs /\ lo r = i /\ hi r = e.
Definition places (rs : list region) : list (nat * nat) := map (fun r => (lo r, hi r)) rs.
(** The pieces one gets reading on from [p]: the first match, then the first one after it, and so on;
    those that are not [good] are passed over. *)
Inductive in_turn (m good : nat -> nat -> Prop) : nat -> list (nat * nat) -> Prop :=
| it_none p : (forall i e, p <= i -> ~ m i e) -> in_turn m good p []
| it_some p i e l : p <= i -> m i e -> (forall i' e', p <= i' < i -> ~ m i' e') -> good i e -> in_turn m good e l -> in_turn m good p ((i, e) :: l)
| it_skip p i e l : p <= i -> m i e -> (forall i' e', p <= i' < i -> ~ m i' e') -> ~ good i e -> in_turn m good e l -> in_turn m good p l.
(** All found is a match, no two overlap, and there is no room for another. *)
Definition all_found (m : nat -> nat -> Prop) (rs : list region) : Prop :=
  disjoint_in_order rs /\ (forall i e, found rs i e -> m i e) /\
  (forall i e, m i e -> exists a b, found rs a b /\ overlap a b i e).
(** What a search can rely on to have been found before: matches, in order. *)
Definition some_found (m : nat -> nat -> Prop) (rs : list region) : Prop :=
  disjoint_in_order rs /\ forall i e, found rs i e -> m i e.
