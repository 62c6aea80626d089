(** What a multi-subset of a sequence means, independently of run-length encoding:
    one count per element of the sequence. *)
From Coq Require Import List Arith Bool.
From Verif Require Import Base MultisetModel.
Import ListNotations.

(** The counts a run-length encoded subset stands for. *)
Fixpoint flat (s : subset) : list nat :=
  match s with
  | [] => []
  | g :: s' => repeat (seg_count g) (seg_len g) ++ flat s'
  end.

(** The documented representation invariant (multiset.rs 41-42): no empty segment,
    no two neighbours with the same count. *)
Fixpoint canonical (s : subset) : Prop :=
  match s with
  | [] => True
  | g :: s' =>
      0 < seg_len g /\
      match s' with [] => True | h :: _ => seg_count g <> seg_count h end /\
      canonical s'
  end.

(** Elements of [s] whose count is zero / non-zero, in order. *)
Fixpoint kept {A} (c : list nat) (s : list A) : list A :=
  match c, s with
  | k :: c', x :: s' => if k =? 0 then x :: kept c' s' else kept c' s'
  | _, _ => []
  end.
Fixpoint removed {A} (c : list nat) (s : list A) : list A :=
  match c, s with
  | k :: c', x :: s' => if k =? 0 then removed c' s' else x :: removed c' s'
  | _, _ => []
  end.

(** Pointwise combination of two count lists. *)
Definition zipw (f : nat -> nat -> nat) (a b : list nat) : list nat :=
  map (fun p => f (fst p) (snd p)) (combine a b).

(** [spread u s o]: put the counts of [s], in order, at the positions where [o] is
    zero; the other positions get [o]'s count if [u], else zero. *)
Fixpoint spread (u : bool) (s o : list nat) : list nat :=
  match o with
  | [] => []
  | 0 :: o' => match s with [] => [] | c :: s' => c :: spread u s' o' end
  | S k :: o' => (if u then S k else 0) :: spread u s o'
  end.

(** Number of zero entries. *)
Definition zeros (c : list nat) : nat := length (filter (fun k => k =? 0) c).

(** Does a count match? *)
Definition matchc (m : matcher) (k : nat) : bool :=
  match m with Zero => k =? 0 | NonZero => negb (k =? 0) | All => true end.

(** How many of the first [i] counts match. *)
Definition rank (m : matcher) (c : list nat) (i : nat) : nat :=
  length (filter (matchc m) (firstn i c)).
