(** What deltas mean, character by character. *)
From Coq Require Import List Arith Bool.
From Verif Require Import Base MultisetModel MultisetSpec DeltaModel.
Import ListNotations.

Section Spec.
Context {A : Type}.
Implicit Types (l : list (element A)) (w : list (option A)).

(** Copies go left to right through a base of length [n] without overlap. *)
Fixpoint sorted_copies (pos : nat) l (n : nat) : Prop :=
  match l with
  | [] => pos <= n
  | Copy b e :: l' => pos <= b /\ b <= e /\ sorted_copies e l' n
  | Insert _ :: l' => sorted_copies pos l' n
  end.

Definition no_empty_insert l : Prop :=
  Forall (fun x => match x with Insert n => n <> [] | Copy _ _ => True end) l.
Definition no_empty_copy l : Prop :=
  Forall (fun x => match x with Copy b e => b < e | Insert _ => True end) l.

Definition wf_delta (d : delta A) : Prop :=
  sorted_copies 0 (els d) (base_len d) /\ no_empty_insert (els d).

(** Copies cover the base completely and contiguously: nothing is deleted. *)
Fixpoint contiguous (pos : nat) l (n : nat) : Prop :=
  match l with
  | [] => pos = n
  | Copy b e :: l' => b = pos /\ b <= e /\ contiguous e l' n
  | Insert _ :: l' => contiguous pos l' n
  end.

Definition wf_insert_delta (d : delta A) : Prop :=
  contiguous 0 (els d) (base_len d) /\ no_empty_insert (els d) /\ no_empty_copy (els d).

(** An insertion script over a sequence: [None] keeps the next element of the
    sequence, [Some c] inserts [c]. *)
Fixpoint script l : list (option A) :=
  match l with
  | [] => []
  | Copy b e :: l' => repeat None (e - b) ++ script l'
  | Insert n :: l' => map Some n ++ script l'
  end.

(** Run an insertion script. *)
Fixpoint fill w (s : list A) : list A :=
  match w with
  | [] => []
  | Some c :: w' => c :: fill w' s
  | None :: w' => match s with [] => [] | x :: s' => x :: fill w' s' end
  end.

(** Which elements of the result were inserted. *)
Definition marks w : list nat := map (fun o => match o with Some _ => 1 | None => 0 end) w.

(** How many elements the script keeps. *)
Definition keeps w : nat := length (filter (fun o => match o with None => true | _ => false end) w).

(** Leading insertions of a script, and the rest. *)
Fixpoint span w : list (option A) * list (option A) :=
  match w with
  | Some c :: w' => let (p, r) := span w' in (Some c :: p, r)
  | _ => ([], w)
  end.

(** Rebase an insertion script over the addition of the elements whose count in [c]
    is non-zero (the script runs over the elements with count zero).  Where an
    insertion of the script meets a run of added elements, it goes after the run
    if [after], else before it. *)
Fixpoint rebase_script (after : bool) w (c : list nat) : list (option A) :=
  match c with
  | [] => w
  | 0 :: c' => let (p, r) := span w in p ++ None :: rebase_script after (tl r) c'
  | S _ :: c' =>
      if after then None :: rebase_script after w c'
      else let (p, r) := span w in p ++ None :: rebase_script after r c'
  end.

(** Remove from a script the kept elements whose count in [c] is non-zero. *)
Fixpoint shrink_script w (c : list nat) : list (option A) :=
  match w with
  | [] => []
  | Some x :: w' => Some x :: shrink_script w' c
  | None :: w' =>
      match c with
      | [] => []
      | k :: c' => if k =? 0 then None :: shrink_script w' c' else shrink_script w' c'
      end
  end.

(** The insertion script and the deleted elements of a delta. *)
Fixpoint ins_script (pos : nat) l (n : nat) : list (option A) :=
  match l with
  | [] => repeat None (n - pos)
  | Copy b e :: l' => repeat None (e - pos) ++ ins_script e l' n
  | Insert s :: l' => map Some s ++ ins_script pos l' n
  end.
Fixpoint del_counts (pos : nat) l (n : nat) : list nat :=
  match l with
  | [] => repeat 1 (n - pos)
  | Copy b e :: l' => repeat 1 (b - pos) ++ repeat 0 (e - b) ++ del_counts e l' n
  | Insert s :: l' => del_counts pos l' n
  end.

(** The new text of a delta as a list of base positions and new characters. *)
Fixpoint denote l : list (nat + A) :=
  match l with
  | [] => []
  | Copy b e :: l' => map inl (seq b (e - b)) ++ denote l'
  | Insert n :: l' => map inr n ++ denote l'
  end.

(** The same for the delta between two deletion sets of one union string: the
    characters visible after, each one either visible before (at position [k] of
    the old text) or taken from the tombstones. *)
Fixpoint between (k : nat) (from to : list nat) (u : list A) : list (nat + A) :=
  match from, to, u with
  | f :: from', t :: to', x :: u' =>
      (if t =? 0 then [if f =? 0 then inl k else inr x] else [])
        ++ between (if f =? 0 then S k else k) from' to' u'
  | _, _, _ => []
  end.

End Spec.

(** Replace the sorted disjoint intervals [(s, e)] of [base] from [pos] on. *)
Fixpoint edited {A} (pos : nat) (eds : list (nat * nat * list A)) (base : list A) : list A :=
  match eds with
  | [] => skipn pos base
  | (s, e, r) :: eds' => slice base pos s ++ r ++ edited e eds' base
  end.
Fixpoint sorted_edits {A} (pos : nat) (eds : list (nat * nat * list A)) (n : nat) : Prop :=
  match eds with
  | [] => pos <= n
  | (s, e, _) :: eds' => pos <= s /\ s <= e /\ sorted_edits e eds' n
  end.

(** How many elements of a new text come before the first one that was at position
    [ix] or later of the old text. *)
Fixpoint before_old {A} (ix : nat) (t : list (nat + A)) : nat :=
  match t with
  | [] => 0
  | inl k :: t' => if ix <=? k then 0 else S (before_old ix t')
  | inr _ :: t' => S (before_old ix t')
  end.

(** A reported region [(old, new, len)]. *)
Definition r_old (r : nat * nat * nat) : nat := fst (fst r).
Definition r_new (r : nat * nat * nat) : nat := snd (fst r).
Definition r_len (r : nat * nat * nat) : nat := snd r.

(** The base position reached after some elements. *)
Fixpoint passed {A} (pos : nat) (l : list (element A)) : nat :=
  match l with
  | [] => pos
  | Copy _ e :: l' => passed e l'
  | Insert _ :: l' => passed pos l'
  end.

(** Kinds of the elements of the result of script [w] over a string with counts [c]:
    0 an old element with count zero, 1 an old element with non-zero count, 2 an insertion. *)
Fixpoint kinds {A} (w : list (option A)) (c : list nat) : list nat :=
  match w with
  | [] => []
  | Some _ :: w' => 2 :: kinds w' c
  | None :: w' => match c with [] => [] | k :: c' => (if k =? 0 then 0 else 1) :: kinds w' c' end
  end.

(** [a] is never directly followed by [b]. *)
Fixpoint never_followed (a b : nat) (l : list nat) : Prop :=
  match l with
  | [] => True
  | x :: l' => match l' with [] => True | y :: _ => ~ (x = a /\ y = b) end /\ never_followed a b l'
  end.
