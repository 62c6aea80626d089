(** Model of rust/core-lib/src/annotations.rs, and of what editor.rs and view.rs do with it. *)
From Coq Require Import List Arith Bool.
From Verif Require Import Base TreeModel DeltaModel SpansModel.
Import ListNotations.

Section Annotations.
Context {T : Type}.
Notation items := (node (sleaf T) unit).

(** annotations.rs 144-146, [AnnotationStore], and 89-92, [Annotations]: by plugin, and then by type. A type is a
    number: types are only compared. The hash map is a list. *)
Definition store : Type := list (nat * list (nat * items)).
Fixpoint st_get (st : store) (p : nat) : option (list (nat * items)) :=
  match st with [] => None | (q, es) :: st' => if q =? p then Some es else st_get st' p end.
Fixpoint st_put (st : store) (p : nat) (es : list (nat * items)) : store :=
  match st with [] => [(p, es)] | (q, x) :: st' => if q =? p then (q, es) :: st' else (q, x) :: st_put st' p es end.

(** annotations.rs 169-176: the entry of the type is edited (96-98, [Annotations::update]), or one is added at the end. *)
Fixpoint update_entry (es : list (nat * items)) (s e ty : nat) (new : items) : option (list (nat * items)) :=
  match es with
  | [] => Some [(ty, new)]
  | (u, t) :: es' =>
      if u =? ty then let? t' := edit sp_ops t s e new in Some ((u, t') :: es')
      else let? r := update_entry es' s e ty new in Some ((u, t) :: r)
  end.
(** annotations.rs 163-177, [AnnotationStore::update]. *)
Definition update (st : store) (p s e ty : nat) (new : items) : option store :=
  match st_get st p with
  | None => Some (st_put st p [(ty, new)])
  | Some es => let? es' := update_entry es s e ty new in Some (st_put st p es')
  end.
(** annotations.rs 101-103 and 154-160, [invalidate]. *)
Fixpoint invalidate_entries (es : list (nat * items)) (s e : nat) : option (list (nat * items)) :=
  match es with
  | [] => Some []
  | (u, t) :: es' => let? t' := delete_after t s e in let? r := invalidate_entries es' s e in Some ((u, t') :: r)
  end.
Fixpoint invalidate (st : store) (s e : nat) : option store :=
  match st with
  | [] => Some []
  | (p, es) :: st' => let? es' := invalidate_entries es s e in let? r := invalidate st' s e in Some ((p, es') :: r)
  end.
(** annotations.rs 219-221, [clear]. Nothing calls it. *)
Definition clear (st : store) (p : nat) : store := filter (fun x => negb (fst x =? p)) st.

(** annotations.rs 108-114, [AnnotationSlice]. *)
Record slice := Slice { a_type : nat; a_ranges : list ((nat * nat) * (nat * nat)); a_payloads : list T }.
(** annotations.rs 181-216, [iter_range]. [place] is [View::offset_to_line_col]. *)
Definition touches (s e : nat) (x : nat * nat * T) : bool := let '(a, b, _) := x in (a <=? e) && (s <=? b).
Definition slice_of (place : nat -> nat * nat) (s e : nat) (x : nat * items) : option slice :=
  let? l := iter (snd x) in
  let shown := filter (touches s e) l in
  Some (Slice (fst x) (map (fun '(a, b, _) => (place a, place b)) shown) (map snd shown)).
Fixpoint map_all {A B} (f : A -> option B) (l : list A) : option (list B) :=
  match l with [] => Some [] | x :: l' => let? y := f x in let? r := map_all f l' in Some (y :: r) end.
Definition iter_range (place : nat -> nat * nat) (st : store) (s e : nat) : option (list slice) :=
  map_all (slice_of place s e) (flat_map snd st).

(** editor.rs 632-666, [update_annotations]. [since] is the delta from the revision the plugin has seen to the head,
    if they differ and it is known. *)
Definition update_annotations {A} (st : store) (p start len : nat) (l : list (nat * nat * T)) (ty : nat) (since : option (delta A)) : option store :=
  let? sb := add_spans (sb_new len) l in
  let? sp := sb_build sb in
  match since with
  | None => update st p start (start + len) ty sp
  | Some d =>
      let? sp1 := (if interval_untouched d start (start + len) then Some sp else transform sp start (start + len) d) in
      update st p (transform_ix d start false) (transform_ix d (start + len) true) ty sp1
  end.
(** view.rs 999-1001, in [after_edit]. *)
Definition after_edit {A} (st : store) (d : delta A) : option store := let '((s, e), _) := summary d in invalidate st s e.
End Annotations.
Arguments store : clear implicits.
Arguments slice : clear implicits.
