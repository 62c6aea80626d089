(** What undo and redo mean to a user: a list of versions of the text and a place in it. *)
From Coq Require Import List Arith Bool.
From Verif Require Import Base DeltaModel DeltaSpec EditorModel.
Import ListNotations.

Section Spec.
Context {A : Type}.
(** The versions that undo and redo move among, oldest first; the one on screen; the kind of
    the last edit, which an edit of the same kind continues; how many plugins have still to
    answer. *)
Record timeline := Timeline { versions : list (list A); here : nat; kind : edit_type; pending : nat }.
Definition on_screen (s : timeline) : list A := nth (here s) (versions s) [].

(** At most twenty versions are kept. *)
Definition keep_twenty (l : list (list A)) : list (list A) := skipn (length l - 20) l.
(** A new version of the text forgets what was undone. *)
Definition push (s : timeline) (t : list A) : timeline :=
  let vs := keep_twenty (firstn (S (here s)) (versions s) ++ [t]) in
  Timeline vs (length vs - 1) (kind s) (pending s).
(** More of the same edit: it changes the newest version. *)
Definition amend (s : timeline) (t : list A) : timeline :=
  Timeline (removelast (versions s) ++ [t]) (here s) (kind s) (pending s).
Definition set_kind (s : timeline) k : timeline := Timeline (versions s) (here s) k (pending s).
Definition tell (s : timeline) n : timeline := Timeline (versions s) (here s) (kind s) (pending s + n).

(** Edits of one of these kinds in a row are undone together. *)
Definition groups_with (b k : edit_type) : bool :=
  match b, k with
  | InsertChars, InsertChars | InsertNewline, InsertNewline | Indent, Indent
  | Delete, Delete | Surround, Surround => true
  | _, _ => false
  end.
(** The text after an edit, if it is an edit of this text. *)
Definition edited (d : delta A) (t : list A) : option (list A) :=
  check (base_len d =? length t) (apply d t).

(** Playing a recording: all its edits are one version. *)
Fixpoint amend_all (s : timeline) (evs : list (event (A:=A))) : option timeline :=
  match evs with
  | [] => Some s
  | EEdit _ _ d :: evs' => let? t := edited d (on_screen s) in amend_all (amend s t) evs'
  | EMove :: evs' => amend_all s evs'
  | _ :: _ => None
  end.
Definition has_edit (evs : list (event (A:=A))) : bool := existsb (fun ev => match ev with EEdit _ _ _ => true | _ => false end) evs.

(** [None]: the input does not make sense here. *)
Definition live (s : timeline) (i : input (A:=A)) : option timeline :=
  match i with
  | IEvent (EEdit b a d) n =>
      let? t := edited d (on_screen s) in
      Some (tell (set_kind (if groups_with b (kind s) then amend s t else push s t) a) n)
  | IEvent EMove _ => Some (set_kind s Other)
  | IEvent EUndo n =>
      Some (if 0 <? here s then Timeline (versions s) (here s - 1) TUndo (pending s + n) else s)
  | IEvent ERedo n =>
      Some (if S (here s) <? length (versions s) then Timeline (versions s) (S (here s)) TRedo (pending s + n) else s)
  | IPlay evs n =>
      check (has_edit evs)
        (let? s1 := amend_all (push s (on_screen s)) evs in Some (tell (set_kind s1 Other) n))
  | IAck => match pending s with 0 => None | S p => Some (Timeline (versions s) (here s) (kind s) p) end
  end.
Fixpoint live_all (s : timeline) (l : list input) : option timeline :=
  match l with [] => Some s | i :: l' => let? s1 := live s i in live_all s1 l' end.
Definition opened (t : list A) : timeline := Timeline [t] 0 Other 0.

(** An editing command's deltas are deltas and its kinds are not those of undo and redo. *)
Definition proper_event (ev : event (A:=A)) : Prop :=
  match ev with
  | EEdit b a d => wf_delta d /\ b <> TUndo /\ b <> TRedo
  | _ => True
  end.
Definition proper (i : input (A:=A)) : Prop :=
  match i with IEvent ev _ => proper_event ev | IPlay evs _ => Forall proper_event evs | IAck => True end.
End Spec.
Arguments timeline : clear implicits.
