(** What an engine's history means: one count of deletions per character of the union
    string (the string of every character ever inserted). *)
From Coq Require Import List Arith Bool.
From Verif Require Import Base MultisetModel MultisetSpec DeltaModel DeltaSpec EngineModel.
Import ListNotations.

(** Deletion counts after a revision, given those before it and the set of undone
    groups: an undone edit's insertions are deleted and its deletions are ignored. *)
Definition step (undone : list nat) (c : list nat) (r : revision) : list nat :=
  match r_edit r with
  | Edit _ g ins del =>
      if mem g undone then spread true c (flat ins)
      else zipw Nat.add (spread false c (flat ins)) (flat del)
  | Undo _ _ => c
  end.
Definition replay (undone : list nat) (l : list revision) (c : list nat) : list nat :=
  fold_left (step undone) l c.

(** The revisions fit together: [n] is the length of the union string before them and
    [m] after them. *)
Fixpoint chain (n : nat) (l : list revision) (m : nat) : Prop :=
  match l with
  | [] => n = m
  | r :: l' =>
      match r_edit r with
      | Edit _ _ ins del =>
          canonical ins /\ canonical del /\ zeros (flat ins) = n /\
          length (flat del) = length (flat ins) /\ chain (length (flat ins)) l' m
      | Undo _ bx => canonical bx /\ length (flat bx) = n /\ chain n l' m
      end
  end.

(** Undo one revision: deletion counts and undone groups before it. *)
Definition unstep (inv : bool) (r : revision) (s : list nat * list nat) : list nat * list nat :=
  match r_edit r with
  | Edit _ g ins del =>
      (kept (flat ins) (if mem g (snd s) then fst s else zipw Nat.sub (fst s) (flat del)), snd s)
  | Undo toggled bx =>
      if inv then (zipw Nat.lxor (fst s) (flat bx), symdiff (snd s) toggled) else s
  end.
(** The revisions of [l], latest first. *)
Fixpoint unplay (inv : bool) (l : list revision) (s : list nat * list nat) : list nat * list nat :=
  match l with [] => s | r :: l' => unplay inv l' (unstep inv r s) end.

(** Carry a set of marked characters over later insertions; the inserted characters
    are marked if [b]. *)
Fixpoint carry (b : bool) (l : list revision) (c : list nat) : list nat :=
  match l with
  | [] => c
  | r :: l' =>
      carry b l' (match r_edit r with Edit _ _ ins _ => spread b c (flat ins) | Undo _ _ => c end)
  end.

(** What may be collected ("GC only works on undone edits or prefixes of the visible
    edits", editor.rs 106): a collected edit that is visible and inserted something
    comes after collected edits only.  The head revision is never collected. *)
Definition gc_safe (l : list revision) (undone gs : list nat) : Prop :=
  forall l1 id mx p g ins del l2, l = l1 ++ Rev id mx (Edit p g ins del) :: l2 -> l2 <> [] ->
    mem g gs = true -> mem g undone = false -> is_empty ins = false ->
    forall r, In r l1 -> match r_edit r with Edit _ h _ _ => mem h gs = true | Undo _ _ => True end.

(** ** Histories *)
Section Reach.
Context {A : Type} (tok : rev_id -> nat).
Implicit Types e : engine A.

(** One call that adds to the history. *)
Inductive move : engine A -> engine A -> Prop :=
| move_edit e p g t d e' res :
    wf_delta d -> try_edit_rev tok e p g t d = Some (e', res) -> move e e'
| move_undo e G e' : undo e G = Some e' -> move e e'.
Inductive moves : engine A -> engine A -> Prop :=
| moves_refl e : moves e e
| moves_step e1 e2 e3 : moves e1 e2 -> move e2 e3 -> moves e1 e3.

(** Engines reached by any sequence of calls. *)
Inductive reachable : engine A -> Prop :=
| reach_new s e : engine_new tok s = Some e -> reachable e
| reach_session e0 s e : empty_engine = Some e0 -> set_session_id e0 s = Some e -> reachable e
| reach_move e e' : reachable e -> move e e' -> reachable e'
| reach_gc e gs e' : reachable e -> gc_safe (revs e) (undone_groups e) gs -> gc e gs = Some e' ->
    reachable e'.

(** No two held revisions have the same token. *)
Definition distinct_tokens e : Prop :=
  forall a b, In a (revs e) -> In b (revs e) -> tok (r_id a) = tok (r_id b) -> r_id a = r_id b.

(** Some held edit belongs to group [g]. *)
Definition uses_group e (g : nat) : Prop :=
  exists r p ins del, In r (revs e) /\ r_edit r = Edit p g ins del.

(** Edits, all of them in groups of [G]. *)
Inductive edits_in (G : list nat) : engine A -> engine A -> Prop :=
| edits_refl e : edits_in G e e
| edits_step e1 e2 e3 p g t d res : edits_in G e1 e2 -> wf_delta d -> mem g G = true ->
    try_edit_rev tok e2 p g t d = Some (e3, res) -> edits_in G e1 e3.
End Reach.

(** ** Concurrent edits
    A character known to the engine: is it in the text of the base revision, and in
    the head text? *)
Record cell (A : Type) := Cell { ch : A; in_base : bool; in_head : bool }.
Arguments Cell {A}.
Arguments ch {A}.
Arguments in_base {A}.
Arguments in_head {A}.
(** After an edit: new characters, and old ones that the edit may delete. *)
Inductive ncell (A : Type) := New (x : A) | Old (c : cell A) (deleted : bool).
Arguments New {A}.
Arguments Old {A}.

Section Cells.
Context {A : Type}.
Implicit Types (al : list (cell A)) (nl : list (ncell A)).

Definition base_text al : list A := map ch (filter in_base al).
Definition head_text al : list A := map ch (filter in_head al).
(** The head text as positions of the base text and other characters. *)
Fixpoint head_from_base (k : nat) al : list (nat + A) :=
  match al with
  | [] => []
  | c :: al' =>
      (if in_head c then [if in_base c then inl k else inr (ch c)] else [])
        ++ head_from_base (if in_base c then S k else k) al'
  end.

(** The old characters, in order. *)
Fixpoint olds nl : list (cell A) :=
  match nl with [] => [] | New _ :: nl' => olds nl' | Old c _ :: nl' => c :: olds nl' end.
(** Only characters of the base text are deleted. *)
Definition deletes_base nl : Prop :=
  Forall (fun n => match n with Old c true => in_base c = true | _ => True end) nl.
(** What the edit did to the base text, as positions of it and new characters. *)
Fixpoint base_after (k : nat) nl : list (nat + A) :=
  match nl with
  | [] => []
  | New x :: nl' => inr x :: base_after k nl'
  | Old c del :: nl' =>
      if in_base c then (if del then [] else [inl k]) ++ base_after (S k) nl' else base_after k nl'
  end.
(** The new head text. *)
Fixpoint head_after nl : list A :=
  match nl with
  | [] => []
  | New x :: nl' => x :: head_after nl'
  | Old c del :: nl' => (if in_head c && negb del then [ch c] else []) ++ head_after nl'
  end.
End Cells.

(** ** Provenance
    The group that inserted a character ([None] for characters older than the held
    history) and the groups that deleted it. *)
Definition origin := (option nat * list nat)%type.
(** An edit of group [g]: [ins] marks the characters it inserted and [del] those it
    deleted, in the union string after it. *)
Fixpoint edit_origins (g : nat) (o : list origin) (ins del : list nat) : list origin :=
  match ins, del with
  | i :: ins', x :: del' =>
      let k := fun c : origin => if x =? 0 then c else (fst c, g :: snd c) in
      if i =? 0 then
        match o with [] => [] | c :: o' => k c :: edit_origins g o' ins' del' end
      else k (Some g, []) :: edit_origins g o ins' del'
  | _, _ => []
  end.
Fixpoint origins (l : list revision) (o : list origin) : list origin :=
  match l with
  | [] => o
  | r :: l' =>
      origins l' (match r_edit r with
                  | Edit _ g ins del => edit_origins g o (flat ins) (flat del)
                  | Undo _ _ => o
                  end)
  end.
(** A character is visible iff the group that inserted it is not undone and every
    group that deleted it is. *)
Definition visible (undone : list nat) (c : origin) : bool :=
  match fst c with None => true | Some g => negb (mem g undone) end &&
  forallb (fun g => mem g undone) (snd c).
(** The visible characters of a string. *)
Definition visible_text {A} (undone : list nat) (u : list A) (o : list origin) : list A :=
  map fst (filter (fun c => visible undone (snd c)) (combine u o)).

(** ** Calls made at the head, for comparing two engines *)
Inductive call (A : Type) := EditHead (priority undo_group : nat) (d : delta A) | UndoTo (groups : list nat).
Arguments EditHead {A}.
Arguments UndoTo {A}.
Definition run_call {A} (tok : rev_id -> nat) (e : engine A) (c : call A) : option (engine A) :=
  match c with
  | EditHead p g d =>
      let? id := get_head_rev_id e in
      let? r := try_edit_rev tok e p g (tok id) d in
      Some (fst r)
  | UndoTo G => undo e G
  end.
Fixpoint run_calls {A} (tok : rev_id -> nat) (e : engine A) (l : list (call A)) : option (engine A) :=
  match l with [] => Some e | c :: l' => let? e' := run_call tok e c in run_calls tok e' l' end.
(** Undos that leave the groups [gs] as they are in [undone]. *)
Definition leaves {A} (gs undone : list nat) (c : call A) : Prop :=
  match c with
  | EditHead _ _ d => wf_delta d
  | UndoTo G => forall g, In g gs -> (In g G <-> In g undone)
  end.

(** ** Documents
    Every character ever inserted, in order, with its origin: the abstract state that an
    engine implements. *)
Definition doc (A : Type) := list (A * origin).
(** What is shown when the groups [undone] are undone. *)
Definition shown {A} (undone : list nat) (s : doc A) : list A :=
  map fst (filter (fun c => visible undone (snd c)) s).
(** An edit of a document: fresh characters among the old ones.  For an old one: was it
    in the text that the edit was made against, and does the edit delete it? *)
Inductive dcell (A : Type) := Fresh (x : A) | Was (c : A * origin) (in_base deleted : bool).
Arguments Fresh {A}.
Arguments Was {A}.
Section Docs.
Context {A : Type}.
Implicit Types l : list (dcell A).
Fixpoint doc_before l : doc A :=
  match l with [] => [] | Fresh _ :: l' => doc_before l' | Was c _ _ :: l' => c :: doc_before l' end.
Fixpoint doc_after (g : nat) l : doc A :=
  match l with
  | [] => []
  | Fresh x :: l' => (x, (Some g, [])) :: doc_after g l'
  | Was (x, (i, ds)) _ del :: l' => (x, (i, if del then g :: ds else ds)) :: doc_after g l'
  end.
(** The text the edit was made against. *)
Fixpoint doc_base l : list A :=
  match l with
  | [] => []
  | Was c true _ :: l' => fst c :: doc_base l'
  | _ :: l' => doc_base l'
  end.
(** What the edit did to it, as positions of it and new characters. *)
Fixpoint doc_effect (k : nat) l : list (nat + A) :=
  match l with
  | [] => []
  | Fresh x :: l' => inr x :: doc_effect k l'
  | Was _ true del :: l' => (if del then [] else [inl k]) ++ doc_effect (S k) l'
  | Was _ false _ :: l' => doc_effect k l'
  end.
(** Only characters of that text are deleted. *)
Definition doc_deletes_base l : Prop :=
  Forall (fun c => match c with Was _ false del => del = false | _ => True end) l.
(** The characters of that text that are in [undone]'s view too are those shown. *)
Definition doc_at_head (undone : list nat) l : Prop :=
  Forall (fun c => match c with Was c b _ => b = visible undone (snd c) | Fresh _ => True end) l.
End Docs.
