(** Model of rust/core-lib/src/recorder.rs. A recording's name is a number; the map of recordings
    is an association list, newest first. Events other than insertions, undo and redo are numbers. *)
From Coq Require Import List Arith Bool.
From Verif Require Import Base.
Import ListNotations.

(** edit_types.rs, [EventDomain]: the events a recording can hold. [Typed] is
    [BufferEvent::Insert]; [Buf] is any other buffer event; [ViewEv] any view event. *)
Inductive revent := Typed (s : list nat) | Buf (k : nat) | UndoEv | RedoEv | ViewEv (k : nat).

(** recorder.rs 26-31, [Recorder]. *)
Record recorder := Recorder { active : option nat; buffer : list revent; recordings : list (nat * list revent) }.
(** recorder.rs 33-40, [new]. *)
Definition recorder_new : recorder := Recorder None [] [].
(** recorder.rs 42-44, [is_recording]. *)
Definition is_recording (r : recorder) : bool := match active r with Some _ => true | None => false end.

Fixpoint lookup (n : nat) (l : list (nat * list revent)) : option (list revent) :=
  match l with [] => None | (m, x) :: l' => if n =? m then Some x else lookup n l' end.

(** recorder.rs 145-172, the closure given to [filter]: whether the event is kept, and the flags
    [saw_undo] and [saw_redo] after it. *)
Definition keep_event (su sr : bool) (e : revent) : bool * bool * bool :=
  match e with
  | UndoEv => (false, negb sr, false)
  | RedoEv => (false, false, negb su)
  | ViewEv _ => (true, su, sr)
  | _ => (negb su, false, false)
  end.
(** [filter] over the events, last one first. *)
Fixpoint filter_back (su sr : bool) (l : list revent) : list revent :=
  match l with
  | [] => []
  | e :: l' => let '(k, su', sr') := keep_event su sr e in
      if k then e :: filter_back su' sr' l' else filter_back su' sr' l'
  end.
(** recorder.rs 134-182, [save_recording_buffer]. *)
Definition cleaned (l : list revent) : list revent := rev (filter_back false false (rev l)).
Definition save_recording_buffer (r : recorder) (name : nat) : recorder :=
  Recorder (active r) [] ((name, cleaned (buffer r)) :: recordings r).

(** recorder.rs 57-77, [toggle_recording]. *)
Definition toggle_recording (r : recorder) (name : option nat) : recorder :=
  match active r, name with
  | Some l, None => let r' := save_recording_buffer (Recorder None (buffer r) (recordings r)) l in Recorder name (buffer r') (recordings r')
  | Some l, Some n =>
      if l =? n then save_recording_buffer (Recorder None (buffer r) (recordings r)) l
      else Recorder name [] (recordings r)
  | None, _ => Recorder name (buffer r) (recordings r)
  end.

(** recorder.rs 83-107, [record]; asserts that it is recording. *)
Definition record (r : recorder) (e : revent) : option recorder :=
  check (is_recording r)
    (Some (Recorder (active r)
       (match rev (buffer r), e with
        | Typed old :: rest, Typed new => rev (Typed (old ++ new) :: rest)
        | _, _ => buffer r ++ [e]
        end) (recordings r))).

(** recorder.rs 111-128, [play]: the events the action is called with. *)
Definition play (r : recorder) (name : nat) : list revent :=
  if match active r with Some n => n =? name | None => false end then []
  else match lookup name (recordings r) with Some l => l | None => [] end.
(** recorder.rs 130-132, [clear]. *)
Definition clear (r : recorder) (name : nat) : recorder :=
  Recorder (active r) (buffer r) (filter (fun p => negb (fst p =? name)) (recordings r)).

(** Calls, in any order; a call of [record] when nothing is recorded is the caller's error
    (event_context.rs 117-126 only records when recording). *)
Inductive rcall := Toggle (name : option nat) | Rec (e : revent) | Clear (name : nat).
Definition run_rcall (r : recorder) (c : rcall) : option recorder :=
  match c with
  | Toggle n => Some (toggle_recording r n)
  | Rec e => if is_recording r then record r e else Some r
  | Clear n => Some (clear r n)
  end.
Fixpoint run_rcalls (r : recorder) (l : list rcall) : option recorder :=
  match l with [] => Some r | c :: l' => let? r' := run_rcall r c in run_rcalls r' l' end.
