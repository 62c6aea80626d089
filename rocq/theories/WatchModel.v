(** Model of rust/core-lib/src/watcher.rs: who is told of changes in the file system. *)
From Coq Require Import List Arith Bool.
Import ListNotations.

(** A path, by its components; [Path::starts_with] and [Path::parent] go by components. *)
Definition path : Type := list nat.
(** The kinds of events that are told apart, watcher.rs 226-256. *)
Inductive kind := CreateAny | RemoveAny | ModifyAny | MetadataAny | RenameBoth | OtherKind.
(** [notify::Event]: its kind and its paths. *)
Record event := Event { e_kind : kind; e_paths : list path }.
(** watcher.rs 68-73, [Watchee]. *)
Record watchee := Watchee { w_path : path; w_recursive : bool; w_token : nat; w_filter : option (path -> bool) }.

(** [Path::eq]. *)
Fixpoint path_eqb (a b : path) : bool :=
  match a, b with [], [] => true | x :: a', y :: b' => (x =? y) && path_eqb a' b' | _, _ => false end.
(** [a.starts_with(b)]. *)
Fixpoint starts_with (a b : path) : bool :=
  match b, a with [], _ => true | y :: b', x :: a' => (x =? y) && starts_with a' b' | _ :: _, [] => false end.
(** [Path::parent]. *)
Definition parent (p : path) : option path := match p with [] => None | _ => Some (removelast p) end.

(** watcher.rs 259-271, [applies_to_path]. *)
Definition applies_to_path (w : watchee) (p : path) : bool :=
  let general_case :=
    if starts_with p (w_path w) then
      (w_recursive w || path_eqb (w_path w) p) || match parent p with Some q => path_eqb q (w_path w) | None => false end
    else false in
  match w_filter w with Some f => general_case && f p | None => general_case end.
(** watcher.rs 225-257, [wants_event]. *)
Definition wants_event (w : watchee) (e : event) : bool :=
  match e_kind e with
  | CreateAny | RemoveAny | ModifyAny | MetadataAny =>
      match e_paths e with [p] => applies_to_path w p | _ => false end
  | RenameBoth => match e_paths e with [p; q] => applies_to_path w p || applies_to_path w q | _ => false end
  | OtherKind => false
  end.

(** What the notify crate watches: paths, each with its mode. Its calls are taken to succeed. Watching a path
    again sets its mode. Not watching a path any more can, if its mode was recursive, stop the watching of
    all paths below it, whoever asked for it; here it does (see the comment at watcher.rs 186-197). *)
Definition backend : Type := list (path * bool).
Definition b_watch (p : path) (m : bool) (b : backend) : backend := (p, m) :: filter (fun x => negb (path_eqb (fst x) p)) b.
Definition b_unwatch (p : path) (b : backend) : backend :=
  let deep := existsb (fun x => path_eqb (fst x) p && snd x) b in
  filter (fun x => negb (path_eqb (fst x) p) && negb (deep && starts_with (fst x) p)) b.

(** watcher.rs 54-64, [FileWatcher] and [WatcherState]; [s_alive] is whether the thread still reads
    events, [s_notified] how often it called [Notify::notify]. *)
Record state := State { s_events : list (nat * event); s_watchees : list watchee; s_inner : backend; s_alive : bool; s_notified : nat }.
Definition fresh : state := State [] [] [] true 0.

(** watcher.rs 103-116, one turn of the thread, which holds the lock: an event, or an error, which ends the loop. *)
Definition receive (e : option event) (s : state) : state :=
  if s_alive s then
    match e with
    | Some e =>
        State (s_events s ++ map (fun w => (w_token w, e)) (filter (fun w => wants_event w e) (s_watchees s)))
          (s_watchees s) (s_inner s) true (s_notified s + 1)
    | None => State (s_events s) (s_watchees s) (s_inner s) false (s_notified s)
    end
  else s.
(** watcher.rs 142-169, 293-299, [watch_impl]; [canon] is what [canonicalize] gives for the path. *)
Definition watch_impl (canon : option path) (recursive : bool) (token : nat) (flt : option (path -> bool)) (s : state) : state :=
  match canon with
  | None => s
  | Some p =>
      let w := Watchee p recursive token flt in
      State (s_events s) (s_watchees s ++ [w])
        (if existsb (fun w2 => path_eqb p (w_path w2)) (s_watchees s) then s_inner s else b_watch p recursive (s_inner s))
        (s_alive s) (s_notified s)
  end.
(** watcher.rs 177-180: the first that fits is taken out. *)
Fixpoint take_out (f : watchee -> bool) (l : list watchee) : option (watchee * list watchee) :=
  match l with
  | [] => None
  | w :: l' => if f w then Some (w, l') else match take_out f l' with Some (r, l'') => Some (r, w :: l'') | None => None end
  end.
(** watcher.rs 174-214, [unwatch]. *)
Definition unwatch (p : path) (token : nat) (s : state) : state :=
  match take_out (fun w => (w_token w =? token) && path_eqb (w_path w) p) (s_watchees s) with
  | None => s
  | Some (removed, ws) =>
      let inner1 := if existsb (fun w => path_eqb (w_path w) (w_path removed)) ws then s_inner s else b_unwatch (w_path removed) (s_inner s) in
      let inner2 :=
        if w_recursive removed then
          fold_left (fun b w => b_watch (w_path w) (w_recursive w) b) (filter (fun w => starts_with (w_path w) (w_path removed)) ws) inner1
        else inner1 in
      State (s_events s) ws inner2 (s_alive s) (s_notified s)
  end.
(** watcher.rs 217-221, [take_events]. *)
Definition take_events (s : state) : list (nat * event) * state :=
  (s_events s, State [] (s_watchees s) (s_inner s) (s_alive s) (s_notified s)).

(** What happens, in the order of taking the lock. A path to watch comes with what [canonicalize] makes of it. *)
Inductive op :=
| Watch (given : path) (canon : option path) (recursive : bool) (token : nat) (flt : option (path -> bool))
| Unwatch (p : path) (token : nat)
| Take
| Receive (e : option event).
(** The state after a history, and the events that were taken. *)
Fixpoint run (h : list op) (s : state) (taken : list (nat * event)) : state * list (nat * event) :=
  match h with
  | [] => (s, taken)
  | Watch _ c r t f :: h' => run h' (watch_impl c r t f s) taken
  | Unwatch p t :: h' => run h' (unwatch p t s) taken
  | Take :: h' => let (es, s') := take_events s in run h' s' (taken ++ es)
  | Receive e :: h' => run h' (receive e s) taken
  end.
