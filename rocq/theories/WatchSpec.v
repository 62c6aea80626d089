(** Who is to be told of which changes in the file system. *)
From Coq Require Import List Arith.
From Verif Require Import WatchModel.
Import ListNotations.

(** A watched path concerns a changed one: it is that path, the directory it is in or, for those who watch
    recursively, any above it; and the filter, if there is one, lets it pass. *)
Definition concerns (w : watchee) (p : path) : Prop :=
  (p = w_path w \/ (exists c, p = w_path w ++ [c]) \/ w_recursive w = true /\ exists rest, p = w_path w ++ rest) /\
  (forall f, w_filter w = Some f -> f p = true).
(** It concerns an event: a path made, removed or changed, or one of the two paths of a renaming. *)
Definition concerned (w : watchee) (e : event) : Prop :=
  (In (e_kind e) [CreateAny; RemoveAny; ModifyAny; MetadataAny] /\ exists p, e_paths e = [p] /\ concerns w p) \/
  (e_kind e = RenameBoth /\ exists p q, e_paths e = [p; q] /\ (concerns w p \/ concerns w q)).

(** Who watches after a history, in the order of asking. Each unwatch ends one watch of that token for that path,
    the oldest. *)
Definition of (t : nat) (p : path) (w : watchee) : Prop := w_token w = t /\ w_path w = p.
Inductive registered : list op -> list watchee -> Prop :=
| reg_start : registered [] []
| reg_watch h l g p r t f : registered h l -> registered (h ++ [Watch g (Some p) r t f]) (l ++ [Watchee p r t f])
| reg_no_path h l g r t f : registered h l -> registered (h ++ [Watch g None r t f]) l
| reg_unwatch h l1 w l2 p t : registered h (l1 ++ w :: l2) -> of t p w -> Forall (fun x => ~ of t p x) l1 -> registered (h ++ [Unwatch p t]) (l1 ++ l2)
| reg_not_watched h l p t : registered h l -> Forall (fun x => ~ of t p x) l -> registered (h ++ [Unwatch p t]) l
| reg_take h l : registered h l -> registered (h ++ [Take]) l
| reg_receive h l e : registered h l -> registered (h ++ [Receive e]) l.
(** The watcher gave no error. *)
Definition no_error (h : list op) : Prop := ~ In (Receive None) h.
(** The state after a history, what was handed out during it, and all that was, or still is, to be handed out. *)
Definition after (h : list op) : state := fst (run h fresh []).
Definition handed_out (h : list op) : list (nat * event) := snd (run h fresh []).
Definition told (h : list op) : list (nat * event) := handed_out h ++ s_events (after h).
