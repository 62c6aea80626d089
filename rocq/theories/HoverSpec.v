(** Which answers come for whom. *)
From Coq Require Import List Arith Bool.
From Verif Require Import HoverModel.
Import ListNotations.

(** The requests that were sent to the server, in order: the first has the id 1. *)
Fixpoint requests (h : list event) : list (nat * nat) :=
  match h with
  | [] => []
  | Hover v rid true :: h' => (v, rid) :: requests h'
  | _ :: h' => requests h'
  end.
Definition asked (h : list event) (id : nat) (c : nat * nat) : Prop := 1 <= id /\ nth_error (requests h) (id - 1) = Some c.
(** The answers in the order in which they came, each with the view and the id it is for. *)
Inductive answers : list event -> list (nat * nat * option nat) -> Prop :=
| an_nil : answers [] []
| an_sent h l v rid : answers h l -> answers (h ++ [Hover v rid true]) l
| an_error h l v rid : answers h l -> answers (h ++ [Hover v rid false]) (l ++ [(v, rid, None)])
| an_answer h l id r v rid : answers h l -> asked h id (v, rid) -> answers (h ++ [Answer id r]) (l ++ [(v, rid, Some r)])
| an_idle h l : answers h l -> answers (h ++ [Idle]) l.
(** No view is closed, and only those open are asked about. *)
Definition all_open (vs : list nat) (h : list event) : Prop :=
  Forall (fun e => match e with Hover v _ _ => In v vs | Close _ => False | _ => True end) h.
(** The number of rounds in which the main loop was idle. *)
Definition idles (h : list event) : nat := length (filter (fun e => match e with Idle => true | _ => false end) h).
