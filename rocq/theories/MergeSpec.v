(** Two peers that edit their own copies and send each other their state. *)
From Coq Require Import List Arith Bool.
From Verif Require Import Base MultisetModel DeltaModel DeltaSpec EngineModel MergeModel.
Import ListNotations.

Section Spec.
Context {A : Type} (tok : rev_id -> nat).

(** The peers' engines and the states on their way to each of them, oldest first. *)
Record net := Net { left : engine A; right : engine A;
  to_left : list (engine A); to_right : list (engine A) }.

(** Any schedule of edits (of any held revision), sends, deliveries and losses. *)
Inductive exchange (s1 s2 : session_id) : net -> Prop :=
| x_start e a b : empty_engine = Some e -> set_session_id e s1 = Some a ->
    set_session_id e s2 = Some b -> exchange s1 s2 (Net a b [] [])
| x_edit_left a b x y p g t d a' res : exchange s1 s2 (Net a b x y) -> wf_delta d ->
    try_edit_rev tok a p g t d = Some (a', res) -> exchange s1 s2 (Net a' b x y)
| x_edit_right a b x y p g t d b' res : exchange s1 s2 (Net a b x y) -> wf_delta d ->
    try_edit_rev tok b p g t d = Some (b', res) -> exchange s1 s2 (Net a b' x y)
| x_send_left a b x y : exchange s1 s2 (Net a b x y) -> exchange s1 s2 (Net a b x (y ++ [a]))
| x_send_right a b x y : exchange s1 s2 (Net a b x y) -> exchange s1 s2 (Net a b (x ++ [b]) y)
| x_recv_left a b m x y a' : exchange s1 s2 (Net a b (m :: x) y) -> merge a m = Some a' ->
    exchange s1 s2 (Net a' b x y)
| x_recv_right a b m x y b' : exchange s1 s2 (Net a b x (m :: y)) -> merge b m = Some b' ->
    exchange s1 s2 (Net a b' x y)
| x_lose_left a b m x y : exchange s1 s2 (Net a b (m :: x) y) -> exchange s1 s2 (Net a b x y)
| x_lose_right a b m x y : exchange s1 s2 (Net a b x (m :: y)) -> exchange s1 s2 (Net a b x y).

(** The engine holds the revision called [id]. *)
Definition holds (e : engine A) (id : rev_id) : Prop := In id (map r_id (revs e)).
End Spec.
Arguments net : clear implicits.
