(** What the RPC loop should do with the messages it gets. *)
From Coq Require Import List Arith Bool.
From Verif Require Import Base RpcModel.
Import ListNotations.

(** The messages before the first line that is not a JSON object. *)
Fixpoint readable (l : list line) : list obj := match l with LObj o :: l' => o :: readable l' | _ => [] end.
(** Those that are not responses: the requests and notifications of the peer. *)
Definition calls (l : list line) : list obj := filter (fun o => negb (is_response o)) (readable l).

Section Spec.
Context (dec_req dec_notif : obj -> bool) (dec_err : value -> bool).
(** What is seen when the messages have been handled, one after the other: a request is given to
    the handler, which returns a result, and that is written as the response to its id; a request
    that cannot be understood is answered with an error; a notification is given to the handler. *)
Inductive handled : list obj -> list event -> Prop :=
  | h_none : handled [] []
  | h_request os l o id r ok : handled os l -> get_id o = Some id -> dec_req o = true -> handled (os ++ [o]) (l ++ [ECall o; EReturn r; EAnswer id r ok])
  | h_invalid os l o id ok : handled os l -> get_id o = Some id -> dec_req o = false -> handled (os ++ [o]) (l ++ [EAnswer id OInvalid ok])
  | h_notification os l o : handled os l -> get_id o = None -> dec_notif o = true -> handled (os ++ [o]) (l ++ [ECall o]).
(** The message that is being handled, if any, and what has been seen of it. *)
Inductive underway : list obj -> list event -> Prop :=
  | u_none : underway [] []
  | u_taken o : underway [o] []
  | u_called o : underway [o] [ECall o]
  | u_returned o r id : get_id o = Some id -> underway [o] [ECall o; EReturn r].
(** [r] is what a response in the input to the request [id] says. *)
Definition reply (l : list line) (id : nat) (r : outcome) : Prop :=
  exists o, In (LObj o) l /\ is_response o = true /\ get_id o = Some id /\ r = into_response dec_err o.
End Spec.
