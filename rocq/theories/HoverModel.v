(** Model of how a hover is asked of a language server and its answer shown: rust/lsp-lib/src/lsp_plugin.rs, result_queue.rs
    and the table of requests in language_server_client.rs, with the idle queue of rust/rpc/src/lib.rs. There is one language
    server, for all views, and no request but hovers (an [initialize] takes an id too). What a callback does is done under the lock of the client, so it is one step. *)
From Coq Require Import List Arith Bool.
From Verif Require Import Base.
Import ListNotations.

(** language_server_client.rs 32-44: [next_id] and [pending], where a callback is the view and the id it was made for;
    result_queue.rs 19-20, the queue, where an error is [None]; rpc/src/lib.rs 199, the idle queue; dispatch.rs, the open views;
    and what was shown so far: a view, the id of the request, and the answer. *)
Record hover_state := HS {
  next_id : nat;
  pending : list (nat * (nat * nat));
  results : list (nat * option nat);
  idle_queue : list nat;
  views : list nat;
  shown : list (nat * nat * option nat) }.
(** language_server_client.rs 63-83, [new]. *)
Definition hs_new (vs : list nat) : hover_state := HS 1 [] [] [] vs [].

Fixpoint take (id : nat) (p : list (nat * (nat * nat))) : option ((nat * nat) * list (nat * (nat * nat))) :=
  match p with
  | [] => None
  | (i, c) :: p' => if i =? id then Some (c, p') else let? (c', r) := take id p' in Some (c', (i, c) :: r)
  end.
Definition is_open (s : hover_state) (v : nat) : bool := existsb (Nat.eqb v) (views s).

(** What happens: the user asks for a hover, and the place is found or not; the server answers; the main loop is idle; a view
    is closed. *)
Inductive event := Hover (v rid : nat) (found : bool) | Answer (id : nat) (r : nat) | Idle | Close (v : nat).

(** result_queue.rs 27-30, [push_result], and [schedule_idle], rpc/src/lib.rs 437-439. *)
Definition push_result (s : hover_state) (v rid : nat) (r : option nat) : hover_state :=
  HS (next_id s) (pending s) (results s ++ [(rid, r)]) (idle_queue s ++ [v]) (views s) (shown s).
(** dispatch.rs 139-142, [do_get_hover]; lsp_plugin.rs 158-179, [get_hover], with [send_request], language_server_client.rs 157-164. *)
Definition get_hover (s : hover_state) (v rid : nat) (found : bool) : hover_state :=
  if is_open s v then
    if found then HS (next_id s + 1) ((next_id s, (v, rid)) :: pending s) (results s) (idle_queue s) (views s) (shown s)
    else push_result s v rid None
  else s.
(** language_server_client.rs 111-117, [handle_response], and the callback, lsp_plugin.rs 163-173. *)
Definition handle_response (s : hover_state) (id r : nat) : option hover_state :=
  let? (c, p) := take id (pending s) in
  Some (push_result (HS (next_id s) p (results s) (idle_queue s) (views s) (shown s)) (fst c) (snd c) (Some r)).
(** rpc/src/lib.rs 373-376; dispatch.rs 224-229, [idle]; lsp_plugin.rs 181-194, [idle]; result_queue.rs 32-35, [pop_result]. *)
Definition do_idle (s : hover_state) : hover_state :=
  match idle_queue s with
  | [] => s
  | v :: q =>
      if is_open s v then
        match results s with
        | [] => HS (next_id s) (pending s) [] q (views s) (shown s)
        | (rid, r) :: rs => HS (next_id s) (pending s) rs q (views s) (shown s ++ [(v, rid, r)])
        end
      else HS (next_id s) (pending s) (results s) q (views s) (shown s)
  end.
(** dispatch.rs 126-132, [do_close]: the view is removed. *)
Definition do_close (s : hover_state) (v : nat) : hover_state :=
  HS (next_id s) (pending s) (results s) (idle_queue s) (filter (fun w => negb (w =? v)) (views s)) (shown s).
Definition hover_step (s : hover_state) (e : event) : option hover_state :=
  match e with
  | Hover v rid found => Some (get_hover s v rid found)
  | Answer id r => handle_response s id r
  | Idle => Some (do_idle s)
  | Close v => Some (do_close s v)
  end.
Fixpoint hover_run (s : hover_state) (h : list event) : option hover_state :=
  match h with [] => Some s | e :: h' => let? s' := hover_step s e in hover_run s' h' end.
