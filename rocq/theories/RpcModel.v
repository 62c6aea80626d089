(** Model of rust/rpc/src/lib.rs and rust/rpc/src/parse.rs: the RPC loop, with its reader thread,
    its main thread, and other threads that send requests.

    A run is a list of labels: each label says which thread takes its next step and what is not
    determined by the code (what the handler does, whether a write succeeds, the time). A step
    is what a thread does between two points where another can interfere: taking a lock, an
    atomic access, a read or a write. [None] means that the thread cannot take that step.

    Simplifications: a JSON object is its fields "id", "method", "result", "error" and the rest.
    Lines come already parsed as JSON. The tables [pending] and [timers] are lists; the order in
    which [disconnect] tells the handlers is that list's. Tracing and logging are left out, but
    for the [unwrap] in an argument. Notifications to the peer do not touch the state and are
    left out. *)
From Coq Require Import List Arith Bool.
From Verif Require Import Base.
Import ListNotations.

(** A JSON value: a number that fits [u64], a string, or another. *)
Inductive value := VU64 (n : nat) | VStr (n : nat) | VOther (n : nat).
(** parse.rs 42, [RpcObject]. *)
Record obj := Obj { o_id : option value; o_method : option value; o_result : option value; o_error : option value; o_rest : nat }.
(** A line of input: not JSON (or the read fails), JSON but no object, or an object. *)
Inductive line := LBad | LNotObj | LObj (o : obj).
(** error.rs 37-49, [ReadError]. *)
Inductive rerr := EBad | ENotObject | EUnknown | EDisconnect.
(** What a request is answered with: lib.rs and error.rs 24-34, [Result<Value, Error>]. *)
Inductive outcome := OOk (v : value) | ORemote (e : value) | OInvalid | ODisconnect | OIo.

(** parse.rs 92-94, [get_id]. *)
Definition get_id (o : obj) : option nat := match o_id o with Some (VU64 n) => Some n | _ => None end.
(** parse.rs 97-99, [get_method]. *)
Definition get_method (o : obj) : option nat := match o_method o with Some (VStr n) => Some n | _ => None end.
Definition is_some {A} (x : option A) : bool := match x with Some _ => true | None => false end.
(** parse.rs 104-106, [is_response]. *)
Definition is_response (o : obj) : bool := is_some (o_id o) && negb (is_some (o_method o)).

Section Rpc.
(** Whether a request, a notification and an error deserialise: serde and the handler's types. *)
Context (dec_req dec_notif : obj -> bool) (dec_err : value -> bool).

(** parse.rs 119-140, [into_response], and lib.rs 281-295: what the reader makes of it. *)
Definition into_response (o : obj) : outcome :=
  match get_id o with
  | None => OInvalid
  | Some _ =>
      if Bool.eqb (is_some (o_result o)) (is_some (o_error o)) then OInvalid
      else match o_result o with
           | Some r => OOk r
           | None => match o_error o with Some e => if dec_err e then ORemote e else OInvalid | None => OInvalid end
           end
  end.
(** parse.rs 148-164, [into_rpc]. *)
Inductive call := CRequest (id : nat) | CNotification | CInvalid (id : nat) | CError.
Definition into_rpc (o : obj) : call :=
  match get_id o with
  | Some id => if dec_req o then CRequest id else CInvalid id
  | None => if dec_notif o then CNotification else CError
  end.
(** parse.rs 65-87, [next] and [parse]: the next line, and the rest. *)
Definition read_next (l : list line) : (obj + rerr) * list line :=
  match l with
  | [] => (inr EDisconnect, [])
  | LBad :: l' => (inr EBad, l')
  | LNotObj :: l' => (inr ENotObject, l')
  | LObj o :: l' => (inl o, l')
  end.

(** lib.rs 171-174, [ResponseHandler]; [again] says whether the callback sends a request. *)
Inductive handler := Chan | Callback (again : bool).
(** What the main thread is calling the handler for. *)
Inductive why := WReq (id : nat) | WNotif | WIdle | WLast (e : rerr).
(** The places of the reader thread, lib.rs 262-301. *)
Inductive rpc_reader := RTop | RRead | RErr (e : rerr) | RDisc (e : rerr) | RPut (x : obj + rerr) | RResp (id : nat) (r : outcome) | RInvoke (id : nat) (h : handler) (r : outcome) | RCall (id : nat) | RStop | RPanic.
(** The places of the main thread, lib.rs 303-337. *)
Inductive rpc_main := MNext | MGot (x : obj + rerr) | MHandle (w : why) | MSync (w : why) | MWait (id : nat) (w : why) | MSend (id : nat) (w : why) | MRespond (id : nat) (r : outcome) | MDisc (e : rerr) | MUnwind | MDone (e : rerr) | MPanic.
(** Where a request that is being sent is, lib.rs 466-482. *)
Inductive stage := SAlloc (h : handler) | SInserted | SStuck.
(** What is seen from outside, besides the requests that are resolved: the handler is called for
    a message, it returns a result, a response is written (or not, if the write fails). *)
Inductive event := ECall (o : obj) | EReturn (r : outcome) | EAnswer (id : nat) (r : outcome) (ok : bool).

(** lib.rs 193-203, [RpcState], the places of the threads and what has been seen. *)
Record state := State {
  inp : list line; rd : rpc_reader; queue : list (obj + rerr); mn : rpc_main;
  next_id : nat; pending : list (nat * handler); flights : list (nat * stage); sent : list nat;
  needs_exit : bool; blocked : bool; dead : bool;  (* [dead]: a thread waits for ever with the lock on [pending] *)
  idle : list nat; timers : list (nat * nat);
  log : list event; resolved : list (nat * outcome);
  asked : list nat; ran : list nat;                     (* idle work: all that was scheduled, and what was run, in order *)
  asked_timers : list (nat * nat); fired : list (nat * (nat * nat)) }. (* timers: all, and those that fired, with the time *)

(** lib.rs 214-228, [new]. *)
Definition initial (l : list line) : state := State l RTop [] MNext 0 [] [] [] false false false [] [] [] [] [] [] [] [].

(** What the handler does next: starts an asynchronous or a synchronous request, schedules idle
    work or a timer, returns, or panics. *)
Inductive action := AAsync (again : bool) | ASync | AIdle (token : nat) | ATimer (at_ token : nat) | AReturn (r : outcome) | APanic.
Inductive label :=
  | LReader
  | LMain (a : action) (ok : bool) (now : nat)
  | LStart (h : handler)                  (* another thread starts a request *)
  | LSchedule (token : nat)               (* and schedules idle work *)
  | LFlight (id : nat) (ok : bool).       (* a request goes on being sent; [ok] if the write succeeds *)

Definition take {A} (id : nat) (l : list (nat * A)) : option (A * list (nat * A)) :=
  match find (fun x => fst x =? id) l with
  | Some (_, a) => Some (a, filter (fun x => negb (fst x =? id)) l)
  | None => None
  end.
Definition absent {A} (id : nat) (l : list (nat * A)) : bool := negb (existsb (fun x => fst x =? id) l).

(** lib.rs 467, [fetch_add]. *)
Definition start (st : state) (h : handler) : state :=
  State (inp st) (rd st) (queue st) (mn st) (S (next_id st)) (pending st) (flights st ++ [(next_id st, SAlloc h)]) (sent st)
    (needs_exit st) (blocked st) (dead st) (idle st) (timers st) (log st) (resolved st) (asked st) (ran st) (asked_timers st) (fired st).
Definition set_reader (st : state) (r : rpc_reader) : state :=
  State (inp st) r (queue st) (mn st) (next_id st) (pending st) (flights st) (sent st) (needs_exit st) (blocked st) (dead st) (idle st) (timers st) (log st) (resolved st) (asked st) (ran st) (asked_timers st) (fired st).
Definition set_main (st : state) (m : rpc_main) : state :=
  State (inp st) (rd st) (queue st) m (next_id st) (pending st) (flights st) (sent st) (needs_exit st) (blocked st) (dead st) (idle st) (timers st) (log st) (resolved st) (asked st) (ran st) (asked_timers st) (fired st).
Definition set_pending (st : state) (p : list (nat * handler)) : state :=
  State (inp st) (rd st) (queue st) (mn st) (next_id st) p (flights st) (sent st) (needs_exit st) (blocked st) (dead st) (idle st) (timers st) (log st) (resolved st) (asked st) (ran st) (asked_timers st) (fired st).
Definition set_flights (st : state) (f : list (nat * stage)) : state :=
  State (inp st) (rd st) (queue st) (mn st) (next_id st) (pending st) f (sent st) (needs_exit st) (blocked st) (dead st) (idle st) (timers st) (log st) (resolved st) (asked st) (ran st) (asked_timers st) (fired st).
Definition set_dead (st : state) : state :=
  State (inp st) (rd st) (queue st) (mn st) (next_id st) (pending st) (flights st) (sent st) (needs_exit st) (blocked st) true (idle st) (timers st) (log st) (resolved st) (asked st) (ran st) (asked_timers st) (fired st).
Definition see (st : state) (e : event) : state :=
  State (inp st) (rd st) (queue st) (mn st) (next_id st) (pending st) (flights st) (sent st) (needs_exit st) (blocked st) (dead st) (idle st) (timers st) (log st ++ [e]) (resolved st) (asked st) (ran st) (asked_timers st) (fired st).
Definition resolve (st : state) (id : nat) (r : outcome) : state :=
  State (inp st) (rd st) (queue st) (mn st) (next_id st) (pending st) (flights st) (sent st) (needs_exit st) (blocked st) (dead st) (idle st) (timers st) (log st) (resolved st ++ [(id, r)]) (asked st) (ran st) (asked_timers st) (fired st).
Definition push (st : state) (x : obj + rerr) : state :=
  State (inp st) (rd st) (queue st ++ [x]) (mn st) (next_id st) (pending st) (flights st) (sent st) (needs_exit st) (blocked st) (dead st) (idle st) (timers st) (log st) (resolved st) (asked st) (ran st) (asked_timers st) (fired st).
Definition set_work (st : state) (i : list nat) (t : list (nat * nat)) (a r : list nat) (at_ : list (nat * nat)) (f : list (nat * (nat * nat))) : state :=
  State (inp st) (rd st) (queue st) (mn st) (next_id st) (pending st) (flights st) (sent st) (needs_exit st) (blocked st) (dead st) i t (log st) (resolved st) a r at_ f.
(** lib.rs 437-439, [schedule_idle]; 441-443, [schedule_timer]; 519-521, [try_get_idle]. *)
Definition schedule (st : state) (token : nat) : state := set_work st (idle st ++ [token]) (timers st) (asked st ++ [token]) (ran st) (asked_timers st) (fired st).
Definition schedule_timer (st : state) (t token : nat) : state := set_work st (idle st) (timers st ++ [(t, token)]) (asked st) (ran st) (asked_timers st ++ [(t, token)]) (fired st).
Definition run_idle (st : state) (token : nat) (i : list nat) : state := set_work st i (timers st) (asked st) (ran st ++ [token]) (asked_timers st) (fired st).

(** lib.rs 543-551, [disconnect]: the handlers are called with the lock on [pending] held, so one
    that sends a request waits for ever. Otherwise [needs_exit] is set at the end. *)
Fixpoint disconnect_loop (st : state) (l : list (nat * handler)) : state :=
  match l with
  | [] => State (inp st) (rd st) (queue st) (mn st) (next_id st) [] (flights st) (sent st) true (blocked st) (dead st) (idle st) (timers st) (log st) (resolved st) (asked st) (ran st) (asked_timers st) (fired st)
  | (id, h) :: l' =>
      let st1 := resolve (set_pending st l') id ODisconnect in
      match h with Callback true => set_dead st1 | _ => disconnect_loop st1 l' end
  end.
Definition disconnect (st : state) : state := disconnect_loop st (pending st).

(** lib.rs 468-482, the rest of [send_rpc_request_common]: insert, then write; when the write
    fails, tell the handler if it is still there, with the lock held ([rh.invoke] is in the scope
    of the guard). *)
Definition fly (st : state) (id : nat) (ok : bool) : option state :=
  let? (s, f) := take id (flights st) in
  match s with
  | SAlloc h => if dead st then None else Some (set_flights (set_pending st (pending st ++ [(id, h)])) (f ++ [(id, SInserted)]))
  | SInserted =>
      if ok then Some (State (inp st) (rd st) (queue st) (mn st) (next_id st) (pending st) f (sent st ++ [id]) (needs_exit st) (blocked st) (dead st) (idle st) (timers st) (log st) (resolved st) (asked st) (ran st) (asked_timers st) (fired st))
      else if dead st then None
      else match take id (pending st) with
           | None => Some (set_flights st f)
           | Some (h, p) => Some match h with
                                  | Callback true => set_dead (resolve (set_pending (set_flights st (f ++ [(id, SStuck)])) p) id OIo)
                                  | _ => resolve (set_pending (set_flights st f) p) id OIo
                                  end
           end
  | SStuck => None
  end.

(** lib.rs 262-301, the reader thread. *)
Definition step_reader (st : state) : option state :=
  match rd st with
  | RTop => Some (set_reader st (if needs_exit st then RStop else RRead))
  | RRead =>
      let (x, l) := read_next (inp st) in
      let st1 := State l (rd st) (queue st) (mn st) (next_id st) (pending st) (flights st) (sent st) (needs_exit st) (blocked st) (dead st) (idle st) (timers st) (log st) (resolved st) (asked st) (ran st) (asked_timers st) (fired st) in
      Some (set_reader st1
        match x with
        | inr e => RErr e
        | inl o => if is_response o then match get_id o with None => RPanic | Some id => RResp id (into_response o) end else RPut (inl o)
        end)
  | RErr e => Some (set_reader st (if blocked st then RDisc e else RPut (inr e)))
  | RDisc e => if dead st then None else let st1 := disconnect st in Some (if dead st1 then st1 else set_reader st1 (RPut (inr e)))
  | RPut x => Some (set_reader (push st x) match x with inl _ => RTop | inr _ => RStop end)
  | RResp id r =>
      if dead st then None
      else Some match take id (pending st) with
                | Some (h, p) => set_reader (set_pending st p) (RInvoke id h r)
                | None => set_reader st RTop
                end
  | RInvoke id h r =>
      Some match h with
           | Callback true => set_reader (start (resolve st id r) (Callback false)) (RCall (next_id st))
           | _ => set_reader (resolve st id r) RTop
           end
  | RCall id => if absent id (flights st) then Some (set_reader st RTop) else None
  | RStop | RPanic => None
  end.

(** lib.rs 528-540, [check_timers]: the earliest timer, if its time has come. *)
Definition earliest (l : list (nat * nat)) : option (nat * nat) :=
  fold_left (fun acc t => match acc with None => Some t | Some a => if fst t <? fst a then Some t else acc end) l None.
Fixpoint remove_timer (t : nat * nat) (l : list (nat * nat)) : list (nat * nat) :=
  match l with [] => [] | x :: l' => if (fst x =? fst t) && (snd x =? snd t) then l' else x :: remove_timer t l' end.
Definition check_timers (now : nat) (l : list (nat * nat)) : option ((nat * nat) * list (nat * nat)) :=
  match earliest l with Some t => if fst t <=? now then Some (t, remove_timer t l) else None | None => None end.

(** After the handler has returned. *)
Definition returned (st : state) (w : why) (r : outcome) : state :=
  match w with
  | WReq id => set_main (see st (EReturn r)) (MRespond id r)
  | WNotif | WIdle => set_main st MNext
  | WLast e => set_main st (MDisc e)
  end.
(** lib.rs 303-337, the main thread; 354-384 for [next_read]. *)
Definition step_main (st : state) (a : action) (ok : bool) (now : nat) : option state :=
  match mn st with
  | MNext =>
      match queue st with
      | x :: q => Some (State (inp st) (rd st) q (MGot x) (next_id st) (pending st) (flights st) (sent st) (needs_exit st) (blocked st) (dead st) (idle st) (timers st) (log st) (resolved st) (asked st) (ran st) (asked_timers st) (fired st))
      | [] =>
          match check_timers now (timers st) with
          | Some (x, t) => Some (set_main (set_work st (idle st) t (asked st) (ran st) (asked_timers st) (fired st ++ [(now, x)])) (MHandle WIdle))
          | None => match idle st with token :: i => Some (set_main (run_idle st token i) (MHandle WIdle)) | [] => None end
          end
      end
  | MGot (inr e) =>
      Some match idle st with token :: i => set_main (run_idle st token i) (MHandle (WLast e)) | [] => set_main st (MDisc e) end
  | MGot (inl o) =>
      Some match into_rpc o with
           | CRequest id => if is_some (get_method o) then set_main (see st (ECall o)) (MHandle (WReq id)) else set_main st MUnwind
           | CNotification => if is_some (get_method o) then set_main (see st (ECall o)) (MHandle WNotif) else set_main st MUnwind
           | CInvalid id => set_main st (MRespond id OInvalid)
           | CError => set_main st (MDisc EUnknown)
           end
  | MHandle w =>
      Some match a with
           | AAsync again => set_main (start st (Callback again)) (MSend (next_id st) w)
           | ASync => set_main (State (inp st) (rd st) (queue st) (mn st) (next_id st) (pending st) (flights st) (sent st) (needs_exit st) true (dead st) (idle st) (timers st) (log st) (resolved st) (asked st) (ran st) (asked_timers st) (fired st)) (MSync w)
           | AIdle token => schedule st token
           | ATimer t token => schedule_timer st t token
           | AReturn r => returned st w r
           | APanic => set_main st MUnwind
           end
  | MSync w => Some (set_main (start st Chan) (MWait (next_id st) w))
  | MWait id w => if absent id (flights st) && negb (absent id (resolved st)) then Some (set_main st (MHandle w)) else None
  | MSend id w => if absent id (flights st) then Some (set_main st (MHandle w)) else None
  | MRespond id r => Some (set_main (see st (EAnswer id r ok)) MNext)
  | MDisc e => if dead st then None else let st1 := disconnect st in Some (if dead st1 then st1 else set_main st1 (MDone e))
  | MUnwind => if dead st then None else let st1 := disconnect st in Some (if dead st1 then st1 else set_main st1 MPanic)
  | MDone _ | MPanic => None
  end.

Definition step (st : state) (l : label) : option state :=
  match l with
  | LReader => step_reader st
  | LMain a ok now => step_main st a ok now
  | LStart h => Some (start st h)
  | LSchedule token => Some (schedule st token)
  | LFlight id ok => fly st id ok
  end.
Fixpoint run (st : state) (l : list label) : option state := match l with [] => Some st | x :: l' => let? st' := step st x in run st' l' end.
End Rpc.
