(** Model of rust/core-lib/src/width_cache.rs: measured widths, requested in batches. *)
From Coq Require Import List Arith Bool.
From Verif Require Import Base.
Import ListNotations.

(** Strings are compared with an equality test given by the caller; widths are any type
    with a zero. *)
Section WidthCache.
Context {Str W : Type} (str_eqb : Str -> Str -> bool) (zero : W).

Definition wkey := (nat * Str)%type.
(** width_cache.rs 32-36, [WidthCache]: the map is an association list. *)
Record wcache := { wc_m : list (wkey * nat); wc_widths : list W }.
(** width_cache.rs 46-53, [WidthBatchReq], without the cache it borrows. *)
Record wbatch := { wb_pending : nat; wb_req : list (nat * list Str); wb_toks : list (list nat); wb_ids : list (nat * nat) }.

(** width_cache.rs 93-95. *)
Definition wc_new : wcache := {| wc_m := []; wc_widths := [] |}.
(** width_cache.rs 103-105, [resolve]; out of range panics. *)
Definition wc_resolve (c : wcache) (tok : nat) : option W := nth_error (wc_widths c) tok.
(** width_cache.rs 108-117, [batch_req]. *)
Definition batch_req (c : wcache) : wbatch := {| wb_pending := length (wc_widths c); wb_req := []; wb_toks := []; wb_ids := [] |}.

Definition key_eqb (a b : wkey) : bool := (fst a =? fst b) && str_eqb (snd a) (snd b).
Fixpoint wlookup (k : wkey) (m : list (wkey * nat)) : option nat :=
  match m with [] => None | (k', t) :: m' => if key_eqb k k' then Some t else wlookup k m' end.
Fixpoint ilookup (k : nat) (m : list (nat * nat)) : option nat :=
  match m with [] => None | (k', t) :: m' => if k =? k' then Some t else ilookup k m' end.
(** [v[i] = f(v[i])]. *)
Fixpoint update_at {X} (i : nat) (f : X -> X) (l : list X) : option (list X) :=
  match l, i with
  | [], _ => None
  | x :: l', 0 => Some (f x :: l')
  | x :: l', S i' => let? r := update_at i' f l' in Some (x :: r)
  end.
(** width_cache.rs 122-147, [request]. *)
Definition request (c : wcache) (b : wbatch) (id : nat) (s : Str) : option (wcache * wbatch * nat) :=
  match wlookup (id, s) (wc_m c) with
  | Some tok => Some (c, b, tok)
  | None =>
      let '(off, req, toks, ids) :=
        match ilookup id (wb_ids b) with
        | Some off => (off, wb_req b, wb_toks b, wb_ids b)
        | None => (length (wb_req b), wb_req b ++ [(id, [])], wb_toks b ++ [[]], (id, length (wb_req b)) :: wb_ids b)
        end in
      let? req' := update_at off (fun r => (fst r, snd r ++ [s])) req in
      let tok := wb_pending b in
      let? toks' := update_at off (fun t => t ++ [tok]) toks in
      Some ({| wc_m := ((id, s), tok) :: wc_m c; wc_widths := wc_widths c |},
            {| wb_pending := tok + 1; wb_req := req'; wb_toks := toks'; wb_ids := ids |}, tok)
  end.
(** [Vec::resize] to a larger size. *)
Definition resize (n : nat) (l : list W) : list W := l ++ repeat zero (n - length l).
(** width_cache.rs 160-164, the loops over the response. *)
Fixpoint assign_row (l : list W) (ws : list W) (ts : list nat) : option (list W) :=
  match ws, ts with
  | w :: ws', t :: ts' => let? l' := update_at t (fun _ => w) l in assign_row l' ws' ts'
  | _, _ => Some l
  end.
Fixpoint assign_rows (l : list W) (wss : list (list W)) (tss : list (list nat)) : option (list W) :=
  match wss, tss with
  | ws :: wss', ts :: tss' => let? l' := assign_row l ws ts in assign_rows l' wss' tss'
  | _, _ => Some l
  end.
(** width_cache.rs 151-167, [resolve_pending]: the flag says whether it returned [Ok]. *)
Definition resolve_pending (c : wcache) (b : wbatch) (handler : list (nat * list Str) -> option (list (list W))) : option (wcache * bool) :=
  if length (wc_widths c) <? wb_pending b then
    let l := resize (wb_pending b) (wc_widths c) in
    match handler (wb_req b) with
    | None => Some ({| wc_m := wc_m c; wc_widths := l |}, false)
    | Some wss => let? l' := assign_rows l wss (wb_toks b) in Some ({| wc_m := wc_m c; wc_widths := l' |}, true)
    end
  else Some (c, true).
End WidthCache.
Arguments wcache : clear implicits.
Arguments wbatch : clear implicits.

(** width_cache.rs 79-90, [CodepointMono], with the number of characters given by the
    caller. *)
Definition codepoint_mono {Str} (chars : Str -> nat) (req : list (nat * list Str)) : option (list (list nat)) :=
  Some (map (fun r => map chars (snd r)) req).
