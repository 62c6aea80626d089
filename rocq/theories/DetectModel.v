(** Model of rust/core-lib/src/line_ending.rs and whitespace.rs: what a text uses for line
    endings and indentation. *)
From Coq Require Import List Arith Bool.
From Verif Require Import Base TreeModel RopeModel RopeIterModel.
Import ListNotations.

(** [Result<Option<T>, Mixed..Error>]. *)
Inductive detected (X : Type) := Mixed | Nothing | Found (x : X).
Arguments Mixed {X}. Arguments Nothing {X}. Arguments Found {X} x.

Inductive line_ending := CrLf | Lf.
(** The chunk from the first newline or carriage return on ([memchr2]). *)
Fixpoint from_ending (s : str) : str :=
  match s with [] => [] | b :: s' => if (b =? NL) || (b =? CR) then s else from_ending s' end.
(** line_ending.rs 60-72, [parse_chunk]. *)
Definition parse_chunk (s : str) : detected line_ending :=
  match from_ending s with
  | [] => Nothing
  | b :: rest =>
      if (b =? CR) && (match rest with c :: _ => c =? NL | [] => false end) then Found CrLf
      else if b =? NL then Found Lf else Mixed
  end.
(** line_ending.rs 37-57, [parse]. *)
Fixpoint parse_chunks (cs : list str) (crlf lf : bool) : detected line_ending :=
  match cs with
  | [] => match crlf, lf with true, false => Found CrLf | false, true => Found Lf | false, false => Nothing | _, _ => Mixed end
  | c :: cs' =>
      match parse_chunk c with
      | Found CrLf => parse_chunks cs' true lf
      | Found Lf => parse_chunks cs' crlf true
      | Nothing => parse_chunks cs' crlf lf
      | Mixed => Mixed
      end
  end.
Definition chunks_of (r : rope) : option (list str) := let? it := iter_chunks r 0 (n_len r) in chunks_rest (n_len r) r it.
Definition line_ending_parse (r : rope) : option (detected line_ending) :=
  let? cs := chunks_of r in Some (parse_chunks cs false false).

Inductive indentation := Tabs | Spaces (n : nat).
Definition SPACE := 32.
Definition TAB := 9.
(** whitespace.rs 69-88, [parse_line]. *)
Fixpoint parse_line_from (s : str) (spaces : nat) : detected indentation :=
  let stop := if 0 <? spaces then Found (Spaces spaces) else Nothing in
  match s with
  | [] => stop
  | b :: s' =>
      if b =? SPACE then parse_line_from s' (spaces + 1)
      else if b =? TAB then (if 0 <? spaces then Mixed else Found Tabs)
      else stop
  end.
Definition parse_line (s : str) : detected indentation := parse_line_from s 0.
(** whitespace.rs 116-133, [gcd]; [a mod b] decreases. *)
Fixpoint gcd_loop (fuel a b : nat) : option nat :=
  match b with
  | 0 => Some a
  | _ => match fuel with 0 => None | S f => gcd_loop f b (a mod b) end
  end.
Definition gcd (a b : nat) : option nat :=
  if a =? 0 then Some b else if (b =? 0) || (a =? b) then Some a else gcd_loop b a b.
(** The counts per indentation, a [BTreeMap]: increasing in the key. *)
Fixpoint bump (n : nat) (m : list (nat * nat)) : list (nat * nat) :=
  match m with
  | [] => [(n, 1)]
  | (k, c) :: m' => if n =? k then (k, c + 1) :: m' else if n <? k then (n, 1) :: m else (k, c) :: bump n m'
  end.
(** whitespace.rs 95-113, [extract_count]. *)
Fixpoint extract_fold (ks : list nat) (a : nat) : option nat :=
  match ks with
  | [] => Some a
  | b :: ks' => let? d := gcd a b in extract_fold ks' (if d =? 1 then a else d)
  end.
Definition extract_count (m : list (nat * nat)) : option nat :=
  let take_size := if length m <? 4 then length m else 4 in
  extract_fold (map fst (firstn take_size m)) 0.
(** whitespace.rs 35-65, [parse]. *)
Fixpoint parse_lines (ls : list str) (tabs : bool) (spaces : list (nat * nat)) : option (detected indentation) :=
  match ls with
  | [] =>
      match tabs, spaces with
      | true, _ :: _ => Some Mixed
      | true, [] => Some (Found Tabs)
      | false, _ :: _ => let? n := extract_count spaces in Some (if 0 <? n then Found (Spaces n) else Nothing)
      | false, [] => Some Nothing
      end
  | l :: ls' =>
      match parse_line l with
      | Found (Spaces n) => parse_lines ls' tabs (bump n spaces)
      | Found Tabs => parse_lines ls' true spaces
      | Nothing => parse_lines ls' tabs spaces
      | Mixed => Some Mixed
      end
  end.
Definition indentation_parse (r : rope) : option (detected indentation) :=
  let? ls := rope_lines_raw r 0 (n_len r) in parse_lines ls false [].
