(** Model of rust/core-lib/src/word_boundaries.rs.

    Simplifications: a character is the list of its UTF-8 bytes; its code is its byte if it has
    one, and is above 0x7f otherwise. *)
From Coq Require Import List Arith Bool NArith.
From Verif Require Import Base TreeModel CursorModel RopeModel RopeIterModel.
Import ListNotations.
Local Notation str := (list nat) (only parsing).

(** word_boundaries.rs 188-194, [WordProperty]. *)
Inductive word_property := Lf | Space | Punctuation | Other.
(** word_boundaries.rs 196-215, [get_word_property]. *)
Definition get_word_property (codepoint : str) : word_property :=
  match codepoint with
  | [cp] =>
      if cp <=? 32 then (if cp =? 10 then Lf else Space)
      else if cp <=? 63 then (if N.testbit 0xfc00fffe00000000 (N.of_nat cp) then Punctuation else Other)
      else if cp <=? 127 then (if N.testbit 0x7800000178000001 (N.of_nat (cp mod 64)) then Punctuation else Other)
      else Other
  | _ => Other
  end.

(** word_boundaries.rs 134-154, [WordBoundary]. *)
Inductive word_boundary := Interior | Start | End | Both.
Definition is_start (w : word_boundary) : bool := match w with Start | Both => true | _ => false end.
Definition is_end (w : word_boundary) : bool := match w with End | Both => true | _ => false end.
Definition is_boundary (w : word_boundary) : bool := match w with Interior => false | _ => true end.
(** word_boundaries.rs 156-170, [classify_boundary]. *)
Definition classify_boundary (prev next : word_property) : word_boundary :=
  match prev, next with
  | Lf, _ => Both
  | _, Lf => Both
  | Space, Other => Start
  | Space, Punctuation => Start
  | Punctuation, Other => Start
  | Other, Space => End
  | Punctuation, Space => End
  | Other, Punctuation => End
  | _, _ => Interior
  end.
(** word_boundaries.rs 172-186, [classify_boundary_initial]. *)
Definition classify_boundary_initial (prev next : word_property) : word_boundary :=
  match prev, next with
  | Lf, Other => Start
  | Other, Lf => End
  | Lf, Space => Interior
  | Lf, Punctuation => Interior
  | Space, Lf => Interior
  | Punctuation, Lf => Interior
  | Space, Punctuation => Interior
  | Punctuation, Space => Interior
  | _, _ => classify_boundary prev next
  end.

Section Word.
Context (r : rope).

(** word_boundaries.rs 35-42, the loop of [prev_boundary]. *)
Fixpoint prev_boundary_loop (fuel : nat) (c : rcursor) (prop : word_property) (candidate : nat) : option (nat * rcursor) :=
  let? (x, c1) := prev_codepoint r c in
  match x with
  | None => Some (candidate, c1)
  | Some prev =>
      let prop_prev := get_word_property prev in
      if is_start (classify_boundary prop_prev prop) then Some (candidate, c1)
      else match fuel with 0 => None | S f => prev_boundary_loop f c1 prop_prev (c_pos c1) end
  end.
(** word_boundaries.rs 31-47, [prev_boundary]. *)
Definition prev_boundary (fuel : nat) (c : rcursor) : option (option nat * rcursor) :=
  let? (x, c1) := prev_codepoint r c in
  match x with
  | Some ch =>
      let? (candidate, c2) := prev_boundary_loop fuel c1 (get_word_property ch) (c_pos c1) in
      let? c3 := c_set rope_ops r c2 candidate in
      Some (Some candidate, c3)
  | None => Some (None, c1)
  end.
(** word_boundaries.rs 54-61, the loop of [next_boundary]. *)
Fixpoint next_boundary_loop (fuel : nat) (c : rcursor) (prop : word_property) (candidate : nat) : option (nat * rcursor) :=
  let? (x, c1) := next_codepoint r c in
  match x with
  | None => Some (candidate, c1)
  | Some next =>
      let prop_next := get_word_property next in
      if is_end (classify_boundary prop prop_next) then Some (candidate, c1)
      else match fuel with 0 => None | S f => next_boundary_loop f c1 prop_next (c_pos c1) end
  end.
(** word_boundaries.rs 50-66, [next_boundary]. *)
Definition next_boundary (fuel : nat) (c : rcursor) : option (option nat * rcursor) :=
  let? (x, c1) := next_codepoint r c in
  match x with
  | Some ch =>
      let? (candidate, c2) := next_boundary_loop fuel c1 (get_word_property ch) (c_pos c1) in
      let? c3 := c_set rope_ops r c2 candidate in
      Some (Some candidate, c3)
  | None => Some (None, c1)
  end.

(** word_boundaries.rs 73, 75 and so on: the property of a character just read. *)
Definition props (x : option str) : option word_property := option_map get_word_property x.
(** word_boundaries.rs 88-103, the first loop of [select_word]. *)
Fixpoint select_back (fuel : nat) (c : rcursor) (initial : nat) (init_boundary : word_boundary) (start : nat)
    (prop_before prop_after : option word_property) : option (nat * rcursor) :=
  match prop_before, prop_after with
  | Some pb, Some pa =>
      if (if start =? initial then is_start init_boundary
          else if negb (is_boundary init_boundary) then is_boundary (classify_boundary pb pa)
          else is_start (classify_boundary pb pa))
      then Some (start, c)
      else
        let start1 := c_pos c in
        let? (x, c1) := prev_codepoint r c in
        match fuel with 0 => None | S f => select_back f c1 initial init_boundary start1 (props x) prop_before end
  | _, _ => Some (start, c)
  end.
(** word_boundaries.rs 113-128, the second loop of [select_word]. *)
Fixpoint select_forward (fuel : nat) (c : rcursor) (initial : nat) (init_boundary : word_boundary) (end_ : nat)
    (prop_before prop_after : option word_property) : option (nat * rcursor) :=
  match prop_before, prop_after with
  | Some pb, Some pa =>
      if (if end_ =? initial then is_end init_boundary
          else if negb (is_boundary init_boundary) then is_boundary (classify_boundary pb pa)
          else is_end (classify_boundary pb pa))
      then Some (end_, c)
      else
        let end1 := c_pos c in
        let? (x, c1) := next_codepoint r c in
        match fuel with 0 => None | S f => select_forward f c1 initial init_boundary end1 prop_after (props x) end
  | _, _ => Some (end_, c)
  end.
(** word_boundaries.rs 70-131, [select_word]. *)
Definition select_word (fuel : nat) (c : rcursor) : option (nat * nat * rcursor) :=
  let initial := c_pos c in
  let? (xa, c1) := next_codepoint r c in
  let init_prop_after := props xa in
  let? c2 := c_set rope_ops r c1 initial in
  let? (xb, c3) := prev_codepoint r c2 in
  let init_prop_before := props xb in
  let init_boundary :=
    match init_prop_before, init_prop_after with
    | Some pb, Some pa => classify_boundary_initial pb pa
    | _, _ => Both
    end in
  let? (start, c4) :=
    match init_prop_after with
    | None =>
        let start := c_pos c3 in
        let? (x, c4) := prev_codepoint r c3 in
        select_back fuel c4 initial init_boundary start (props x) init_prop_before
    | Some _ => select_back fuel c3 initial init_boundary initial init_prop_before init_prop_after
    end in
  let? c5 := c_set rope_ops r c4 initial in
  let? (end_, c6) :=
    match init_prop_before with
    | None =>
        let? (x, c6) := next_codepoint r c5 in
        let end_ := c_pos c6 in
        let? (y, c7) := next_codepoint r c6 in
        select_forward fuel c7 initial init_boundary end_ (props x) (props y)
    | Some _ => select_forward fuel c5 initial init_boundary initial init_prop_before init_prop_after
    end in
  let? c7 := c_set rope_ops r c6 end_ in
  Some (start, end_, c7).
End Word.
