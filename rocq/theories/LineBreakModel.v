(** Model of rust/unicode/src/lib.rs 26-213 (line breaking classes and line breaks) and of
    rust/core-lib/src/linewrap.rs 509-526 and 566-605 (line breaks of a rope).

    Texts are lists of bytes. The numbers computed with ([u8], [char] and the indices of tables) are
    binary; a subtraction that would wrap and an index out of bounds are panics ([None]). *)
From Coq Require Import List Arith NArith Bool.
From Verif Require Import Base TreeModel CursorModel RopeModel LineBreakTables.
Import ListNotations.
Local Open Scope N_scope.

(** [TABLE[i]]. *)
Definition tab (t : list N) (i : N) : option N := nth_error t (N.to_nat i).
(** [a - b]. *)
Definition minus (a b : N) : option N := if b <=? a then Some (a - b) else None.
(** [s.as_bytes()[i] as usize]. *)
Definition byte_at (s : list nat) (i : nat) : option N := option_map N.of_nat (nth_error s i).

(** lib.rs 30-42, [linebreak_property]. *)
Definition linebreak_property (cp : N) : option N :=
  if cp <? 0x800 then tab LINEBREAK_1_2 cp
  else if cp <? 0x10000 then
    let? child := tab LINEBREAK_3_ROOT (cp / 64) in
    tab LINEBREAK_3_CHILD (child * 64 + cp mod 64)
  else
    let? mid := tab LINEBREAK_4_ROOT (cp / 4096) in
    let? leaf := tab LINEBREAK_4_MID (mid * 64 + (cp / 64) mod 64) in
    tab LINEBREAK_4_LEAVES (leaf * 64 + cp mod 64).

(** lib.rs 49-71, [linebreak_property_str]. *)
Definition linebreak_property_str (s : list nat) (ix : nat) : option (N * nat) :=
  let? b := byte_at s ix in
  if b <? 0x80 then
    let? lb := tab LINEBREAK_1_2 b in Some (lb, 1%nat)
  else if b <? 0xe0 then
    let? b1 := byte_at s (ix + 1) in
    let? cp := minus (b * 64 + b1) 0x3080 in
    let? lb := tab LINEBREAK_1_2 cp in Some (lb, 2%nat)
  else if b <? 0xf0 then
    let? b1 := byte_at s (ix + 1) in
    let? mid_ix := minus (b * 64 + b1) 0x3880 in
    let? mid := tab LINEBREAK_3_ROOT mid_ix in
    let? b2 := byte_at s (ix + 2) in
    let? i := minus (mid * 64 + b2) 0x80 in
    let? lb := tab LINEBREAK_3_CHILD i in Some (lb, 3%nat)
  else
    let? b1 := byte_at s (ix + 1) in
    let? mid_ix := minus (b * 64 + b1) 0x3c80 in
    let? mid := tab LINEBREAK_4_ROOT mid_ix in
    let? b2 := byte_at s (ix + 2) in
    let? leaf_ix := minus (mid * 64 + b2) 0x80 in
    let? leaf := tab LINEBREAK_4_MID leaf_ix in
    let? b3 := byte_at s (ix + 3) in
    let? i := minus (leaf * 64 + b3) 0x80 in
    let? lb := tab LINEBREAK_4_LEAVES i in Some (lb, 4%nat).

(** lib.rs 107-119 and 187-199, the body common to both iterators: the state machine is in [state], the
    next class is [lb]. Whether there is a break before that character, and if so whether it is a hard
    one; the next state. *)
Definition machine (state lb : N) : option (option bool * N) :=
  let? new := tab LINEBREAK_STATE_MACHINE (state * N_LINEBREAK_CATEGORIES + lb) in
  if 0x80 <=? new then Some (Some (0xc0 <=? new), N.land new 0x3f) else Some (None, new).

(** lib.rs 81-85, [LineBreakIterator]; the text is a parameter. *)
Record lbiter := LbIter { it_ix : nat; it_state : N }.

(** lib.rs 126-138, [LineBreakIterator::new]. *)
Definition it_new (s : list nat) : option lbiter :=
  if (length s =? 0)%nat then Some (LbIter 1 0)
  else let? (lb, len) := linebreak_property_str s 0 in Some (LbIter len lb).

(** lib.rs 91-122, [LineBreakIterator::next]; each turn of the loop reads a character. *)
Fixpoint it_next_f (fuel : nat) (s : list nat) (it : lbiter) : option (option (nat * bool) * lbiter) :=
  match fuel with
  | O => None
  | S f =>
      if (length s <? it_ix it)%nat then Some (None, it)
      else if (it_ix it =? length s)%nat then
        let? new := tab LINEBREAK_STATE_MACHINE (it_state it * N_LINEBREAK_CATEGORIES) in
        Some (Some (length s, 0xc0 <=? new), LbIter (it_ix it + 1) (it_state it))
      else
        let? (lb, len) := linebreak_property_str s (it_ix it) in
        let? (brk, new) := machine (it_state it) lb in
        match brk with
        | Some hard => Some (Some (it_ix it, hard), LbIter (it_ix it + len) new)
        | None => it_next_f f s (LbIter (it_ix it + len) new)
        end
  end.
Definition it_next (s : list nat) (it : lbiter) := it_next_f (length s + 1) s it.

(** [LineBreakIterator::new(s).collect()]: every break of a text. *)
Fixpoint it_collect (fuel : nat) (s : list nat) (it : lbiter) : option (list (nat * bool)) :=
  match fuel with
  | O => None
  | S f =>
      let? (b, it') := it_next s it in
      match b with
      | None => Some []
      | Some b => let? bs := it_collect f s it' in Some (b :: bs)
      end
  end.
Definition line_breaks (s : list nat) : option (list (nat * bool)) :=
  let? it := it_new s in it_collect (length s + 2) s it.

(** lib.rs 149-152, [LineBreakLeafIter]. *)
Record leafiter := LeafIter { li_ix : nat; li_state : N }.

(** lib.rs 165-168, [LineBreakLeafIter::new]. *)
Definition li_new (s : list nat) (ix : nat) : option leafiter :=
  let? (lb, len) := (if (ix =? length s)%nat then Some (0, 0%nat) else linebreak_property_str s ix) in
  Some (LeafIter (ix + len) lb).

(** lib.rs 180-201, [LineBreakLeafIter::next]. *)
Fixpoint li_next_f (fuel : nat) (s : list nat) (it : leafiter) : option (nat * bool * leafiter) :=
  match fuel with
  | O => None
  | S f =>
      if (li_ix it =? length s)%nat then Some (length s, false, LeafIter 0 (li_state it))
      else
        let? (lb, len) := linebreak_property_str s (li_ix it) in
        let? (brk, new) := machine (li_state it) lb in
        match brk with
        | Some hard => Some (li_ix it, hard, LeafIter (li_ix it + len) new)
        | None => li_next_f f s (LeafIter (li_ix it + len) new)
        end
  end.
Definition li_next (s : list nat) (it : leafiter) := li_next_f (length s + 1) s it.

(** linewrap.rs 566-570, [LineBreakCursor]; the rope is a parameter. *)
Record lbcursor := LbCursor { lc_inner : @cursor str rope_info; lc_iter : leafiter; lc_last : nat }.

(** linewrap.rs 573-580, [LineBreakCursor::new]; the default iterator is lib.rs 154-160. *)
Definition lc_new (text : rope) (pos : nat) : option lbcursor :=
  let? inner := c_new text pos in
  let? leaf := c_get_leaf inner in
  let? it := match leaf with Some (s, offset) => li_new s offset | None => Some (LeafIter 0 0) end in
  Some (LbCursor inner it 0).

(** linewrap.rs 583-605, [LineBreakCursor::next]; each turn of the loop is a leaf. *)
Fixpoint lc_next_f (fuel : nat) (text : rope) (c : lbcursor) : option (nat * bool * lbcursor) :=
  match fuel with
  | O => None
  | S f =>
      let? leaf := c_get_leaf (lc_inner c) in
      match leaf with
      | Some (s, offset) =>
          let? (next, hard, it) := li_next s (lc_iter c) in
          if (next <? length s)%nat then Some ((c_pos (lc_inner c) - offset + next)%nat, hard, LbCursor (lc_inner c) it (lc_last c))
          else
            let last := if (length s =? 0)%nat then lc_last c else List.last s 0%nat in
            let? (_, inner) := next_leaf rope_ops text (lc_inner c) in
            lc_next_f f text (LbCursor inner it last)
      | None => Some (c_pos (lc_inner c), (lc_last c =? 10)%nat, c)
      end
  end.
Definition lc_next (text : rope) (c : lbcursor) := lc_next_f (n_len text + 2) text c.

(** linewrap.rs 514-523, the loop of [refill_pot_breaks], with no limit on how many potential breaks are
    asked for at once: all the places a line may be broken at, from a cursor at [pos] on. *)
Fixpoint lc_collect (fuel : nat) (text : rope) (c : lbcursor) (pos : nat) : option (list (nat * bool)) :=
  match fuel with
  | O => None
  | S f =>
      if (pos <? n_len text)%nat then
        let? (next, hard, c') := lc_next text c in
        let? bs := lc_collect f text c' next in Some ((next, hard) :: bs)
      else Some []
  end.
(** linewrap.rs 488-507, [RewrapCtx::new] and the potential breaks it will see. *)
Definition rope_breaks (text : rope) (start : nat) : option (list (nat * bool)) :=
  let? c := lc_new text start in lc_collect (n_len text + 1) text c start.
