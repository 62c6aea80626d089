(** What text is, independently of ropes. *)
From Coq Require Import List Arith Bool.
From Verif Require Import Base.
Import ListNotations.

(** One well-formed UTF-8 character (The Unicode Standard, table 3-7). *)
Definition in_range (lo hi b : nat) : bool := (lo <=? b) && (b <=? hi).
Definition cont (b : nat) : bool := in_range 128 191 b.
Definition utf8_char (c : list nat) : bool :=
  match c with
  | [a] => a <=? 127
  | [a; b] => in_range 194 223 a && cont b
  | [a; b; c] =>
      ((a =? 224) && in_range 160 191 b
       || in_range 225 236 a && cont b
       || (a =? 237) && in_range 128 159 b
       || in_range 238 239 a && cont b) && cont c
  | [a; b; c; d] =>
      ((a =? 240) && in_range 144 191 b
       || in_range 241 243 a && cont b
       || (a =? 244) && in_range 128 143 b) && cont c && cont d
  | _ => false
  end.
(** A text is a sequence of characters. *)
Definition chars_of (s : list nat) (cs : list (list nat)) : Prop :=
  Forall (fun c => utf8_char c = true) cs /\ s = concat cs.
Definition utf8 (s : list nat) : Prop := exists cs, chars_of s cs.
(** An offset between two characters (or at an end). *)
Definition char_boundary (s : list nat) (i : nat) : Prop :=
  exists cs1 cs2, Forall (fun c => utf8_char c = true) (cs1 ++ cs2) /\
    s = concat (cs1 ++ cs2) /\ i = length (concat cs1).

(** The number of newlines of a text. *)
Definition newlines (s : list nat) : nat := count_occ Nat.eq_dec s 10.
(** The number of UTF-16 code units of a character: two for those beyond the basic
    multilingual plane, which are the four-byte ones. *)
Definition utf16_units (c : list nat) : nat := if length c =? 4 then 2 else 1.
Definition utf16_len (cs : list (list nat)) : nat := list_sum (map utf16_units cs).

(** The lines of a text, each with its newline, but for a last one that has none. *)
Inductive raw_lines : list nat -> list (list nat) -> Prop :=
| rl_nil : raw_lines [] []
| rl_last : forall s, s <> [] -> ~ In 10 s -> raw_lines s [s]
| rl_cons : forall l t ls, ~ In 10 l -> raw_lines t ls -> raw_lines (l ++ [10] ++ t) ((l ++ [10]) :: ls).
(** The lines of a text without their endings: a newline, or a carriage return and a
    newline. *)
Inductive text_lines : list nat -> list (list nat) -> Prop :=
| tl_nil : text_lines [] []
| tl_last : forall s, s <> [] -> ~ In 10 s -> text_lines s [s]
| tl_lf : forall l t ls, ~ In 10 l -> (forall l', l <> l' ++ [13]) -> text_lines t ls ->
    text_lines (l ++ [10] ++ t) (l :: ls)
| tl_crlf : forall l t ls, ~ In 10 l -> text_lines t ls -> text_lines (l ++ [13; 10] ++ t) (l :: ls).
