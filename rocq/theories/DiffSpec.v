(** What the difference of two texts is stated with. *)
From Coq Require Import List.
From Verif Require Import RopeSpec.
Import ListNotations.

(** The text has the character [c]. *)
Definition has_char (s c : list nat) : Prop := exists a b, s = a ++ c ++ b /\ utf8 a /\ utf8_char c = true /\ utf8 b.
(** No two different characters, one of each text, end with the same byte. *)
Definition distinct_tails (s t : list nat) : Prop := forall u v z, has_char s (u ++ [z]) -> has_char t (v ++ [z]) -> u = v.
