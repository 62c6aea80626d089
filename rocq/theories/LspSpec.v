(** What a language server makes of a change, after the protocol (version 3). Lines end with a newline. *)
From Coq Require Import List Arith.
From Verif Require Import Base RopeSpec PluginCacheSpec LspModel.
Import ListNotations.

(** The number of UTF-16 code units of a text. *)
Definition units (s : list nat) (n : nat) : Prop := exists cs, chars_of s cs /\ n = utf16_len cs.
(** The line [l] is the text from [b] to [e], without the newline. *)
Definition line_is (t : list nat) (l b e : nat) : Prop :=
  line_at t l b /\ b <= e /\ e <= length t /\ ~ In 10 (slice t b e) /\ (e = length t \/ nth_error t e = Some 10).
(** The position of the offset [o]. *)
Definition position_of (t : list nat) (o : nat) (p : position) : Prop :=
  exists e b, line_is t (fst p) b e /\ b <= o <= e /\ char_boundary t o /\ units (slice t b o) (snd p).
(** The offset a position stands for: "if the character value is greater than the line length it defaults back to the
    line length". *)
Definition denotes (t : list nat) (p : position) (o : nat) : Prop :=
  position_of t o p \/
  exists b e k, line_is t (fst p) b e /\ o = e /\ units (slice t b e) k /\ k < snd p.
(** The text after a change: all of it is given, or what is between two positions is replaced. *)
Definition changed (t : list nat) (ch : change) (r : list nat) : Prop :=
  match c_range ch with
  | None => r = c_text ch
  | Some (p, q) => exists a b, denotes t p a /\ denotes t q b /\ a <= b /\ r = firstn a t ++ c_text ch ++ skipn b t
  end.
(** The server, which had [t], then has [r]. *)
Definition server_has (t : list nat) (l : list change) (r : list nat) : Prop :=
  exists ch, l = [ch] /\ changed t ch r /\ forall r', changed t ch r' -> r' = r.
