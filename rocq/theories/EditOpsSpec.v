(** What the editing commands are to do, from the text and the selection. *)
From Coq Require Import List Arith Bool.
From Verif Require Import Base DeltaModel DeltaSpec RopeSpec SelectionModel PropertiesSelection.
Import ListNotations.
Local Notation region := SelectionModel.region.

(** A delta that takes the text [s] to the text [t], and cuts [s] only between characters. *)
Definition makes (d : delta nat) (s t : list nat) : Prop :=
  wf_delta d /\ base_len d = length s /\ apply d s = Some t /\
  Forall (fun x => match x with Copy a b => char_boundary s a /\ char_boundary s b | Insert _ => True end) (els d).
(** A selection of whole characters of the text. *)
Definition selects (s : list nat) (rs : list region) : Prop :=
  disjoint_in_order rs /\ forall x, In x rs -> char_boundary s (lo x) /\ char_boundary s (hi x).
(** The text a region selects. *)
Definition text_of (s : list nat) (x : region) : list nat := firstn (hi x - lo x) (skipn (lo x) s).
(** Whether a byte is in a selected region, and the text without the selected bytes. *)
Definition covered (rs : list region) (p : nat) : bool := existsb (fun x => (lo x <=? p) && (p <? hi x)) rs.
Definition without (rs : list region) (s : list nat) : list nat :=
  map snd (filter (fun q => negb (covered rs (fst q))) (combine (seq 0 (length s)) s)).
(** The texts, with newlines between them. *)
Fixpoint join (ts : list (list nat)) : list nat :=
  match ts with
  | [] => []
  | [t] => t
  | t :: ts' => t ++ [10] ++ join ts'
  end.
(** The selected texts that are not empty selections. *)
Definition selections (rs : list region) : list region := filter (fun x => lo x <? hi x) rs.

(** A line starts at an offset. *)
Definition starts_line (s : list nat) (o : nat) : Prop := o <= length s /\ (o = 0 \/ nth_error s (o - 1) = Some 10).
(** The line that starts at [o] is one the region lies on: the one its beginning is on, or one
    that starts inside it. *)
Definition lies_on (s : list nat) (x : region) (o : nat) : Prop :=
  starts_line s o /\ (o <= lo x /\ (forall p, o < p <= lo x -> ~ starts_line s p) \/ lo x < o < hi x).
(** The column of an offset: the bytes since the line started. *)
Definition column (s : list nat) (p c : nat) : Prop :=
  c <= p /\ starts_line s (p - c) /\ forall q, p - c < q <= p -> ~ starts_line s q.
(** The lines of a region, from the start of the first to the end of the last with its newline. *)
Definition line_block (s : list nat) (x : region) (o e : nat) : Prop :=
  (starts_line s o /\ o <= lo x /\ forall p, o < p <= lo x -> ~ starts_line s p) /\
  (starts_line s e /\ hi x < e /\ forall p, hi x < p < e -> ~ starts_line s p).

(** Increasing. *)
Fixpoint increasing (l : list nat) : Prop :=
  match l with
  | a :: (b :: _) as l' => a < b /\ increasing l'
  | _ => True
  end.
(** Grapheme boundaries: among the character boundaries, with the ends of the text and the starts
    of lines. *)
Definition grapheme_bounds (s : list nat) (gb : nat -> bool) : Prop :=
  gb (length s) = true /\ (forall o, starts_line s o -> gb o = true) /\ forall o, gb o = true -> char_boundary s o.
(** A text of white space only. *)
Definition white_text (white : list nat -> bool) (t : list nat) : Prop :=
  exists ws, Forall (fun c => utf8_char c = true /\ white c = true) ws /\ t = List.concat ws.
(** The tab text for a width: spaces, or a tab. *)
Definition tab_of (spaces : bool) (n : nat) : list nat := if spaces then repeat 32 n else [9].
(** A region with lines that start inside it. *)
Definition several_lines (s : list nat) (x : region) : Prop := exists o, starts_line s o /\ lo x < o < hi x.
(** The edits of a tab at a region: its lines are indented, or it is replaced up to the next tab stop. *)
Definition tab_edits (s : list nat) (spaces : bool) (size : nat) (x : region) (es : list (nat * nat * list nat)) : Prop :=
  several_lines s x /\ (exists os, increasing os /\ (forall o, In o os <-> lies_on s x o) /\ es = map (fun o => (o, o, tab_of spaces size)) os) \/
  ~ several_lines s x /\ (exists c, column s (r_start x) c /\ es = [(lo x, hi x, tab_of spaces (size - c mod size))]).
(** Pairs in order. *)
Definition pair_lt (a b : nat * nat) : Prop := fst a < fst b \/ fst a = fst b /\ snd a < snd b.
Fixpoint pairs_increasing (l : list (nat * nat)) : Prop :=
  match l with
  | a :: (b :: _) as l' => pair_lt a b /\ pairs_increasing l'
  | _ => True
  end.
