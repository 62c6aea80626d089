(** Where a movement of the caret is to go, from the text, the visual lines and the grapheme
    boundaries. *)
From Coq Require Import List Arith Bool.
From Verif Require Import Base RopeModel RopeSpec SelectionModel PropertiesSelection PropertiesWord EditOpsSpec LinewrapSpec MovementModel.
Import ListNotations.
Local Notation region := SelectionModel.region.

(** The nearest place with a property, on either side of [p]. *)
Definition nearest_before (P : nat -> Prop) (p q : nat) : Prop := q < p /\ P q /\ forall z, q < z < p -> ~ P z.
Definition nearest_after (P : nat -> Prop) (p q : nat) : Prop := p < q /\ P q /\ forall z, p < z < q -> ~ P z.

Section Rows.
(** The text, and where its visual lines begin. *)
Context (s : list nat) (st : list nat).
Notation n := (length s).
(** Where visual line [l] begins; past the last one it is the end of the text. *)
Definition row_start (l : nat) : nat := nth l st n.
Definition last_row : nat := length st - 1.
(** [p] is on visual line [l]: a place where a line is broken is on the line it begins. *)
Definition on_row (l p : nat) : Prop := l <= last_row /\ row_start l <= p /\ (p < row_start (l + 1) \/ l = last_row /\ p <= n).

(** What a [LineOffset] is to answer. *)
Record answers (lo : line_off) : Prop := {
  an_visual : visual s st;
  an_line : forall p, char_boundary s p -> exists l, lo_line_of_offset lo p = Some l /\ on_row l p;
  an_offset : forall l, lo_offset_of_line lo l = Some (row_start l);
}.

Context (gb : nat -> bool).
(** The place for a column of visual line [l]: the last grapheme boundary on the line that is not
    beyond the column; the end of the text if there is no such line. *)
Definition place (l col q : nat) : Prop :=
  last_row < l /\ q = n \/
  l <= last_row /\ gb q = true /\ on_row l q /\ q <= row_start l + col /\
    forall g, gb g = true -> on_row l g -> g <= row_start l + col -> g <= q.

(** The end that moves: the end of the selection if it is extended, otherwise the edge on the side
    of the motion. *)
Definition active (x : region) (up modify : bool) : nat := if modify then r_end x else if up then lo x else hi x.
(** The column to keep: the one remembered, or that of the place. *)
Definition keeps_col (x : region) (p l col : nat) : Prop :=
  match r_horiz x with Some c => col = c | None => col = p - row_start l end.
(** Up or down by [d] visual lines, to the same column, and to the edge of the text if there are not
    so many; the column is remembered. *)
Definition vertical (x : region) (up : bool) (d : nat) (modify : bool) (q : nat) (hz : option nat) : Prop :=
  exists l col, on_row l (active x up modify) /\ keeps_col x (active x up modify) l col /\ hz = Some col /\
    if up then (l < d /\ q = 0 \/ d <= l /\ place (l - d) col q)
    else (last_row < l + d /\ q = n \/ l + d <= last_row /\ place (l + d) col q).

(** The columns of visual line [l]: its last one is where the next line is no further away. *)
Definition has_col (l col : nat) : Prop := on_row l (row_start l + col).
(** Up or down to the nearest visual line that has the column, and nowhere if none has. A column
    past the end of the line is first cut down to the line. *)
Definition exact (x : region) (up : bool) (modify : bool) (q : nat) (hz : option nat) : Prop :=
  exists l col c, on_row l (active x up modify) /\ keeps_col x (active x up modify) l col /\
    has_col l c /\ c <= col /\ (forall c', has_col l c' -> c' <= col -> c' <= c) /\
    exists l', place l' c q /\ (hz = Some c \/ up = true /\ l = 0 /\ hz = Some col) /\
      ((if up then l' < l /\ has_col l' c /\ (forall k, l' < k < l -> ~ has_col k c)
        else l < l' /\ has_col l' c /\ (forall k, l < k < l' -> ~ has_col k c)) \/
       l' = l /\ forall k, (if up then k < l else l < k) -> ~ has_col k c).

(** The end of the text line on which [p] is: before its line break, which is one grapheme. *)
Definition line_end (p q e : nat) : Prop :=
  nearest_after (starts_line s) p e /\ nearest_before (fun g => gb g = true) e q.
Definition last_line (p : nat) : Prop := forall z, p < z -> ~ starts_line s z.

(** Where a movement goes, and the column it remembers. *)
Definition moves (m : movement) (height : nat) (x : region) (modify : bool) (q : nat) (hz : option nat) : Prop :=
  match m with
  | MLeft =>
      if (lo x =? hi x) || modify then
        nearest_before (fun g => gb g = true) (r_end x) q /\ hz = None \/ r_end x = 0 /\ q = 0 /\ hz = r_horiz x
      else q = lo x /\ hz = None
  | MRight =>
      if (lo x =? hi x) || modify then
        nearest_after (fun g => gb g = true) (r_end x) q /\ hz = None \/ r_end x = n /\ q = n /\ hz = r_horiz x
      else q = hi x /\ hz = None
  | MLeftWord => hz = None /\ (nearest_before (word_begins s) (r_end x) q \/ r_end x = 0 /\ q = 0)
  | MRightWord => hz = None /\ (nearest_after (word_ends s) (r_end x) q \/ r_end x = n /\ q = n)
  | MLeftOfLine => hz = None /\ exists l, on_row l (r_end x) /\ q = row_start l
  | MRightOfLine => hz = None /\ exists l, on_row l (r_end x) /\ gb q = true /\ on_row l q /\ forall g, gb g = true -> on_row l g -> g <= q
  | MUp => vertical x true 1 modify q hz
  | MDown => vertical x false 1 modify q hz
  | MUpPage => vertical x true (Nat.max 1 (height - 2)) modify q hz
  | MDownPage => vertical x false (Nat.max 1 (height - 2)) modify q hz
  | MUpExactPosition => exact x true modify q hz
  | MDownExactPosition => exact x false modify q hz
  | MStartOfParagraph => hz = None /\ starts_line s q /\ q <= r_end x /\ forall z, q < z <= r_end x -> ~ starts_line s z
  | MEndOfParagraph => hz = None /\ ((exists e, line_end (r_end x) q e) \/ last_line (r_end x) /\ q = n)
  | MEndOfParagraphKill =>
      hz = None /\ ((exists e p, line_end (r_end x) p e /\ q = if p =? r_end x then e else p) \/ last_line (r_end x) /\ q = n)
  | MStartOfDocument => hz = None /\ q = 0
  | MEndOfDocument => hz = None /\ q = n
  end.

(** The cases in which the code does as [moves] says; see the refutations for the others. *)
Definition ordinary (m : movement) (x : region) (modify : bool) : Prop :=
  match m with
  | MStartOfParagraph => starts_line s (r_end x) -> r_end x = 0
  | MEndOfParagraphKill => last_line (r_end x) -> r_end x = n
  | MUpExactPosition | MDownExactPosition =>
      forall l col, let up := match m with MUpExactPosition => true | _ => false end in
        on_row l (active x up modify) -> keeps_col x (active x up modify) l col ->
        (l = last_row -> col <= n - row_start l) /\ (l < last_row -> col <> row_start (l + 1) - row_start l) /\ (up = false -> l < last_row ->
           forall c, n = row_start last_row + c -> has_col l c -> c <= col -> ~ (forall c', has_col l c' -> c' <= col -> c' <= c))
  | _ => True
  end.
(** The case in which it panics. *)
Definition empty_end (m : movement) (x : region) (modify : bool) : Prop :=
  match m with
  | MUpExactPosition | MDownExactPosition =>
      exists c, r_horiz x = Some c /\ 0 < c /\ row_start last_row = n /\
        active x (match m with MUpExactPosition => true | _ => false end) modify = n /\
        (m = MUpExactPosition -> 0 < last_row)
  | _ => False
  end.
End Rows.
