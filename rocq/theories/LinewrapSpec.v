(** What line wrapping is to do. *)
From Coq Require Import List Arith Lia Bool.
From Verif Require Import Base RopeModel RopeSpec.
Import ListNotations.
Local Notation concat := List.concat.

(** A line of the text begins at [o]. *)
Definition lstart (s : list nat) (o : nat) : Prop := o = 0 \/ 0 < o /\ nth_error s (o - 1) = Some 10.
(** [a, e) is a whole line of the text, with its newline if it has one. *)
Definition para (s : list nat) (a e : nat) : Prop :=
  lstart s a /\ a < e <= length s /\ (nth_error s (e - 1) = Some 10 \/ e = length s) /\
  forall i, a <= i -> S i < e -> nth_error s i <> Some 10.

Section Words.
Context {F : Type} (fzero : F) (fadd : F -> F -> F) (fge fgt : F -> F -> bool) (fis0 : F -> bool).

(** What is assumed of the arithmetic of widths: true of 64-bit floating point numbers. *)
Record width_laws : Prop := {
  wl_zero : fis0 fzero = true;
  wl_fit : forall w m, fge w m = false -> fgt (fadd fzero w) m = false;
  wl_comm : forall a b m, fgt (fadd a b) m = fgt (fadd b a) m;
}.

(** What is assumed of the break opportunities: those of a line of the text are a matter of that
    line's bytes ([po]), they rise to its end, they are between characters, and a newline is a
    mandatory break. *)
Fixpoint rises (lo hi : nat) (l : list (nat * bool)) : Prop :=
  match l with
  | [] => lo = hi
  | (x, _) :: l' => lo < x <= hi /\ rises x hi l'
  end.
Record opps_laws (okt : list nat -> Prop) (opps : list nat -> nat -> list (nat * bool)) (po : list nat -> list (nat * bool)) : Prop := {
  ol_line : forall s a e, okt s -> para s a e ->
    opps s a = map (fun x => (a + fst x, snd x)) (po (slice s a e)) ++ opps s e;
  ol_end : forall s, okt s -> opps s (length s) = [];
  ol_rise : forall s a e, okt s -> para s a e -> rises 0 (e - a) (po (slice s a e));
  ol_char : forall s a e x h, okt s -> para s a e -> In (x, h) (po (slice s a e)) -> is_char_boundary s (a + x) = true;
  ol_hard : forall s a e h, okt s -> para s a e -> nth_error s (e - 1) = Some 10 -> In (e - a, h) (po (slice s a e)) -> h = true;
}.

(** A word: where it ends, its width, and whether a break after it is mandatory. *)
Definition word : Type := nat * F * bool.
Definition wd_end (w : word) : nat := fst (fst w).
Definition wd_width (w : word) : F := snd (fst w).
Definition wd_hard (w : word) : bool := snd w.
(** The words of a line, from its break opportunities. *)
Fixpoint words_from (wid : list nat -> F) (p : list nat) (lo : nat) (l : list (nat * bool)) : list word :=
  match l with
  | [] => []
  | (x, h) :: l' => (x, wid (slice p lo x), h) :: words_from wid p x l'
  end.
(** The width of a row of words, as it is added up. *)
Definition row_width (ws : list word) : F := fold_left fadd (map wd_width ws) fzero.

Context (max : F).
Definition row_fits (ws : list word) : Prop := fgt (row_width ws) max = false.
(** One word as wide as the limit or wider, which has the row for itself but for words of no width. *)
Definition row_wide (ws : list word) : Prop :=
  exists z w, ws = z ++ [w] /\ fis0 (row_width z) = true /\ fge (wd_width w) max = true.
(** A row that is given up after [r], the next word being [w]. *)
Definition row_full (r : list word) (w : word) : Prop :=
  (exists z x, r = z ++ [x] /\ wd_hard x = true) \/ row_wide r \/ ~ row_fits (r ++ [w]).
(** Rows for a line: they fit or hold one wide word; and no row could have taken the next word. *)
Fixpoint rows_ok (rows : list (list word)) : Prop :=
  match rows with
  | [] => True
  | r :: rest =>
      r <> [] /\ (row_fits r \/ row_wide r \/ exists z x, r = z ++ [x] /\ wd_hard x = true /\ fis0 (row_width z) = true) /\
      match rest with (w :: _) :: _ => row_full r w | _ => True end /\ rows_ok rest
  end.
(** The places where the rows end, but for the last. *)
Definition row_ends (rows : list (list word)) : list nat :=
  match rows with
  | [] => []
  | _ => map (fun r => match rev r with w :: _ => wd_end w | [] => 0 end) (removelast rows)
  end.
End Words.

(** ** The visual lines of a text: where they begin *)
Record visual (s : list nat) (st : list nat) : Prop := {
  vi_first : hd_error st = Some 0;
  vi_sorted : forall i x y, nth_error st i = Some x -> nth_error st (S i) = Some y -> x < y;
  vi_hard : forall o, 0 < o -> nth_error s (o - 1) = Some 10 -> In o st;
  vi_in : forall o, In o st -> o <= length s /\ is_char_boundary s o = true;
}.
(** The visual line in which [o] lies. *)
Definition row_of (st : list nat) (o : nat) : nat := length (filter (fun x => x <=? o) st) - 1.
(** The number shown in front of the visual line that begins at [o]: that of the line of the text
    which begins there, from one. *)
Definition shown (s : list nat) (o : nat) : option nat :=
  if (o =? 0) || match nth_error s (o - 1) with Some 10 => true | _ => false end
  then Some (count_occ Nat.eq_dec (firstn o s) 10 + 1) else None.
(** What wrapping is to come to: the line [a, e) of the text is shown in rows. *)
Section Wrapped.
Context {F : Type} (fzero : F) (fadd : F -> F -> F) (fge fgt : F -> F -> bool) (fis0 : F -> bool) (max : F) (wid : list nat -> F)
  (po : list nat -> list (nat * bool)).
Definition wrapped_line (s st : list nat) (a e : nat) : Prop :=
  exists rows, concat rows = words_from wid (slice s a e) 0 (po (slice s a e)) /\
    rows_ok fzero fadd fge fgt fis0 max rows /\
    forall o, a < o < e -> (In o st <-> In (o - a) (row_ends rows)).
Definition wrapped (s st : list nat) : Prop := forall a e, para s a e -> wrapped_line s st a e.
(** And nothing but lines and rows. *)
Definition no_more (s st : list nat) : Prop :=
  forall o, In o st -> o = 0 \/ nth_error s (o - 1) = Some 10 \/ exists a e, para s a e /\ a < o < e.
End Wrapped.

(** A change of the visual lines from [st], of a text of length [n], to [st'], of a text of length
    [n'], in which the bytes [b, e) of the old text were replaced: [old] lines from [start] on are
    replaced by [new] lines. The lines before are as they were, and so are those after. *)
Definition lines_kept (st : list nat) (n : nat) (st' : list nat) (n' start old new b e : nat) : Prop :=
  start + old <= length st /\ length st' + old = length st + new /\
  (forall l, l <= start -> nth l st' n' = nth l st n /\ nth l st n <= b) /\
  (forall l, start + old <= l -> nth (l + new - old) st' n' = nth l st n + n' - n /\ e <= nth l st n).
