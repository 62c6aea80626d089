(** What a visual line is to show: its carets, what is selected and found on it, its styles. *)
From Coq Require Import List Arith ZArith Bool.
From Verif Require Import Base RopeModel RopeSpec SelectionModel PropertiesSelection LinewrapSpec MovementSpec ShadowModel ShadowSpec ViewModel ViewSpec SpansSpec DrawModel.
Import ListNotations.
Local Notation region := SelectionModel.region.
Local Open Scope nat_scope.

(** ** Carets *)
(** [on_row], decided. *)
Definition on_rowb (s st : list nat) (l p : nat) : bool :=
  (l <=? last_row st) && (row_start s st l <=? p) && ((p <? row_start s st (l + 1)) || (l =? last_row st) && (p <=? length s)).
(** The columns of visual line [l] with a caret, one for each region that ends there. *)
Definition carets_on (s st : list nat) (sel : list region) (l : nat) : list nat :=
  map (fun x => r_end x - row_start s st l) (filter (fun x => on_rowb s st l (r_end x)) sel).
(** The text does not end in a line break, or has no line, or no caret is at its end. *)
Definition quiet_end (s st : list nat) (sel : list region) : Prop :=
  row_start s st (last_row st) < length s \/ last_row st = 0 \/ forall x, In x sel -> r_end x <> length s.

(** ** Pieces of a line *)
(** Not empty, in order and apart, within a line of [len] bytes. *)
Fixpoint pieces_in (from : nat) (ps : list (nat * nat)) (len : nat) : Prop :=
  match ps with [] => from <= len | (a, b) :: ps' => from <= a /\ a < b /\ pieces_in b ps' len end.
Definition covers (ps : list (nat * nat)) (i : nat) : Prop := exists a b, In (a, b) ps /\ a <= i < b.
(** The pieces show exactly what the regions select of the [a, b) of the text. *)
Definition shows_selected (rs : list region) (a b : nat) (ps : list (nat * nat)) : Prop :=
  pieces_in 0 ps (b - a) /\ forall i, i < b - a -> (covers ps i <-> selected rs (a + i)).

(** ** The client's side of the styles (docs/docs/frontend-protocol.md 573-586) *)
(** The triples: where each span starts, relative to the end of the one before, its length, which is
    positive, and the number of its style. Read as start, end, number. *)
Fixpoint read_styles (l : list Z) (ix : Z) : option (list (nat * nat * nat)) :=
  match l with
  | [] => Some []
  | d :: n :: id :: l' =>
      let a := (ix + d)%Z in
      let b := (a + n)%Z in
      check ((0 <=? a)%Z && (0 <? n)%Z && (0 <=? id)%Z)
        (let? r := read_styles l' b in Some ((Z.to_nat a, Z.to_nat b, Z.to_nat id) :: r))
  | _ => None
  end.
(** Pieces with the number of a style; those of the queries are numbered from one. *)
Definition with_id (id : nat) (ps : list (nat * nat)) : list (nat * nat * nat) := map (fun p => (fst p, snd p, id)) ps.
Fixpoint numbered (k : nat) (hls : list (list (nat * nat))) : list (nat * nat * nat) :=
  match hls with [] => [] | ps :: hls' => with_id (k + 1) ps ++ numbered (k + 1) hls' end.
(** What a number stands for after some messages: the last one counts. *)
Fixpoint stands_for (ms : list message) (id : nat) : option style :=
  match ms with
  | [] => None
  | (k, x) :: ms' => match stands_for ms' id with Some y => Some y | None => if k =? id then Some x else None end
  end.
(** A style shown over the default one: what it leaves open is as there. *)
Definition over_default (fg : nat) (x y : style) : Prop :=
  sy_fg y = Some (match sy_fg x with Some c => c | None => fg end) /\ sy_bg y = sy_bg x /\ sy_weight y = sy_weight x /\
  sy_underline y = sy_underline x /\ sy_italic y = sy_italic x.
(** A style as the code makes them (styles.rs 94). *)
Definition style_ok (x : style) : Prop := sy_prio x <= 1000.
(** The map of a theme with foreground [fg] after lines with some styles were sent: [ms] are the
    messages. *)
Inductive styled (fg : nat) : style_map -> list message -> Prop :=
| styled_new : styled fg (sm_new fg) []
| styled_more sm ms x sm' id ms' : styled fg sm ms -> style_ok x -> get_or_def_style_id sm x = Some (sm', id, ms') -> styled fg sm' (ms ++ ms').

(** ** All the lines *)
(** The lines drawn for a selection: their text, their selected pieces, their carets. *)
Definition drawn (e : env) (sel : list region) (view : list (vline (list nat) (list (nat * nat)))) : Prop :=
  length view = last_row (e_st e) + 1 /\
  forall l x, nth_error view l = Some x ->
    let a := row_start (es e) (e_st e) l in
    let b := row_start (es e) (e_st e) (l + 1) in
    vtext x = slice (es e) a b /\ line_selections sel a b = Some (vstyle x) /\
    line_cursors sel a b (length (es e)) = Some (vcur x) /\ vhard x = match shown (es e) a with Some _ => true | None => false end.
(** The selection only changes what the shadow is told to be stale. *)
Definition repaints (sh sh' : shadow) (view view' : list (vline (list nat) (list (nat * nat)))) : Prop :=
  exists a b w mid a' b' w',
    event_ok view (Change a b w mid) /\ event_ok mid (Change a' b' w' view') /\
    sh' = partial_invalidate (partial_invalidate sh a b w) a' b' w'.
