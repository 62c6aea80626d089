(** What the gestures and commands of a view are to do with its selection. *)
From Coq Require Import List Arith ZArith Bool.
From Verif Require Import Base TreeModel RopeModel RopeSpec RopeProofs SelectionModel PropertiesSelection PropertiesWord DeltaModel DeltaSpec EditOpsSpec LinewrapSpec
  MovementModel MovementSpec ViewModel.
Import ListNotations.
Local Notation region := SelectionModel.region.
Local Open Scope nat_scope.

(** [a, b) is the line of the text on which [p] is, with its line break. *)
Definition line_of (s : list nat) (p a b : nat) : Prop :=
  starts_line s a /\ a <= p /\ (forall z, a < z <= p -> ~ starts_line s z) /\
  (nearest_after (starts_line s) p b \/ last_line s p /\ b = length s).
(** [a, b) is the word at [p] for a double click (see C44). *)
Definition word_of (s : list nat) (p a b : nat) : Prop :=
  a <= p <= b /\ left_stop s p a /\ (forall y, a < y <= p -> ~ left_stop s p y) /\ right_stop s p b /\ (forall y, p <= y < b -> ~ right_stop s p y).
(** What a gesture takes at [p]. *)
Definition unit_of (s : list nat) (g : granularity) (p a b : nat) : Prop :=
  match g with GPoint => a = p /\ b = p | GWord => word_of s p a b | GLine => line_of s p a b end.

(** ** The surroundings of a view: text, grapheme boundaries, visual lines *)
Record env := Env { e_text : rope; e_gb : nat -> bool; e_lo : line_off; e_range : nat -> option (nat * nat); e_st : list nat }.
Definition es (e : env) : list nat := rcontent (e_text e).
Record env_ok (e : env) : Prop := {
  eo_text : exists h, rope_wf h (e_text e);
  eo_gb : grapheme_bounds (es e) (e_gb e);
  eo_lines : answers (es e) (e_st e) (e_lo e);
  eo_range : forall l, l <= last_row (e_st e) -> exists a b, e_range e l = Some (a, b) /\ line_of (es e) (row_start (es e) (e_st e) l) a b;
}.
Definition do_in (e : env) : view -> view_event -> option view := do_edit (e_gb e) (e_text e) (e_lo e) (e_range e).

(** Between characters at both ends; the caret is drawn on the line that begins at its place. *)
Definition proper (s : list nat) (x : region) : Prop := char_boundary s (r_start x) /\ char_boundary s (r_end x) /\ r_aff x = Downstream.
(** A selection that can be shown and edited: never without a region. *)
Definition sound (s : list nat) (sel : list region) : Prop := sel <> [] /\ disjoint_in_order sel /\ forall x, In x sel -> proper s x.

(** What the commands that can panic ask for; see the refutations. *)
Definition sane (e : env) (v : view) (ev : view_event) : Prop :=
  match ev with
  | EMove m => forall x, In x (vw_sel v) -> ~ empty_end (es e) (e_st e) m x false
  | EModify m => forall x, In x (vw_sel v) -> ~ empty_end (es e) (e_st e) m x true
  | EAddAbove => forall x, In x (vw_sel v) -> ~ empty_end (es e) (e_st e) MUpExactPosition x false
  | EAddBelow => forall x, In x (vw_sel v) -> ~ empty_end (es e) (e_st e) MDownExactPosition x false
  | EScroll f l => Z.to_nat f < Z.to_nat l
  | EIntoLines => forall x, In x (vw_sel v) -> lo x < hi x -> char_boundary (es e) (hi x - 1)
  | _ => True
  end.
(** An edit as the editor makes it: it keeps characters whole. *)
Definition keeps_chars (s : list nat) (d : delta nat) : Prop :=
  Forall (fun x => match x with Copy a b => char_boundary s a /\ char_boundary s b | Insert t => utf8 t end) (els d).

(** ** Histories of a view *)
Inductive vreach : env -> view -> Prop :=
| vr_new e : env_ok e -> vreach e view_new
| vr_event e v ev v' : vreach e v -> sane e v ev -> do_in e v ev = Some v' -> vreach e v'
  (** The text is wrapped anew. *)
| vr_lines e v e' : vreach e v -> env_ok e' -> es e' = es e -> vreach e' v
  (** The text is edited, here or elsewhere. *)
| vr_edit e v d dr e' v' : vreach e v -> env_ok e' -> wf_delta d -> keeps_chars (es e) d -> apply d (es e) = Some (es e') ->
    after_edit_selection (e_lo e') v d dr = Some v' -> vreach e' v'.

(** The caret that was moved last is in the window, which is moved no more than needed. *)
Definition in_view (e : env) (v v' : view) : Prop :=
  exists rs x l, vw_sel v' = rs ++ [x] /\ vw_scroll v' = Some (r_end x) /\ on_row (es e) (e_st e) l (r_end x) /\
    vw_height v' = vw_height v /\ vw_first v' <= l < vw_first v' + vw_height v' /\
    (vw_first v <= l < vw_first v + vw_height v -> vw_first v' = vw_first v) /\
    (l < vw_first v -> vw_first v' = l) /\ (vw_first v + vw_height v <= l -> vw_first v' + vw_height v' = l + 1).
(** The commands that bring the caret into view. *)
Definition scrolls (v : view) (ev : view_event) : Prop :=
  match ev with
  | EMove _ | EModify _ | EAddAbove | EAddBelow | EGotoLine _ | ECollapse => True
  | EGesture _ _ (Select g multi) => g <> GPoint \/ multi = false
  | EGesture _ _ (SelectExtend _) => True
  | EGesture _ _ GDrag | EDrag _ _ => vw_drag v <> None
  | EClick _ _ shift _ => shift = true
  | _ => False
  end.
(** [sel'] selects what [sel] does and [a, b) besides. *)
Definition adds (sel sel' : list region) (a b : nat) : Prop :=
  disjoint_in_order sel' /\ forall p, (selected sel' p <-> selected sel p \/ a <= p < b) /\ (touched sel' p <-> touched sel p \/ a <= p <= b).
(** A press at [p], to add a caret there, takes the region there away, unless it is the only one. *)
Definition toggles (sel sel' : list region) (p : nat) : Prop :=
  exists a x b, sel = a ++ x :: b /\ Forall (fun y => hi y < p) a /\ lo x <= p <= hi x /\ a ++ b <> [] /\ sel' = a ++ b.
(** From a fixed unit [mn, mx) to the unit [a, b) at [q]; the caret is at the far end. *)
Definition reaches (mn mx q a b : nat) : region := if mn <=? q then region_new mn b else region_new mx a.
(** [sel'] is [sel] with a region. *)
Definition unites (sel sel' : list region) (x : region) : Prop := adds sel sel' (lo x) (hi x) /\ (sel = [] -> sel' = [x]).
(** Commands one after the other. *)
Fixpoint do_all (e : env) (v : view) (evs : list view_event) : option view :=
  match evs with [] => Some v | ev :: evs' => let? v' := do_in e v ev in do_all e v' evs' end.
Definition drags (ps : list (nat * nat)) : list view_event := map (fun p => EGesture (fst p) (snd p) GDrag) ps.
