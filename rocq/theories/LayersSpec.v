(** What the layers of styles of a buffer should be. *)
From Coq Require Import List Arith Bool Sorted.
From Verif Require Import Base TreeModel TreeSpec SpansModel SpansSpec SpansProofs PropertiesSpans LayersModel.
Import ListNotations.

(** A well-formed sequence of spans over [n] units of text. *)
Definition sound {T} (t : node (sleaf T) unit) (n : nat) : Prop := exists l, holds t l n.
(** The value it has at unit [i]. *)
Definition val {T} (t : node (sleaf T) unit) (i : nat) : option T := match iter t with Some l => value l i | None => None end.

Section Spec.
Context {St M : Type} (st_merge : St -> St -> St).
(** The style of a unit of text, from the styles that the layers give it. *)
Definition combine (l : list (option St)) : option St :=
  fold_left (fun acc v => match acc, v with Some a, Some b => Some (st_merge a b) | Some a, None => Some a | None, v => v end) l None.
(** A layer for a text of [n] units: both its sequences are that long, each scope in it is known
    to it, and each unit has the style of its scope. *)
Definition layer_fits (n : nat) (k : layer St M) : Prop :=
  sound (ly_scope k) n /\ sound (ly_style k) n /\
  Forall (fun s => s <> []) (ly_stacks k) /\ length (ly_lookup k) = length (ly_stacks k) /\
  (forall i x, val (ly_scope k) i = Some x -> x < length (ly_lookup k)) /\
  forall i, val (ly_style k) i = match val (ly_scope k) i with Some x => nth_error (ly_lookup k) x | None => None end.
(** The layers fit a text of [n] units: each of them does, and so do the merged styles, which
    have at each unit the combination of the styles of the layers, in the order of the
    plugins. *)
Definition fits (n : nat) (ls : layers St M) : Prop :=
  StronglySorted lt (map fst (ls_layers ls)) /\ Forall (fun x => layer_fits n (snd x)) (ls_layers ls) /\
  sound (ls_merged ls) n /\
  forall i, val (ls_merged ls) i = combine (map (fun x => val (ly_style (snd x)) i) (ls_layers ls)).
End Spec.

(** ** The styles of scopes *)
Section Theme.
Context {St M : Type} (m_def : M) (m_apply : M -> M -> M) (to_style : M -> St).
(** The modifier of a stack of scopes: those that the theme has for its beginnings, each applied
    over the one before. *)
Definition modifier (hl : list nat -> M) (s : list nat) : M :=
  fold_left m_apply (map (fun n => hl (firstn n s)) (seq 1 (length s))) m_def.
(** The same, leaving the outermost scope out. *)
Definition inner (hl : list nat -> M) (s : list nat) : M :=
  fold_left m_apply (map (fun n => hl (firstn n s)) (seq 2 (length s - 1))) m_def.
(** Each stack comes after the stack it extends. *)
Fixpoint grown (old new : list (list nat)) : Prop :=
  match new with [] => True | s :: new' => s <> [] /\ (length s = 1 \/ In (removelast s) old) /\ grown (old ++ [s]) new' end.
End Theme.
