(** What a tree means: the sequence it holds, and when it is well formed. *)
From Coq Require Import List Arith Bool.
From Verif Require Import Base TreeModel.
Import ListNotations.

Section Spec.
Context {L I X : Type} (ops : leafops L I).
(** [lc l]: the sequence of base units a leaf holds.  [V l]: the leaf is within its size
    limit and internally consistent.  [cut s i]: the sequence [s] may be cut at [i].
    [cinfo s]: the summary of a sequence. *)
Context (lc : L -> list X) (V : L -> Prop) (cut : list X -> nat -> Prop) (cinfo : list X -> I).

(** The sequence held by a tree. *)
Fixpoint content (n : node L I) : list X :=
  match n with NLeaf _ _ l => lc l | NInt _ _ _ cs => flat_map content cs end.
(** Its leaves. *)
Fixpoint leaves (n : node L I) : list L :=
  match n with NLeaf _ _ l => [l] | NInt _ _ _ cs => flat_map leaves cs end.

(** A well-formed tree of height [h]: every leaf is at depth [h], internal nodes have
    2 to 8 children which (below the root) are all big enough, and the cached height,
    length and summary are those of the sequence. *)
Fixpoint wf (h : nat) (n : node L I) : Prop :=
  match h, n with
  | 0, NLeaf k i l => V l /\ k = length (lc l) /\ i = cinfo (lc l)
  | S h', NInt hh k i cs =>
      hh = h /\ 2 <= length cs /\ length cs <= MAX_CHILDREN /\
      Forall (wf h') cs /\ Forall (fun c => n_ok ops c = true) cs /\
      k = length (flat_map content cs) /\ i = cinfo (flat_map content cs)
  | _, _ => False
  end.

(** What is required of the leaves (the comments of tree.rs 71-99). *)
Record leaf_spec : Prop := {
  s_len : forall l, V l -> l_len ops l = length (lc l);
  s_def : V (l_default ops) /\ lc (l_default ops) = [];
  s_info : forall l, V l -> i_of ops l = cinfo (lc l);
  s_acc : forall a b, cinfo (a ++ b) = i_acc ops (cinfo a) (cinfo b);
  s_push : forall a b, V a -> V b -> l_ok ops a && l_ok ops b = false ->
    exists a' r, l_push ops a b 0 (length (lc b)) = Some (a', r) /\ V a' /\
      match r with
      | None => lc a' = lc a ++ lc b /\ (l_ok ops a || l_ok ops b = true -> l_ok ops a' = true)
      | Some b' => V b' /\ lc a' ++ lc b' = lc a ++ lc b /\ l_ok ops a' = true /\ l_ok ops b' = true
      end;
  s_sub : forall l i j, V l -> i <= j -> j <= length (lc l) -> cut (lc l) i -> cut (lc l) j ->
    exists l', l_push ops (l_default ops) l i j = Some (l', None) /\ V l' /\ lc l' = slice (lc l) i j;
  s_cut0 : forall s, cut s 0 /\ cut s (length s);
  s_cut : forall a b c i, cut (a ++ b ++ c) (length a + i) -> i <= length b -> cut b i }.
End Spec.
