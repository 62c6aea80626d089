(** Model of rust/syntect-plugin/src/stackmap.rs. A [Scope] is an opaque value that can only be
    compared and hashed: a [nat]. A [HashMap] is an association list without the order mattering.
    Overflow of the [u32] identifier is not modelled. *)
From Coq Require Import List Arith Bool.
From Verif Require Import Base.
Import ListNotations.

(** The standard library's [HashMap]: [get] and [insert]. *)
Fixpoint hm_get {V} (m : list (nat * V)) (k : nat) : option V :=
  match m with [] => None | (k', v) :: m' => if k' =? k then Some v else hm_get m' k end.
Fixpoint hm_insert {V} (m : list (nat * V)) (k : nat) (v : V) : list (nat * V) :=
  match m with
  | [] => [(k, v)]
  | (k', v') :: m' => if k' =? k then (k, v) :: m' else (k', v') :: hm_insert m' k v
  end.

(** stackmap.rs 24-28, [Node]. *)
Inductive snode := SNode (value : option nat) (children : list (nat * snode)).
Definition sn_value (n : snode) := let (v, _) := n in v.
Definition sn_children (n : snode) := let (_, c) := n in c.
(** stackmap.rs 41-44, [LookupResult]. *)
Inductive lookup := Existing (v : nat) | New (v : nat).

(** stackmap.rs 48-50, [Node::new]. *)
Definition sn_new (v : nat) : snode := SNode (Some v) [].
(** stackmap.rs 52-78, [Node::get_value]; an empty stack panics. *)
Fixpoint sn_get_value (n : snode) (stack : list nat) (next_id : nat) : option (snode * lookup) :=
  let (value, children) := n in
  match stack with
  | [] => None
  | [first] =>
      match hm_get children first with
      | None => Some (SNode value (hm_insert children first (sn_new next_id)), New next_id)
      | Some (SNode None cs) => Some (SNode value (hm_insert children first (SNode (Some next_id) cs)), New next_id)
      | Some (SNode (Some v) _) => Some (n, Existing v)
      end
  | first :: rest =>
      let child := match hm_get children first with Some c => c | None => SNode None [] end in
      let? (child', r) := sn_get_value child rest next_id in
      Some (SNode value (hm_insert children first child'), r)
  end.

(** stackmap.rs 30-35, [StackMap]. *)
Record stackmap := SMap { sm_next : nat; sm_scopes : snode }.
Definition sm_default : stackmap := SMap 0 (SNode None []).
(** stackmap.rs 91-93, [is_new]. *)
Definition is_new (r : lookup) : bool := match r with New _ => true | Existing _ => false end.
(** stackmap.rs 80-88, [StackMap::get_value]. *)
Definition sm_get_value (m : stackmap) (stack : list nat) : option (stackmap * lookup) :=
  match stack with
  | [] => None
  | _ =>
      let? (scopes, r) := sn_get_value (sm_scopes m) stack (sm_next m) in
      Some (SMap (if is_new r then sm_next m + 1 else sm_next m) scopes, r)
  end.

(** A sequence of lookups. *)
Fixpoint sm_run (m : stackmap) (stacks : list (list nat)) : option (list lookup) :=
  match stacks with
  | [] => Some []
  | s :: ss => let? (m', r) := sm_get_value m s in let? rs := sm_run m' ss in Some (r :: rs)
  end.
