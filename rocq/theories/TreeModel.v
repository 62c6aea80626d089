(** Model of rust/rope/src/tree.rs: the b-tree under ropes, breaks and spans.
    [Arc] sharing and copy-on-write are not modelled: nodes are values.
    [debug_assert!]s are modelled as panics. *)
From Coq Require Import List Arith Bool.
From Verif Require Import Base.
Import ListNotations.

(** tree.rs 22-23. *)
Definition MIN_CHILDREN := 4.
Definition MAX_CHILDREN := 8.

(** tree.rs 26-108, the traits [NodeInfo] and [Leaf].  [l_push] is [push_maybe_split]:
    the changed leaf and the leaf that was split off, if any; its interval is given by
    its ends.  [NodeInfo::interval] is the default
    (nothing overrides it). *)
Record leafops (L I : Type) := LeafOps {
  l_len : L -> nat;
  l_ok : L -> bool;
  l_push : L -> L -> nat -> nat -> option (L * option L);
  l_default : L;
  i_acc : I -> I -> I;
  i_of : L -> I }.
Arguments LeafOps {L I}.
Arguments l_len {L I}.
Arguments l_ok {L I}.
Arguments l_push {L I}.
Arguments l_default {L I}.
Arguments i_acc {L I}.
Arguments i_of {L I}.

(** tree.rs 124-138, [Node], [NodeBody], [NodeVal]. *)
Inductive node (L I : Type) : Type :=
| NLeaf (len : nat) (info : I) (l : L)
| NInt (height len : nat) (info : I) (cs : list (node L I)).
Arguments NLeaf {L I}.
Arguments NInt {L I}.

Section Tree.
Context {L I : Type} (ops : leafops L I).
Notation node := (node L I).

(** tree.rs 229-249. *)
Definition n_height (n : node) : nat := match n with NLeaf _ _ _ => 0 | NInt h _ _ _ => h end.
Definition n_len (n : node) : nat := match n with NLeaf k _ _ => k | NInt _ k _ _ => k end.
Definition n_info (n : node) : I := match n with NLeaf _ i _ => i | NInt _ _ i _ => i end.
(** tree.rs 255-269, [get_children] and [get_leaf] panic on the wrong kind of node. *)
Definition get_children (n : node) : option (list node) :=
  match n with NLeaf _ _ _ => None | NInt _ _ _ cs => Some cs end.
Definition get_leaf (n : node) : option L :=
  match n with NLeaf _ _ l => Some l | NInt _ _ _ _ => None end.

(** tree.rs 199-203, [from_leaf]. *)
Definition from_leaf (l : L) : node := NLeaf (l_len ops l) (i_of ops l) l.

(** tree.rs 287-292, [is_ok_child]. *)
Definition n_ok (n : node) : bool :=
  match n with
  | NLeaf _ _ l => l_ok ops l
  | NInt _ _ _ cs => MIN_CHILDREN <=? length cs
  end.

(** tree.rs 211-226, [from_nodes]. *)
Definition from_nodes (nodes : list node) : option node :=
  match nodes with
  | [] => None
  | c :: rest =>
      let h := n_height c + 1 in
      if (1 <? length nodes) && (length nodes <=? MAX_CHILDREN) && n_ok c
         && forallb (fun x => (n_height x + 1 =? h) && n_ok x) rest
      then Some (NInt h (fold_left (fun k x => k + n_len x) rest (n_len c))
                      (fold_left (fun i x => i_acc ops i (n_info x)) rest (n_info c)) nodes)
      else None
  end.

(** tree.rs 294-307, [merge_nodes]. *)
Definition merge_nodes (c1 c2 : list node) : option node :=
  let k := length c1 + length c2 in
  if k <=? MAX_CHILDREN then from_nodes (c1 ++ c2)
  else
    let splitpoint := Nat.min MAX_CHILDREN (k - MIN_CHILDREN) in
    let? ln := from_nodes (firstn splitpoint (c1 ++ c2)) in
    let? rn := from_nodes (skipn splitpoint (c1 ++ c2)) in
    from_nodes [ln; rn].

(** tree.rs 309-332, [merge_leaves]. *)
Definition merge_leaves (r1 r2 : node) : option node :=
  let? l1 := get_leaf r1 in
  let? l2 := get_leaf r2 in
  if l_ok ops l1 && l_ok ops l2 then from_nodes [r1; r2]
  else
    let? (l1', new) := l_push ops l1 l2 0 (l_len ops l2) in
    match new with
    | Some l => from_nodes [from_leaf l1'; from_leaf l]
    | None => Some (from_leaf l1')
    end.

(** tree.rs 334-374, [concat]; the recursion descends one level at a time, [fuel] bounds
    it. *)
Fixpoint concat_f (fuel : nat) (r1 r2 : node) : option node :=
  match fuel with
  | 0 => None
  | S f =>
      let h1 := n_height r1 in
      let h2 := n_height r2 in
      match Nat.compare h1 h2 with
      | Lt =>
          let? c2 := get_children r2 in
          if (h1 =? h2 - 1) && n_ok r1 then merge_nodes [r1] c2
          else
            match c2 with
            | [] => None
            | c :: rest =>
                let? nr := concat_f f r1 c in
                if n_height nr =? h2 - 1 then merge_nodes [nr] rest
                else let? cs := get_children nr in merge_nodes cs rest
            end
      | Eq =>
          if n_ok r1 && n_ok r2 then from_nodes [r1; r2]
          else if h1 =? 0 then merge_leaves r1 r2
          else
            let? c1 := get_children r1 in
            let? c2 := get_children r2 in
            merge_nodes c1 c2
      | Gt =>
          let? c1 := get_children r1 in
          if (h2 =? h1 - 1) && n_ok r2 then merge_nodes c1 [r2]
          else
            match rev c1 with
            | [] => None
            | c :: ri =>
                let? nr := concat_f f c r2 in
                if n_height nr =? h1 - 1 then merge_nodes (rev ri) [nr]
                else let? cs := get_children nr in merge_nodes (rev ri) cs
            end
      end
  end.
Definition concat (r1 r2 : node) : option node := concat_f (S (n_height r1 + n_height r2)) r1 r2.

(** ** tree.rs 501-614, [TreeBuilder]
    The stack, top first; each vector in order. *)
Definition builder := list (list node).
Definition b_new : builder := [].

(** tree.rs 606-613, [pop], of the vector on top. *)
Definition pop_vec (v : list node) : option node :=
  match v with [x] => Some x | _ => from_nodes v end.

(** tree.rs 529-559, the case of equal heights. *)
Definition push_equal (tos : list node) (n : node) : option (list node) :=
  match rev tos with
  | [] => None
  | last :: ri =>
      let init := rev ri in
      if n_ok last && n_ok n then Some (tos ++ [n])
      else if n_height n =? 0 then
        let? l := get_leaf last in
        let? l2 := get_leaf n in
        let? (l', new) := l_push ops l l2 0 (n_len n) in
        Some (init ++ [from_leaf l'] ++ match new with Some x => [from_leaf x] | None => [] end)
      else
        let? c1 := get_children last in
        let? c2 := get_children n in
        let k := length c1 + length c2 in
        if k <=? MAX_CHILDREN then let? x := from_nodes (c1 ++ c2) in Some (init ++ [x])
        else
          let splitpoint := Nat.min MAX_CHILDREN (k - MIN_CHILDREN) in
          let? ln := from_nodes (firstn splitpoint (c1 ++ c2)) in
          let? rn := from_nodes (skipn splitpoint (c1 ++ c2)) in
          Some (init ++ [ln; rn])
  end.

(** tree.rs 518-570, [push]; every turn of the loop but the last pops the stack. *)
Fixpoint b_push (b : builder) (n : node) : option builder :=
  match b with
  | [] => Some [[n]]
  | tos :: rest =>
      match tos with
      | [] => None
      | c :: _ =>
          match Nat.compare (n_height c) (n_height n) with
          | Lt =>
              let? p := pop_vec tos in
              let? n' := concat p n in
              b_push rest n'
          | Eq =>
              let? tos' := push_equal tos n in
              if length tos' <? MAX_CHILDREN then Some (tos' :: rest)
              else let? n' := pop_vec tos' in b_push rest n'
          | Gt => Some ([n] :: tos :: rest)
          end
      end
  end.

(** tree.rs 573-582, [push_leaves] and [push_leaf]. *)
Definition push_leaf (b : builder) (l : L) : option builder := b_push b (from_leaf l).
Fixpoint push_leaves (b : builder) (ls : list L) : option builder :=
  match ls with [] => Some b | l :: ls' => let? b' := push_leaf b l in push_leaves b' ls' end.

(** tree.rs 101-107, [Leaf::subseq]. *)
Definition leaf_subseq (l : L) (s e : nat) : option L :=
  let? (l', new) := l_push ops (l_default ops) l s e in
  match new with None => Some l' | Some _ => None end.

(** tree.rs 585-587, [push_leaf_slice]. *)
Definition push_leaf_slice (b : builder) (l : L) (s e : nat) : option builder :=
  let? l' := leaf_subseq l s e in b_push b (from_leaf l').

(** tree.rs 593-603, [build]. *)
Fixpoint build_loop (b : builder) (n : node) : option node :=
  match b with
  | [] => Some n
  | v :: b' => let? p := pop_vec v in let? n' := concat p n in build_loop b' n'
  end.
Definition build (b : builder) : option node :=
  match b with
  | [] => Some (from_leaf (l_default ops))
  | v :: b' => let? n := pop_vec v in build_loop b' n
  end.

(** tree.rs 380-406, [push_subseq], with interval.rs 79, 95, 100-104, 129-137. *)
Fixpoint push_subseq (n : node) (b : builder) (s e : nat) {struct n} : option builder :=
  if e <=? s then Some b
  else if (s =? 0) && (e =? n_len n) then b_push b n
  else
    match n with
    | NLeaf _ _ l => push_leaf_slice b l s e
    | NInt _ _ _ cs =>
        (fix go (cs : list node) (offset : nat) (b : builder) : option builder :=
           match cs with
           | [] => Some b
           | c :: cs' =>
               if e <=? offset then Some b
               else
                 let rs := Nat.max s offset in
                 let re := Nat.max rs (Nat.min e (offset + n_len c)) in
                 let? b' := push_subseq c b (rs - offset) (re - offset) in
                 go cs' (offset + n_len c) b'
           end) cs 0 b
    end.

(** tree.rs 408-413, [subseq]. *)
Definition subseq (n : node) (s e : nat) : option node :=
  let? b := push_subseq n b_new s e in build b.

(** tree.rs 415-426, [edit], with interval.rs 120-127. *)
Definition edit (n : node) (s e : nat) (new : node) : option node :=
  let? b1 := push_subseq n b_new 0 (Nat.min (n_len n) s) in
  let? b2 := b_push b1 new in
  let? b3 := push_subseq n b2 e (Nat.max (n_len n) e) in
  build b3.

(** ** tree.rs 148-191, [Metric] *)
Record metric := Metric {
  m_measure : I -> nat -> nat;
  m_to_base : L -> nat -> option nat;
  m_from_base : L -> nat -> option nat;
  m_is_boundary : L -> nat -> option bool;
  m_prev : L -> nat -> option (option nat);
  m_next : L -> nat -> option (option nat);
  m_can_fragment : bool }.

(** tree.rs 376-378, [Node::measure]. *)
Definition measure (m : metric) (n : node) : nat := m_measure m (n_info n) (n_len n).

(** tree.rs 441-449, one turn of the [for] loop of [convert_metrics]: the child to
    descend to, or none, with the remaining [m1] and the accumulated [m2]. *)
Fixpoint cm_find (ma mb : metric) (cs : list node) (m1 m2 : nat) : option node * nat * nat :=
  match cs with
  | [] => (None, m1, m2)
  | c :: cs' =>
      let cm := measure ma c in
      if m1 <? cm + (if m_can_fragment ma then 1 else 0) then (Some c, m1, m2)
      else cm_find ma mb cs' (m1 - cm) (m2 + measure mb c)
  end.
(** tree.rs 440-453, the [while] loop; if no child is found it turns on the same node. *)
Fixpoint cm_loop (fuel : nat) (ma mb : metric) (n : node) (m1 m2 : nat) : option nat :=
  match fuel with
  | 0 => None
  | S f =>
      match n with
      | NInt _ _ _ cs =>
          match cm_find ma mb cs m1 m2 with
          | (Some c, m1', m2') => cm_loop f ma mb c m1' m2'
          | (None, m1', m2') => cm_loop f ma mb n m1' m2'
          end
      | NLeaf _ _ l =>
          let? base := m_to_base ma l m1 in
          let? k := m_from_base mb l base in
          Some (m2 + k)
      end
  end.
(** tree.rs 430-454, [convert_metrics]; [None] if it has not ended after [fuel] turns. *)
Definition convert_metrics (fuel : nat) (ma mb : metric) (n : node) (m1 : nat) : option nat :=
  if m1 =? 0 then Some 0 else cm_loop fuel ma mb n m1 0.
End Tree.
