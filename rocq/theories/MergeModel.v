(** Model of the merge of two engines, rust/rope/src/engine.rs 657-689 and 740-943.
    Same simplifications as EngineModel.v.  A [BTreeSet<RevId>] is a list of ids. *)
From Coq Require Import List Arith Bool.
From Verif Require Import Base MultisetModel DeltaModel EngineModel.
Import ListNotations.

(** [BTreeSet<RevId>::contains]. *)
Definition has_id (id : rev_id) (s : list rev_id) : bool := existsb (rev_id_eqb id) s.

(** engine.rs 743-749, [find_base_index]; the assertions panic. *)
Definition find_base_index (a b : list revision) : option nat :=
  match a, b with
  | ra :: _, rb :: _ => if rev_id_eqb (r_id ra) (r_id rb) then Some 1 else None
  | _, _ => None
  end.

(** engine.rs 752-757, [find_common]. *)
Definition find_common (a b : list revision) : list rev_id :=
  filter (fun id => has_id id (map r_id b)) (map r_id a).

(** engine.rs 771-798, the loop of [rearrange] over the revisions from the last one
    down; pushing and reversing at the end is consing. *)
Fixpoint rearrange_loop (l : list revision) (base : list rev_id) (s : subset)
  (out : list revision) : option (list revision) :=
  match l with
  | [] => Some out
  | r :: l' =>
      match r_edit r with
      | Edit pri g ins del =>
          if has_id (r_id r) base then
            let? s' := transform_union ins s in
            rearrange_loop l' base s' out
          else
            let? ins' := transform_expand ins s in
            let? del' := transform_expand del s in
            let? s' := transform_shrink s ins' in
            rearrange_loop l' base s'
              (Rev (r_id r) (max_undo_so_far r) (Edit pri g ins' del') :: out)
      | Undo _ _ => None
      end
  end.
(** engine.rs 767-802, [rearrange]. *)
Definition rearrange (l : list revision) (base : list rev_id) (head_len : nat)
  : option (list revision) :=
  let? s := subset_new head_len in rearrange_loop (rev l) base s [].

(** engine.rs 863-882, [compute_transforms].  [out] is kept with its last element
    first. *)
Fixpoint transforms_loop (l : list revision) (last : option nat)
  (out : list (full_priority * subset)) : option (list (full_priority * subset)) :=
  match l with
  | [] => Some (rev out)
  | r :: l' =>
      match r_edit r with
      | Edit pri _ ins _ =>
          if is_empty ins then transforms_loop l' last out
          else if (match last with Some p => p =? pri | None => false end) then
            match out with
            | (q, s) :: out' =>
                let? s' := transform_union s ins in
                transforms_loop l' last ((q, s') :: out')
            | [] => None
            end
          else transforms_loop l' (Some pri) (((pri, session_of (r_id r)), ins) :: out)
      | Undo _ _ => transforms_loop l' last out
      end
  end.
Definition compute_transforms (l : list revision) : option (list (full_priority * subset)) :=
  transforms_loop l None [].

Section Merge.
Context {A : Type}.
Implicit Types (e : engine A) (d : delta A).

(** engine.rs 805-811, [DeltaOp]. *)
Record delta_op := DeltaOp {
  op_id : rev_id; op_priority : nat; op_group : nat;
  op_inserts : delta A; op_deletes : subset }.

(** engine.rs 823-847, the loop of [compute_deltas], from the last revision down. *)
Fixpoint deltas_loop (l : list revision) (txt tomb : list A) (dels cur : subset)
  (out : list delta_op) : option (list delta_op) :=
  match l with
  | [] => Some out
  | r :: l' =>
      match r_edit r with
      | Edit pri g ins del =>
          let? older := transform_union ins cur in
          let? tomb_here := shuffle_tombstones txt tomb dels older in
          let? d := synthesize tomb_here older cur in
          let? (ins_delta, _) := factor d in
          deltas_loop l' txt tomb dels older
            (DeltaOp (r_id r) pri g ins_delta del :: out)
      | Undo _ _ => None
      end
  end.
(** engine.rs 815-852, [compute_deltas]. *)
Definition compute_deltas (l : list revision) (txt tomb : list A) (dels : subset)
  : option (list delta_op) :=
  let? cur := subset_new (subset_len dels) in deltas_loop (rev l) txt tomb dels cur [].

(** engine.rs 901-912, expand one operation by each of the transforms, which are
    expanded in turn. *)
Fixpoint expand_over (l : list (full_priority * subset)) (p : full_priority) d (dels : subset)
  : option (delta A * subset * list (full_priority * subset)) :=
  match l with
  | [] => Some (d, dels, [])
  | (tp, ti) :: l' =>
      let after := priority_leb tp p in
      let? d' := delta_transform_expand d ti after in
      let? inserted := inserted_subset d' in
      let? ti' := transform_expand ti inserted in
      let? dels' := transform_expand dels ti' in
      let? r := expand_over l' p d' dels' in
      Some (fst (fst r), snd (fst r), (tp, ti') :: snd r)
  end.

(** engine.rs 897-942, the loop of [rebase]. *)
Fixpoint rebase (expand_by : list (full_priority * subset)) (ops : list delta_op)
  (txt tomb : list A) (dels : subset) (max_undo : nat)
  : option (list revision * list A * list A * subset) :=
  match ops with
  | [] => Some ([], txt, tomb, dels)
  | o :: ops' =>
      let p := (op_priority o, session_of (op_id o)) in
      let? x := expand_over expand_by p (op_inserts o) (op_deletes o) in
      let ins := fst (fst x) in
      let del := snd (fst x) in
      let? text_ins := delta_transform_shrink ins dels in
      let? text_with := apply text_ins txt in
      let? inserted := inserted_subset ins in
      let? expanded := transform_expand dels inserted in
      let? new_dels := union expanded del in
      let? (new_text, new_tomb) := shuffle text_with tomb expanded new_dels in
      let mx := Nat.max max_undo (op_group o) in
      let? r := rebase (snd x) ops' new_text new_tomb new_dels mx in
      let '(out, t', tb', d') := r in
      Some (Rev (op_id o) mx (Edit (op_priority o) (op_group o) inserted del) :: out, t', tb', d')
  end.

(** engine.rs 658-689, [merge]. *)
Definition merge e (other : engine A) : option (engine A) :=
  let? base := find_base_index (revs e) (revs other) in
  let a_to := skipn base (revs e) in
  let b_to := skipn base (revs other) in
  let common := find_common a_to b_to in
  let? a_new := rearrange a_to common (subset_len (deletes_from_union e)) in
  let? b_new := rearrange b_to common (subset_len (deletes_from_union other)) in
  let? b_deltas := compute_deltas b_new (text other) (tombstones other) (deletes_from_union other) in
  let? expand_by := compute_transforms a_new in
  let? max_undo := max_undo_group_id e in
  let? r := rebase expand_by b_deltas (text e) (tombstones e) (deletes_from_union e) max_undo in
  let '(new_revs, t', tb', d') := r in
  Some (Engine (session e) (rev_id_counter e) t' tb' d' (undone_groups e) (revs e ++ new_revs)).
End Merge.
Arguments delta_op : clear implicits.
Arguments DeltaOp {A}.
