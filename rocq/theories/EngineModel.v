(** Model of rust/rope/src/engine.rs.

    Simplifications: a [Rope] is the list of its elements; a [BTreeSet<usize>] is a
    list read through membership ([mem]); [Cow] is dropped; [RevId::token], a hash, is
    an arbitrary function [tok] from revision ids to numbers.  Serialization is not
    modelled. *)
From Coq Require Import List Arith Bool.
From Verif Require Import Base MultisetModel DeltaModel.
Import ListNotations.

(** [BTreeSet::contains]. *)
Definition mem (g : nat) (s : list nat) : bool := existsb (Nat.eqb g) s.
(** [BTreeSet::symmetric_difference]. *)
Definition symdiff (a b : list nat) : list nat :=
  filter (fun g => negb (mem g b)) a ++ filter (fun g => negb (mem g a)) b.
(** [&a - &b] on [BTreeSet]. *)
Definition set_minus (a b : list nat) : list nat := filter (fun g => negb (mem g b)) a.
(** [set.iter().next()]: the smallest element. *)
Fixpoint set_min (s : list nat) : option nat :=
  match s with
  | [] => None
  | g :: s' => match set_min s' with None => Some g | Some h => Some (Nat.min g h) end
  end.

(** engine.rs 110, [SessionId]. *)
Definition session_id := (nat * nat)%type.
(** engine.rs 80-90, [RevId]. *)
Record rev_id := RevId { session1 : nat; session2 : nat; num : nat }.
(** engine.rs 182-184, [RevId::session_id]. *)
Definition session_of (r : rev_id) : session_id := (session1 r, session2 r).
(** [RevId]'s derived [PartialEq]. *)
Definition rev_id_eqb (a b : rev_id) : bool :=
  (session1 a =? session1 b) && (session2 a =? session2 b) && (num a =? num b).

(** engine.rs 133-157, [Contents]. *)
Inductive contents :=
| Edit (priority undo_group : nat) (inserts deletes : subset)
| Undo (toggled_groups : list nat) (deletes_bitxor : subset).
(** engine.rs 94-102, [Revision]. *)
Record revision := Rev { r_id : rev_id; max_undo_so_far : nat; r_edit : contents }.

(** engine.rs 43-74, [Engine]. *)
Record engine (A : Type) := Engine {
  session : session_id; rev_id_counter : nat;
  text : list A; tombstones : list A; deletes_from_union : subset;
  undone_groups : list nat; revs : list revision }.
Arguments Engine {A}.
Arguments session {A} e.
Arguments rev_id_counter {A} e.
Arguments text {A} e.
Arguments tombstones {A} e.
Arguments deletes_from_union {A} e.
Arguments undone_groups {A} e.
Arguments revs {A} e.

(** engine.rs 114-121, [Error]. *)
Inductive error := MissingRevision (t : nat) | MalformedDelta (rev_len delta_len : nat).
(** [Result]. *)
Inductive result (T : Type) := Ok (x : T) | Err (e : error).
Arguments Ok {T}.
Arguments Err {T}.

(** engine.rs 124-127, [FullPriority] and its derived (lexicographic) order. *)
Definition full_priority := (nat * session_id)%type.
Definition session_leb (a b : session_id) : bool :=
  (fst a <? fst b) || ((fst a =? fst b) && (snd a <=? snd b)).
Definition priority_leb (a b : full_priority) : bool :=
  (fst a <? fst b) || ((fst a =? fst b) && session_leb (snd a) (snd b)).

(** [slice.last()]. *)
Definition last_rev (l : list revision) : option revision :=
  match rev l with [] => None | r :: _ => Some r end.

(** [iter().enumerate().rev().find(p)], the index of the last match. *)
Fixpoint find_last (p : revision -> bool) (l : list revision) : option nat :=
  match l with
  | [] => None
  | r :: l' =>
      match find_last p l' with
      | Some i => Some (S i)
      | None => if p r then Some 0 else None
      end
  end.

Section Engine.
Context {A : Type} (tok : rev_id -> nat).
Implicit Types (e : engine A) (d : delta A).

(** engine.rs 202-221, [Engine::empty]; 160-162, [default_session]. *)
Definition empty_engine : option (engine A) :=
  let? s := subset_new 0 in
  Some (Engine (1, 0) 1 [] [] s [] [Rev (RevId 0 0 0) 0 (Undo [] s)]).

(** engine.rs 223-225, [next_rev_id]. *)
Definition next_rev_id e : rev_id :=
  RevId (fst (session e)) (snd (session e)) (rev_id_counter e).

(** engine.rs 227-234, [find_rev]. *)
Definition find_rev e (id : rev_id) : option nat :=
  find_last (fun r => rev_id_eqb (r_id r) id) (revs e).
(** engine.rs 236-243, [find_rev_token]. *)
Definition find_rev_token e (t : nat) : option nat :=
  find_last (fun r => tok (r_id r) =? t) (revs e).

(** engine.rs 259-281, the loop of [deletes_from_union_before_index] over the
    revisions from the last one down. *)
Fixpoint before_loop (l : list revision) (invert_undos : bool) (dels : subset)
  (undone : list nat) : option subset :=
  match l with
  | [] => Some dels
  | r :: l' =>
      match r_edit r with
      | Edit _ g ins del =>
          if mem g undone then
            let? dels' := transform_shrink dels ins in
            before_loop l' invert_undos dels' undone
          else
            let? un_deleted := subtract dels del in
            let? dels' := transform_shrink un_deleted ins in
            before_loop l' invert_undos dels' undone
      | Undo toggled bx =>
          if invert_undos then
            let? dels' := bitxor dels bx in
            before_loop l' invert_undos dels' (symdiff undone toggled)
          else before_loop l' invert_undos dels undone
      end
  end.
(** engine.rs 254-283, [deletes_from_union_before_index]; slicing past the end panics. *)
Definition deletes_from_union_before_index e (ix : nat) (invert_undos : bool) : option subset :=
  if length (revs e) <? ix then None
  else before_loop (rev (skipn ix (revs e))) invert_undos
         (deletes_from_union e) (undone_groups e).
(** engine.rs 248-250, [deletes_from_union_for_index]. *)
Definition deletes_from_union_for_index e (ix : nat) : option subset :=
  deletes_from_union_before_index e (ix + 1) true.

(** engine.rs 296-302, the loop of [deletes_from_cur_union_for_index]. *)
Fixpoint to_cur_union (l : list revision) (dels : subset) : option subset :=
  match l with
  | [] => Some dels
  | r :: l' =>
      let? dels' :=
        (match r_edit r with
         | Edit _ _ ins _ => if is_empty ins then Some dels else transform_union dels ins
         | Undo _ _ => Some dels
         end) in
      to_cur_union l' dels'
  end.
(** engine.rs 294-304, [deletes_from_cur_union_for_index]. *)
Definition deletes_from_cur_union_for_index e (ix : nat) : option subset :=
  let? dels := deletes_from_union_for_index e ix in
  if length (revs e) <? ix + 1 then None
  else to_cur_union (skipn (ix + 1) (revs e)) dels.

(** engine.rs 286-291, [rev_content_for_index]. *)
Definition rev_content_for_index e (ix : nat) : option (list A) :=
  let? old := deletes_from_cur_union_for_index e ix in
  let? d := synthesize (tombstones e) (deletes_from_union e) old in
  apply d (text e).

(** engine.rs 307-309, [max_undo_group_id]. *)
Definition max_undo_group_id e : option nat :=
  let? r := last_rev (revs e) in Some (max_undo_so_far r).
(** engine.rs 312-314, [get_head_rev_id]. *)
Definition get_head_rev_id e : option rev_id :=
  let? r := last_rev (revs e) in Some (r_id r).
(** engine.rs 317-319, [get_head]. *)
Definition get_head e : list A := text e.
(** engine.rs 322-324, [get_rev]: the inner option is the answer. *)
Definition get_rev e (t : nat) : option (option (list A)) :=
  match find_rev_token e t with
  | None => Some None
  | Some i => let? c := rev_content_for_index e i in Some (Some c)
  end.

(** engine.rs 710-722, [shuffle_tombstones]. *)
Definition shuffle_tombstones (txt tomb : list A) (old new : subset) : option (list A) :=
  let? inv := complement old in
  let? ninv := complement new in
  let? d := synthesize txt inv ninv in
  apply d tomb.
(** engine.rs 726-738, [shuffle]. *)
Definition shuffle (txt tomb : list A) (old new : subset) : option (list A * list A) :=
  let? d := synthesize tomb old new in
  let? new_text := apply d txt in
  let? new_tomb := shuffle_tombstones txt tomb old new in
  Some (new_text, new_tomb).

(** engine.rs 328-339, [try_delta_rev_head]. *)
Definition try_delta_rev_head e (t : nat) : option (result (delta A)) :=
  match find_rev_token e t with
  | None => Some (Err (MissingRevision t))
  | Some ix =>
      let? prev := deletes_from_cur_union_for_index e ix in
      let? old_tomb := shuffle_tombstones (text e) (tombstones e) (deletes_from_union e) prev in
      let? d := synthesize old_tomb prev (deletes_from_union e) in
      Some (Ok d)
  end.

(** engine.rs 374-384, rebase the delta from the base revision's union to the head's. *)
Fixpoint rebase_over (l : list revision) (p : full_priority) d (dels : subset)
  : option (delta A * subset) :=
  match l with
  | [] => Some (d, dels)
  | r :: l' =>
      match r_edit r with
      | Edit pri _ ins _ =>
          if is_empty ins then rebase_over l' p d dels
          else
            let after := priority_leb (pri, session_of (r_id r)) p in
            let? d' := delta_transform_expand d ins after in
            let? dels' := transform_expand dels ins in
            rebase_over l' p d' dels'
      | Undo _ _ => rebase_over l' p d dels
      end
  end.

(** engine.rs 347-429, [mk_new_rev]. *)
Definition mk_new_rev e (priority undo_group base_rev : nat) d
  : option (result (revision * list A * list A * subset)) :=
  match find_rev_token e base_rev with
  | None => Some (Err (MissingRevision base_rev))
  | Some ix =>
      let? (ins_delta, dels) := factor d in
      let? deletes_at_rev := deletes_from_union_for_index e ix in
      if negb (base_len ins_delta =? len_after_delete deletes_at_rev) then
        Some (Err (MalformedDelta (len_after_delete deletes_at_rev) (base_len ins_delta)))
      else
        let? union_ins0 := delta_transform_expand ins_delta deletes_at_rev true in
        let? new_deletes0 := transform_expand dels deletes_at_rev in
        let? (union_ins, new_deletes1) :=
          rebase_over (skipn (ix + 1) (revs e)) (priority, session e) union_ins0 new_deletes0 in
        let? new_inserts := inserted_subset union_ins in
        let? new_deletes :=
          (if is_empty new_inserts then Some new_deletes1
           else transform_expand new_deletes1 new_inserts) in
        let? text_ins := delta_transform_shrink union_ins (deletes_from_union e) in
        let? text_with_inserts := apply text_ins (text e) in
        let? rebased := transform_expand (deletes_from_union e) new_inserts in
        let to_delete := if mem undo_group (undone_groups e) then new_inserts else new_deletes in
        let? new_dels := union rebased to_delete in
        let? (new_text, new_tomb) :=
          shuffle text_with_inserts (tombstones e) rebased new_dels in
        let? head := last_rev (revs e) in
        Some (Ok (Rev (next_rev_id e) (Nat.max undo_group (max_undo_so_far head))
                      (Edit priority undo_group new_inserts new_deletes),
                  new_text, new_tomb, new_dels))
  end.

(** engine.rs 452-467, [try_edit_rev]: the engine afterwards and the result. *)
Definition try_edit_rev e (priority undo_group base_rev : nat) d
  : option (engine A * result unit) :=
  let? r := mk_new_rev e priority undo_group base_rev d in
  match r with
  | Err er => Some (e, Err er)
  | Ok (new_rev, new_text, new_tomb, new_dels) =>
      Some (Engine (session e) (rev_id_counter e + 1) new_text new_tomb new_dels
                   (undone_groups e) (revs e ++ [new_rev]), Ok tt)
  end.

(** engine.rs 437-445, [edit_rev]: [unwrap] panics on an error. *)
Definition edit_rev e (priority undo_group base_rev : nat) d : option (engine A) :=
  let? r := try_edit_rev e priority undo_group base_rev d in
  match snd r with Ok _ => Some (fst r) | Err _ => None end.

(** engine.rs 192-200, [Engine::new]. *)
Definition engine_new (initial : list A) : option (engine A) :=
  let? e := empty_engine in
  match initial with
  | [] => Some e
  | _ =>
      let? id := get_head_rev_id e in
      let? d := simple_edit 0 0 initial 0 in
      edit_rev e 0 0 (tok id) d
  end.

(** engine.rs 471-479, [empty_subset_before_first_rev]. *)
Definition empty_subset_before_first_rev e : option subset :=
  match revs e with
  | [] => None
  | r :: _ =>
      match r_edit r with
      | Edit _ _ ins _ => subset_new (count ins Zero)
      | Undo _ bx => subset_new (count bx All)
      end
  end.

(** engine.rs 485-490: the index after the last revision whose [max_undo_so_far] is
    below [lowest], or 0. *)
Definition first_candidate (lowest : nat) (l : list revision) : nat :=
  match find_last (fun r => max_undo_so_far r <? lowest) l with
  | Some i => i + 1
  | None => 0
  end.
(** engine.rs 482-495, [find_first_undo_candidate_index]. *)
Definition find_first_undo_candidate_index e (toggled : list nat) : nat :=
  match set_min toggled with
  | Some lowest => first_candidate lowest (revs e)
  | None => length (revs e)
  end.

(** engine.rs 507-522, the replay loop of [compute_undo]. *)
Fixpoint undo_loop (l : list revision) (groups : list nat) (dels : subset) : option subset :=
  match l with
  | [] => Some dels
  | r :: l' =>
      let? dels' :=
        (match r_edit r with
         | Edit _ g ins del =>
             if mem g groups then
               if is_empty ins then Some dels else transform_union dels ins
             else
               let? s1 := (if is_empty ins then Some dels else transform_expand dels ins) in
               if is_empty del then Some s1 else union s1 del
         | Undo _ _ => Some dels
         end) in
      undo_loop l' groups dels'
  end.

(** engine.rs 500-534, [compute_undo]. *)
Definition compute_undo e (groups : list nat) : option (revision * subset) :=
  let toggled := symdiff (undone_groups e) groups in
  let fc := find_first_undo_candidate_index e toggled in
  let? s0 := deletes_from_union_before_index e fc false in
  let? dels := undo_loop (skipn fc (revs e)) groups s0 in
  let? bx := bitxor (deletes_from_union e) dels in
  let? head := last_rev (revs e) in
  Some (Rev (next_rev_id e) (max_undo_so_far head) (Undo toggled bx), dels).

(** engine.rs 537-553, [undo]. *)
Definition undo e (groups : list nat) : option (engine A) :=
  let? (new_rev, new_dels) := compute_undo e groups in
  let? (new_text, new_tomb) :=
    shuffle (text e) (tombstones e) (deletes_from_union e) new_dels in
  Some (Engine (session e) (rev_id_counter e + 1) new_text new_tomb new_dels groups
               (revs e ++ [new_rev])).

(** [Subset]'s derived [PartialEq]. *)
Fixpoint subset_eqb (a b : subset) : bool :=
  match a, b with
  | [], [] => true
  | x :: a', y :: b' =>
      (seg_len x =? seg_len y) && (seg_count x =? seg_count y) && subset_eqb a' b'
  | _, _ => false
  end.

(** engine.rs 555-564, [is_equivalent_revision]. *)
Definition is_equivalent_revision e (a b : rev_id) : option bool :=
  let sub (id : rev_id) : option (option subset) :=
    match find_rev e id with
    | None => Some None
    | Some i => let? s := deletes_from_cur_union_for_index e i in Some (Some s)
    end in
  let? sa := sub a in
  let? sb := sub b in
  Some (match sa, sb with Some x, Some y => subset_eqb x y | _, _ => false end).

(** engine.rs 582-601, the loop of [gc] that computes [gc_dels]. *)
Fixpoint gc_loop (l : list revision) (retain : rev_id) (gc_groups undone : list nat)
  (gc_dels : subset) : option subset :=
  match l with
  | [] => Some gc_dels
  | r :: l' =>
      let? g' :=
        (match r_edit r with
         | Edit _ g ins del =>
             if negb (rev_id_eqb (r_id r) retain) && mem g gc_groups then
               if mem g undone then
                 if is_empty ins then Some gc_dels else transform_union gc_dels ins
               else
                 let? s1 := (if is_empty ins then Some gc_dels
                             else transform_expand gc_dels ins) in
                 if is_empty del then Some s1 else union s1 del
             else if is_empty ins then Some gc_dels else transform_expand gc_dels ins
         | Undo _ _ => Some gc_dels
         end) in
      gc_loop l' retain gc_groups undone g'
  end.

(** engine.rs 609-655, the loop of [gc] that rebuilds the revisions, over the old ones
    from the last one down.  Pushing and reversing at the end is consing. *)
Fixpoint gc_revs (l : list revision) (retain : rev_id) (gc_groups : list nat)
  (gc_dels : subset) (out : list revision) : option (list revision) :=
  match l with
  | [] => Some out
  | r :: l' =>
      match r_edit r with
      | Edit pri g ins del =>
          let? new_gc := (if is_empty ins then Some gc_dels else transform_shrink gc_dels ins) in
          if rev_id_eqb (r_id r) retain || negb (mem g gc_groups) then
            let? (ins', del') :=
              (if is_empty gc_dels then Some (ins, del)
               else
                 let? i := transform_shrink ins gc_dels in
                 let? x := transform_shrink del gc_dels in
                 Some (i, x)) in
            gc_revs l' retain gc_groups new_gc
              (Rev (r_id r) (max_undo_so_far r) (Edit pri g ins' del') :: out)
          else gc_revs l' retain gc_groups new_gc out
      | Undo toggled bx =>
          if rev_id_eqb (r_id r) retain then
            let? bx' := (if is_empty gc_dels then Some bx else transform_shrink bx gc_dels) in
            gc_revs l' retain gc_groups gc_dels
              (Rev (r_id r) (max_undo_so_far r) (Undo (set_minus toggled gc_groups) bx') :: out)
          else gc_revs l' retain gc_groups gc_dels out
      end
  end.

(** engine.rs 574-656, [gc]. *)
Definition gc e (gc_groups : list nat) : option (engine A) :=
  let? g0 := empty_subset_before_first_rev e in
  let? last := last_rev (revs e) in
  let? gc_dels := gc_loop (revs e) (r_id last) gc_groups (undone_groups e) g0 in
  let? (tomb, dels) :=
    (if is_empty gc_dels then Some (tombstones e, deletes_from_union e)
     else
       let? not_in_tomb := complement (deletes_from_union e) in
       let? dels_from_tomb := transform_shrink gc_dels not_in_tomb in
       let? tomb := delete_from dels_from_tomb (tombstones e) in
       let? dels := transform_shrink (deletes_from_union e) gc_dels in
       Some (tomb, dels)) in
  let? rs := gc_revs (rev (revs e)) (r_id last) gc_groups gc_dels [] in
  Some (Engine (session e) (rev_id_counter e) (text e) tomb dels (undone_groups e) rs).

(** engine.rs 697-704, [set_session_id]. *)
Definition set_session_id e (s : session_id) : option (engine A) :=
  if length (revs e) =? 1
  then Some (Engine s (rev_id_counter e) (text e) (tombstones e) (deletes_from_union e)
                    (undone_groups e) (revs e))
  else None.

End Engine.
