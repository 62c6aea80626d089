(** Model of rust/rope/src/multiset.rs.

    Simplifications: [usize] is [nat]; the rope argument of [delete_from] is the
    list of its elements; [u64] bit operations are [Nat.lxor]. *)
From Coq Require Import List Arith Bool.
From Verif Require Import Base.
Import ListNotations.

(** multiset.rs 27-30, [struct Segment]. *)
Record segment := Seg { seg_len : nat; seg_count : nat }.

(** multiset.rs 40-44, [struct Subset]. *)
Definition subset := list segment.

(** multiset.rs 47-50, [struct SubsetBuilder]. *)
Record builder := Bld { b_segs : list segment; b_total : nat }.

(** multiset.rs 53-55, [SubsetBuilder::new]. *)
Definition builder_new : builder := Bld [] 0.

(** multiset.rs 92-100: merge into the last segment if it has the same count,
    otherwise push a new one. *)
Fixpoint segs_push (l : list segment) (len count : nat) : list segment :=
  match l with
  | [] => [Seg len count]
  | [s] => if seg_count s =? count then [Seg (seg_len s + len) (seg_count s)]
           else [s; Seg len count]
  | s :: l' => s :: segs_push l' len count
  end.

(** multiset.rs 88-101, [push_segment]; the assertion is the [None]. *)
Definition push_segment (sb : builder) (len count : nat) : option builder :=
  if len =? 0 then None
  else Some (Bld (segs_push (b_segs sb) len count) (b_total sb + len)).

(** multiset.rs 59-64, [pad_to_len]. *)
Definition pad_to_len (sb : builder) (total_len : nat) : option builder :=
  if b_total sb <? total_len
  then push_segment sb (total_len - b_total sb) 0
  else Some sb.

(** multiset.rs 69-84, [add_range]. *)
Definition add_range (sb : builder) (b e count : nat) : option builder :=
  if b <? b_total sb then None
  else if e <=? b then Some sb
  else
    let? sb1 := (if b_total sb <? b
                 then push_segment sb (b - b_total sb) 0 else Some sb) in
    push_segment sb1 (e - b) count.

(** multiset.rs 103-105, [build]. *)
Definition build (sb : builder) : subset := b_segs sb.

(** multiset.rs 110-115, [CountMatcher]. *)
Inductive matcher := Zero | NonZero | All.

(** multiset.rs 118-124, [CountMatcher::matches]. *)
Definition matches (m : matcher) (s : segment) : bool :=
  match m with
  | Zero => seg_count s =? 0
  | NonZero => negb (seg_count s =? 0)
  | All => true
  end.

(** multiset.rs 129-133, [Subset::new]. *)
Definition subset_new (len : nat) : option subset :=
  let? sb := pad_to_len builder_new len in Some (build sb).

(** multiset.rs 371-375, [RangeIter]: the remaining segments and [consumed]. *)
Record range_iter := RIter { ri_segs : list segment; ri_consumed : nat; ri_m : matcher }.

(** multiset.rs 380-388, [RangeIter::next]. *)
Fixpoint range_next_aux (l : list segment) (consumed : nat) (m : matcher)
  : option ((nat * nat)) * range_iter :=
  match l with
  | [] => (None, RIter [] consumed m)
  | s :: l' =>
      let c' := consumed + seg_len s in
      if matches m s then (Some (c' - seg_len s, c'), RIter l' c' m)
      else range_next_aux l' c' m
  end.
Definition range_next (r : range_iter) := range_next_aux (ri_segs r) (ri_consumed r) (ri_m r).

(** multiset.rs 291-293, [range_iter]. *)
Definition range_iter_of (s : subset) (m : matcher) : range_iter := RIter s 0 m.

(** The list of all items a [RangeIter] yields ([for (b, e) in ...]); the
    iteration of [range_next] until it answers [None]. *)
Fixpoint ranges_from (l : list segment) (consumed : nat) (m : matcher) : list (nat * nat) :=
  match l with
  | [] => []
  | s :: l' =>
      let c' := consumed + seg_len s in
      if matches m s then (c' - seg_len s, c') :: ranges_from l' c' m
      else ranges_from l' c' m
  end.
Definition ranges (s : subset) (m : matcher) : list (nat * nat) := ranges_from s 0 m.

(** multiset.rs 147-153 and 136-142, [delete_from], [delete_from_string]: push the
    0-count ranges of [s] in order. Slicing out of range panics. *)
Fixpoint push_ranges {A} (rs : list (nat * nat)) (s : list A) : option (list A) :=
  match rs with
  | [] => Some []
  | (b, e) :: rs' =>
      if (b <=? e) && (e <=? length s) then
        let? rest := push_ranges rs' s in Some (slice s b e ++ rest)
      else None
  end.
Definition delete_from {A} (d : subset) (s : list A) : option (list A) :=
  push_ranges (ranges d Zero) s.

(** multiset.rs 166-168, [count]. *)
Fixpoint count (s : subset) (m : matcher) : nat :=
  match s with
  | [] => 0
  | g :: s' => (if matches m g then seg_len g else 0) + count s' m
  end.

(** multiset.rs 161-163, [len_after_delete]. *)
Definition len_after_delete (s : subset) : nat := count s Zero.

(** multiset.rs 171-173, [len]. *)
Definition subset_len (s : subset) : nat := count s All.

(** multiset.rs 177-179, [is_empty]. *)
Definition is_empty (s : subset) : bool :=
  match s with
  | [] => true
  | [g] => seg_count g =? 0
  | _ => false
  end.

(** multiset.rs 392-400, [ZipIter]: the slices from [a_i], [b_i] on, and the three
    counters. *)
Record zip_iter := ZIter {
  z_a : list segment; z_b : list segment;
  z_ac : nat; z_bc : nat; z_consumed : nat }.

(** multiset.rs 404-408, [ZipSegment]. *)
Record zip_segment := ZSeg { zs_len : nat; zs_a : nat; zs_b : nat }.

(** multiset.rs 417-449, [ZipIter::next]: outer [None] is the panic, inner [None]
    is the end of the iteration. *)
Definition zip_next (z : zip_iter) : option (option (zip_segment * zip_iter)) :=
  match z_a z, z_b z with
  | [], [] => Some None
  | [], _ :: _ | _ :: _, [] => None
  | ga :: a', gb :: b' =>
      let ac' := z_ac z + seg_len ga in
      let bc' := z_bc z + seg_len gb in
      match Nat.compare (seg_len ga + z_ac z) (seg_len gb + z_bc z) with
      | Eq => let len := ac' - z_consumed z in
              Some (Some (ZSeg len (seg_count ga) (seg_count gb),
                          ZIter a' b' ac' bc' (z_consumed z + len)))
      | Lt => let len := ac' - z_consumed z in
              Some (Some (ZSeg len (seg_count ga) (seg_count gb),
                          ZIter a' (gb :: b') ac' (z_bc z) (z_consumed z + len)))
      | Gt => let len := bc' - z_consumed z in
              Some (Some (ZSeg len (seg_count ga) (seg_count gb),
                          ZIter (ga :: a') b' (z_ac z) bc' (z_consumed z + len)))
      end
  end.

(** multiset.rs 306-316, [zip]. *)
Definition zip_of (a b : subset) : zip_iter := ZIter a b 0 0 0.

(** [for zseg in self.zip(other) { body }]. Each [next] drops at least one segment,
    so the sum of the numbers of segments is enough fuel (+1 for the final call). *)
Fixpoint zip_for (fuel : nat) (z : zip_iter)
  (body : builder -> zip_segment -> option builder) (sb : builder) : option builder :=
  match fuel with
  | 0 => None
  | S f =>
      let? r := zip_next z in
      match r with
      | None => Some sb
      | Some (zs, z') => let? sb' := body sb zs in zip_for f z' body sb'
      end
  end.
Definition zip_build (a b : subset) (body : builder -> zip_segment -> option builder)
  : option subset :=
  let? sb := zip_for (S (length a + length b)) (zip_of a b) body builder_new in
  Some (build sb).

(** multiset.rs 183-189, [union]. *)
Definition union (a b : subset) : option subset :=
  zip_build a b (fun sb z => push_segment sb (zs_len z) (zs_a z + zs_b z)).

(** multiset.rs 193-205, [subtract]; the assertion is the [None]. *)
Definition subtract (a b : subset) : option subset :=
  zip_build a b (fun sb z =>
    if zs_a z <? zs_b z then None else push_segment sb (zs_len z) (zs_a z - zs_b z)).

(** multiset.rs 213-219, [bitxor]. *)
Definition bitxor (a b : subset) : option subset :=
  zip_build a b (fun sb z => push_segment sb (zs_len z) (Nat.lxor (zs_a z) (zs_b z))).

(** multiset.rs 277-287, [transform_shrink]. *)
Definition transform_shrink (a b : subset) : option subset :=
  zip_build a b (fun sb z =>
    if zs_b z =? 0 then push_segment sb (zs_len z) (zs_a z) else Some sb).

(** multiset.rs 224-226, state of the loops of [transform]: builder, [seg_iter],
    [cur_seg]. *)
Record tstate := TState { t_sb : builder; t_iter : list segment; t_cur : segment }.

(** multiset.rs 233-246, the [while to_be_consumed > 0] loop. *)
Fixpoint transform_fill (fuel : nat) (st : tstate) (tbc : nat) : option tstate :=
  match fuel with
  | 0 => None
  | S f =>
      if tbc =? 0 then Some st
      else
        let? st1 :=
          (if seg_len (t_cur st) =? 0 then
             match t_iter st with
             | [] => None
             | g :: it => Some (TState (t_sb st) it g)
             end
           else Some st) in
        let c := Nat.min (seg_len (t_cur st1)) tbc in
        let? sb' := push_segment (t_sb st1) c (seg_count (t_cur st1)) in
        transform_fill f
          (TState sb' (t_iter st1) (Seg (seg_len (t_cur st1) - c) (seg_count (t_cur st1))))
          (tbc - c)
  end.

(** multiset.rs 227-248, [for oseg in &other.segments]. *)
Fixpoint transform_loop (other : list segment) (uni : bool) (st : tstate) : option tstate :=
  match other with
  | [] => Some st
  | o :: other' =>
      let? st' :=
        (if 0 <? seg_count o then
           let? sb' := push_segment (t_sb st) (seg_len o) (if uni then seg_count o else 0) in
           Some (TState sb' (t_iter st) (t_cur st))
         else transform_fill (S (S (length (t_iter st)))) st (seg_len o)) in
      transform_loop other' uni st'
  end.

(** multiset.rs 223-252, [transform], with its two final assertions. *)
Definition transform (s other : subset) (uni : bool) : option subset :=
  let? st := transform_loop other uni (TState builder_new s (Seg 0 0)) in
  if (seg_len (t_cur st) =? 0) && (match t_iter st with [] => true | _ => false end)
  then Some (build (t_sb st)) else None.

(** multiset.rs 261-263, [transform_expand]. *)
Definition transform_expand (s other : subset) := transform s other false.
(** multiset.rs 266-268, [transform_union]. *)
Definition transform_union (s other : subset) := transform s other true.

(** multiset.rs 320-330, [complement]. *)
Fixpoint complement_loop (l : list segment) (sb : builder) : option builder :=
  match l with
  | [] => Some sb
  | g :: l' =>
      let? sb' := push_segment sb (seg_len g) (if seg_count g =? 0 then 1 else 0) in
      complement_loop l' sb'
  end.
Definition complement (s : subset) : option subset :=
  let? sb := complement_loop s builder_new in Some (build sb).

(** multiset.rs 453-459, [Mapper]. [mp_cur = None] stands for the sentinel
    [(usize::max_value(), usize::max_value())], which no index reaches. *)
Record mapper := Mp {
  mp_ri : range_iter; mp_last : nat; mp_cur : option (nat * nat); mp_consumed : nat }.

(** multiset.rs 334-341, [Subset::mapper]. *)
Definition mapper_of (s : subset) (m : matcher) : mapper :=
  Mp (range_iter_of s m) 0 (Some (0, 0)) 0.

(** multiset.rs 487-498, the [while i >= self.cur_range.1] loop; the boolean tells
    whether it returned early ([return self.subset_amount_consumed]). *)
Fixpoint mapper_advance (fuel : nat) (mp : mapper) (i : nat) : option (bool * mapper) :=
  match fuel with
  | 0 => None
  | S f =>
      match mp_cur mp with
      | None => Some (false, mp)
      | Some (b, e) =>
          if e <=? i then
            let consumed := mp_consumed mp + (e - b) in
            match range_next (mp_ri mp) with
            | (Some r, ri') => mapper_advance f (Mp ri' (mp_last mp) (Some r) consumed) i
            | (None, ri') => Some (true, Mp ri' (mp_last mp) None consumed)
            end
          else Some (false, mp)
      end
  end.

(** multiset.rs 478-507, [doc_index_to_subset]. *)
Definition doc_index_to_subset (mp : mapper) (i : nat) : option (nat * mapper) :=
  if i <? mp_last mp then None
  else
    let mp1 := Mp (mp_ri mp) i (mp_cur mp) (mp_consumed mp) in
    let? (early, mp2) := mapper_advance (S (S (length (ri_segs (mp_ri mp1))))) mp1 i in
    if (early : bool) then Some (mp_consumed mp2, mp2)
    else
      match mp_cur mp2 with
      | None => Some (mp_consumed mp2, mp2)
      | Some (b, e) =>
          if b <=? i then Some ((i - b) + mp_consumed mp2, mp2)
          else Some (mp_consumed mp2, mp2)
      end.
