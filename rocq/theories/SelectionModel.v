(** Model of rust/core-lib/src/selection.rs. A [Vec] is a list. *)
From Coq Require Import List Arith Bool.
From Verif Require Import Base DeltaModel IndexSetModel.
Import ListNotations.

(** selection.rs 260-276, [Affinity]; the default is [Downstream]. *)
Inductive affinity := Downstream | Upstream.
(** selection.rs 282-296, [SelRegion]. *)
Record region := Region { r_start : nat; r_end : nat; r_horiz : option nat; r_aff : affinity }.
(** selection.rs 300-302, [new]. *)
Definition region_new (s e : nat) : region := Region s e None Downstream.
(** selection.rs 305-307, [caret]. *)
Definition caret (p : nat) : region := Region p p None Downstream.
(** selection.rs 315-317, [with_affinity]. *)
Definition with_affinity (r : region) (a : affinity) : region := Region (r_start r) (r_end r) (r_horiz r) a.
(** selection.rs 320-332, [min], [max], [is_caret]. *)
Definition rmin (r : region) : nat := Nat.min (r_start r) (r_end r).
Definition rmax (r : region) : nat := Nat.max (r_start r) (r_end r).
Definition is_caret (r : region) : bool := r_start r =? r_end r.
(** selection.rs 341-344, [should_merge]. *)
Definition should_merge (self other : region) : bool :=
  (rmin other <? rmax self) || ((is_caret self || is_caret other) && (rmin other =? rmax self)).
(** selection.rs 348-356, [merge_with]. *)
Definition merge_with (self other : region) : region :=
  let is_forward := r_start self <=? r_end self in
  let new_min := Nat.min (rmin self) (rmin other) in
  let new_max := Nat.max (rmax self) (rmax other) in
  let '(s, e) := if is_forward then (new_min, new_max) else (new_max, new_min) in
  region_new s e.

(** selection.rs 77-85, [search]: the regions' ends increase, so the binary search, whether it
    finds an equal end or not, answers the index of the first region that does not end before
    [offset]; after the last region this is the number of regions. *)
Fixpoint search (rs : list region) (offset : nat) : nat :=
  match rs with [] => 0 | r :: rs' => if rmax r <? offset then S (search rs' offset) else 0 end.

(** selection.rs 112-115, the loop: how many of the regions from [end_ix] on are merged, and the
    merged region. *)
Fixpoint merge_loop (r : region) (rs : list region) : nat * region :=
  match rs with
  | o :: rs' => if should_merge r o then let (n, r') := merge_loop (merge_with r o) rs' in (S n, r') else (0, r)
  | [] => (0, r)
  end.
(** selection.rs 116-121: insertion at [ix], or replacing the regions [ix .. end_ix]. *)
Definition put_region (rs : list region) (ix end_ix : nat) (r : region) : option (list region) :=
  if ix =? end_ix then Some (firstn ix rs ++ r :: skipn ix rs)
  else
    check (ix <? length rs) (remove_n_at (firstn ix rs ++ r :: skipn (S ix) rs) (ix + 1) (end_ix - ix - 1)).
(** selection.rs 96-122, [add_region]. *)
Definition add_region (rs : list region) (r : region) : option (list region) :=
  let ix := search rs (rmin r) in
  match nth_error rs ix with
  | None => Some (rs ++ [r])
  | Some o =>
      let '(ix', end_ix, r') :=
        if rmin o <=? rmin r then
          if should_merge o r then (ix, S ix, merge_with r o) else (S ix, S ix, r)
        else (ix, ix, r) in
      let (n, r'') := merge_loop r' (skipn end_ix rs) in
      put_region rs ix' (end_ix + n) r''
  end.

(** selection.rs 130-137, [regions_in_range]; slicing backwards panics. *)
Definition regions_in_range (rs : list region) (start e : nat) : option (list region) :=
  let first := search rs start in
  let last := search rs e in
  let last' := match nth_error rs last with Some o => if rmin o <=? e then S last else last | None => last end in
  check ((first <=? last') && (last' <=? length rs)) (Some (firstn (last' - first) (skipn first rs))).

(** selection.rs 140-156, [delete_range]; [last - first] panics when negative. *)
Definition sel_delete_range (rs : list region) (start e : nat) (delete_adjacent : bool) : option (list region) :=
  let first := search rs start in
  let last := search rs e in
  match nth_error rs first with
  | None => Some rs
  | Some f =>
      let first' := if negb delete_adjacent && (rmax f =? start) then S first else first in
      let last' :=
        match nth_error rs last with
        | Some o => if (delete_adjacent && (rmin o <=? e)) || (negb delete_adjacent && (rmin o <? e)) then S last else last
        | None => last
        end in
      check (first' <=? last') (remove_n_at rs first' (last' - first'))
  end.

(** selection.rs 165-196, [add_range_distinct]. *)
Definition add_range_distinct (rs : list region) (r : region) : option (list region * (nat * nat)) :=
  let ix0 := search rs (rmin r) in
  let ix := match nth_error rs ix0 with Some o => if rmax o =? rmin r then S ix0 else ix0 | None => ix0 end in
  let kept :=
    match nth_error rs ix with
    | Some occ =>
        let is_eq := (rmin occ =? rmin r) && (rmax occ =? rmax r) in
        let is_intersect_before := (rmin occ <=? rmin r) && (rmin r <? rmax occ) in
        if is_eq || is_intersect_before then Some (rmin occ, rmax occ) else None
    | None => None
    end in
  match kept with
  | Some p => Some (rs, p)
  | None =>
      let last := search rs (rmax r) in
      let last' := match nth_error rs last with Some o => if rmin o <? rmax r then S last else last | None => last end in
      check (ix <=? last')
        (let? rs1 := remove_n_at rs ix (last' - ix) in
         check (ix <=? length rs1)
           (Some (firstn ix rs1 ++ r :: skipn ix rs1, (rmin r, rmax r))))
  end.

(** selection.rs 36-43, [InsertDrift]. *)
Inductive drift := Inside | Outside | DefaultDrift.
(** selection.rs 209-223: one region; [Transformer::transform] is a function of the delta, the
    offset and the flag. *)
Definition transform_region {A} (d : delta A) (after : bool) (dr : drift) (r : region) : region :=
  let is_forward := r_start r <? r_end r in
  let '(sa, ea) :=
    match dr, is_caret r with
    | Inside, false => (negb is_forward, is_forward)
    | Outside, false => (is_forward, negb is_forward)
    | _, _ => (after, after)
    end in
  with_affinity (region_new (transform_ix d (r_start r) sa) (transform_ix d (r_end r) ea)) (r_aff r).
(** selection.rs 205-226, [apply_delta]. *)
Fixpoint apply_regions {A} (d : delta A) (after : bool) (dr : drift) (rs acc : list region) : option (list region) :=
  match rs with
  | [] => Some acc
  | r :: rs' => let? acc' := add_region acc (transform_region d after dr r) in apply_regions d after dr rs' acc'
  end.
Definition sel_apply_delta {A} (rs : list region) (d : delta A) (after : bool) (dr : drift) : option (list region) :=
  apply_regions d after dr rs [].
(** selection.rs 70-73, [collapse]; the index panics on an empty selection. *)
Definition collapse (rs : list region) : option (list region) :=
  match rs with r :: _ => Some [Region (r_end r) (r_end r) (r_horiz r) (r_aff r)] | [] => None end.
