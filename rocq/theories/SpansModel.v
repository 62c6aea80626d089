(** Model of rust/rope/src/spans.rs: values over the intervals of a text.

    Simplifications: the summary of a node ([SpansInfo]: the number of spans and the interval
    they take up) is written but never read, and is left out. An interval is given by its ends.
    The iterator takes all the spans of a leaf at once. The closure of [merge] has no state. *)
From Coq Require Import List Arith Bool.
From Verif Require Import Base TreeModel CursorModel DeltaModel.
Import ListNotations.

(** spans.rs 27-28. *)
Definition SP_MIN := 32.
Definition SP_MAX := 64.

Section Spans.
Context {T : Type}.
(** spans.rs 31-41, [Span] and [SpansLeaf]. *)
Notation span := (nat * nat * T)%type.
Record sleaf := SLeaf { sl_len : nat; sl_spans : list span }.
Notation spans := (node sleaf unit).

(** interval.rs 98-102, [intersect], and 93, [is_empty], of intervals given by their ends. *)
Definition intersect (s e s' e' : nat) : nat * nat := let m := Nat.max s s' in (m, Nat.max m (Nat.min e e')).
Definition disjoint (s e s' e' : nat) : bool := let (a, b) := intersect s e s' e' in b <=? a.

(** spans.rs 70-77: the spans of a leaf cut to an interval and put at [at_]; empty ones are
    left out. *)
Fixpoint clip (l : list span) (start e at_ : nat) : list span :=
  match l with
  | [] => []
  | (s, t, d) :: l' =>
      let (a, b) := intersect s t start e in
      if (b - start + at_) <=? (a - start + at_) then clip l' start e at_
      else (a - start + at_, b - start + at_, d) :: clip l' start e at_
  end.
(** interval.rs 134-137, [translate_neg] of spans. *)
Fixpoint shift_back (l : list span) (k : nat) : option (list span) :=
  match l with
  | [] => Some []
  | (s, e, d) :: l' => check ((k <=? s) && (k <=? e)) (let? r := shift_back l' k in Some ((s - k, e - k, d) :: r))
  end.
(** spans.rs 69-93, [push_maybe_split]. *)
Definition sl_push (self other : sleaf) (start e : nat) : option (sleaf * option sleaf) :=
  check (start <=? e) (
  let sp := sl_spans self ++ clip (sl_spans other) start e (sl_len self) in
  let len := sl_len self + (e - start) in
  if length sp <=? SP_MAX then Some (SLeaf len sp, None)
  else
    let splitpoint := length sp / 2 in
    let? (units, _, _) := nth_error sp splitpoint in
    let? new := shift_back (skipn splitpoint sp) units in
    check (units <=? len)
      (Some (SLeaf units (firstn splitpoint sp), Some (SLeaf (len - units) new)))).

(** spans.rs 47-51, 60-67. *)
Definition sp_ops : leafops sleaf unit :=
  LeafOps sl_len (fun l => SP_MIN <=? length (sl_spans l)) sl_push (SLeaf 0 []) (fun _ _ => tt) (fun _ => tt).

(** spans.rs 113-123, [SpansBuilder]. *)
Record sbuilder := SBuilder { sb_b : builder (L:=sleaf) (I:=unit); sb_leaf : list span; sb_len : nat; sb_total : nat }.
Definition sb_new (total : nat) : sbuilder := SBuilder b_new [] 0 total.
(** spans.rs 127-136, [add_span]. *)
Definition add_span (sb : sbuilder) (s e : nat) (d : T) : option sbuilder :=
  let? sb1 :=
    (if length (sb_leaf sb) =? SP_MAX then
       check (sb_len sb <=? s)
         (let? b := b_push sp_ops (sb_b sb) (from_leaf sp_ops (SLeaf (s - sb_len sb) (sb_leaf sb))) in
          Some (SBuilder b [] s (sb_total sb)))
     else Some sb) in
  check ((sb_len sb1 <=? s) && (sb_len sb1 <=? e))
    (Some (SBuilder (sb_b sb1) (sb_leaf sb1 ++ [(s - sb_len sb1, e - sb_len sb1, d)]) (sb_len sb1) (sb_total sb1))).
(** spans.rs 140-144, [build]. *)
Definition sb_build (sb : sbuilder) : option spans :=
  check (sb_len sb <=? sb_total sb)
    (let? b := b_push sp_ops (sb_b sb) (from_leaf sp_ops (SLeaf (sb_total sb - sb_len sb) (sb_leaf sb))) in build sp_ops b).
Fixpoint add_spans (sb : sbuilder) (l : list span) : option sbuilder :=
  match l with [] => Some sb | (s, e, d) :: l' => let? sb1 := add_span sb s e d in add_spans sb1 l' end.

(** spans.rs 337-357, [SpanIter::next]; each turn takes the spans of a leaf. *)
Definition shift (k : nat) (l : list span) : list span := map (fun '(s, e, d) => (s + k, e + k, d)) l.
Fixpoint iter_loop (fuel : nat) (root : spans) (c : cursor (L:=sleaf) (I:=unit)) : option (list span) :=
  let? g := c_get_leaf c in
  match g with
  | None => Some []
  | Some (leaf, start_pos) =>
      match sl_spans leaf with
      | [] => Some []
      | l =>
          check (start_pos <=? c_pos c)
            (let leaf_start := c_pos c - start_pos in
             let? (_, c1) := next_leaf sp_ops root c in
             match fuel with
             | 0 => None
             | S f => let? r := iter_loop f root c1 in Some (shift leaf_start l ++ r)
             end)
      end
  end.
(** spans.rs 291-293, [iter]. *)
Definition iter (t : spans) : option (list span) :=
  let? c := c_new t 0 in iter_loop (S (n_len t)) t c.

(** spans.rs 300-309, [apply_shape]. The delta is of a sequence of any kind. *)
Fixpoint shape_loop {A} (t : spans) (l : list (element A)) (b : builder (L:=sleaf) (I:=unit)) : option (builder (L:=sleaf) (I:=unit)) :=
  match l with
  | [] => Some b
  | Copy x y :: l' => check (x <=? y) (let? n := subseq sp_ops t x y in let? b1 := b_push sp_ops b n in shape_loop t l' b1)
  | Insert s :: l' => let? n := sb_build (sb_new (length s)) in let? b1 := b_push sp_ops b n in shape_loop t l' b1
  end.
Definition apply_shape {A} (t : spans) (d : delta A) : option spans :=
  let? b := shape_loop t (els d) b_new in build sp_ops b.

(** spans.rs 312-326, [delete_after]. *)
Fixpoint delete_loop (l : list span) (s e : nat) (sb : sbuilder) : option sbuilder :=
  match l with
  | [] => Some sb
  | (a, b, d) :: l' => if disjoint a b s e then let? sb1 := add_span sb a b d in delete_loop l' s e sb1 else Some sb
  end.
Definition delete_after (t : spans) (s e : nat) : option spans :=
  let? l := iter t in let? sb := delete_loop l s e (sb_new (n_len t)) in sb_build sb.

(** spans.rs 159-181, [transform]. *)
Fixpoint transform_loop {A} (d : delta A) (l : list span) (base_start new_start : nat) (sb : sbuilder) : option sbuilder :=
  match l with
  | [] => Some sb
  | (s, e, v) :: l' =>
      let s1 := transform_ix d (s + base_start) false in
      let e1 := transform_ix d (e + base_start) false in
      check ((new_start <=? s1) && (new_start <=? e1))
        (let start := s1 - new_start in
         let end_ := e1 - new_start in
         let? sb1 := (if start <? end_ then add_span sb start end_ v else Some sb) in
         transform_loop d l' base_start new_start sb1)
  end.
Definition transform {A} (t : spans) (base_start base_end : nat) (d : delta A) : option spans :=
  let new_start := transform_ix d base_start false in
  let new_end := transform_ix d base_end true in
  check (new_start <=? new_end)
    (let? l := iter t in let? sb := transform_loop d l base_start new_start (sb_new (new_end - new_start)) in sb_build sb).
End Spans.
Arguments sleaf : clear implicits.
Arguments sbuilder : clear implicits.

(** spans.rs 193-287, [merge], of two sequences of spans of values of [T] to one of values of
    [O]. *)
Section Merge.
Context {T O : Type} (f : T -> option T -> O).
(** spans.rs 214-226. *)
Fixpoint add_rest (l : list (nat * nat * T)) (sb : sbuilder O) : option (sbuilder O) :=
  match l with [] => Some sb | (s, e, v) :: l' => let? sb1 := add_span sb s e (f v None) in add_rest l' sb1 end.
(** interval.rs 119-126, [prefix] and [suffix]. *)
Definition prefix (s e s' e' : nat) : nat * nat := (Nat.min s s', Nat.min e s').
Definition suffix (s e s' e' : nat) : nat * nat := (Nat.max s e', Nat.max e e').
(** spans.rs 209-286, the loop; each turn uses up a span of one of the two. *)
Fixpoint merge_loop (fuel : nat) (red blue : list (nat * nat * T)) (sb : sbuilder O) : option (sbuilder O) :=
  match red, blue with
  | [], [] => Some sb
  | [], _ => add_rest blue sb
  | _, [] => add_rest red sb
  | (rs, re, rv) :: red', (bs, be, bv) :: blue' =>
      match fuel with
      | 0 => None
      | S n =>
          if disjoint rs re bs be then
            if re <=? bs then let? sb1 := add_span sb rs re (f rv None) in merge_loop n red' blue sb1
            else let? sb1 := add_span sb bs be (f bv None) in merge_loop n red blue' sb1
          else
            let? (rs1, re1, bs1, be1, sb1) :=
              match Nat.compare rs bs with
              | Lt =>
                  let (a, b) := prefix rs re bs be in
                  let? sb1 := add_span sb a b (f rv None) in
                  let (rs1, re1) := suffix rs re a b in Some (rs1, re1, bs, be, sb1)
              | Gt =>
                  let (a, b) := prefix bs be rs re in
                  let? sb1 := add_span sb a b (f bv None) in
                  let (bs1, be1) := suffix bs be a b in Some (rs, re, bs1, be1, sb1)
              | Eq => Some (rs, re, bs, be, sb)
              end in
            check (rs1 =? bs1)
              (let (a, b) := intersect rs1 re1 bs1 be1 in
               check (negb (b <=? a))
                 (let? sb2 := add_span sb1 a b (f rv (Some bv)) in
                  let (rs2, re2) := suffix rs1 re1 a b in
                  let (bs2, be2) := suffix bs1 be1 a b in
                  check ((re2 <=? rs2) || (be2 <=? bs2))
                    (merge_loop n (if re2 <=? rs2 then red' else (rs2, re2, rv) :: red')
                       (if be2 <=? bs2 then blue' else (bs2, be2, bv) :: blue') sb2)))
      end
  end.
Definition merge (a b : node (sleaf T) unit) : option (node (sleaf O) unit) :=
  check (n_len a =? n_len b)
    (let? red := iter a in
     let? blue := iter b in
     let? sb := merge_loop (length red + length blue) red blue (sb_new (n_len a)) in
     sb_build sb).
End Merge.
