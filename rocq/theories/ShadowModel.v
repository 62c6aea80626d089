(** Model of rust/core-lib/src/line_cache_shadow.rs and of the update the view sends
    (rust/core-lib/src/view.rs 747-890). *)
From Coq Require Import List Arith Bool.
From Verif Require Import Base.
Import ListNotations.

(** line_cache_shadow.rs 33-39: a validity is a byte with three bits; here three booleans. *)
Record validity := Validity { v_text : bool; v_styles : bool; v_cursor : bool }.
Definition INVALID := Validity false false false.
Definition ALL_VALID := Validity true true true.
Definition v_none (v : validity) : bool := negb (v_text v) && negb (v_styles v) && negb (v_cursor v).
Definition v_all (v : validity) : bool := v_text v && v_styles v && v_cursor v.
Definition v_eqb (v w : validity) : bool :=
  eqb (v_text v) (v_text w) && eqb (v_styles v) (v_styles w) && eqb (v_cursor v) (v_cursor w).
(** [v & w] and [v & !w]. *)
Definition v_and (v w : validity) : validity :=
  Validity (v_text v && v_text w) (v_styles v && v_styles w) (v_cursor v && v_cursor w).
Definition v_minus (v w : validity) : validity :=
  Validity (v_text v && negb (v_text w)) (v_styles v && negb (v_styles w)) (v_cursor v && negb (v_cursor w)).

(** line_cache_shadow.rs 41-51, [Span]: length, starting line in the client's cache, validity. *)
Definition span := (nat * nat * validity)%type.
(** line_cache_shadow.rs 27-31 and 54-57, [LineCacheShadow]; a [Builder]'s spans are kept
    latest first. *)
Record shadow := Shadow { spans : list span; dirty : bool }.

(** line_cache_shadow.rs 105-117, [Builder::add_span]. *)
Definition add_span (b : list span) (n start : nat) (v : validity) : list span :=
  if 0 <? n then
    match b with
    | (m, s, w) :: b' => if v_eqb w v && (v_none v || (s + m =? start)) then (m + n, s, w) :: b' else (n, start, v) :: b
    | [] => [(n, start, v)]
    end
  else b.
(** line_cache_shadow.rs 101-103, [Builder::build]. *)
Definition build (b : list span) (d : bool) : shadow := Shadow (rev b) d.

(** line_cache_shadow.rs 125-149, [LineCacheShadow::edit]: the loop up to the edit, giving the
    builder, [spans[i..]] and [line_num]; then the loop over the rest. *)
Fixpoint edit_head (l : list span) (line_num start : nat) (b : list span) : list span * list span * nat :=
  match l with
  | [] => (b, [], line_num)
  | (n, s, v) :: l' =>
      if line_num + n <=? start then edit_head l' (line_num + n) start (add_span b n s v)
      else (add_span b (start - line_num) s v, l, line_num)
  end.
Fixpoint edit_tail (l : list span) (line_num end_ : nat) (b : list span) : list span :=
  match l with
  | [] => b
  | (n, s, v) :: l' =>
      edit_tail l' (line_num + n) end_
        (if end_ <? line_num + n then add_span b (n - (end_ - line_num)) (s + (end_ - line_num)) v else b)
  end.
Definition shadow_edit (sh : shadow) (start end_ replace : nat) : shadow :=
  let '(b, rest, line_num) := edit_head (spans sh) 0 start [] in
  build (edit_tail rest line_num end_ (add_span b replace 0 INVALID)) true.

(** line_cache_shadow.rs 151-189, [LineCacheShadow::partial_invalidate]: the test, the loop. *)
Fixpoint has_valid (l : list span) (line_num start end_ : nat) (inv : validity) : bool :=
  match l with
  | [] => false
  | (n, _, v) :: l' =>
      if (start <? line_num + n) && (line_num <? end_) && negb (v_none (v_and v inv)) then true
      else has_valid l' (line_num + n) start end_ inv
  end.
Fixpoint inval_loop (l : list span) (line_num start end_ : nat) (inv : validity) (b : list span) : list span :=
  match l with
  | [] => b
  | (n, s, v) :: l' =>
      let b1 := if line_num <? start then add_span b (min n (start - line_num)) s v else b in
      let invalid_start := max start line_num in
      let invalid_end := min end_ (line_num + n) in
      let b2 := if invalid_start <? invalid_end
                then add_span b1 (invalid_end - invalid_start) (s + (invalid_start - line_num)) (v_minus v inv) else b1 in
      let b3 := if end_ <? line_num + n then add_span b2 (n - (end_ - line_num)) (s + (end_ - line_num)) v else b2 in
      inval_loop l' (line_num + n) start end_ inv b3
  end.
Definition partial_invalidate (sh : shadow) (start end_ : nat) (inv : validity) : shadow :=
  if has_valid (spans sh) 0 start end_ inv then build (inval_loop (spans sh) 0 start end_ inv []) true else sh.

(** line_cache_shadow.rs 59-72, [RenderTactic], [RenderPlan]. *)
Inductive tactic := Discard | Preserve | Render.
Definition plan := list (nat * tactic).
Definition SCROLL_SLOP := 2.
Definition PRESERVE_EXTENT := 1000.

(** line_cache_shadow.rs 256-281, [RenderPlan::create]. *)
Definition plan_create (total first height : nat) : plan :=
  let first := min first total in
  let '(p0, last0) := if PRESERVE_EXTENT <? first then ([(first - PRESERVE_EXTENT, Discard)], first - PRESERVE_EXTENT) else ([], 0) in
  let '(p1, last1) := if SCROLL_SLOP <? first
      then (p0 ++ [(first - SCROLL_SLOP - last0, Preserve)], last0 + (first - SCROLL_SLOP - last0)) else (p0, last0) in
  let render_end := min (first + height + SCROLL_SLOP) total in
  let p2 := p1 ++ [(render_end - last1, Render)] in
  let preserve_end := min (first + height + PRESERVE_EXTENT) total in
  let '(p3, last3) := if render_end <? preserve_end
      then (p2 ++ [(preserve_end - render_end, Preserve)], preserve_end) else (p2, render_end) in
  if last3 <? total then p3 ++ [(total - last3, Discard)] else p3.

(** line_cache_shadow.rs 284-312, [request_lines]; panics when [end_ < start]. *)
Fixpoint request_head (l : plan) (line_num start : nat) : plan * plan * nat :=
  match l with
  | [] => ([], [], line_num)
  | (n, t) :: l' =>
      if line_num + n <=? start then let '(p, rest, k) := request_head l' (line_num + n) start in ((n, t) :: p, rest, k)
      else (if line_num <? start then [(start - line_num, t)] else [], l, line_num)
  end.
Fixpoint request_tail (l : plan) (line_num end_ : nat) : plan :=
  match l with
  | [] => []
  | (n, t) :: l' =>
      (if end_ <? line_num + n then [(n - (end_ - line_num), t)] else []) ++ request_tail l' (line_num + n) end_
  end.
Definition request_lines (p : plan) (start end_ : nat) : option plan :=
  let '(hd, rest, line_num) := request_head p 0 start in
  check (start <=? end_) (Some (hd ++ [(end_ - start, Render)] ++ request_tail rest line_num end_)).

(** line_cache_shadow.rs 83-95, [PlanSegment]. *)
Record segment := Segment { our_line : nat; their_line : nat; seg_n : nat; seg_v : validity; seg_t : tactic }.
(** line_cache_shadow.rs 224-253, [PlanIterator::next], until it answers [None]. The indices into
    the two vectors are the lists from there on. Each step finishes a span of one of the two, so
    the number of spans is enough fuel. *)
Fixpoint iter_plan (fuel : nat) (sh : list span) (sl : nat) (p : plan) (pl : nat) : list segment :=
  match fuel, sh, p with
  | S fuel, (n, s, v) :: sh', (m, t) :: p' =>
      let start := max sl pl in
      let end_ := min (sl + n) (pl + m) in
      let '(sh1, sl1) := if end_ =? sl + n then (sh', end_) else (sh, sl) in
      let '(p1, pl1) := if end_ =? pl + m then (p', end_) else (p, pl) in
      Segment start (s + (start - sl)) (end_ - start) v t :: iter_plan fuel sh1 sl1 p1 pl1
  | _, _, _ => []
  end.
Definition iter_with_plan (sh : list span) (p : plan) : list segment := iter_plan (length sh + length p) sh 0 p 0.
(** line_cache_shadow.rs 191-197, [needs_render]. *)
Definition needs_render (sh : shadow) (p : plan) : bool :=
  dirty sh || existsb (fun g => match seg_t g with Render => negb (v_all (seg_v g)) | _ => false end) (iter_with_plan (spans sh) p).

(** ** The update *)
Section Update.
Context {T S : Type}.

(** A line of the view: its text, its styles, its carets, and whether it starts a logical line
    (it does not if it starts at a soft break). *)
Record vline := VLine { vtext : T; vstyle : S; vcur : list nat; vhard : bool }.

(** view.rs 614-689, [encode_line]: the carets are left out if there are none, the line number if the
    line starts at a soft break. *)
Record full_line := FullLine { f_text : T; f_style : S; f_cur : option (list nat); f_ln : option nat }.
Record caret_line := CaretLine { l_cur : option (list nat); l_ln : option nat }.
Definition encode_cursors (l : list nat) : option (list nat) := match l with [] => None | _ => Some l end.

(** client.rs, [UpdateOp]. *)
Inductive update_op := OpCopy (n ln : nat) | OpSkip (n : nat) | OpInvalidate (n : nat) |
  OpUpdate (ls : list caret_line) (ln : option nat) | OpInsert (ls : list full_line).

(** The number of logical lines started up to line [i], included. As the first line starts one,
    [text.line_of_offset] of the start of line [i] is this less one. *)
Definition line_number (view : list vline) (i : nat) : nat := length (filter vhard (firstn (i + 1) view)).
Definition encode_ln (view : list vline) (i : nat) (l : vline) : option nat := if vhard l then Some (line_number view i) else None.
(** [self.lines.iter_lines(text, start).take(n).map(..)]. *)
Fixpoint encode_full (view : list vline) (i : nat) (ls : list vline) : list full_line :=
  match ls with
  | [] => []
  | l :: ls' => FullLine (vtext l) (vstyle l) (encode_cursors (vcur l)) (encode_ln view i l) :: encode_full view (i + 1) ls'
  end.
Fixpoint encode_carets (view : list vline) (i : nat) (ls : list vline) : list caret_line :=
  match ls with
  | [] => []
  | l :: ls' => CaretLine (encode_cursors (vcur l)) (encode_ln view i l) :: encode_carets view (i + 1) ls'
  end.

(** view.rs 794-883, the loop over the segments: the operations and the spans of the new shadow.
    [None] when [seg.their_line_num - line_num] is negative. *)
Fixpoint render_segs (view : list vline) (l : list segment) (line_num : nat) (b : list span) : option (list update_op * list span) :=
  match l with
  | [] => Some ([], b)
  | g :: l' =>
      let lines := firstn (seg_n g) (skipn (our_line g) view) in
      match seg_t g with
      | Discard =>
          let? (ops, b') := render_segs view l' line_num (add_span b (seg_n g) 0 INVALID) in
          Some (OpInvalidate (seg_n g) :: ops, b')
      | t =>
          if v_text (seg_v g) && v_styles (seg_v g) then
            check (line_num <=? their_line g)
              (let n_skip := their_line g - line_num in
               let logical_line := line_number view (our_line g) - 1 in
               let op := if v_cursor (seg_v g) then OpCopy (seg_n g) (logical_line + 1)
                 else OpUpdate (encode_carets view (our_line g) lines) (if logical_line =? 0 then None else Some (logical_line + 1)) in
               let? (ops, b') := render_segs view l' (their_line g + seg_n g) (add_span b (seg_n g) (our_line g) (seg_v g)) in
               Some ((if 0 <? n_skip then [OpSkip n_skip] else []) ++ op :: ops, b'))
          else match t with
            | Render =>
                let? (ops, b') := render_segs view l' line_num (add_span b (seg_n g) (our_line g) ALL_VALID) in
                Some (OpInsert (encode_full view (our_line g) lines) :: ops, b')
            | _ =>
                let? (ops, b') := render_segs view l' line_num (add_span b (seg_n g) 0 INVALID) in
                Some (OpInvalidate (seg_n g) :: ops, b')
            end
      end
  end.
(** view.rs 747-890, [send_update_for_plan]; annotations, find and replace status, definitions of
    styles and the pristine flag are left out. *)
Definition send_update (view : list vline) (sh : shadow) (p : plan) : option (list update_op * shadow) :=
  if needs_render sh p then
    let? (ops, b) := render_segs view (iter_with_plan (spans sh) p) 0 [] in Some (ops, build b false)
  else Some ([OpCopy (length view) 1], sh).
(** view.rs 943-949, [set_dirty]. *)
Definition set_dirty (view : list vline) : shadow := build (add_span [] (length view) 0 INVALID) true.
End Update.
Arguments vline : clear implicits.
Arguments full_line : clear implicits.
Arguments update_op : clear implicits.
