(** Model of rust/core-lib/src/linewrap.rs: visual lines, and the work that remains to wrap them.
    The break opportunities of a text (xi-unicode, read leaf by leaf by [LineBreakCursor]), the
    widths of words (the width cache and the client) and the floating point operations on widths
    are parameters. A debug assertion is modelled as a panic. *)
From Coq Require Import List Arith Bool.
From Verif Require Import Base TreeModel TreeSpec CursorModel RopeModel BreaksModel.
Import ListNotations.

(** ** rust/rope/src/interval.rs 79-142 *)
Notation iv := (nat * nat)%type.
(** interval.rs 79-81. *)
Definition iv_is_before (t : iv) (val : nat) : bool := snd t <=? val.
(** interval.rs 84-86. *)
Definition iv_contains (t : iv) (val : nat) : bool := (fst t <=? val) && (val <? snd t).
(** interval.rs 89-91. *)
Definition iv_is_after (t : iv) (val : nat) : bool := val <? fst t.
(** interval.rs 93-95. *)
Definition iv_is_empty (t : iv) : bool := snd t <=? fst t.
(** interval.rs 98-102. *)
Definition iv_intersect (t o : iv) : iv :=
  let start := Nat.max (fst t) (fst o) in (start, Nat.max start (Nat.min (snd t) (snd o))).
(** interval.rs 106-116. *)
Definition iv_union (t o : iv) : iv :=
  if iv_is_empty t then o else if iv_is_empty o then t
  else (Nat.min (fst t) (fst o), Nat.max (snd t) (snd o)).
(** interval.rs 119-121. *)
Definition iv_prefix (t o : iv) : iv := (Nat.min (fst t) (fst o), Nat.min (snd t) (fst o)).
(** interval.rs 124-126. *)
Definition iv_suffix (t o : iv) : iv := (Nat.max (fst t) (snd o), Nat.max (snd t) (snd o)).
(** interval.rs 129-131. *)
Definition iv_translate (t : iv) (n : nat) : iv := (fst t + n, snd t + n).
(** interval.rs 134-137. *)
Definition iv_translate_neg (t : iv) (n : nat) : option iv :=
  check (n <=? fst t) (Some (fst t - n, snd t - n)).
(** interval.rs 140-142. *)
Definition iv_size (t : iv) : nat := snd t - fst t.

(** ** linewrap.rs 593-775: a cursor over hard and soft breaks *)
Section Merged.
Context (text : rope) (soft : breaks).
Local Notation tcursor := (cursor (L:=list nat) (I:=rope_info)).
Local Notation bcursor := (cursor (L:=bleaf) (I:=nat)).
(** Enough turns for the loops of [convert_metrics]. *)
Definition tfuel : nat := S (S (S (n_height text))).
Definition sfuel : nat := S (S (S (n_height soft))).

(** linewrap.rs 608-617, [MergedBreaks]; [total_lines] and [len] never change. *)
Record merged := Merged { mb_text : tcursor; mb_soft : bcursor; mb_offset : nat; mb_line : nat }.
Definition mb_total : nat := measure lines_metric text + measure br_metric soft + 1.
Definition mb_len : nat := n_len text.

(** linewrap.rs 650-658, [new]. *)
Definition mb_new : option merged :=
  check (n_len text =? n_len soft) (
  let? t := c_new text 0 in
  let? s := c_new soft 0 in
  Some (Merged t s 0 0)).
(** linewrap.rs 755-757, [is_hard_break]. *)
Definition mb_is_hard (m : merged) : bool := mb_offset m =? c_pos (mb_text m).
(** linewrap.rs 763-767, [eof_without_newline]: the answer and the text cursor. *)
Definition eof_without_newline (t : tcursor) : option (bool * tcursor) :=
  let? t1 := c_set rope_ops text t mb_len in
  let? g := c_get_leaf t1 in
  match g with
  | Some (l, _) => Some (negb (last l 0 =? NL) || match l with [] => true | _ => false end, t1)
  | None => None
  end.
(** linewrap.rs 619-641, [next]. *)
Definition mb_next (m : merged) : option (option nat * merged) :=
  let? t := (if (c_pos (mb_text m) =? mb_offset m) && negb (mb_offset m =? mb_len)
             then let? (_, t) := c_next rope_ops text lines_metric (mb_text m) in Some t
             else Some (mb_text m)) in
  let? s := (if c_pos (mb_soft m) =? mb_offset m
             then let? (_, s) := c_next br_ops soft br_metric (mb_soft m) in Some s
             else Some (mb_soft m)) in
  let offset := Nat.min (c_pos t) (c_pos s) in
  let? (eof, t') := (if (0 <? offset) && (offset =? mb_len) then eof_without_newline t else Some (false, t)) in
  if (offset =? mb_offset m) || eof then Some (None, Merged t' s offset (mb_line m))
  else Some (Some offset, Merged t' s offset (mb_line m + 1)).
(** linewrap.rs 770-772, [merged_line_of_offset]. *)
Definition merged_line_of_offset (offset : nat) : option nat :=
  let? a := line_of_offset tfuel text offset in
  let? b := br_count sfuel soft offset in
  Some (a + b).
(** linewrap.rs 662-690, [set_offset]. *)
Definition mb_set_offset (m : merged) (offset : nat) : option merged :=
  let? t0 := c_set rope_ops text (mb_text m) offset in
  let? s0 := c_set br_ops soft (mb_soft m) offset in
  let? (t1, s1) :=
    (if 0 <? offset then
       let? (rt, t) := c_at_or_prev rope_ops text lines_metric t0 in
       let? t' := match rt with None => c_set rope_ops text t 0 | Some _ => Some t end in
       let? (rs, s) := c_at_or_prev br_ops soft br_metric s0 in
       let? s' := match rs with None => c_set br_ops soft s 0 | Some _ => Some s end in
       Some (t', s')
     else Some (t0, s0)) in
  let? (t2, s2) :=
    match Nat.compare (c_pos t1) (c_pos s1) with
    | Lt => let? (_, t) := c_next rope_ops text lines_metric t1 in Some (t, s1)
    | Gt => let? (_, s) := c_next br_ops soft br_metric s1 in Some (t1, s)
    | Eq => check (c_pos t1 =? 0) (Some (t1, s1))
    end in
  let off := Nat.min (c_pos t2) (c_pos s2) in
  let? line := merged_line_of_offset off in
  Some (Merged t2 s2 off line).
(** linewrap.rs 645. *)
Definition MAX_LINEAR_DIST := 20.
(** [Iterator::nth]: [n + 1] calls of [next], or fewer if one returns nothing. *)
Fixpoint mb_nth (n : nat) (m : merged) : option (option nat * merged) :=
  let? (r, m1) := mb_next m in
  match r, n with
  | Some o, S n' => mb_nth n' m1
  | _, _ => Some (r, m1)
  end.
(** linewrap.rs 704-708, [offset_of_line_linear]. *)
Definition mb_linear (m : merged) (line : nat) : option (nat * merged) :=
  check (mb_line m <? line) (
  let? (r, m1) := mb_nth (line - mb_line m - 1) m in
  Some (match r with Some o => o | None => mb_len end, m1)).
(** linewrap.rs 710-723, [offset_of_line_bsearch], [fuel] turns of the loop. *)
Fixpoint mb_bsearch (fuel : nat) (m : merged) (line a b : nat) : option (nat * merged) :=
  match fuel with
  | 0 => None
  | S f =>
      let pivot := a + (b - a) / 2 in
      let? m1 := mb_set_offset m pivot in
      if mb_line m1 =? line then Some (mb_offset m1, m1)
      else if line <? mb_line m1 then mb_bsearch f m1 line a pivot
      else if MAX_LINEAR_DIST <? line - mb_line m1 then mb_bsearch f m1 line pivot b
      else mb_linear m1 line
  end.
(** linewrap.rs 692-702, [offset_of_line]. *)
Definition mb_offset_of_line (m : merged) (line : nat) : option (nat * merged) :=
  if line =? 0 then Some (0, m)
  else if mb_total <=? line then Some (mb_len, m)
  else if line =? mb_line m then Some (mb_offset m, m)
  else if (mb_line m <? line) && (line - mb_line m <? MAX_LINEAR_DIST) then mb_linear m line
  else mb_bsearch (S mb_len) m line 0 mb_len.

(** linewrap.rs 73-79, [VisualLine]. *)
Record vline := VLine { vl_start : nat; vl_end : nat; vl_num : option nat }.
(** linewrap.rs 557-564, [VisualLines]; [len] is that of the text. *)
Record vlines := VLines { vs_cursor : merged; vs_offset : nat; vs_logical : nat; vs_eof : bool }.
(** linewrap.rs 569-590, [next]. *)
Definition vs_next (v : vlines) : option (option vline * vlines) :=
  let line_num := if mb_is_hard (vs_cursor v) then Some (vs_logical v) else None in
  let? (r, m) := mb_next (vs_cursor v) in
  let step (b : nat) (eof : bool) :=
    Some (Some (VLine (vs_offset v) b line_num),
          VLines m b (if mb_is_hard m then vs_logical v + 1 else vs_logical v) eof) in
  match r with
  | Some b => step b (vs_eof v)
  | None => if vs_eof v then Some (None, VLines m (vs_offset v) (vs_logical v) true) else step mb_len true
  end.
(** All that the iterator yields, by at most [fuel] calls. *)
Fixpoint vs_all (fuel : nat) (v : vlines) : option (list vline) :=
  match fuel with
  | 0 => None
  | S f =>
      let? (r, v') := vs_next v in
      match r with
      | None => Some []
      | Some l => let? rest := vs_all f v' in Some (l :: rest)
      end
  end.
(** linewrap.rs 184-194, [iter_lines]. *)
Definition iter_lines (start_line : nat) : option vlines :=
  let? m := mb_new in
  let? (offset, m1) := mb_offset_of_line m start_line in
  let? l := line_of_offset tfuel text offset in
  let? m2 := mb_set_offset m1 offset in
  Some (VLines m2 offset (l + 1) false).
End Merged.
Arguments merged : clear implicits.

(** ** linewrap.rs 60-450: the lines and the outstanding work *)
Section Lines.
(** The widths: 64-bit floating point numbers in the code. *)
Context {F : Type} (fzero : F) (fadd : F -> F -> F) (fge fgt : F -> F -> bool) (fis0 : F -> bool) (feqb : F -> F -> bool)
  (of_nat : nat -> F).
(** linewrap.rs 31-43, [WrapWidth]. *)
Inductive wrapw := WNone | WBytes (b : nat) | WWidth (w : F).
(** The widths of words, by the kind of wrapping: [CodepointMono] or the client, and the width
    cache (see WidthCacheModel.v). *)
Context (wid : wrapw -> list nat -> F).
(** The break opportunities of a text from a place on: offset and whether it is a hard break. *)
Context (opps : list nat -> nat -> list (nat * bool)).
(** linewrap.rs 467: 10_000. *)
Context (max_pot : nat).

(** linewrap.rs 51-59, [differs_in_kind]. *)
Definition differs_in_kind (a b : wrapw) : bool :=
  match a, b with
  | WNone, WNone | WBytes _, WBytes _ | WWidth _, WWidth _ => false
  | _, _ => true
  end.
(** [self.wrap == WrapWidth::None]. *)
Definition is_wnone (w : wrapw) : bool := match w with WNone => true | _ => false end.

(** linewrap.rs 66-72, [Lines]. *)
Record lines := Lines { ln_breaks : breaks; ln_wrap : wrapw; ln_work : list iv }.
(** The default: no text. *)
Definition ln_default : lines := Lines (from_leaf br_ops (BLeaf 0 [])) WNone [].

(** linewrap.rs 138-148, the loop over [to_update]; [new_task] as an option, and what it pushes. *)
Fixpoint add_loop (to_update : list iv) (new_task : option iv) : list iv :=
  match to_update with
  | [] => match new_task with Some e => [e] | None => [] end
  | t :: rest =>
      match new_task with
      | Some new =>
          if negb (iv_is_empty (iv_intersect t new)) then add_loop rest (Some (iv_union t new))
          else new :: t :: add_loop rest None
      | None => t :: add_loop rest None
      end
  end.
(** linewrap.rs 121-152, [add_task]. *)
Fixpoint add_work (work : list iv) (new : iv) : list iv :=
  match work with
  | [] => [new]
  | t :: rest =>
      if negb (iv_is_empty (iv_intersect t new)) then add_loop (t :: rest) (Some new)
      else t :: add_work rest new
  end.
Definition add_task (work : list iv) (new : iv) : list iv :=
  if iv_is_empty new then work else add_work work new.

(** linewrap.rs 110-119, [set_wrap_width]. *)
Definition set_wrap_width (ln : lines) (text : rope) (wrap : wrapw) : lines :=
  let work := add_task [] (0, n_len text) in
  let b := if (n_len (ln_breaks ln) =? 0) || differs_in_kind (ln_wrap ln) wrap
           then new_no_break (n_len text) else ln_breaks ln in
  Lines b wrap work.

(** linewrap.rs 154-156, [is_converged]. *)
Definition is_converged (ln : lines) : bool :=
  is_wnone (ln_wrap ln) || match ln_work ln with [] => true | _ => false end.
(** linewrap.rs 159-161, [interval_needs_wrap]. *)
Definition interval_needs_wrap (ln : lines) (t0 : iv) : bool :=
  existsb (fun t => negb (iv_is_empty (iv_intersect t t0))) (ln_work ln).
(** linewrap.rs 163-169, [visual_line_of_offset]. *)
Definition visual_line_of_offset (ln : lines) (text : rope) (offset : nat) : option nat :=
  let? line := line_of_offset (tfuel text) text offset in
  if is_wnone (ln_wrap ln) then Some line
  else let? k := br_count (sfuel (ln_breaks ln)) (ln_breaks ln) offset in Some (line + k).
(** linewrap.rs 172-184, [offset_of_visual_line]. *)
Definition offset_of_visual_line (ln : lines) (text : rope) (line : nat) : option nat :=
  if is_wnone (ln_wrap ln) then
    offset_of_line (tfuel text) text (Nat.min line (measure lines_metric text + 1))
  else
    let? m := mb_new text (ln_breaks ln) in
    let? (o, _) := mb_offset_of_line text (ln_breaks ln) m line in Some o.

(** linewrap.rs 198-208, [get_next_task]. *)
Definition get_next_task (work : list iv) (visible_offset : nat) : option iv :=
  match find (fun t => visible_offset <? snd t) work with
  | Some t => Some (Nat.max (fst t) visible_offset, snd t)
  | None => match work with [] => None | t :: rest => Some (last rest t) end
  end.
(** linewrap.rs 210-231, [update_tasks_after_wrap]. *)
Definition update_tasks_after_wrap (work : list iv) (w : iv) : list iv :=
  flat_map (fun task =>
    if iv_is_before task (fst w) || iv_is_after task (snd w) then [task]
    else (if fst task <? fst w then [iv_prefix task w] else []) ++
         (if snd w <? snd task then [iv_suffix task w] else [])) work.

(** linewrap.rs 238-251, the first loop of [patchup_tasks]. *)
Fixpoint patch_loop (work : list iv) (i : iv) (new_len : nat) : option (list iv) :=
  match work with
  | [] => Some []
  | task :: rest =>
      let? here :=
        (if iv_is_before task (fst i) then Some [task]
         else if iv_contains task (fst i) then
           let head := iv_prefix task i in
           let tail_end := Nat.max (fst i) (snd task + new_len - iv_size i) in
           Some [head; (fst i, tail_end)]
         else let? tail := iv_translate_neg (iv_translate (iv_suffix task i) new_len) (iv_size i) in Some [tail]) in
      let? more := patch_loop rest i new_len in
      Some (here ++ more)
  end.
(** linewrap.rs 254-262, the second loop; [prev] is the last task of the new list. *)
Fixpoint merge_loop (prev : option iv) (ts : list iv) : list iv :=
  match ts with
  | [] => match prev with Some p => [p] | None => [] end
  | t :: rest =>
      match prev with
      | Some p => if fst t <=? snd p then merge_loop (Some (iv_union p t)) rest else p :: merge_loop (Some t) rest
      | None => merge_loop (Some t) rest
      end
  end.
(** linewrap.rs 234-264, [patchup_tasks]. *)
Definition patchup_tasks (work : list iv) (i : iv) (new_len : nat) : option (list iv) :=
  let? new_work := patch_loop work i new_len in
  Some (merge_loop None (filter (fun t => negb (iv_is_empty t)) new_work)).

(** *** linewrap.rs 452-555: wrapping lines *)
Section Rewrap.
Context (text : rope) (w : wrapw) (max_width : F).
Local Notation s := (content (fun x : list nat => x) text).
Local Notation len := (n_len text).
(** linewrap.rs 443-450, [PotentialBreak], with its width in the place of the token. *)
Definition pot : Type := nat * F * bool.
(** linewrap.rs 453-463, [RewrapCtx]: [cx_lb] is [lb_cursor_pos], [cx_rest] what [lb_cursor] will
    return, [cx_pots] the potential breaks from [pot_break_ix] on. *)
Record ctx := Ctx { cx_lb : nat; cx_rest : list (nat * bool); cx_pots : list pot }.
(** linewrap.rs 470-490, [new]. *)
Definition cx_new (start : nat) : ctx := Ctx start (opps s start) [].
(** linewrap.rs 498-505, the loop of [refill_pot_breaks], [n] more to get. *)
Fixpoint refill_loop (n pos : nat) (rest : list (nat * bool)) : option ctx :=
  match n with
  | 0 => Some (Ctx pos rest [])
  | S n' =>
      if pos <? len then
        match rest with
        | [] => None
        | (next, hard) :: rest' =>
            check (pos <=? next) (
            let width := wid w (slice s pos next) in
            let? cx := refill_loop n' next rest' in
            Some (Ctx (cx_lb cx) (cx_rest cx) ((next, width, hard) :: cx_pots cx)))
        end
      else Some (Ctx pos rest [])
  end.
(** linewrap.rs 492-508, [refill_pot_breaks]. *)
Definition refill (cx : ctx) : option ctx := refill_loop max_pot (cx_lb cx) (cx_rest cx).
(** linewrap.rs 513-548, [wrap_one_line], [fuel] turns of the loop. *)
Fixpoint wrap_loop (fuel : nat) (line_width : F) (pos : nat) (cx : ctx) : option (option nat * ctx) :=
  match fuel with
  | 0 => None
  | S f =>
      if pos <? len then
        let? cx1 := (match cx_pots cx with [] => refill cx | _ :: _ => Some cx end) in
        match cx_pots cx1 with
        | [] => None
        | (bpos, width, hard) :: pots =>
            let adv := Ctx (cx_lb cx1) (cx_rest cx1) pots in
            if negb hard then
              if fis0 line_width && fge width max_width then
                if bpos =? len then Some (None, cx1) else Some (Some bpos, adv)
              else
                let line_width' := fadd line_width width in
                if fgt line_width' max_width then Some (Some pos, cx1)
                else wrap_loop f line_width' bpos adv
            else if negb (fis0 line_width) && fgt (fadd width line_width) max_width then Some (Some pos, cx1)
            else Some (Some bpos, adv)
        end
      else Some (None, cx)
  end.
Definition wrap_one_line (cx : ctx) (start : nat) : option (option nat * ctx) :=
  wrap_loop (S (length (cx_pots cx) + length (cx_rest cx))) fzero start cx.

Context (soft : breaks).
(** linewrap.rs 389-394: the old cursor is moved to the first old break not before [new_next]. *)
Fixpoint old_skip (fuel : nat) (m : merged) (old : option nat) (new_next : nat) : option (option nat * merged) :=
  match fuel with
  | 0 => None
  | S f =>
      match old with
      | Some o => if new_next <=? o then Some (old, m)
                  else let? (old', m') := mb_next text soft m in old_skip f m' old' new_next
      | None => Some (None, m)
      end
  end.
(** linewrap.rs 387-411, the loop of [do_wrap_task]. *)
Fixpoint wrap_task_loop (fuel : nat) (cx : ctx) (m : merged) (old : option nat) (b : bbuilder)
    (lines_wrapped pos task_end batch_size : nat) : option bbuilder :=
  match fuel with
  | 0 => None
  | S f =>
      let? (r, cx') := wrap_one_line cx pos in
      match r with
      | Some new_next =>
          let? (old', m') := old_skip (S (S len)) m old new_next in
          let is_hard := (mb_offset m' =? new_next) && mb_is_hard m' in
          check (pos <=? new_next) (
          let? b' := (if is_hard then add_no_break b (new_next - pos) else add_break b (new_next - pos)) in
          if (new_next =? task_end) || ((batch_size <? lines_wrapped + 1) && is_hard) then Some b'
          else wrap_task_loop f cx' m' old' b' (lines_wrapped + 1) new_next task_end batch_size)
      | None => check (pos <=? len) (add_no_break b (len - pos))
      end
  end.
End Rewrap.

(** linewrap.rs 88-104, [WrapSummary]. *)
Record summary := Summary { sm_start : nat; sm_inval : nat; sm_new : nat; sm_soft : nat }.
(** linewrap.rs 345-429, [do_wrap_task], with [max_lines] as in all calls outside the tests. *)
Definition MAX_LINES_PER_BATCH := 500.
Definition do_wrap_task (batch : nat) (ln : lines) (text : rope) (visible : iv) : option (summary * lines) :=
  let soft := ln_breaks ln in
  let? m := mb_new text soft in
  let? (visible_off, m1) := mb_offset_of_line text soft m (fst visible) in
  let? vl := line_of_offset (tfuel text) text visible_off in
  let? logical_off := offset_of_line (tfuel text) text vl in
  let? task := get_next_task (ln_work ln) logical_off in
  let? m2 := mb_set_offset text soft m1 (fst task) in
  check (mb_offset m2 =? fst task) (
  let? max_width := match ln_wrap ln with WNone => None | WBytes b => Some (of_nat b) | WWidth x => Some x end in
  let start_line := mb_line m2 in
  check (fst visible <=? snd visible) (
  let batch_size := Nat.max batch (snd visible - fst visible) in
  let? (old, m3) := mb_next text soft m2 in
  let? b := wrap_task_loop text (ln_wrap ln) max_width soft (S (n_len text)) (cx_new text (fst task)) m3 old bb_new
              0 (fst task) (snd task) batch_size in
  let? new := bb_build b in
  let e := fst task + n_len new in
  let? k1 := br_count (sfuel soft) soft e in
  let? k0 := br_count (sfuel soft) soft (fst task) in
  check (k0 <=? k1) (
  let? l1 := line_of_offset (tfuel text) text e in
  let? l0 := line_of_offset (tfuel text) text (fst task) in
  check (l0 <=? 1 + l1) (
  let hard_count := 1 + l1 - l0 in
  let inval_count := k1 - k0 + hard_count in
  let new_soft := measure br_metric new in
  let? soft' := edit br_ops soft (fst task) e new in
  Some (Summary start_line inval_count (new_soft + hard_count) new_soft,
        Lines soft' (ln_wrap ln) (update_tasks_after_wrap (ln_work ln) (fst task, e))))))).

(** linewrap.rs 82-86, [InvalLines]. *)
Record inval := Inval { in_start : nat; in_old : nat; in_new : nat }.
(** linewrap.rs 267-282, [rewrap_chunk]. *)
Definition rewrap_chunk (ln : lines) (text : rope) (visible : iv) : option (option inval * lines) :=
  if is_converged ln then Some (None, ln)
  else
    let? (sm, ln') := do_wrap_task MAX_LINES_PER_BATCH ln text visible in
    Some (Some (Inval (sm_start sm) (sm_inval sm) (sm_new sm)), ln').

(** linewrap.rs 286-343, [after_edit]; the summary of the delta is [(i, newlen)]. *)
Definition after_edit (ln : lines) (text old_text : rope) (i : iv) (newlen : nat) (visible : iv) : option (option inval * lines) :=
  let? logical_start_line := line_of_offset (tfuel text) text (fst i) in
  let? ol := line_of_offset (tfuel old_text) old_text (snd i) in
  let old_logical_end_line := ol + 1 in
  let? nl := line_of_offset (tfuel text) text (fst i + newlen) in
  let new_logical_end_line := nl + 1 in
  let? old_logical_end_offset := offset_of_line (tfuel old_text) old_text old_logical_end_line in
  check (logical_start_line <=? old_logical_end_line) (
  let old_hard_count := old_logical_end_line - logical_start_line in
  check (logical_start_line <=? new_logical_end_line) (
  let new_hard_count := new_logical_end_line - logical_start_line in
  let? prev_break := offset_of_line (tfuel text) text logical_start_line in
  let? next_hard_break := offset_of_line (tfuel text) text new_logical_end_line in
  let soft := ln_breaks ln in
  let? k1 := br_count (sfuel soft) soft old_logical_end_offset in
  let? k0 := br_count (sfuel soft) soft prev_break in
  check (k0 <=? k1) (
  let inval_soft := k1 - k0 in
  let? b := add_no_break bb_new newlen in
  let? new := bb_build b in
  let? soft' := edit br_ops soft (fst i) (snd i) new in
  let? work := patchup_tasks (ln_work ln) i newlen in
  if is_wnone (ln_wrap ln) then
    Some (Some (Inval logical_start_line old_hard_count new_hard_count), Lines soft' (ln_wrap ln) work)
  else
    let ln1 := Lines soft' (ln_wrap ln) (add_task work (prev_break, next_hard_break)) in
    match ln_work ln1 with
    | [] => Some (None, ln1)
    | _ :: _ =>
        let? (sm, ln2) := do_wrap_task MAX_LINES_PER_BATCH ln1 text visible in
        if is_converged ln2 then
          Some (Some (Inval (sm_start sm) (old_hard_count + inval_soft) (new_hard_count + sm_soft sm)), ln2)
        else Some (None, ln2)
    end))).

(** linewrap.rs 431-438, [logical_line_range]. *)
Definition logical_line_range (ln : lines) (text : rope) (line : nat) : option (nat * nat) :=
  let? m := mb_new text (ln_breaks ln) in
  let? (offset, _) := mb_offset_of_line text (ln_breaks ln) m line in
  let? l := line_of_offset (tfuel text) text offset in
  let? a := offset_of_line (tfuel text) text l in
  let? b := offset_of_line (tfuel text) text (l + 1) in
  Some (a, b).
End Lines.
