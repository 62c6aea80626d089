(** Model of the text and state caches of rust/plugin-lib (base_cache.rs, state_cache.rs) and of
    the requests for text they send to the core (core-lib/src/editor.rs,
    core-lib/src/plugins/rpc.rs).

    Simplifications: a [String] is the list of its bytes, and slicing it off a character
    boundary panics ([str_slice]); [usize] is [nat]; loops take fuel; the [Rope] an insertion
    carries is the list of its bytes, as in DeltaModel. *)
From Coq Require Import List Arith Bool NArith.
From Verif Require Import Base TreeModel RopeModel RopeIterModel RopeMetric DeltaModel.
From Verif Require BreaksModel.
Import ListNotations.
Local Notation str := (list nat) (only parsing).
Local Notation bsearch := BreaksModel.bsearch.

(** ** Requests for text *)
(** plugins/rpc.rs 166-173, [TextUnit]; 156-161, [GetDataResponse]. *)
Inductive text_unit := Utf8 | Line.
Record response := Resp { r_chunk : str; r_offset : nat; r_first_line : nat; r_first_line_offset : nat }.

(** plugins/rpc.rs 331-350, [resolve_offset]. [fuel] is for walks in the tree. *)
Definition resolve_offset (fuel : nat) (u : text_unit) (r : rope) (offset : nat) : option (option nat) :=
  match u with
  | Utf8 => if n_len r <? offset then Some None else at_or_prev_codepoint_boundary r offset
  | Line =>
      let max_line_number := measure lines_metric r + 1 in
      if max_line_number <? offset then Some None
      else let? o := offset_of_line fuel r offset in Some (Some o)
  end.

(** event_context.rs 53. *)
Definition MAX_SIZE_LIMIT : nat := 1024 * 1024.

(** editor.rs 681-708, [plugin_get_data], once the revision is found. *)
Definition plugin_get_data (fuel : nat) (r : rope) (start : nat) (u : text_unit) (max_size : nat) : option (option response) :=
  let? ro := resolve_offset fuel u r start in
  match ro with
  | None => Some None
  | Some offset =>
      let max_size := Nat.min max_size MAX_SIZE_LIMIT in
      let end_off := offset + max_size in
      let? end_off :=
        if n_len r <=? end_off then Some (n_len r)
        else let? p := prev_codepoint_offset r (end_off + 1) in p in
      let? chunk := slice_to_cow r offset end_off in
      let? first_line := line_of_offset fuel r offset in
      let? start_of_line := offset_of_line fuel r first_line in
      check (start_of_line <=? offset)
        (Some (Some (Resp chunk offset first_line (offset - start_of_line))))
  end.

(** lib.rs 55-63, [DataSource::get_data]: start, unit, maximal size, revision; [None] is any
    error. *)
Definition source := nat -> text_unit -> nat -> nat -> option response.

(** ** The text cache *)
(** base_cache.rs 29. *)
Definition CHUNK_SIZE : nat := 1024 * 1024.

(** base_cache.rs 36-53, [ChunkCache]. *)
Record chunk_cache := CC {
  cc_offset : nat;
  cc_contents : str;
  cc_first_line : nat;
  cc_first_line_offset : nat;
  cc_line_offsets : list nat;
  cc_buf_size : nat;
  cc_num_lines : nat;
  cc_rev : nat }.

(** A [Result<_, Error>]; which error it is is left out. *)
Inductive result (A : Type) := Ok (a : A) | Err.
Arguments Ok {A} a.
Arguments Err {A}.

(** base_cache.rs 450-456, [newline_offsets]: the offsets after each newline; [base] is the
    number of bytes already passed. The loop over [memchr] is written as a walk. *)
Fixpoint newline_offsets_from (base : nat) (text : str) : list nat :=
  match text with
  | [] => []
  | b :: text' =>
      if b =? NL then S base :: newline_offsets_from (S base) text' else newline_offsets_from (S base) text'
  end.
Definition newline_offsets (text : str) : list nat := newline_offsets_from 0 text.

(** base_cache.rs 56-62, [new]. *)
Definition cc_new (buf_size rev num_lines : nat) : chunk_cache := CC 0 [] 0 0 [] buf_size num_lines rev.

(** base_cache.rs 230-236, [clear]. *)
Definition cc_clear (c : chunk_cache) : chunk_cache :=
  CC 0 [] 0 0 [] (cc_buf_size c) (cc_num_lines c) (cc_rev c).

(** base_cache.rs 243-263, [cached_offset_of_line]. The subtraction in line 251 and the index
    in line 255 can panic. *)
Definition cached_offset_of_line (c : chunk_cache) (line_num : nat) : option (option nat) :=
  if line_num <? cc_first_line c then Some None
  else
    let rel_line_num := line_num - cc_first_line c in
    if rel_line_num =? 0 then
      check (cc_first_line_offset c <=? cc_offset c) (Some (Some (cc_offset c - cc_first_line_offset c)))
    else if rel_line_num <=? length (cc_line_offsets c) then
      let? o := nth_error (cc_line_offsets c) (rel_line_num - 1) in Some (Some (cc_offset c + o))
    else if (line_num =? cc_num_lines c) && (cc_offset c + length (cc_contents c) =? cc_buf_size c) then
      Some (Some (cc_offset c + length (cc_contents c)))
    else Some None.

(** base_cache.rs 272-293, [clear_up_to]. *)
Definition clear_up_to (c : chunk_cache) (offset : nat) : option chunk_cache :=
  check (offset <=? length (cc_contents c))
  (let? new_contents := str_slice (cc_contents c) offset (length (cc_contents c)) in
   let? (new_line, new_line_off) :=
     match bsearch (cc_line_offsets c) offset with
     | (true, idx) => Some (cc_first_line c + idx + 1, 0)
     | (false, 0) => Some (cc_first_line c, cc_first_line_offset c + offset)
     | (false, S i) => let? o := nth_error (cc_line_offsets c) i in
         check (o <=? offset) (Some (cc_first_line c + S i, offset - o))
     end in
   Some (CC (cc_offset c + offset) new_contents new_line new_line_off
           (map (fun i => i - offset) (filter (fun i => offset <? i) (cc_line_offsets c)))
           (cc_buf_size c) (cc_num_lines c) (cc_rev c))).

(** base_cache.rs 296-302, [reset_chunk], with 312-315, [recalculate_line_offsets]. *)
Definition reset_chunk (c : chunk_cache) (data : response) : chunk_cache :=
  CC (r_offset data) (r_chunk data) (r_first_line data) (r_first_line_offset data)
     (newline_offsets (r_chunk data)) (cc_buf_size c) (cc_num_lines c) (cc_rev c).

(** base_cache.rs 305-310, [append_chunk]. *)
Definition append_chunk (c : chunk_cache) (data : response) : chunk_cache :=
  let contents := cc_contents c ++ r_chunk data in
  CC (cc_offset c) contents (cc_first_line c) (cc_first_line_offset c)
     (newline_offsets contents) (cc_buf_size c) (cc_num_lines c) (cc_rev c).

(** base_cache.rs 93, 130, 139 etc.: [source.get_data(.., self.rev)?]. *)
Definition fetch (src : source) (c : chunk_cache) (start : nat) (u : text_unit) : option response :=
  src start u CHUNK_SIZE (cc_rev c).

(** base_cache.rs 100-114, the loop of [get_line]. *)
Fixpoint get_line_loop (fuel : nat) (src : source) (c : chunk_cache) (line_num start_off : nat)
  : option (chunk_cache * result str) :=
  let? x := cached_offset_of_line c (line_num + 1) in
  match x with
  | Some end_off =>
      check (cc_offset c <=? end_off)
      (let? s := str_slice (cc_contents c) start_off (end_off - cc_offset c) in Some (c, Ok s))
  | None =>
      let? (c1, start_off1) :=
        if start_off =? 0 then Some (c, start_off)
        else let? c1 := clear_up_to c start_off in Some (c1, 0) in
      let chunk_end := cc_offset c1 + length (cc_contents c1) in
      match fetch src c1 chunk_end Utf8 with
      | None => Some (c1, Err)
      | Some resp =>
          match fuel with
          | 0 => None
          | S f => get_line_loop f src (append_chunk c1 resp) line_num start_off1
          end
      end
  end.
(** base_cache.rs 96-114, the second part of [get_line]. *)
Definition get_line_from (fuel : nat) (src : source) (line_num : nat) (c : chunk_cache) : option (chunk_cache * result str) :=
  let? x := cached_offset_of_line c line_num in
  let? o := x in
  check (cc_offset c <=? o) (get_line_loop fuel src c line_num (o - cc_offset c)).
(** base_cache.rs 77-115, [get_line]. *)
Definition get_line (fuel : nat) (src : source) (c : chunk_cache) (line_num : nat) : option (chunk_cache * result str) :=
  if cc_num_lines c <=? line_num then Some (c, Err)
  else
    if (match cc_contents c with [] => true | _ => false end)
       || (line_num <? cc_first_line c)
       || ((line_num =? cc_first_line c) && (0 <? cc_first_line_offset c))
       || (cc_first_line c + length (cc_line_offsets c) <? line_num)
    then match fetch src c line_num Line with
         | None => Some (c, Err)
         | Some resp => get_line_from fuel src line_num (reset_chunk c resp)
         end
    else get_line_from fuel src line_num c.

(** base_cache.rs 131-146, one turn of the loop of [get_region]: [inl] is another turn. *)
Definition get_region_turn (src : source) (c : chunk_cache) (start end_ : nat)
  : option (chunk_cache + chunk_cache * result str) :=
  check ((cc_offset c <=? start) && (cc_offset c <=? end_))
  (let start_off := start - cc_offset c in
   let end_off := end_ - cc_offset c in
   if end_off <=? length (cc_contents c) then
     let? s := str_slice (cc_contents c) start_off end_off in Some (inr (c, Ok s))
   else
     let? c1 := if start_off =? 0 then Some c else clear_up_to c start_off in
     let chunk_end := cc_offset c1 + length (cc_contents c1) in
     match fetch src c1 chunk_end Utf8 with
     | None => Some (inr (c1, Err))
     | Some resp => Some (inl (append_chunk c1 resp))
     end).
Fixpoint get_region_loop (fuel : nat) (src : source) (c : chunk_cache) (start end_ : nat)
  : option (chunk_cache * result str) :=
  let? x := get_region_turn src c start end_ in
  match x with
  | inr res => Some res
  | inl c1 => match fuel with 0 => None | S f => get_region_loop f src c1 start end_ end
  end.
(** base_cache.rs 117-147, [get_region], with an interval that has both ends. *)
Definition get_region (fuel : nat) (src : source) (c : chunk_cache) (start end_ : nat) : option (chunk_cache * result str) :=
  if (match cc_contents c with [] => true | _ => false end)
     || (start <? cc_offset c)
     || (cc_offset c + length (cc_contents c) <=? start)
  then match fetch src c start Utf8 with
       | None => Some (c, Err)
       | Some resp => get_region_loop fuel src (reset_chunk c resp) start end_
       end
  else get_region_loop fuel src c start end_.

(** base_cache.rs 152-163, [get_document]: the loop. *)
Fixpoint get_document_loop (fuel : nat) (src : source) (c : chunk_cache) (result : str) (cur_idx : nat)
  : option (chunk_cache * PluginCacheModel.result str) :=
  if cc_buf_size c <=? cur_idx then Some (c, Ok result)
  else
    let go c :=
      match fuel with
      | 0 => None
      | S f => get_document_loop f src c (result ++ cc_contents c) (cc_offset c + length (cc_contents c))
      end in
    if (match cc_contents c with [] => true | _ => false end) || negb (cur_idx =? cc_offset c)
    then match fetch src c cur_idx Utf8 with
         | None => Some (c, Err)
         | Some resp => go (reset_chunk c resp)
         end
    else go c.
Definition get_document (fuel : nat) (src : source) (c : chunk_cache) : option (chunk_cache * result str) :=
  get_document_loop fuel src c [] 0.

(** base_cache.rs 165-181, [offset_of_line]: a recursion. *)
Fixpoint cc_offset_of_line (fuel : nat) (src : source) (c : chunk_cache) (line_num : nat)
  : option (chunk_cache * result nat) :=
  if cc_num_lines c <? line_num then Some (c, Err)
  else
    let? x := cached_offset_of_line c line_num in
    match x with
    | Some offset => Some (c, Ok offset)
    | None =>
        match fetch src c line_num Line with
        | None => Some (c, Err)
        | Some resp =>
            match fuel with
            | 0 => None
            | S f => cc_offset_of_line f src (reset_chunk c resp) line_num
            end
        end
    end.

(** base_cache.rs 198-204, the second part of [line_of_offset]. *)
Definition line_of_offset_from (offset : nat) (c : chunk_cache) : option (chunk_cache * result nat) :=
  check (cc_offset c <=? offset)
  (let rel_offset := offset - cc_offset c in
   Some (c, Ok (match bsearch (cc_line_offsets c) rel_offset with
                | (true, ix) => ix + cc_first_line c + 1
                | (false, ix) => ix + cc_first_line c
                end))).
(** base_cache.rs 183-205, [line_of_offset]. *)
Definition cc_line_of_offset (src : source) (c : chunk_cache) (offset : nat) : option (chunk_cache * result nat) :=
  if cc_buf_size c <? offset then Some (c, Err)
  else
    if (match cc_contents c with [] => true | _ => false end)
       || (offset <? cc_offset c)
       || (cc_offset c + length (cc_contents c) <? offset)
    then match fetch src c offset Utf8 with
         | None => Some (c, Err)
         | Some resp => line_of_offset_from offset (reset_chunk c resp)
         end
    else line_of_offset_from offset c.

Definition cc_with_line_offsets (c : chunk_cache) (l : list nat) : chunk_cache :=
  CC (cc_offset c) (cc_contents c) (cc_first_line c) (cc_first_line_offset c) l
     (cc_buf_size c) (cc_num_lines c) (cc_rev c).

(** base_cache.rs 351-378, [simple_insert]. *)
Definition simple_insert (c : chunk_cache) (text : str) (ins_offset : nat) : option chunk_cache :=
  let has_newline := 0 <? count_newlines text in
  let self_off := cc_offset c in
  check (self_off <=? ins_offset)
  (let l := map (fun off => if ins_offset - self_off <? off then off + length text else off) (cc_line_offsets c) in
   if has_newline then
     let new_offsets := map (fun off => off + (ins_offset - self_off)) (newline_offsets text) in
     let? first := nth_error new_offsets 0 in
     match bsearch l first with
     | (true, _) => None
     | (false, split_idx) => Some (cc_with_line_offsets c (firstn split_idx l ++ new_offsets ++ skipn split_idx l))
     end
   else Some (cc_with_line_offsets c l)).

(** base_cache.rs 381-405, [simple_delete]; the last arm of the [match] cannot be reached. The
    slice in line 385 is of bytes, so it need not be at a character boundary. *)
Definition simple_delete (c : chunk_cache) (start end_ : nat) : option chunk_cache :=
  check ((start <=? end_) && (cc_offset c <=? start) && (end_ <=? cc_offset c + length (cc_contents c)))
  (let del_size := end_ - start in
   let start := start - cc_offset c in
   let end_ := end_ - cc_offset c in
   let has_newline := match memchr NL (slice (cc_contents c) start end_) with Some _ => true | None => false end in
   if has_newline then
     Some (cc_with_line_offsets c
       (flat_map (fun x => if x <=? start then [x] else if x <=? end_ then [] else [x - del_size]) (cc_line_offsets c)))
   else
     let? l := fold_right (fun off acc => let? acc := acc in
                 if end_ <=? off then check (del_size <=? off) (Some (off - del_size :: acc)) else Some (off :: acc))
                 (Some []) (cc_line_offsets c) in
     Some (cc_with_line_offsets c l)).

(** base_cache.rs 320-348, [should_clear]: the answer and the cache with its line offsets
    patched up. *)
Definition should_clear (c : chunk_cache) (d : delta nat) : option (bool * chunk_cache) :=
  let '((start, end_), _) := summary d in
  if (start <? cc_offset c) || (cc_offset c + length (cc_contents c) <? start) then Some (true, c)
  else if is_simple_delete d then
    let end_ := Nat.min end_ (cc_offset c + length (cc_contents c)) in
    let? c1 := simple_delete c start end_ in Some (false, c1)
  else match as_simple_insert d with
       | Some text =>
           check (end_ - start =? 0) (let? c1 := simple_insert c text start in Some (false, c1))
       | None => Some (true, c)
       end.

(** base_cache.rs 408-446, [update_chunk]: the loop over the elements of the delta. *)
Record chunk_state := ChunkState { cs_new : str; cs_prev : nat; cs_del : nat; cs_ins : nat }.
Fixpoint update_chunk_loop (c : chunk_cache) (ops : list (element nat)) (st : chunk_state) : option chunk_state :=
  let chunk_start := cc_offset c in
  let contents := cc_contents c in
  let chunk_end := chunk_start + length contents in
  match ops with
  | [] => Some st
  | Copy start end_ :: ops' =>
      let? (new_state, del_before) :=
        if start <? chunk_start then
          check (cs_prev st <=? start)
          (let del_before := cs_del st + (start - cs_prev st) in
           if chunk_start <=? end_ then
             let cp_end := Nat.min (end_ - chunk_start) (length contents) in
             let? s := str_slice contents 0 cp_end in Some (cs_new st ++ s, del_before)
           else Some (cs_new st, del_before))
        else if start <=? chunk_end then
          let del_before := if cs_prev st <? chunk_start then cs_del st + (chunk_start - cs_prev st) else cs_del st in
          let cp_start := start - chunk_start in
          check (chunk_start <=? end_)
          (let cp_end := Nat.min (end_ - chunk_start) (length contents) in
           let? s := str_slice contents cp_start cp_end in Some (cs_new st ++ s, del_before))
        else Some (cs_new st, cs_del st) in
      update_chunk_loop c ops' (ChunkState new_state end_ del_before (cs_ins st))
  | Insert s :: ops' =>
      let '(new_state, ins_before) :=
        if cs_prev st <? chunk_start then (cs_new st, cs_ins st + length s)
        else if cs_prev st <=? chunk_end then (cs_new st ++ s, cs_ins st)
        else (cs_new st, cs_ins st) in
      update_chunk_loop c ops' (ChunkState new_state (cs_prev st) (cs_del st) ins_before)
  end.
Definition update_chunk (c : chunk_cache) (d : delta nat) : option chunk_cache :=
  let? st := update_chunk_loop c (els d) (ChunkState [] 0 0 0) in
  check (cs_del st <=? cc_offset c + cs_ins st)
  (Some (CC (cc_offset c + cs_ins st - cs_del st) (cs_new st) (cc_first_line c) (cc_first_line_offset c)
            (cc_line_offsets c) (cc_buf_size c) (cc_num_lines c) (cc_rev c))).

(** base_cache.rs 208-228, [update]. *)
Definition cc_update (c : chunk_cache) (d : option (delta nat)) (new_len num_lines rev : nat) : option chunk_cache :=
  let is_empty := (cc_offset c =? 0) && (match cc_contents c with [] => true | _ => false end) in
  let? (clear, c1) :=
    match d with
    | Some d => if is_empty then Some (true, c) else should_clear c d
    | None => Some (true, c)
    end in
  let? c2 :=
    if clear then Some (cc_clear c1)
    else let? d := d in update_chunk c1 d in
  Some (CC (cc_offset c2) (cc_contents c2) (cc_first_line c2) (cc_first_line_offset c2) (cc_line_offsets c2)
           new_len num_lines rev).

(** ** The state cache *)
Section State.
Context {S : Type} (default : S).

(** state_cache.rs 31-44, [CacheEntry] and [StateCache]. *)
Record entry := Entry { e_line : nat; e_offset : nat; e_state : option S }.
Record state_cache := SC { sc_buf : chunk_cache; sc_entries : list entry; sc_frontier : list nat }.

(** state_cache.rs 27-30. *)
Definition CACHE_SIZE : nat := 1024.
Definition NUM_PROBES : nat := 5.

(** state_cache.rs 47-53, [new]. *)
Definition sc_new (buf_size rev num_lines : nat) : state_cache := SC (cc_new buf_size rev num_lines) [] [].

(** state_cache.rs 111-118, [find_line] and [find_offset]: binary searches in a vector whose
    keys increase. *)
Definition find_line (c : state_cache) (line_num : nat) : bool * nat := bsearch (map e_line (sc_entries c)) line_num.
Definition find_offset (c : state_cache) (offset : nat) : bool * nat := bsearch (map e_offset (sc_entries c)) offset.

(** state_cache.rs 122-141, [get_prev]: the loop goes down from [ix]. *)
Fixpoint get_prev_loop (es : list entry) (ix : nat) : option (nat * nat * S) :=
  let? item := nth_error es ix in
  match e_state item with
  | Some s => Some (e_line item, e_offset item, s)
  | None => match ix with 0 => Some (0, 0, default) | Datatypes.S ix' => get_prev_loop es ix' end
  end.
Definition get_prev (c : state_cache) (line_num : nat) : option (nat * nat * S) :=
  if 0 <? line_num then
    match find_line c line_num with
    | (true, ix) => get_prev_loop (sc_entries c) ix
    | (false, 0) => Some (0, 0, default)
    | (false, Datatypes.S ix) => get_prev_loop (sc_entries c) ix
    end
  else Some (0, 0, default).

(** state_cache.rs 144-146, [get]. *)
Definition sc_get (c : state_cache) (line_num : nat) : option S :=
  match find_line c line_num with
  | (true, ix) => match nth_error (sc_entries c) ix with Some e => e_state e | None => None end
  | (false, _) => None
  end.

(** state_cache.rs 217-226, [compute_gap]. *)
Definition compute_gap (c : state_cache) (ix : nat) : option nat :=
  let? before := match ix with 0 => Some 0 | Datatypes.S i => let? e := nth_error (sc_entries c) i in Some (e_offset e) end in
  let after := match nth_error (sc_entries c) (ix + 1) with Some item => e_offset item | None => cc_buf_size (sc_buf c) end in
  check (before <=? after) (Some (after - before)).

(** state_cache.rs 203-214, [choose_victim]; the indices that the random number generator
    gives are the argument [probes]. *)
Fixpoint choose_victim (c : state_cache) (probes : list nat) (best : option (nat * nat)) : option nat :=
  match probes with
  | [] => let? (_, ix) := best in Some ix
  | ix :: probes' =>
      check (ix <? length (sc_entries c))
      (let? gap := compute_gap c ix in
       choose_victim c probes'
         (match best with
          | Some (last_gap, i) => if gap <? last_gap then Some (gap, ix) else Some (last_gap, i)
          | None => Some (gap, ix)
          end))
  end.

(** state_cache.rs 198-201, [evict]. *)
Definition evict (c : state_cache) (probes : list nat) : option state_cache :=
  let? ix := choose_victim c probes None in
  Some (SC (sc_buf c) (firstn ix (sc_entries c) ++ skipn (ix + 1) (sc_entries c)) (sc_frontier c)).

(** state_cache.rs 184-195, [insert_entry]. *)
Definition insert_entry (c : state_cache) (probes : list nat) (e : entry) : option (state_cache * nat) :=
  let? c1 := if CACHE_SIZE <=? length (sc_entries c) then evict c probes else Some c in
  match find_line c1 (e_line e) with
  | (true, _) => None
  | (false, ix) => Some (SC (sc_buf c1) (firstn ix (sc_entries c1) ++ e :: skipn ix (sc_entries c1)) (sc_frontier c1), ix)
  end.

(** state_cache.rs 162-181, [get_entry]: the cache and the index of the entry. *)
Definition get_entry (src : source) (c : state_cache) (probes : list nat) (line_num : nat)
  : option (state_cache * option nat) :=
  match find_line c line_num with
  | (true, ix) => Some (c, Some ix)
  | (false, _) =>
      if line_num =? cc_num_lines (sc_buf c) then Some (c, None)
      else
        let? (b, r) := cc_offset_of_line 1 src (sc_buf c) line_num in
        match r with
        | Err => None
        | Ok offset =>
            let? (c1, ix) := insert_entry (SC b (sc_entries c) (sc_frontier c)) probes (Entry line_num offset None) in
            Some (c1, Some ix)
        end
  end.

(** state_cache.rs 150-157, [set]. *)
Definition sc_set (src : source) (c : state_cache) (probes : list nat) (line_num : nat) (s : S) : option state_cache :=
  let? (c1, x) := get_entry src c probes line_num in
  match x with
  | None => Some c1
  | Some ix =>
      let? e := nth_error (sc_entries c1) ix in
      Some (SC (sc_buf c1) (firstn ix (sc_entries c1) ++ Entry (e_line e) (e_offset e) (Some s) :: skipn (ix + 1) (sc_entries c1)) (sc_frontier c1))
  end.

(** state_cache.rs 238-246, [truncate_frontier]. [bsearch] is [binary_search] on an increasing
    frontier; on one that is not, both give an element equal to [line_num] or an insertion point,
    but not always the same. *)
Definition truncate_frontier (f : list nat) (line_num : nat) : list nat :=
  match bsearch f line_num with
  | (true, ix) => firstn (ix + 1) f
  | (false, ix) => firstn ix f ++ [line_num]
  end.

(** state_cache.rs 229-236, [truncate_cache]; 329-336, [clear_to_start] and [reset] call it. *)
Definition truncate_cache (c : state_cache) (offset : nat) : option state_cache :=
  let? (line_num, ix) :=
    match find_offset c offset with
    | (true, ix) => let? e := nth_error (sc_entries c) ix in Some (e_line e, ix + 1)
    | (false, 0) => Some (0, 0)
    | (false, Datatypes.S i) => let? e := nth_error (sc_entries c) i in Some (e_line e, Datatypes.S i)
    end in
  Some (SC (sc_buf c) (firstn ix (sc_entries c)) (truncate_frontier (sc_frontier c) line_num)).

(** state_cache.rs 318, [wrapping_add] of a negative number, on 64 bits. *)
Definition wrapping_minus (n m : nat) : nat := if m <=? n then n - m else N.to_nat (2 ^ 64 - N.of_nat (m - n))%N.
(** state_cache.rs 302-327, [patchup_frontier]: the loop. [move] is [wrapping_add] of the signed
    number of newlines; it does not wrap when they are inserted, line numbers being far below
    2^63. *)
Fixpoint patchup_loop (f : list nat) (line_num : nat) (next : option nat) (move : nat -> nat) (need_push : bool) : list nat :=
  match f with
  | [] => if need_push then [line_num] else []
  | old_ln :: f' =>
      if old_ln <? line_num then old_ln :: patchup_loop f' line_num next move need_push
      else if need_push then
        line_num ::
        (match next with
         | Some l => if l <=? old_ln then [move old_ln] else []
         | None => []
         end) ++ patchup_loop f' line_num next move false
      else patchup_loop f' line_num next move need_push
  end.
Definition patchup_frontier (c : state_cache) (cache_idx : nat) (move : nat -> nat) : option state_cache :=
  let? line_num := match cache_idx with 0 => Some 0 | Datatypes.S i => let? e := nth_error (sc_entries c) i in Some (e_line e) end in
  let next := match nth_error (sc_entries c) cache_idx with Some e => Some (e_line e) | None => None end in
  Some (SC (sc_buf c) (sc_entries c) (patchup_loop (sc_frontier c) line_num next move true)).

(** state_cache.rs 265-276, [line_cache_simple_insert]. *)
Definition after_offset (c : state_cache) (start : nat) : nat :=
  match find_offset c start with (true, ix) => ix + 1 | (false, ix) => ix end.
Definition line_cache_simple_insert (c : state_cache) (start new_len newline_num : nat) : option state_cache :=
  let ix := after_offset c start in
  patchup_frontier
    (SC (sc_buf c)
        (firstn ix (sc_entries c) ++
         map (fun e => Entry (e_line e + newline_num) (e_offset e + new_len) (e_state e)) (skipn ix (sc_entries c)))
        (sc_frontier c))
    ix (fun n => n + newline_num).

(** state_cache.rs 287-289: the [while] that removes entries at [ix]. *)
Fixpoint drop_until (es : list entry) (end_ : nat) : list entry :=
  match es with
  | e :: es' => if e_offset e <=? end_ then drop_until es' end_ else es
  | [] => []
  end.
(** state_cache.rs 278-300, [line_cache_simple_delete]. *)
Definition line_cache_simple_delete (c : state_cache) (start end_ : nat) : option state_cache :=
  let off := cc_offset (sc_buf c) in
  let contents := cc_contents (sc_buf c) in
  let chunk_end := off + length contents in
  if (off <=? start) && (end_ <=? chunk_end) then
    let? s := str_slice contents (start - off) (end_ - off) in
    let del_newline_num := count_newlines s in
    let ix := after_offset c start in
    let? moved := fold_right (fun e acc => let? acc := acc in
        check ((del_newline_num <=? e_line e) && (end_ - start <=? e_offset e))
          (Some (Entry (e_line e - del_newline_num) (e_offset e - (end_ - start)) (e_state e) :: acc)))
        (Some []) (drop_until (skipn ix (sc_entries c)) end_) in
    patchup_frontier (SC (sc_buf c) (firstn ix (sc_entries c) ++ moved) (sc_frontier c))
      ix (fun n => wrapping_minus n del_newline_num)
  else truncate_cache c start.

(** state_cache.rs 249-263, [update_line_cache]. *)
Definition update_line_cache (c : state_cache) (d : delta nat) : option state_cache :=
  let '((start, end_), new_len) := summary d in
  match as_simple_insert d with
  | Some n =>
      check ((end_ - start =? 0) && (new_len =? length n))
        (line_cache_simple_insert c start new_len (count_newlines n))
  | None =>
      if is_simple_delete d then check (new_len =? 0) (line_cache_simple_delete c start end_)
      else truncate_cache c start
  end.

(** state_cache.rs 88-99, [update]. *)
Definition sc_update (c : state_cache) (d : option (delta nat)) (buf_size num_lines rev : nat) : option state_cache :=
  let? c1 := match d with Some d => update_line_cache c d | None => truncate_cache c 0 end in
  let? b := cc_update (sc_buf c1) d buf_size num_lines rev in
  Some (SC b (sc_entries c1) (sc_frontier c1)).

(** state_cache.rs 343-361, [get_frontier], [update_frontier] and [close_frontier]. *)
Definition get_frontier (c : state_cache) : option nat := nth_error (sc_frontier c) 0.
Definition update_frontier (c : state_cache) (new_frontier : nat) : option state_cache :=
  match sc_frontier c with
  | [] => None
  | x :: f =>
      let f' := match f with y :: _ => if y =? new_frontier then f else new_frontier :: f | [] => [new_frontier] end in
      Some (SC (sc_buf c) (sc_entries c) f')
  end.
Definition close_frontier (c : state_cache) : option state_cache :=
  match sc_frontier c with
  | [] => None
  | _ :: f => Some (SC (sc_buf c) (sc_entries c) f)
  end.

End State.
Arguments entry : clear implicits.
Arguments state_cache : clear implicits.
