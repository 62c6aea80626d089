(** Model of rust/core-lib/src/find.rs: the occurrences a view keeps for a search query, and of the
    part of rust/core-lib/src/view.rs that searches, step by step, and goes from one to the next.
    Not modelled: the status reported to the client, annotations, what is redrawn. *)
From Coq Require Import List Arith Bool.
From Verif Require Import Base TreeModel CursorModel RopeModel RopeIterModel DeltaModel WordModel SelectionModel FindModel ShadowModel MovementModel ViewModel.
Import ListNotations.
Local Notation region := SelectionModel.region.
Local Notation str := (list nat) (only parsing).

(** A regular expression, compiled: where it matches in a string. *)
Definition regex := (list nat -> option (nat * nat))%type.
(** find.rs 58-79, [Find]. *)
Record finder := Finder { fd_id : nat; fd_dirty : bool; fd_string : option (list nat); fd_case : case_matching; fd_regex : option regex; fd_whole : bool; fd_occ : list region }.
(** find.rs 82-92, [new]. *)
Definition finder_new (id : nat) : finder := Finder id true None CaseInsensitive None false [].
Definition with_occ (f : finder) (o : list region) : finder := Finder (fd_id f) (fd_dirty f) (fd_string f) (fd_case f) (fd_regex f) (fd_whole f) o.
Definition dirtied (f : finder) : finder := Finder (fd_id f) true (fd_string f) (fd_case f) (fd_regex f) (fd_whole f) (fd_occ f).
(** find.rs 184-188, [unset]. *)
Definition unset (f : finder) : finder := Finder (fd_id f) true None (fd_case f) (fd_regex f) (fd_whole f) [].
(** The expression, if there is one. *)
Definition rx_of (f : finder) : regex := match fd_regex f with Some g => g | None => fun _ => None end.

Section Search.
(** The tables of Unicode (see [FindModel]), and the compiler of regular expressions: it is given
    whether case does not matter, and may fail. *)
Context (lower : list nat -> list (list nat)) (str_lower : list nat -> list nat) (compile : list nat -> bool -> option regex).

Definition case_eqb (a b : case_matching) : bool := match a, b with Exact, Exact | CaseInsensitive, CaseInsensitive => true | _, _ => false end.
Definition is_some {X} (o : option X) : bool := match o with Some _ => true | None => false end.
(** find.rs 192-234, [set_find]: whether something changed, and the query. *)
Definition set_find (f : finder) (s : list nat) (case_sensitive is_regex whole : bool) : bool * finder :=
  let f0 := match s with [] => unset f | _ => f end in
  let cm := if case_sensitive then Exact else CaseInsensitive in
  let same := match fd_string f0 with
              | Some q => bytes_eqb q s && case_eqb cm (fd_case f0) && Bool.eqb (is_some (fd_regex f0)) is_regex && Bool.eqb (fd_whole f0) whole
              | None => false
              end in
  if same then (false, f0)
  else
    let rx := if is_regex then compile s (case_eqb cm CaseInsensitive) else None in
    (true, Finder (fd_id f0) true (Some s) cm rx whole []).
(** find.rs 179-181, [is_multiline_regex]. *)
Definition multiline_regex (f : finder) : bool :=
  is_some (fd_regex f) && match fd_string f with Some q => is_multiline_regex q | None => false end.

(** find.rs 369-388, [is_matching_whole_words]; [end - 1] panics at zero. *)
Definition is_matching_whole_words (t : rope) (start e : nat) : option bool :=
  check (1 <=? e)
    (let? ce := c_new t (e - 1) in
     let? cs := c_new t (start + 1) in
     let? (sb, _) := prev_boundary t (n_len t) cs in
     if match sb with Some b => negb (b =? start) | None => false end then Some false
     else
       let? (eb, _) := next_boundary t (n_len t) ce in
       Some (negb match eb with Some b => negb (b =? e) | None => false end)).

(** find.rs 260-306, the loop of [update_find], with the occurrences so far. [find] has as many
    steps as it needs; a loop that does not end is one that runs out of fuel. *)
Fixpoint find_loop (fuel : nat) (f : finder) (q : list nat) (t sub : rope) (to : nat) (c : rcursor) (ls : lines_raw) (occ : list region) : option (list region) :=
  match fuel with
  | 0 => None
  | S n =>
      let? (m, c1, _) := find lower str_lower sub t (rx_of f) (n_len sub + 1) c ls (fd_case f) q (is_some (fd_regex f)) in
      match m with
      | None => Some occ
      | Some start =>
          let e := c_pos c1 in
          let continue c' occ' := let? it := iter_chunks t (c_pos c') to in find_loop n f q t sub to c' (LinesRaw it []) occ' in
          let? whole := (if fd_whole f then is_matching_whole_words t start e else Some true) in
          if negb whole then continue c1 occ
          else
            let? (occ', (_, e')) := add_range_distinct occ (region_new start e) in
            if negb (e' =? e) then let? c2 := c_set rope_ops sub c1 e' in continue c2 occ'
            else if start =? e then
              if n_len t <=? e + 1 then Some occ'
              else let? c2 := c_set rope_ops sub c1 (e + 1) in continue c2 occ'
            else continue c1 occ'
      end
  end.
Definition unwrap_or {X} (o : option X) (d : X) : X := match o with Some x => x | None => d end.
(** find.rs 237-309, [update_find]. *)
Definition update_find (f : finder) (t : rope) (start e : nat) (include_slop : bool) : option finder :=
  match fd_string f with
  | None => Some f
  | Some q =>
      let slop := if include_slop then length q * 2 else 0 in
      let expanded_start := Nat.max start slop - slop in
      let expanded_end := Nat.min (e + slop) (n_len t) in
      let? p := at_or_prev_codepoint_boundary t expanded_start in
      let from := unwrap_or p 0 in
      let? n := at_or_next_codepoint_boundary t expanded_end in
      let to := unwrap_or n (n_len t) in
      let? tc := c_new t to in
      let? (_, tc') := next_leaf rope_ops t tc in
      let? sub := subseq rope_ops t 0 (c_pos tc') in
      let? c := c_new sub from in
      let? it := iter_chunks t from to in
      let? occ := find_loop (n_len t + 2) f q t sub to c (LinesRaw it []) (fd_occ f) in
      Some (dirtied (with_occ f occ))
  end.

(** find.rs 136-138 and 143-151: the occurrences in each of some ranges are removed. *)
Fixpoint delete_ranges (occ : list region) (l : list (nat * nat)) : option (list region) :=
  match l with
  | [] => Some occ
  | (a, b) :: l' => let? occ' := sel_delete_range occ a b false in delete_ranges occ' l'
  end.
(** find.rs 132-176, [update_highlights]; [t] is the new text. *)
Definition update_highlights {A} (f : finder) (t : rope) (d : delta A) : option finder :=
  match fd_string f with
  | None => Some f
  | Some q =>
      let? o1 := delete_ranges (fd_occ f) (map (fun '(old, _, len) => (old, old + len)) (iter_deletions d)) in
      let? o2 := sel_apply_delta o1 d false DefaultDrift in
      let? o3 := delete_ranges o2 (map (fun '(_, new, len) => (new - 1, new + len)) (iter_inserts d)) in
      let '((s, e), new_len) := summary d in
      let? rs := regions_in_range o3 0 s in
      let start := match last_region rs with Some r => r_end r | None => 0 end in
      let is_multiline := existsb (Nat.eqb NL) q in
      let search upto :=
        let? o4 := sel_delete_range o3 s upto false in
        update_find (with_occ f o4) t start upto false in
      if is_multiline || multiline_regex f then search (n_len t)
      else
        let? c := c_new t (e + new_len) in
        let? (x, c1) := c_next rope_ops t lines_metric c in
        match x with
        | Some end_of_line => search end_of_line
        | None => if c_pos c1 =? n_len t then search (c_pos c1) else Some (with_occ f o3)
        end
  end.

(** find.rs 314-366, [next_occurrence]. *)
Fixpoint unselected (sel rs : list region) : option (list region) :=
  match rs with
  | [] => Some []
  | o :: rs' =>
      let? l := regions_in_range sel (rmin o) (rmax o) in
      let? rest := unselected sel rs' in
      Some (match l with [] => o :: rest | _ => rest end)
  end.
Definition next_occurrence (f : finder) (t : rope) (reverse wrapped : bool) (sel : list region) : option (option region) :=
  match fd_occ f with
  | [] => Some None
  | _ =>
      let (sel_start, sel_end) :=
        match last_region sel with
        | Some last => (rmin last, if is_caret last then rmax last else rmax last + 1)
        | None => (0, 0)
        end in
      let pick := if reverse then last_region else @hd_error region in
      let? next :=
        (if reverse then
           if sel_start =? 0 then Some None
           else let? rs := regions_in_range (fd_occ f) 0 (sel_start - 1) in Some (pick rs)
         else let? rs := regions_in_range (fd_occ f) sel_end (n_len t) in Some (pick rs)) in
      match next with
      | None =>
          if wrapped then Some None
          else
            let? rs := regions_in_range (fd_occ f) 0 (n_len t) in
            let? us := unselected sel rs in
            Some (pick us)
      | Some o => Some (Some o)
      end
  end.

(** view.rs 121-130, [FindProgress]. *)
Inductive progress := Ready | Started | InProgress (start e : nat).
(** view.rs 47, [FIND_BATCH_SIZE], 500000 bytes. *)
Context (batch : nat).
(** view.rs 1088-1135, [do_find], which part is to be searched; [start_off] is where the first line
    in the window starts. *)
Definition find_step (p : progress) (len start_off : nat) : option (nat * nat) * progress :=
  match p with
  | Started =>
      let e := Nat.min len (start_off + batch) in
      (Some (start_off, e), InProgress start_off e)
  | InProgress s e =>
      if (s =? 0) && (len <=? e) then (Some (0, len), Ready)
      else
        let search_preceding_range := (start_off - s <? e - start_off) && (0 <? s) in
        if search_preceding_range || (len <=? e) then (Some (s - batch, s), InProgress (s - batch) e)
        else if e <? len then let e' := Nat.min len (e + batch) in (Some (e, e'), InProgress s e')
        else (None, p)
  | Ready => (None, p)
  end.
Fixpoint search_all (fs : list finder) (t : rope) (a b : nat) : option (list finder) :=
  match fs with
  | [] => Some []
  | f :: fs' =>
      let? f' := (if negb (multiline_regex f) || ((a =? 0) && (b =? n_len t)) then update_find f t a b true else Some f) in
      let? rest := search_all fs' t a b in
      Some (f' :: rest)
  end.
(** view.rs 1088-1148, [do_find]. *)
Definition do_find (fs : list finder) (p : progress) (t : rope) (start_off : nat) : option (list finder * progress) :=
  let (range, p') := find_step p (n_len t) start_off in
  match range with
  | Some (a, b) => let? fs' := search_all fs t a b in Some (fs', p')
  | None => Some (fs, p')
  end.

(** rpc.rs 364-374, [FindQuery]. *)
Record find_query := Query { fq_id : option nat; fq_chars : list nat; fq_case : bool; fq_regex : bool; fq_whole : bool }.
(** The searches of a view: [find], [find_id_counter] and [find_progress]. *)
Record searches := Searches { se_find : list finder; se_next : nat; se_progress : progress }.
(** view.rs 1044-1047, [add_find]; [se_next] is the next number of the counter (tabs.rs 1039-1047). *)
Definition add_find (s : searches) : searches := Searches (se_find s ++ [finder_new (se_next s)]) (S (se_next s)) (se_progress s).
Fixpoint position (fs : list finder) (id : nat) : option nat :=
  match fs with [] => None | f :: fs' => if fd_id f =? id then Some 0 else option_map S (position fs' id) end.
Definition put (fs : list finder) (i : nat) (f : finder) : list finder := firstn i fs ++ f :: skipn (S i) fs.
Definition fq_is (q : find_query) (id : nat) : bool := match fq_id q with Some i => i =? id | None => false end.
(** view.rs 1056-1080: the queries one after the other; [None] if one is not there. *)
Fixpoint set_queries (s : searches) (qs : list find_query) (changed : bool) : searches * option bool :=
  match qs with
  | [] => (s, Some changed)
  | q :: qs' =>
      let at_ :=
        match fq_id q with
        | Some id => option_map (fun p => (s, p)) (position (se_find s) id)
        | None => let s' := add_find s in Some (s', length (se_find s') - 1)
        end in
      match at_ with
      | None => (s, None)
      | Some (s1, p) =>
          match nth_error (se_find s1) p with
          | None => (s1, None)
          | Some f =>
              let (c, f') := set_find f (fq_chars q) (fq_case q) (fq_regex q) (fq_whole q) in
              set_queries (Searches (put (se_find s1) p f') (se_next s1) (se_progress s1)) qs' (changed || c)
          end
      end
  end.
(** view.rs 1049-1086, [set_find]. *)
Definition view_set_find (s : searches) (qs : list find_query) : searches :=
  let changed := negb (length qs =? length (se_find s)) in
  let s0 := Searches (filter (fun f => existsb (fun q => fq_is q (fd_id f)) qs) (se_find s)) (se_next s) (se_progress s) in
  let (s1, c) := set_queries s0 qs changed in
  match c with
  | Some true => Searches (se_find s1) (se_next s1) Started
  | _ => s1
  end.

(** rpc.rs 351-356, [SelectionModifier]. *)
Inductive selection_modifier := ModNone | ModSet | ModAdd | ModAddRemovingCurrent.
(** [min_by_key]: the first of those with the least key. *)
Fixpoint min_by (key : region -> nat) (l : list region) : option region :=
  match l with
  | [] => None
  | x :: l' => match min_by key l' with Some y => if key x <=? key y then Some x else Some y | None => Some x end
  end.
Fixpoint next_occurrences (fs : list finder) (t : rope) (reverse wrapped : bool) (sel : list region) : option (list region) :=
  match fs with
  | [] => Some []
  | f :: fs' =>
      let? o := next_occurrence f t reverse wrapped sel in
      let? l := next_occurrences fs' t reverse wrapped sel in
      Some (match o with Some x => x :: l | None => l end)
  end.
(** view.rs 1195-1200: how far an occurrence is. *)
Definition distance (len cur_start cur_end : nat) (reverse : bool) (x : region) : nat :=
  if reverse then if cur_end <? r_end x then 2 * len - r_end x else cur_end - r_end x
  else if r_start x <? cur_start then r_start x + len else r_start x - cur_start.
(** view.rs 1176-1238, [select_next_occurrence]: with the visual lines at hand. *)
Definition select_next_occurrence (lo : line_off) (fs : list finder) (t : rope) (v : view) (reverse wrapped : bool) (m : selection_modifier) : option view :=
  let (cur_start, cur_end) := match last_region (vw_sel v) with Some r => (rmin r, rmax r) | None => (0, 0) end in
  let? l := next_occurrences fs t reverse wrapped (vw_sel v) in
  match min_by (distance (n_len t) cur_start cur_end reverse) l with
  | None => Some v
  | Some occ =>
      match m with
      | ModSet => set_selection lo v [occ]
      | ModAdd => let? s := add_region (vw_sel v) occ in set_selection lo v s
      | ModAddRemovingCurrent =>
          let? s0 := match last_region (vw_sel v) with
                     | Some r => if is_caret r then Some (vw_sel v) else sel_delete_range (vw_sel v) (rmin r) (rmax r) false
                     | None => Some (vw_sel v)
                     end in
          let? s := add_region s0 occ in
          set_selection lo v s
      | ModNone => Some v
      end
  end.
(** view.rs 1150-1162, [do_find_next]; [allow_same] is not used. *)
Definition do_find_next (lo : line_off) (fs : list finder) (t : rope) (v : view) (reverse wrap : bool) (m : selection_modifier) : option view :=
  let? v1 := select_next_occurrence lo fs t v reverse false m in
  if negb (is_some (vw_scroll v1)) && wrap then select_next_occurrence lo fs t v1 reverse true m else Some v1.
(** view.rs 1164-1177, [do_find_all]. *)
Definition do_find_all (lo : line_off) (fs : list finder) (v : view) : option view :=
  let? s := add_regions [] (flat_map fd_occ fs) in
  match s with [] => Some v | _ => set_selection lo v s end.
(** view.rs 1015-1042, [do_selection_for_find]. *)
Definition do_selection_for_find (s : searches) (t : rope) (sel : list region) (case_sensitive : bool) : option searches :=
  match last_region sel with
  | None => Some s
  | Some r =>
      let? q := (if is_caret r then
                   let? c := c_new t (rmax r) in
                   let? (a, b, _) := select_word t (n_len t) c in
                   slice_to_cow t a b
                 else slice_to_cow t (rmin r) (rmax r)) in
      let s1 := if length (se_find s) =? 1 then s else add_find s in
      let? f := hd_error (rev (se_find s1)) in
      Some (Searches (put (se_find s1) (length (se_find s1) - 1) (snd (set_find f q case_sensitive false true))) (se_next s1) Started)
  end.
End Search.
