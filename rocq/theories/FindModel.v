(** Model of rust/rope/src/find.rs: searching a rope. *)
From Coq Require Import List Arith Bool.
From Verif Require Import Base TreeModel CursorModel RopeModel RopeIterModel.
Import ListNotations.
Local Notation concat := List.concat.
Local Notation str := (list nat) (only parsing).

(** find.rs 33-41, [FindResult]. *)
Inductive find_result := FFound (start : nat) | FNotFound | FTryAgain.
(** find.rs 46-53, [CaseMatching]. *)
Inductive case_matching := Exact | CaseInsensitive.

(** find.rs 315-322, [is_multiline_regex]: the pattern has [\n], [\r] or [[[:space:]]]. *)
Fixpoint starts_with (s pre : str) : bool :=
  match pre, s with [], _ => true | x :: pre', y :: s' => (x =? y) && starts_with s' pre' | _, [] => false end.
Fixpoint contains (s pat : str) : bool :=
  starts_with s pat || match s with [] => false | _ :: s' => contains s' pat end.
Definition multiline_indicators : list str := [[92; 110]; [92; 114]; [91; 91; 58; 115; 112; 97; 99; 101; 58; 93; 93]].
Definition is_multiline_regex (regex : str) : bool := existsb (contains regex) multiline_indicators.

Section Find.
(** The tables of Unicode: [char::to_lowercase], giving the characters of the result, and
    [str::to_lowercase]. *)
Context (lower : str -> list str) (str_lower : str -> str).
(** The rope of the cursor and the rope of the lines. *)
Context (r rl : rope).

(** A scanner looks for a candidate in the rest of a leaf; a matcher tells where a match at
    the cursor starts. Both may panic. *)
Definition scanner := str -> option (option nat).
Definition matcher := rcursor -> lines_raw -> str -> option (option nat * rcursor * lines_raw).

(** find.rs 163-195, [find_core]. *)
Definition find_core (c : rcursor) (ls : lines_raw) (pat : str) (scan : scanner) (mat : matcher) : option (find_result * rcursor * lines_raw) :=
  let orig_pos := c_pos c in
  if orig_pos =? n_len r then Some (FNotFound, c, ls)
  else
    let? g := c_get_leaf c in
    match g with
    | Some (leaf, pos_in_leaf) =>
        let? rest := str_slice leaf pos_in_leaf (length leaf) in
        let? o := scan rest in
        match o with
        | Some off =>
            let? c1 := c_set rope_ops r c (orig_pos + off) in
            let? (m, c2, ls2) := mat c1 ls pat in
            match m with
            | Some p => Some (FFound p, c2, ls2)
            | None => Some (FTryAgain, c2, ls2)
            end
        | None => let? (_, c1) := next_leaf rope_ops r c in Some (FTryAgain, c1, ls)
        end
    | None => Some (FNotFound, c, ls)
    end.
(** find.rs 143-157, [find_progress_iter]. *)
Fixpoint find_progress_iter (num_steps : nat) (c : rcursor) (ls : lines_raw) (pat : str) (scan : scanner) (mat : matcher)
  : option (find_result * rcursor * lines_raw) :=
  match num_steps with
  | 0 => Some (FTryAgain, c, ls)
  | S n =>
      let? (x, c1, ls1) := find_core c ls pat scan mat in
      match x with
      | FTryAgain => find_progress_iter n c1 ls1 pat scan mat
      | _ => Some (x, c1, ls1)
      end
  end.

(** [cursor.set(start_position); cursor.next::<BaseMetric>(); return None]. *)
Definition fail_at (c : rcursor) (start : nat) : option (option nat * rcursor) :=
  let? c1 := c_set rope_ops r c start in
  let? (_, c2) := c_next rope_ops r base_metric c1 in
  Some (None, c2).
(** The comparison of byte slices. *)
Fixpoint bytes_eqb (a b : str) : bool :=
  match a, b with [], [] => true | x :: a', y :: b' => (x =? y) && bytes_eqb a' b' | _, _ => false end.
(** find.rs 201-228, [compare_cursor_str]; every turn of the loop but the last uses up some
    of the pattern. *)
Fixpoint compare_loop (fuel : nat) (c : rcursor) (pat : str) (start success : nat) : option (option nat * rcursor) :=
  match fuel with
  | 0 => None
  | S f =>
      let? g := c_get_leaf c in
      match g with
      | None => fail_at c start
      | Some (leaf, pos_in_leaf) =>
          if length leaf <? pos_in_leaf then None else
          let n := Nat.min (length pat) (length leaf - pos_in_leaf) in
          if negb (bytes_eqb (slice leaf pos_in_leaf (pos_in_leaf + n)) (slice pat 0 n)) then fail_at c start
          else
            let? pat' := str_slice pat n (length pat) in
            match pat' with
            | [] => let? c1 := c_set rope_ops r c success in Some (Some start, c1)
            | _ => let? (_, c1) := next_leaf rope_ops r c in compare_loop f c1 pat' start success
            end
      end
  end.
Definition compare_cursor_str : matcher := fun c ls pat =>
  let start := c_pos c in
  match pat with
  | [] => Some (Some start, c, ls)
  | _ =>
      let? (m, c1) := compare_loop (length pat + 2) c pat start (start + length pat) in
      Some (m, c1, ls)
  end.

(** The characters of a string ([str::chars]). *)
Fixpoint chars_f (fuel : nat) (s : str) : list str :=
  match fuel, s with
  | S f, b :: _ => firstn (len_utf8_from_first_byte b) s :: chars_f f (skipn (len_utf8_from_first_byte b) s)
  | _, _ => []
  end.
Definition chars (s : str) : list str := chars_f (length s) s.
Inductive step := Differs | Matched | More (c : str) (rest : list str).
(** find.rs 243-253: the inner loop, over the lowercase of one character of the text. *)
Fixpoint casei_inner (lcs : list str) (c : str) (rest : list str) : step :=
  match lcs with
  | [] => More c rest
  | lc :: lcs' =>
      if negb (bytes_eqb c lc) then Differs
      else match rest with [] => Matched | c' :: rest' => casei_inner lcs' c' rest' end
  end.
(** find.rs 241-261: every turn moves the cursor on. *)
Fixpoint casei_loop (fuel : nat) (cur : rcursor) (c : str) (rest : list str) (start : nat) : option (option nat * rcursor) :=
  match fuel with
  | 0 => None
  | S f =>
      let? (ch, cur1) := next_codepoint r cur in
      match ch with
      | Some rope_c =>
          match casei_inner (lower rope_c) c rest with
          | Differs => fail_at cur1 start
          | Matched => Some (Some start, cur1)
          | More c' rest' => casei_loop f cur1 c' rest' start
          end
      | None => fail_at cur1 start
      end
  end.
(** find.rs 233-262, [compare_cursor_str_casei]. *)
Definition compare_cursor_str_casei : matcher := fun cur ls pat =>
  match chars pat with
  | [] => None
  | c :: rest => let? (m, c1) := casei_loop (n_len r + 2) cur c rest (c_pos cur) in Some (m, c1, ls)
  end.

(** The regular expression: where it matches in a string. *)
Context (regex_find : str -> option (nat * nat)).
(** find.rs 270-312, [compare_cursor_regex]. *)
Definition compare_cursor_regex : matcher := fun c ls pat =>
  let orig := c_pos c in
  match pat with
  | [] => Some (Some orig, c, ls)
  | _ =>
      let? (text, ls1) :=
        (if is_multiline_regex pat then
           let? rest := lines_raw_rest (n_len rl + 1) rl ls in Some (Some (concat rest), LinesRaw (ChunkIter (ci_cursor (lr_inner ls)) 0) [])
         else lines_raw_next (n_len rl + 2) rl ls) in
      match text with
      | None => Some (None, c, ls1)
      | Some text =>
          match regex_find text with
          | Some (ms, me) => let? c1 := c_set rope_ops r c (orig + me) in Some (Some (orig + ms), c1, ls1)
          | None => let? c1 := c_set rope_ops r c (orig + length text) in Some (None, c1, ls1)
          end
      end
  end.

(** [memchr2] and [memchr3]: the first of some bytes. *)
Fixpoint memchrs (bs : list nat) (s : str) : option nat :=
  match s with
  | [] => None
  | b :: s' => if existsb (Nat.eqb b) bs then Some 0 else match memchrs bs s' with Some i => Some (S i) | None => None end
  end.
(** find.rs 326-334, [scan_lowercase]; the lowercase of a character is not empty. *)
Fixpoint scan_chars (probe : str) (cs : list str) (i : nat) : option (option nat) :=
  match cs with
  | [] => Some None
  | c :: cs' =>
      match lower c with
      | [] => None
      | l :: _ => if bytes_eqb l probe then Some (Some i) else scan_chars probe cs' (i + length c)
      end
  end.
Definition scan_lowercase (probe : str) (s : str) : option (option nat) := scan_chars probe (chars s) 0.

(** find.rs 89-140, [find_progress]. *)
Definition find_progress (c : rcursor) (ls : lines_raw) (cm : case_matching) (pat : str) (num_steps : nat) (regex : bool)
  : option (find_result * rcursor * lines_raw) :=
  match pat with
  | [] => Some (FNotFound, c, ls)
  | b :: _ =>
      if regex then find_progress_iter num_steps c ls pat (fun _ => Some (Some 0)) compare_cursor_regex
      else
        match cm with
        | Exact => find_progress_iter num_steps c ls pat (fun s => Some (memchrs [b] s)) compare_cursor_str
        | CaseInsensitive =>
            let pat_lower := str_lower pat in
            let? b := nth_error pat_lower 0 in
            let go scan := find_progress_iter num_steps c ls pat_lower scan compare_cursor_str_casei in
            if b =? 105 then go (fun s => Some (memchrs [105; 73; 196] s))
            else if b =? 107 then go (fun s => Some (memchrs [107; 75; 226] s))
            else if (97 <=? b) && (b <=? 122) then go (fun s => Some (memchrs [b; b - 32] s))
            else if b <? 128 then go (fun s => Some (memchrs [b] s))
            else
              let? probe := nth_error (chars pat) 0 in
              go (scan_lowercase probe)
        end
  end.
(** find.rs 64-77, [find], which gives [find_progress] as many steps as there are: running
    out of them panics. *)
Definition find (num_steps : nat) (c : rcursor) (ls : lines_raw) (cm : case_matching) (pat : str) (regex : bool)
  : option (option nat * rcursor * lines_raw) :=
  let? (x, c1, ls1) := find_progress c ls cm pat num_steps regex in
  match x with
  | FFound p => Some (Some p, c1, ls1)
  | FNotFound => Some (None, c1, ls1)
  | FTryAgain => None
  end.
End Find.
