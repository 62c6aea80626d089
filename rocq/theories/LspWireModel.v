(** Model of how messages are written to a language server and read from it: rust/lsp-lib/src/parse_helper.rs,
    [prepare_lsp_json] of language_server_client.rs and the loop of utils.rs. A stream is the bytes to come until its end. *)
From Coq Require Import List Arith Bool Ascii String.
From Verif Require Import Base RopeModel FileModel.
Import ListNotations.
Open Scope list_scope.

(** A literal of the code, as bytes. *)
Definition bytes (s : string) : list nat := map nat_of_ascii (list_ascii_of_string s).

(** [BufRead::read_line]: up to a newline, with it, or all. *)
Fixpoint read_line (s : list nat) : list nat * list nat :=
  match s with
  | [] => ([], [])
  | b :: s' => if b =? 10 then ([10], s') else let '(l, r) := read_line s' in (b :: l, r)
  end.
(** [str::trim]. Simplified: only of the white space in ASCII. *)
Definition is_space (b : nat) : bool := (9 <=? b) && (b <=? 13) || (b =? 32).
Fixpoint trim_start (s : list nat) : list nat := match s with [] => [] | b :: s' => if is_space b then trim_start s' else s end.
Definition trim (s : list nat) : list nat := rev (trim_start (rev (trim_start s))).
(** [str::to_lowercase]. Simplified: only letters in ASCII are changed; no other letter becomes one of those in the names of
    headers. *)
Definition to_lowercase (s : list nat) : list nat := map (fun b => if (65 <=? b) && (b <=? 90) then b + 32 else b) s.
(** [str::splitn(2, ": ")], if there are two parts. *)
Fixpoint split_colon (s : list nat) : option (list nat * list nat) :=
  match s with
  | [] => None
  | b :: s' =>
      match s' with
      | c :: s'' => if (b =? 58) && (c =? 32) then Some ([], s'') else let? (x, y) := split_colon s' in Some (b :: x, y)
      | [] => None
      end
  end.
(** [usize::from_str_radix] with radix 10: a plus is allowed. There is no largest number here. *)
Fixpoint digits (acc : nat) (s : list nat) : option nat :=
  match s with
  | [] => Some acc
  | b :: s' => if (48 <=? b) && (b <=? 57) then digits (acc * 10 + (b - 48)) s' else None
  end.
Definition parse_number (s : list nat) : option nat :=
  match s with
  | [] => None
  | b :: s' => if b =? 43 then (match s' with [] => None | _ => digits 0 s' end) else digits 0 s
  end.
(** types.rs, [LspHeader]; parse_helper.rs 23-36, [parse_header]; all errors are [None]. *)
Inductive header := ContentType | ContentLength (n : nat).
Definition list_eqb (s u : list nat) : bool := if list_eq_dec Nat.eq_dec s u then true else false.
Definition parse_header (s : list nat) : option header :=
  let? (k, v) := split_colon s in
  let k := to_lowercase (trim k) in
  let v := to_lowercase (trim v) in
  if list_eqb k (bytes "content-type") then Some ContentType
  else if list_eqb k (bytes "content-length") then (let? n := parse_number v in Some (ContentLength n))
  else None.
(** parse_helper.rs 43-56, the loop of [read_message]: the length, if there was one, or an error, and what is left. A line
    that is not text gives an error of [read_line], which is ignored, and an empty buffer. [fuel] bounds the lines. *)
Fixpoint read_headers (fuel : nat) (s : list nat) (len : option nat) : option (option nat) * list nat :=
  match fuel with
  | 0 => (None, s)
  | S f =>
      let '(l, r) := read_line s in
      let l := if utf8b l then l else [] in
      match trim l with
      | [] => (Some len, r)
      | _ =>
          match parse_header l with
          | None => (None, r)
          | Some ContentType => read_headers f r len
          | Some (ContentLength n) => read_headers f r (Some n)
          end
      end
  end.
(** parse_helper.rs 38-66, [read_message]. [Read::read_exact] of too much takes all there is. *)
Definition read_message (s : list nat) : option (list nat) * list nat :=
  match read_headers (S (List.length s)) s None with
  | (Some (Some n), r) =>
      if n <=? List.length r then (if utf8b (firstn n r) then Some (firstn n r) else None, skipn n r)
      else (None, [])
  | (_, r) => (None, r)
  end.
(** utils.rs 190-199, the loop of the thread that reads, for [n] rounds: the messages it handles. It has no end. *)
Fixpoint rounds (n : nat) (s : list nat) : list (option (list nat)) * list nat :=
  match n with
  | 0 => ([], s)
  | S n' => let '(m, r) := read_message s in let '(ms, r') := rounds n' r in (m :: ms, r')
  end.

(** [Display] of a [usize]. *)
Fixpoint display (fuel n : nat) : list nat :=
  match fuel with
  | 0 => []
  | S f => if n <? 10 then [48 + n] else display f (n / 10) ++ [48 + n mod 10]
  end.
(** language_server_client.rs 46-51, [prepare_lsp_json], of a message as text. *)
Definition prepare_lsp_json (request : list nat) : list nat :=
  bytes "Content-Length: " ++ display (S (List.length request)) (List.length request) ++ [13; 10; 13; 10] ++ request.
