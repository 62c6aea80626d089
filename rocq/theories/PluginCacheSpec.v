(** What a plugin may expect of its copy of the text, stated on the text alone. *)
From Coq Require Import List Arith.
From Verif Require Import Base RopeSpec DeltaModel DeltaSpec PluginCacheModel.
Import ListNotations.

(** Line [n] of the text [t] starts at [o]: [n] newlines come before, the last of them just
    before. *)
Definition line_at (t : list nat) (n o : nat) : Prop :=
  o <= length t /\ newlines (firstn o t) = n /\ (o = 0 \/ nth_error t (o - 1) = Some 10).
(** The same, but the line after the last is the end of the text. *)
Definition line_or_end (t : list nat) (n o : nat) : Prop :=
  line_at t n o \/ n = newlines t + 1 /\ o = length t.
(** The bytes of line [n]. *)
Definition is_line (t : list nat) (n : nat) (l : list nat) : Prop :=
  exists b e, line_at t n b /\ line_or_end t (n + 1) e /\ b <= e /\ l = slice t b e.

(** A request for text makes sense. *)
Definition request_ok (t : list nat) (start : nat) (u : text_unit) : Prop :=
  match u with Utf8 => start <= length t | Line => start <= newlines t + 1 end.
(** A right answer to it: a run of whole characters from the place asked for, which says where
    it is, and is not empty but at the end of the text. *)
Definition answers (t : list nat) (start : nat) (u : text_unit) (r : response) : Prop :=
  match u with
  | Utf8 => r_offset r <= start /\ char_boundary t (r_offset r) /\
            forall y, r_offset r < y <= start -> ~ char_boundary t y
  | Line => line_or_end t start (r_offset r)
  end /\
  char_boundary t (r_offset r) /\
  (exists e, r_offset r <= e <= length t /\ char_boundary t e /\ r_chunk r = slice t (r_offset r) e) /\
  (r_offset r < length t -> r_chunk r <> []) /\
  r_first_line r = newlines (firstn (r_offset r) t) /\
  exists b, line_at t (r_first_line r) b /\ r_offset r = b + r_first_line_offset r.

(** The core answers rightly for revision [rev], whose text is [t], or not at all; it does not
    answer requests that make no sense. *)
Definition source_ok (t : list nat) (rev : nat) (src : source) : Prop :=
  forall start u r, src start u CHUNK_SIZE rev = Some r -> request_ok t start u /\ answers t start u r.
(** It does not answer a request that makes sense. *)
Definition refuses (t : list nat) (rev : nat) (src : source) : Prop :=
  exists start u, request_ok t start u /\ src start u CHUNK_SIZE rev = None.

(** An edit that the core may announce: it is well formed, and cuts the text between
    characters. *)
Definition edit_ok (t : list nat) (d : delta nat) (t' : list nat) : Prop :=
  wf_delta d /\ base_len d = length t /\ apply d t = Some t' /\ utf8 t' /\
  Forall (fun x => match x with Copy b e => char_boundary t b /\ char_boundary t e | Insert s => utf8 s end) (els d).

(** ** Histories of a text cache: it starts empty; queries go through, whatever their result;
    the core announces edits, or a new text without saying how it came about. *)
Inductive cc_query (t : list nat) (rev : nat) (c c' : chunk_cache) : Prop :=
| cq_line src fuel n res : source_ok t rev src -> get_line fuel src c n = Some (c', res) -> cc_query t rev c c'
| cq_region src fuel b e res : source_ok t rev src -> get_region fuel src c b e = Some (c', res) -> cc_query t rev c c'
| cq_document src fuel res : source_ok t rev src -> get_document fuel src c = Some (c', res) -> cc_query t rev c c'
| cq_offset_of_line src fuel n res : source_ok t rev src -> cc_offset_of_line fuel src c n = Some (c', res) -> cc_query t rev c c'
| cq_line_of_offset src o res : source_ok t rev src -> cc_line_of_offset src c o = Some (c', res) -> cc_query t rev c c'.

Inductive cc_history : list nat -> nat -> chunk_cache -> Prop :=
| ch_new t rev : utf8 t -> cc_history t rev (cc_new (length t) rev (newlines t + 1))
| ch_query t rev c c' : cc_history t rev c -> cc_query t rev c c' -> cc_history t rev c'
| ch_edit t rev c d t' rev' c' : cc_history t rev c -> edit_ok t d t' ->
    cc_update c (Some d) (length t') (newlines t' + 1) rev' = Some c' -> cc_history t' rev' c'
| ch_replace t rev c t' rev' c' : cc_history t rev c -> utf8 t' ->
    cc_update c None (length t') (newlines t' + 1) rev' = Some c' -> cc_history t' rev' c'
| ch_clear t rev c : cc_history t rev c -> cc_history t rev (cc_clear c).

(** What the cache must hold: a run of the text, its place, its newlines, and the size of the
    text. *)
Definition agrees (t : list nat) (rev : nat) (c : chunk_cache) : Prop :=
  cc_offset c + length (cc_contents c) <= length t /\
  cc_contents c = slice t (cc_offset c) (cc_offset c + length (cc_contents c)) /\
  (forall x, In x (cc_line_offsets c) <-> exists i, x = i + 1 /\ nth_error (cc_contents c) i = Some 10) /\
  (forall i j x y, i < j -> nth_error (cc_line_offsets c) i = Some x -> nth_error (cc_line_offsets c) j = Some y -> x < y) /\
  cc_first_line c = newlines (firstn (cc_offset c) t) /\
  (exists b, line_at t (cc_first_line c) b /\ cc_offset c = b + cc_first_line_offset c) /\
  cc_buf_size c = length t /\ cc_num_lines c = newlines t + 1 /\ cc_rev c = rev.

(** ** Histories of a state cache *)
Section State.
Context {S : Type}.
Inductive sc_history : list nat -> nat -> state_cache S -> Prop :=
| sh_new t rev : utf8 t -> sc_history t rev (sc_new (length t) rev (newlines t + 1))
| sh_query t rev c b : sc_history t rev c -> cc_query t rev (sc_buf c) b ->
    sc_history t rev (SC b (sc_entries c) (sc_frontier c))
| sh_set t rev c src probes n s c' : sc_history t rev c -> source_ok t rev src ->
    sc_set src c probes n s = Some c' -> sc_history t rev c'
| sh_reset t rev c c' : sc_history t rev c -> truncate_cache c 0 = Some c' -> sc_history t rev c'
| sh_update_frontier t rev c n c' : sc_history t rev c -> update_frontier c n = Some c' -> sc_history t rev c'
| sh_close_frontier t rev c c' : sc_history t rev c -> close_frontier c = Some c' -> sc_history t rev c'
| sh_edit t rev c d t' rev' c' : sc_history t rev c -> edit_ok t d t' ->
    sc_update c (Some d) (length t') (newlines t' + 1) rev' = Some c' -> sc_history t' rev' c'
| sh_replace t rev c t' rev' c' : sc_history t rev c -> utf8 t' ->
    sc_update c None (length t') (newlines t' + 1) rev' = Some c' -> sc_history t' rev' c'.

(** Every cached state is at the start of the line it is said to be of, and the lines and the
    offsets increase. *)
Definition aligned (t : list nat) (es : list (entry S)) : Prop :=
  (forall e, In e es -> line_at t (e_line e) (e_offset e)) /\
  (forall i j a b, i < j -> nth_error es i = Some a -> nth_error es j = Some b ->
     e_line a < e_line b /\ e_offset a < e_offset b).
End State.
