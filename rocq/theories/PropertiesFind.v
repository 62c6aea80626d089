(** C24: searching a rope finds the first occurrence. *)
From Coq Require Import List Arith Lia Bool ZifyBool.
From Verif Require Import Base ListLib MultisetProofs TreeModel TreeSpec TreeProofs MetricProofs CursorModel CursorProofs CursorBoundary
  RopeModel RopeSpec RopeProofs RopeMetric RopeIterModel RopeCursor RopeIterProofs FindModel FindProofs.
Import ListNotations.
Local Notation concat := List.concat.

(** ** Specification *)
(** [pat] is in [text] at [i]. *)
Definition occurs (text pat : list nat) (i : nat) : Prop := exists a b, text = a ++ pat ++ b /\ length a = i.
(** The characters from [i] to [e], each in lowercase, are or start with the characters of
    [plow]. *)
Definition occurs_lower (lower : list nat -> list (list nat)) (text plow : list nat) (i e : nat) : Prop :=
  char_boundary text i /\ char_boundary text e /\ i <= e /\
  exists cs pcs rest, chars_of (slice text i e) cs /\ chars_of plow pcs /\ flat_map lower cs = pcs ++ rest.
(** What of the Unicode tables the search relies on: only these characters give an ASCII
    letter when made lowercase. *)
Definition lower_table (lower : list nat -> list (list nat)) : Prop :=
  (forall c, lower c <> []) /\
  forall c b, utf8_char c = true -> b < 128 -> nth_error (lower c) 0 = Some [b] ->
    c = [b] \/ 97 <= b <= 122 /\ c = [b - 32] \/ b = 105 /\ c = [196; 176] \/ b = 107 /\ c = [226; 132; 170].

(** Searching step by step, with so many steps each time. *)
Fixpoint search_in_pieces lower slow (r : rope) rx (pieces : list nat) (c : rcursor) (ls : lines_raw) cm pat regex : option (find_result * rcursor * lines_raw) :=
  match pieces with
  | [] => Some (FTryAgain, c, ls)
  | n :: pieces' =>
      let? (x, c', ls') := find_progress lower slow r r rx c ls cm pat n regex in
      match x with FTryAgain => search_in_pieces lower slow r rx pieces' c' ls' cm pat regex | _ => Some (x, c', ls') end
  end.

Lemma occurs_iff text pat i : pat <> [] -> occurs text pat i <-> exists u, skipn i text = pat ++ u.
Proof.
  intros Hne. split.
  - intros (a & b & -> & <-). exists b. now rewrite skipn_app_exact.
  - intros (u & E). exists (firstn i text), u. rewrite <- E, firstn_skipn. split; auto. rewrite firstn_length. apply (f_equal (@length nat)) in E.
    rewrite skipn_length, app_length in E. destruct pat; [congruence|]. cbn in E. lia.
Qed.
Lemma lower_occ lower r h pl i e : rope_wf h r -> utf8 pl -> occurs_lower lower (rcontent r) pl i e <-> imatch r lower pl i e.
Proof.
  intros W Up. pose proof (utf8_s r h W) as U. split.
  - intros (Ci & Ce & Hie & cs & pcs & u & Hcs & Hp & E). apply boundary_iff in Ci, Ce; auto. split; auto. split; auto. split; auto.
    rewrite (chars_ok _ _ Hcs), (chars_ok _ _ Hp). exists u. exact E.
  - intros (Ci & Ce & Hie & (u & E)). split; [now apply boundary_iff|]. split; [now apply boundary_iff|]. split; auto.
    exists (chars (slice (rcontent r) i e)), (chars pl), u. split; [apply chars_is; now apply utf8_slice|]. split; auto. now apply chars_is.
Qed.

(** ** Proofs *)
Section P.
Context (lower : list nat -> list (list nat)) (slow : list nat -> list nat) (rx : list nat -> option (nat * nat)).
Context (r : rope) (h : nat) (W : rope_wf h r).
Local Notation text := (rcontent r).

Lemma iter_ext n : forall c ls pat pat' scan m m', (forall c ls, m c ls pat = m' c ls pat') -> find_progress_iter r n c ls pat scan m = find_progress_iter r n c ls pat' scan m'.
Proof.
  induction n as [|n IH]; intros c ls pat pat' scan m m' H; cbn [find_progress_iter]; auto.
  assert (E : find_core r c ls pat scan m = find_core r c ls pat' scan m').
  { unfold find_core. destruct (c_pos c =? n_len r); auto. destruct (c_get_leaf c) as [[[l q]|]|]; auto. cbn [bind]. destruct (str_slice l q (length l)); auto. cbn [bind].
    destruct (scan l0) as [[off|]|]; auto. cbn [bind]. destruct (c_set rope_ops r c (c_pos c + off)); auto. cbn [bind]. now rewrite H. }
  rewrite E. destruct (find_core r c ls pat' scan m') as [[[x c1] ls1]|]; auto. cbn [bind]. destruct x; auto.
Qed.
Lemma exact_is n c ls b p : find_progress lower slow r r rx c ls Exact (b :: p) n false =
  find_progress_iter r n c ls (b :: p) (fun t => Some (memchrs [b] t)) (mat_l (fun c => compare_loop r (length (b :: p) + 2) c (b :: p) (c_pos c) (c_pos c + length (b :: p)))).
Proof. unfold find_progress. apply iter_ext. reflexivity. Qed.

(** A search that works as [search_ok] says, in pieces. *)
Lemma pieces_ok occ fin cm pat (Hstep : forall n c ls, cok r c -> exists x c', find_progress lower slow r r rx c ls cm pat n false = Some (x, c', ls) /\ cok r c' /\
    match x with
    | FFound p => c_pos c <= p /\ occ p /\ no_occ occ (c_pos c) p /\ fin p (c_pos c')
    | FNotFound => forall i, c_pos c <= i -> ~ occ i
    | FTryAgain => c_pos c + n <= c_pos c' /\ no_occ occ (c_pos c) (c_pos c')
    end) : forall pieces c ls, cok r c -> exists x c', search_in_pieces lower slow r rx pieces c ls cm pat false = Some (x, c', ls) /\ cok r c' /\
    match x with
    | FFound p => c_pos c <= p /\ occ p /\ no_occ occ (c_pos c) p /\ fin p (c_pos c')
    | FNotFound => forall i, c_pos c <= i -> ~ occ i
    | FTryAgain => c_pos c + list_sum pieces <= c_pos c' /\ no_occ occ (c_pos c) (c_pos c')
    end.
Proof.
  induction pieces as [|n pieces IH]; intros c ls Hc; cbn [search_in_pieces].
  { exists FTryAgain, c. split; auto. split; auto. cbn. split; [lia|]. intros i Hi. lia. }
  destruct (Hstep n c ls Hc) as (x & c1 & -> & C1 & Hx). cbn [bind]. destruct x as [p| |].
  - exists (FFound p), c1. auto.
  - exists FNotFound, c1. auto.
  - destruct Hx as [Hadv Hno]. destruct (IH c1 ls C1) as (x & c2 & -> & C2 & Hx). exists x, c2. split; auto. split; auto. destruct x as [p| |].
    + destruct Hx as (H1 & H2 & H3 & H4). split; [lia|]. split; auto. split; auto. intros i Hi. destruct (Nat.lt_ge_cases i (c_pos c1)); [apply Hno|apply H3]; lia.
    + intros i Hi. destruct (Nat.lt_ge_cases i (c_pos c1)); [apply Hno|apply Hx]; lia.
    + destruct Hx as [H1 H2]. change (list_sum (n :: pieces)) with (n + list_sum pieces). split; [lia|]. intros i Hi. destruct (Nat.lt_ge_cases i (c_pos c1)); [apply Hno|apply H2]; lia.
Qed.
Lemma new_cok start : char_boundary text start -> exists c, c_new r start = Some c /\ c_pos c = start /\ cok r c.
Proof.
  intros Cs. apply boundary_iff in Cs; [|eapply utf8_s; eauto]. destruct (rnew_ok h r start W (cb_le _ _ Cs)) as (c & E & P & V). exists c. split; auto. split; auto.
  split; [now rewrite P|now left].
Qed.

Lemma exact_step pat : pat <> [] -> utf8 pat -> forall n c ls, cok r c -> exists x c', find_progress lower slow r r rx c ls Exact pat n false = Some (x, c', ls) /\ cok r c' /\
    match x with
    | FFound p => c_pos c <= p /\ occ r pat p /\ no_occ (occ r pat) (c_pos c) p /\ c_pos c' = p + length pat
    | FNotFound => forall i, c_pos c <= i -> ~ occ r pat i
    | FTryAgain => c_pos c + n <= c_pos c' /\ no_occ (occ r pat) (c_pos c) (c_pos c')
    end.
Proof.
  intros Hne U n c ls Hc. destruct pat as [|b p]; [congruence|]. rewrite exact_is.
  apply (search_ok r h W (occ r (b :: p)) (fun i e => e = i + length (b :: p)) _ _ _ (exact_mat r h W (b :: p) Hne U) (exact_scan r b p U)); auto.
  intros i Ho. split; [now apply (occ_cut r h W (b :: p))|]. pose proof (occ_len r (b :: p) i Hne Ho). cbn [length] in *. lia.
Qed.
End P.

(** ** C24 *)
(** An exact search, made in pieces of any sizes, gives the first occurrence from where it
    starts, with the cursor at its end, or says that there is none. While it is not done, there
    is no occurrence before its cursor, which goes on. *)
Theorem C24_exact lower slow rx h r pat start : rope_wf h r -> utf8 pat -> pat <> [] -> char_boundary (rcontent r) start ->
  exists c, c_new r start = Some c /\ forall pieces ls, exists x c',
    search_in_pieces lower slow r rx pieces c ls Exact pat false = Some (x, c', ls) /\
    match x with
    | FFound p => start <= p /\ occurs (rcontent r) pat p /\ (forall i, start <= i < p -> ~ occurs (rcontent r) pat i) /\ c_pos c' = p + length pat
    | FNotFound => forall i, start <= i -> ~ occurs (rcontent r) pat i
    | FTryAgain => start + list_sum pieces <= c_pos c' <= length (rcontent r) /\ forall i, start <= i < c_pos c' -> ~ occurs (rcontent r) pat i
    end.
Proof.
  intros W U Hne Hs. destruct (new_cok r h W start Hs) as (c & E & P & Hc). exists c. split; auto. intros pieces ls.
  destruct (pieces_ok lower slow rx r (occ r pat) (fun i e => e = i + length pat) Exact pat (exact_step lower slow rx r h W pat Hne U) pieces c ls Hc) as (x & c' & E' & Hc' & Hx). rewrite P in Hx.
  exists x, c'. split; auto. destruct x as [p| |].
  - destruct Hx as (H1 & H2 & H3 & H4). split; auto. split; [now apply occurs_iff|]. split; auto. intros i Hi Ho. apply (H3 i Hi). now apply (occurs_iff _ pat).
  - intros i Hi Ho. apply (Hx i Hi). now apply (occurs_iff _ pat).
  - destruct Hx as (H1 & H2). split; [split; auto; apply cb_le; apply Hc'|]. intros i Hi Ho. apply (H2 i Hi). now apply (occurs_iff _ pat).
Qed.
Print Assumptions C24_exact.

(** With as many steps as there are bytes left, [find] does not panic and gives the first
    occurrence exactly when there is one. *)
Theorem C24_find_exact lower slow rx h r pat start n : rope_wf h r -> utf8 pat -> pat <> [] -> char_boundary (rcontent r) start -> length (rcontent r) - start < n ->
  exists c, c_new r start = Some c /\ forall ls, exists x c', find lower slow r r rx n c ls Exact pat false = Some (x, c', ls) /\
    match x with
    | Some p => start <= p /\ occurs (rcontent r) pat p /\ (forall i, start <= i < p -> ~ occurs (rcontent r) pat i) /\ c_pos c' = p + length pat
    | None => forall i, start <= i -> ~ occurs (rcontent r) pat i
    end.
Proof.
  intros W U Hne Hs Hn. destruct (C24_exact lower slow rx h r pat start W U Hne Hs) as (c & E & H). exists c. split; auto. intros ls.
  destruct (H [n] ls) as (x & c' & E' & Hx). cbn [search_in_pieces] in E'. unfold find.
  destruct (find_progress lower slow r r rx c ls Exact pat n false) as [[[x1 c1] ls1]|]; [|discriminate]. cbn [bind] in *. destruct x1; injection E' as <- <- <-.
  - exists (Some start0), c1. auto.
  - exists None, c1. auto.
  - cbn [list_sum fold_right] in Hx. lia.
Qed.
Print Assumptions C24_find_exact.
(** A pattern that goes over the end of a leaf of 1024 bytes. *)
Definition two_leaves : list nat := repeat 97 1020 ++ [195; 169; 98] ++ [195; 169; 99; 100] ++ repeat 97 600.
Definition leaf_pat : list nat := [97; 195; 169; 98; 195; 169; 99; 100].
Example C24_exact_case :
  (let? r := rope_from two_leaves in
   let? c := c_new r 3 in
   let? it := iter_chunks r 3 (n_len r) in
   let? (x, c', _) := find (fun c => [c]) (fun s => s) r r (fun _ => None) 2000 c (LinesRaw it []) Exact leaf_pat false in
   let? (y, d', _) := search_in_pieces (fun c => [c]) (fun s => s) r (fun _ => None) [5; 7] c (LinesRaw it []) Exact leaf_pat false in
   let? (z, e', _) := find (fun c => [c]) (fun s => s) r r (fun _ => None) 2000 c' (LinesRaw it []) Exact leaf_pat false in
   Some (map (@length nat) (leaves r), x, c_pos c', (y, c_pos d'), z)) =
  Some ([1023; 604], Some 1019, 1027, (FTryAgain, 15), None).
Proof. vm_compute. reflexivity. Qed.

(** ** Case-insensitive search *)
Section P2.
Context (lower : list nat -> list (list nat)) (slow : list nat -> list nat) (rx : list nat -> option (nat * nat)).
Context (r : rope) (h : nat) (W : rope_wf h r) (T : lower_table lower).
(** The pattern in lowercase starts with an ASCII character, or with the character the
    pattern starts with. *)
Definition first_kept (pat plow : list nat) : Prop :=
  (exists b t, plow = b :: t /\ b < 128) \/ exists c u v, utf8_char c = true /\ pat = c ++ u /\ plow = c ++ v.

Lemma ascii_char b : b < 128 -> utf8_char [b] = true. Proof. cbn. lia. Qed.
Lemma first_chars c u : utf8_char c = true -> utf8 (c ++ u) -> chars (c ++ u) = c :: chars u.
Proof.
  intros Hc U. assert (Uc : utf8 c). { exists [c]. split; [now constructor|]. cbn. now rewrite app_nil_r. }
  pose proof (utf8_rest c u Uc U) as Uu. apply chars_ok. destruct (chars_is u Uu) as [F E]. split; [now constructor|]. cbn [concat]. now rewrite <- E.
Qed.
Lemma casei_step pat : utf8 (slow pat) -> pat <> [] -> slow pat <> [] -> utf8 pat -> first_kept pat (slow pat) ->
  forall n c ls, cok r c -> exists x c', find_progress lower slow r r rx c ls CaseInsensitive pat n false = Some (x, c', ls) /\ cok r c' /\
    match x with
    | FFound p => c_pos c <= p /\ iocc r lower (slow pat) p /\ no_occ (iocc r lower (slow pat)) (c_pos c) p /\ ifin r lower (slow pat) p (c_pos c')
    | FNotFound => forall i, c_pos c <= i -> ~ iocc r lower (slow pat) i
    | FTryAgain => c_pos c + n <= c_pos c' /\ no_occ (iocc r lower (slow pat)) (c_pos c) (c_pos c')
    end.
Proof.
  intros Ul Hne Hln Up Hk n c ls Hc. destruct T as [Tne Tb].
  destruct (chars (slow pat)) as [|c0 rest0] eqn:Ech.
  { exfalso. pose proof (chars_is _ Ul) as [_ E]. rewrite Ech in E. now apply Hln. }
  assert (Hgo : forall scan, scan_spec r (iocc r lower (slow pat)) scan -> exists x c', find_progress_iter r n c ls (slow pat) scan (compare_cursor_str_casei lower r) = Some (x, c', ls) /\ cok r c' /\
    match x with
    | FFound p => c_pos c <= p /\ iocc r lower (slow pat) p /\ no_occ (iocc r lower (slow pat)) (c_pos c) p /\ ifin r lower (slow pat) p (c_pos c')
    | FNotFound => forall i, c_pos c <= i -> ~ iocc r lower (slow pat) i
    | FTryAgain => c_pos c + n <= c_pos c' /\ no_occ (iocc r lower (slow pat)) (c_pos c) (c_pos c')
    end).
  { intros scan Hs.
    rewrite (iter_ext r n c ls (slow pat) (slow pat) scan (compare_cursor_str_casei lower r) (mat_l (fun c => casei_loop lower r (n_len r + 2) c c0 rest0 (c_pos c)))).
    2: { intros c1 ls1. unfold compare_cursor_str_casei, mat_l. rewrite Ech. reflexivity. }
    apply (search_ok r h W _ _ _ _ _ (casei_mat r h W lower (slow pat) c0 rest0 Ech) Hs); auto.
    intros i Ho. destruct (iocc_head r h W lower (slow pat) c0 rest0 i Ech Tne Ho) as (H1 & H2 & _). auto. }
  destruct pat as [|p0 pat'] eqn:Epat; [congruence|]. unfold find_progress. rewrite <- Epat in *.
  destruct (slow pat) as [|b t] eqn:Es; [congruence|]. cbn [nth_error bind].
  assert (Hc0 : b < 128 -> c0 = [b]).
  { intros Hb. change (b :: t) with ([b] ++ t) in Ech. rewrite first_chars in Ech; [congruence|now apply ascii_char|exact Ul]. }
  assert (Hm : forall bs, b < 128 -> Forall (fun b => is_start b = true) bs ->
    (forall x, x = b \/ 97 <= b <= 122 /\ x = b - 32 \/ b = 105 /\ x = 196 \/ b = 107 /\ x = 226 -> In x bs) -> scan_spec r (iocc r lower (b :: t)) (fun t => Some (memchrs bs t))).
  { intros bs Hb Hbs Hin. apply (casei_memchr r h W lower (b :: t) c0 rest0 bs Ech Tne Hbs). intros ch Hch Hh. rewrite (Hc0 Hb) in Hh.
    destruct (Tb ch b Hch Hb Hh) as [->|[[Hr ->]|[[-> ->]|[-> ->]]]]; eexists _, _; (split; [reflexivity|]); apply Hin; tauto. }
  destruct (Nat.eqb_spec b 105) as [->|N1].
  { apply Hgo, Hm; [lia|repeat constructor|]. intros x [->|[[_ ->]|[[_ ->]|[[=] _]]]]; cbn; auto. }
  destruct (Nat.eqb_spec b 107) as [->|N2].
  { apply Hgo, Hm; [lia|repeat constructor|]. intros x [->|[[_ ->]|[[[=] _]|[_ ->]]]]; cbn; auto. }
  assert (Hst : forall x, x < 128 -> is_start x = true) by (intros x Hx; unfold is_start; lia).
  destruct ((97 <=? b) && (b <=? 122)) eqn:Erange.
  { apply Hgo, Hm; [lia|repeat constructor; apply Hst; lia|]. intros x [->|[[_ ->]|[[? _]|[? _]]]]; cbn; auto; lia. }
  destruct (Nat.ltb_spec b 128) as [Hb|Hb].
  { apply Hgo, Hm; [lia|repeat constructor; apply Hst; lia|]. intros x [->|[[? _]|[[? _]|[? _]]]]; cbn; auto; lia. }
  destruct Hk as [(b' & t' & [= <- <-] & ?)|(ch & u & v & Hch & Eu & Ev)]; [lia|].
  assert (E1 : chars pat = ch :: chars u) by (rewrite Eu; apply first_chars; auto; now rewrite <- Eu).
  assert (E2 : c0 = ch). { rewrite Ev, first_chars in Ech; [congruence|auto|now rewrite <- Ev]. }
  rewrite E1. cbn [nth_error bind]. apply Hgo. rewrite <- E2. now apply (lowercase_scan r h W lower (b :: t) c0 rest0).
Qed.
End P2.

(** A case-insensitive search gives the first place where the text in lowercase, character by
    character, is the pattern in lowercase, and the shortest one there. Missing: patterns
    whose first character is not ASCII and changes in lowercase (see below). *)
Theorem C24_case_insensitive_partial lower slow rx h r pat start : rope_wf h r -> lower_table lower ->
  utf8 pat -> pat <> [] -> utf8 (slow pat) -> slow pat <> [] -> first_kept pat (slow pat) -> char_boundary (rcontent r) start ->
  exists c, c_new r start = Some c /\ forall pieces ls, exists x c',
    search_in_pieces lower slow r rx pieces c ls CaseInsensitive pat false = Some (x, c', ls) /\
    let occ i e := occurs_lower lower (rcontent r) (slow pat) i e in
    match x with
    | FFound p => start <= p /\ (forall i e, start <= i < p -> ~ occ i e) /\ occ p (c_pos c') /\ (forall e, e < c_pos c' -> ~ occ p e)
    | FNotFound => forall i e, start <= i -> ~ occ i e
    | FTryAgain => start + list_sum pieces <= c_pos c' <= length (rcontent r) /\ forall i e, start <= i < c_pos c' -> ~ occ i e
    end.
Proof.
  intros W T Up Hne Ul Hln Hk Hs. destruct (new_cok r h W start Hs) as (c & E & P & Hc). exists c. split; auto. intros pieces ls.
  destruct (pieces_ok lower slow rx r (iocc r lower (slow pat)) (ifin r lower (slow pat)) CaseInsensitive pat (casei_step lower slow rx r h W T pat Ul Hne Hln Up Hk) pieces c ls Hc) as (x & c' & E' & Hc' & Hx). rewrite P in Hx.
  exists x, c'. split; auto. cbn zeta.
  assert (Hno : forall i e, occurs_lower lower (rcontent r) (slow pat) i e -> iocc r lower (slow pat) i). { intros i e Ho. exists e. now apply (lower_occ lower r h). }
  destruct x as [p| |].
  - destruct Hx as (H1 & H2 & H3 & H4 & H5). split; auto. split; [intros i e Hi Ho; apply (H3 i Hi); eauto|]. split; [now apply (lower_occ lower r h)|].
    intros e He Ho. apply (lower_occ lower r h) in Ho; auto. apply H5 in Ho. lia.
  - intros i e Hi Ho. apply (Hx i Hi). eauto.
  - destruct Hx as (H1 & H2). split; [split; auto; apply cb_le; apply Hc'|]. intros i e Hi Ho. apply (H2 i Hi). eauto.
Qed.
Print Assumptions C24_case_insensitive_partial.

(** For a pattern of ASCII characters, which [to_lowercase] maps letter by letter. *)
Definition ascii_lower (b : nat) : nat := if (65 <=? b) && (b <=? 90) then b + 32 else b.
Theorem C24_case_insensitive_ascii lower slow rx h r pat start n : rope_wf h r -> lower_table lower ->
  Forall (fun b => b < 128) pat -> pat <> [] -> slow pat = map ascii_lower pat -> char_boundary (rcontent r) start -> length (rcontent r) - start < n ->
  exists c, c_new r start = Some c /\ forall ls, exists x c', find lower slow r r rx n c ls CaseInsensitive pat false = Some (x, c', ls) /\
    let occ i e := occurs_lower lower (rcontent r) (map ascii_lower pat) i e in
    match x with
    | Some p => start <= p /\ (forall i e, start <= i < p -> ~ occ i e) /\ occ p (c_pos c') /\ (forall e, e < c_pos c' -> ~ occ p e)
    | None => forall i e, start <= i -> ~ occ i e
    end.
Proof.
  intros W T Fp Hne El Hs Hn.
  assert (Hu : forall l, Forall (fun b => b < 128) l -> utf8 l).
  { intros l F. exists (map (fun b => [b]) l). split; [apply Forall_map; eapply Forall_impl; [|exact F]; intros b Hb; now apply ascii_char|].
    clear. induction l; cbn; congruence. }
  assert (Fl : Forall (fun b => b < 128) (map ascii_lower pat)).
  { apply Forall_map. eapply Forall_impl; [|exact Fp]. intros b Hb. cbv beta in Hb |- *. unfold ascii_lower. destruct ((65 <=? b) && (b <=? 90)) eqn:E; lia. }
  destruct (C24_case_insensitive_partial lower slow rx h r pat start W T) as (c & E & H); auto.
  { rewrite El. auto. } { rewrite El. destruct pat; [congruence|discriminate]. }
  { rewrite El. left. destruct pat as [|b t]; [congruence|]. inversion Fl; subst. cbn [map]. eauto. }
  exists c. split; auto. intros ls. destruct (H [n] ls) as (x & c' & E' & Hx). rewrite El in Hx. cbn [search_in_pieces] in E'. unfold find.
  destruct (find_progress lower slow r r rx c ls CaseInsensitive pat n false) as [[[x1 c1] ls1]|]; [|discriminate]. cbn [bind] in *. destruct x1; injection E' as <- <- <-.
  - exists (Some start0), c1. auto.
  - exists None, c1. auto.
  - cbn [list_sum fold_right] in Hx. lia.
Qed.
Print Assumptions C24_case_insensitive_ascii.

(** The lowercase of some characters, as in Unicode: ASCII letters, É, Σ, the Kelvin sign, İ. *)
Definition lower_w (c : list nat) : list (list nat) :=
  if bytes_eqb c [195; 137] then [[195; 169]]
  else if bytes_eqb c [206; 163] then [[207; 131]]
  else if bytes_eqb c [196; 176] then [[105]; [204; 135]]
  else if bytes_eqb c [226; 132; 170] then [[107]]
  else match c with [b] => [[ascii_lower b]] | _ => [c] end.
(** The lowercase of a string: that of its characters, but for a sigma at the end of a word. *)
Definition slow_w (s : list nat) : list nat :=
  if bytes_eqb s [97; 206; 163] then [97; 207; 130] else concat (flat_map lower_w (chars s)).

Lemma lower_w_table : lower_table lower_w.
Proof.
  split; unfold lower_w.
  - intros c. destruct (bytes_eqb c [195; 137]); [discriminate|]. destruct (bytes_eqb c [206; 163]); [discriminate|].
    destruct (bytes_eqb c [196; 176]); [discriminate|]. destruct (bytes_eqb c [226; 132; 170]); [discriminate|]. destruct c as [|b [|]]; discriminate.
  - intros c b U Hb. destruct (bytes_eqb c [195; 137]); [intros [=]; lia|]. destruct (bytes_eqb c [206; 163]); [intros [=]; lia|].
    destruct (bytes_eqb c [196; 176]) eqn:E1; [intros [= <-]; apply bytes_eqb_ok in E1; auto|].
    destruct (bytes_eqb c [226; 132; 170]) eqn:E2; [intros [= <-]; apply bytes_eqb_ok in E2; auto|]. destruct c as [|x [|]]; cbn [nth_error]; [intros [=]| |intros [=]].
    intros [= <-]. unfold ascii_lower. destruct ((65 <=? x) && (x <=? 90)) eqn:Er; [|auto]. right. left. split; [lia|]. f_equal. lia.
Qed.
(** Searching for "İ K" finds "İ", a space and the Kelvin sign. *)
Example C24_case_insensitive_case : lower_table lower_w /\
  (let? r := rope_from [120; 196; 176; 32; 226; 132; 170; 33] in
   let? c := c_new r 0 in
   let? it := iter_chunks r 0 (n_len r) in
   let? (x, c', _) := find lower_w slow_w r r (fun _ => None) 20 c (LinesRaw it []) CaseInsensitive [196; 176; 32; 75] false in
   let? (y, d', _) := find lower_w slow_w r r (fun _ => None) 20 c (LinesRaw it []) CaseInsensitive [75; 33] false in
   Some (x, c_pos c', y, c_pos d')) = Some (Some 1, 7, Some 4, 8).
Proof. split; [exact lower_w_table|]. vm_compute. reflexivity. Qed.

(** A case-insensitive search for "É" does not find "É", since the scan looks for a character
    whose lowercase is "É". *)
Theorem C24_uppercase_first_refuted :
  occurs [195; 137] [195; 137] 0 /\ occurs_lower lower_w [195; 137] (slow_w [195; 137]) 0 2 /\
  (let? r := rope_from [195; 137] in
   let? c := c_new r 0 in
   let? it := iter_chunks r 0 (n_len r) in
   let? (x, c', _) := find lower_w slow_w r r (fun _ => None) 20 c (LinesRaw it []) CaseInsensitive [195; 137] false in
   Some x) = Some None.
Proof.
  split; [exists [], []; auto|]. split; [|vm_compute; reflexivity].
  split; [exists [], [[195; 137]]; repeat constructor|]. split; [exists [[195; 137]], []; repeat constructor|]. split; [lia|].
  exists [[195; 137]], [[195; 169]], []. repeat split; repeat constructor.
Qed.
Print Assumptions C24_uppercase_first_refuted.
(** Nor does one for "aΣ" find "aΣ": the pattern in lowercase ends with a final sigma, but the
    text is made lowercase by characters. *)
Theorem C24_final_sigma_refuted :
  occurs [97; 206; 163] [97; 206; 163] 0 /\
  (let? r := rope_from [97; 206; 163] in
   let? c := c_new r 0 in
   let? it := iter_chunks r 0 (n_len r) in
   let? (x, c', _) := find lower_w slow_w r r (fun _ => None) 20 c (LinesRaw it []) CaseInsensitive [97; 206; 163] false in
   Some x) = Some None.
Proof. split; [exists [], []; auto|]. vm_compute. reflexivity. Qed.
Print Assumptions C24_final_sigma_refuted.

(** ** Regular expressions *)
(** A regular expression for one line gives its match in the first line that has one; the
    first line is what follows the start of the search. *)
Theorem C24_regex_lines lower slow rx h r pat start n cm : rope_wf h r -> rx_ok rx -> pat <> [] -> is_multiline_regex pat = false ->
  char_boundary (rcontent r) start -> length (rcontent r) - start < n ->
  exists c it ls x c' it', c_new r start = Some c /\ iter_chunks r start (n_len r) = Some it /\ raw_lines (skipn start (rcontent r)) ls /\
    find lower slow r r rx n c (LinesRaw it []) cm pat true = Some (x, c', it') /\
    match x with
    | Some p => exists l1 l l2 a b, ls = l1 ++ l :: l2 /\ Forall (fun l => rx l = None) l1 /\ rx l = Some (a, b) /\
        p = start + length (concat l1) + a /\ c_pos c' = start + length (concat l1) + b
    | None => Forall (fun l => rx l = None) ls
    end.
Proof.
  intros W Hrx Hne Hml Hs Hn. destruct (new_cok r h W start Hs) as (c & E & P & Hc). pose proof (utf8_s r h W) as U.
  pose proof Hs as Hs'. apply boundary_iff in Hs'; auto. pose proof (cb_le _ _ Hs') as Hle. pose proof (len_r r h W) as Lr.
  destruct (iter_ok r h W start (n_len r)) as (it & Ei & Hi); [lia|auto|rewrite Lr; apply cb_len|].
  assert (Et : slice (rcontent r) start (n_len r) = skipn start (rcontent r)) by (unfold slice; rewrite Lr, firstn_all2; auto; rewrite skipn_length; lia). rewrite Et in Hi.
  destruct (regex_lines r h W r h W rx pat Hne Hrx Hml n c (LinesRaw it []) (skipn start (rcontent r)) Hc) as (ls & x & c' & it' & Rl & Ef & Hx).
  - now rewrite P.
  - exists (skipn start (rcontent r)). cbn. auto using utf8_nil.
  - rewrite skipn_length. lia.
  - rewrite P in Hx. exists c, it, ls.
    assert (Efp : find_progress lower slow r r rx c (LinesRaw it []) cm pat n true = Some (x, c', it')) by (unfold find_progress; destruct pat; [congruence|exact Ef]).
    destruct x as [p| |]; [|
      |tauto].
    + destruct Hx as (l1 & l & l2 & a & b & E1 & E2 & E3 & E4 & E5 & _). exists (Some p), c', it'. split; auto. split; auto. split; auto. split; [unfold find; now rewrite Efp|].
      exists l1, l, l2, a, b. auto.
    + exists None, c', it'. split; auto. split; auto. split; auto. split; [unfold find; now rewrite Efp|]. auto.
Qed.
Print Assumptions C24_regex_lines.
(** A regular expression that may match line breaks is matched against all the rest. *)
Theorem C24_regex_multiline lower slow rx h r pat start n cm : rope_wf h r -> rx_ok rx -> pat <> [] -> is_multiline_regex pat = true ->
  char_boundary (rcontent r) start -> start < length (rcontent r) -> 2 <= n ->
  exists c it x c' it', c_new r start = Some c /\ iter_chunks r start (n_len r) = Some it /\
    find lower slow r r rx n c (LinesRaw it []) cm pat true = Some (x, c', it') /\
    match x with
    | Some p => exists a b, rx (skipn start (rcontent r)) = Some (a, b) /\ p = start + a /\ c_pos c' = start + b
    | None => rx (skipn start (rcontent r)) = None
    end.
Proof.
  intros W Hrx Hne Hml Hs Hlt Hn. destruct (new_cok r h W start Hs) as (c & E & P & Hc). pose proof (utf8_s r h W) as U.
  pose proof Hs as Hs'. apply boundary_iff in Hs'; auto. pose proof (len_r r h W) as Lr.
  destruct (iter_ok r h W start (n_len r)) as (it & Ei & Hi); [lia|auto|rewrite Lr; apply cb_len|].
  assert (Et : slice (rcontent r) start (n_len r) = skipn start (rcontent r)) by (unfold slice; rewrite Lr, firstn_all2; auto; rewrite skipn_length; lia). rewrite Et in Hi.
  destruct n as [|[|n]]; try lia.
  destruct (regex_multi r h W r h W rx pat Hne Hrx Hml n c (LinesRaw it []) (skipn start (rcontent r)) Hc) as (x & c' & it' & Ef & Hx).
  - now rewrite P.
  - now rewrite P.
  - exists (skipn start (rcontent r)). cbn. auto using utf8_nil.
  - rewrite skipn_length. lia.
  - rewrite P in Hx. exists c, it.
    assert (Efp : find_progress lower slow r r rx c (LinesRaw it []) cm pat (S (S n)) true = Some (x, c', it')) by (unfold find_progress; destruct pat; [congruence|exact Ef]).
    destruct x as [p| |]; [| |tauto].
    + destruct Hx as (a & b & E1 & E2 & E3 & _). exists (Some p), c', it'. split; auto. split; auto. split; [unfold find; now rewrite Efp|]. exists a, b. auto.
    + exists None, c', it'. split; auto. split; auto. split; [unfold find; now rewrite Efp|]. auto.
Qed.
Print Assumptions C24_regex_multiline.
(** Searching "ab\ncb\n" from 1 for "b+", given as its matches, and for a newline and "c". *)
Fixpoint rx_b (s : list nat) : option (nat * nat) :=
  match s with [] => None | x :: s' => if x =? 98 then Some (0, 1) else match rx_b s' with Some (a, b) => Some (S a, S b) | None => None end end.
Definition rx_nc (s : list nat) : option (nat * nat) := if bytes_eqb s [98; 10; 99; 98; 10] then Some (1, 3) else None.
Lemma rx_b_ok : rx_ok rx_b.
Proof.
  assert (Hb : forall s, match rx_b s with Some (a, b) => b = S a /\ nth_error s a = Some 98 | None => True end).
  { induction s as [|x s IH]; cbn [rx_b]; auto. destruct (Nat.eqb_spec x 98) as [->|Hx]; [cbn; auto|].
    destruct (rx_b s) as [[a b]|]; auto. destruct IH as [-> ?]. auto. }
  intros s U. specialize (Hb s). destruct (rx_b s) as [[a b]|]; auto. destruct Hb as [-> Hn].
  assert (a < length s) by (apply nth_error_Some; congruence). split; [lia|]. split.
  - unfold scut, is_char_boundary. destruct (a =? 0); auto. now rewrite Hn.
  - destruct U as (cs & F & ->). revert a Hn H. induction F as [|c cs Hc F IH]; intros a Hn Hl; [destruct a; discriminate|]. cbn [concat] in *.
    destruct (char_shape c Hc) as (b & t & Ec & Hb & Ht & Hlen & _). destruct (Nat.lt_ge_cases a (length c)) as [Ha|Ha].
    + rewrite nth_error_app1 in Hn by lia. rewrite Ec in Hn, Hlen. destruct a as [|a]; cbn in Hn.
      * injection Hn as ->. cbn in Hlen. rewrite Ec. destruct t; [|discriminate]. apply (cb_start [[98]] cs F).
      * apply nth_error_In in Hn. rewrite Forall_forall in Ht. apply Ht in Hn. discriminate.
    + rewrite nth_error_app2 in Hn by lia. rewrite app_length in Hl. replace (S a) with (length c + S (a - length c)) by lia. unfold scut. rewrite cb_shift by lia. apply IH; auto. lia.
Qed.
Example C24_regex_case : rx_ok rx_b /\
  (let? r := rope_from [97; 98; 10; 99; 98; 10] in
   let? c := c_new r 2 in
   let? it := iter_chunks r 2 (n_len r) in
   let? (x, c', _) := find lower_w slow_w r r rx_b 20 c (LinesRaw it []) Exact [98; 43] true in
   let? c1 := c_new r 1 in
   let? it1 := iter_chunks r 1 (n_len r) in
   let? (y, d', _) := find lower_w slow_w r r rx_nc 20 c1 (LinesRaw it1 []) Exact [92; 110; 99] true in
   Some (x, c_pos c', y, c_pos d')) = Some (Some 4, 5, Some 2, 4).
Proof. split; [exact rx_b_ok|]. vm_compute. reflexivity. Qed.

(** When the lines end before the text of the cursor does, as when the highlights are updated
    up to the end of a line, a search for a regular expression that does not match there never
    ends: whatever the number of steps, it is not done. *)
Theorem C24_regex_stuck_refuted : exists r c it, rope_from [97; 10; 98; 10] = Some r /\ c_new r 0 = Some c /\ iter_chunks r 0 2 = Some it /\
  forall lower slow n cm, (exists c' it', find_progress lower slow r r (fun _ => None) c (LinesRaw it []) cm [122] n true = Some (FTryAgain, c', it')) /\
    find lower slow r r (fun _ => None) n c (LinesRaw it []) cm [122] true = None.
Proof.
  set (r := NLeaf 4 (RInfo 2 4) [97; 10; 98; 10] : rope). set (c0 := Cursor 0 [None; None; None; None] (Some [97; 10; 98; 10]) 0 : rcursor).
  exists r, c0, (ChunkIter c0 2). split; [reflexivity|]. split; [reflexivity|]. split; [reflexivity|]. intros lower slow n cm.
  assert (H : exists c' it', find_progress lower slow r r (fun _ => None) c0 (LinesRaw (ChunkIter c0 2) []) cm [122] n true = Some (FTryAgain, c', it')).
  { change (exists c' it', find_progress_iter r n c0 (LinesRaw (ChunkIter c0 2) []) [122] (fun _ => Some (Some 0)) (compare_cursor_regex r r (fun _ => None)) = Some (FTryAgain, c', it')).
    destruct n as [|n]; [cbn; eauto|].
    set (c1 := Cursor 2 [None; None; None; None] (Some [97; 10; 98; 10]) 0 : rcursor).
    set (it1 := LinesRaw (ChunkIter (Cursor 4 [None; None; None; None] None 0 : rcursor) 2) []).
    assert (E1 : find_core r c0 (LinesRaw (ChunkIter c0 2) []) [122] (fun _ => Some (Some 0)) (compare_cursor_regex r r (fun _ => None)) = Some (FTryAgain, c1, it1)) by (vm_compute; reflexivity).
    assert (E2 : find_core r c1 it1 [122] (fun _ => Some (Some 0)) (compare_cursor_regex r r (fun _ => None)) = Some (FTryAgain, c1, it1)) by (vm_compute; reflexivity).
    cbn [find_progress_iter]. rewrite E1. cbn [bind]. exists c1, it1. clear E1. induction n as [|n IH]; cbn [find_progress_iter]; [reflexivity|]. now rewrite E2. }
  split; auto. destruct H as (c' & it' & E). unfold find. rewrite E. reflexivity.
Qed.
Print Assumptions C24_regex_stuck_refuted.
