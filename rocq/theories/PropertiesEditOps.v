(** C33: the editing commands change exactly the selected text. *)
From Coq Require Import List Arith Lia Bool ZifyBool.
From Verif Require Import Base ListLib MultisetProofs DeltaModel DeltaSpec DeltaProofs DeltaProofs2 PropertiesDelta TreeModel TreeSpec TreeProofs MetricProofs CursorModel CursorProofs CursorBoundary
  RopeModel RopeSpec RopeProofs RopeMetric RopeIterModel RopeCursor RopeIterProofs FindModel FindProofs SelectionModel SelectionProofs PropertiesSelection WordModel WordProofs PropertiesWord
  EditOpsModel EditOpsSpec EditOpsProofs EditOpsLines EditOpsMore EditOpsTabs EditOpsBack EditOpsUnits EditOpsWords.
Import ListNotations.
Local Notation concat := List.concat.
Local Notation region := SelectionModel.region.
Local Notation edit := (nat * nat * list nat)%type.
Local Notation clen cs := (length (concat cs)).

(** ** More specification *)
(** Every region of the selection with the text that takes its place. *)
Definition replaced (s : list nat) (rs : list region) (text : region -> list nat) : list nat :=
  edited 0 (map (fun x => (lo x, hi x, text x)) rs) s.
(** Outdenting a line that starts at [o] removes the text up to [e]: at most a tab's length of white
    space on the line; the whole tab if it is there; otherwise the white space before a character
    that stands less than a tab into the line. *)
Definition outdented (s : list nat) (gb : nat -> bool) (white : list nat -> bool) (tab : list nat) (o e : nat) : Prop :=
  o <= e <= o + length tab /\ char_boundary s e /\ newlines (firstn e s) = newlines (firstn o s) /\ white_text white (slice s o e) /\
  (slice s o (o + length tab) = tab -> ~ In 10 tab -> gb (o + length tab) = true -> e = o + length tab) /\
  (forall w c t, skipn o s = w ++ c ++ t -> white_text white w -> ~ In 10 w -> utf8_char c = true -> white c = false -> c <> [10] ->
     length (w ++ c) <= length tab -> gb (o + length w) = true -> gb (o + length (w ++ c)) = true -> e = o + length w).
(** The line of a region of several lines starts after the regions before it end. *)
Definition tabs_apart (s : list nat) (rs : list region) : Prop :=
  forall i j a b o, i < j -> nth_error rs i = Some a -> nth_error rs j = Some b -> several_lines s b ->
    starts_line s o /\ o <= lo b /\ (forall q, o < q <= lo b -> ~ starts_line s q) -> hi a <= o.
(** A block of lines with, at the end of the text, a line ending. *)
Definition block_text (s ending : list nat) (p : nat * nat) : list nat := slice s (fst p) (snd p) ++ (if snd p =? length s then ending else []).
(** The white space a backspace takes back to the last tab stop. *)
Definition tab_stop_before (s : list nat) (size p q : nat) : Prop :=
  exists c, column s p c /\ q + (if c mod size =? 0 then size else c mod size) = p /\ forall i, q <= i < p -> nth_error s i = Some 32.
(** What a backspace takes at a region: from [q] to the end of the region. *)
Definition backspace_from (P : emoji_props) (s : list nat) (cfg : config) (x : region) (q : nat) : Prop :=
  lo x < hi x /\ q = lo x \/
  lo x = hi x /\
  ((translate_tabs cfg = true /\ use_tab_stops cfg = true /\ tab_stop_before s (tab_size cfg) (hi x) q) \/
   ~ (translate_tabs cfg = true /\ use_tab_stops cfg = true /\ exists q', tab_stop_before s (tab_size cfg) (hi x) q') /\
   (hi x = 0 /\ q = 0 \/
    exists a u b, Forall (fun c => utf8_char c = true) (a ++ u ++ b) /\ s = concat (a ++ u ++ b) /\ hi x = clen (a ++ u) /\ q = clen a /\ unit_after P a u)).
(** The numbers of the regions do not overlap. *)
Definition numbers_in_order (s : list nat) (rs : list region) : Prop :=
  forall i j a b m e m' e', i < j -> nth_error rs i = Some a -> nth_error rs j = Some b -> number_at s (r_end a) m e -> number_at s (r_end b) m' e' -> e <= m'.

(** ** Insert, newline, transform, surround *)
Theorem C33_insert : forall r h, rope_wf h r -> forall rs text, selects (rcontent r) rs ->
  exists d, insert r rs text = Some d /\ makes d (rcontent r) (replaced (rcontent r) rs (fun _ => text)).
Proof. intros r h W. exact (insert_ok r h W). Qed.
Print Assumptions C33_insert.
Theorem C33_insert_newline : forall r h, rope_wf h r -> forall rs cfg, selects (rcontent r) rs ->
  exists d, insert_newline r rs cfg = Some d /\ makes d (rcontent r) (replaced (rcontent r) rs (fun _ => line_ending cfg)).
Proof. intros r h W rs cfg. exact (insert_ok r h W rs (line_ending cfg)). Qed.
Print Assumptions C33_insert_newline.
Theorem C33_transform : forall r h, rope_wf h r -> forall rs f, selects (rcontent r) rs ->
  exists d, transform_text r rs f = Some d /\ makes d (rcontent r) (replaced (rcontent r) rs (fun x => f (text_of (rcontent r) x))).
Proof. intros r h W. exact (transform_ok r h W). Qed.
Print Assumptions C33_transform.
Theorem C33_surround : forall r h, rope_wf h r -> forall rs before after, selects (rcontent r) rs ->
  exists d, surround r rs before after = Some d /\ makes d (rcontent r) (replaced (rcontent r) rs (fun x => before ++ text_of (rcontent r) x ++ after)).
Proof.
  intros r h W rs before after H. destruct (surround_ok r h W rs before after H) as (d & E & M). exists d. split; auto. unfold replaced.
  rewrite <- (edited_surround r h W before after rs 0) by (try lia; now apply selects_from). exact M.
Qed.
Print Assumptions C33_surround.

(** ** Delete *)
(** The selected bytes go, and what is saved is the selected texts. *)
Theorem C33_delete : forall r h, rope_wf h r -> forall rs, selects (rcontent r) rs ->
  exists d, delete_sel_regions r rs = Some d /\ makes d (rcontent r) (without rs (rcontent r)).
Proof. intros r h W rs H. apply (delete_from r h W). now apply selects_from. Qed.
Print Assumptions C33_delete.
Theorem C33_extract : forall r h, rope_wf h r -> forall rs, selects (rcontent r) rs ->
  extract_sel_regions r rs = Some (match selections rs with [] => None | l => Some (join (map (text_of (rcontent r)) l)) end).
Proof. intros r h W rs H. rewrite (extract_ok r h W) by now apply selects_from. destruct (selections rs); reflexivity. Qed.
Print Assumptions C33_extract.
(** Deleting with a movement: what is selected, and what the movement makes of each caret. *)
Theorem C33_delete_by_movement : forall r h, rope_wf h r -> forall move rs save ys, selects (rcontent r) rs ->
  Forall2 (fun x y => (if lo x =? hi x then move x = Some y else y = x) /\ char_boundary (rcontent r) (lo y) /\ char_boundary (rcontent r) (hi y)) rs ys ->
  exists d k ds, delete_by_movement r move rs save = Some (d, k) /\ makes d (rcontent r) (without ys (rcontent r)) /\
    disjoint_in_order ds /\ (forall p, covered ds p = covered ys p) /\
    k = if save then Some (join (map (text_of (rcontent r)) (selections ds))) else None.
Proof.
  intros r h W move rs save ys _ F.
  assert (T : forall x, In x rs -> exists y, target move x = Some y /\ char_boundary (rcontent r) (lo y) /\ char_boundary (rcontent r) (hi y)).
  { clear - F. induction F as [|x y rs ys (H & B1 & B2) F IH]; intros z Hz; [destruct Hz|]. destruct Hz as [<-|Hz]; auto. exists y. split; auto. unfold target. destruct (lo x =? hi x); congruence. }
  destruct (deletions_ok r move rs T [] Logic.I ltac:(intros z [])) as (ds & zs & E & Sd & Bd & Em & C).
  assert (zs = ys).
  { clear - F Em. revert zs Em. induction F as [|x y rs ys (H & B1 & B2) F IH]; intros [|z zs] Em; try discriminate; auto. injection Em as Ez Em. f_equal; auto. unfold target in Ez. destruct (lo x =? hi x); congruence. }
  subst zs. assert (Sel : selects (rcontent r) ds) by (split; auto; now apply sok_order). apply selects_from in Sel.
  destruct (delete_from r h W ds Sel) as (d & Ed & M).
  assert (Ew : without ds (rcontent r) = without ys (rcontent r)).
  { unfold without. f_equal. apply filter_ext. intros q. now rewrite C. }
  rewrite Ew in M. unfold delete_by_movement. rewrite E. cbn [bind]. rewrite Ed. rewrite (extract_ok r h W ds Sel). cbn [bind].
  exists d, (if save then Some (join (map (text_of (rcontent r)) (selections ds))) else None), ds. split; [|split; auto; split; [now apply sok_order|split; auto]].
  destruct save; [|reflexivity]. cbn [bind]. destruct (selections ds); reflexivity.
Qed.
Print Assumptions C33_delete_by_movement.

(** ** Indent and outdent *)
Theorem C33_indent : forall r h, rope_wf h r -> forall gb, grapheme_bounds (rcontent r) gb -> forall white rs cfg,
  (translate_tabs cfg = true -> tab_size cfg <= 32) -> selects (rcontent r) rs ->
  exists d os, modify_indent gb r white rs cfg true = Some d /\
    increasing os /\ (forall o, In o os <-> exists x, In x rs /\ lies_on (rcontent r) x o) /\
    makes d (rcontent r) (edited 0 (map (fun o => (o, o, tab_of (translate_tabs cfg) (tab_size cfg))) os) (rcontent r)).
Proof.
  intros r h W gb G white rs cfg T [_ B]. destruct (lines_of r h W rs B) as (os & E & I1 & F & H). destruct (indent_ok r h W gb G os (tab_of (translate_tabs cfg) (tab_size cfg)) F I1) as (d & Ed & M).
  exists d, os. unfold modify_indent. rewrite (tab_text_default cfg T). cbn [bind]. rewrite E. cbn [bind]. auto.
Qed.
Print Assumptions C33_indent.
Theorem C33_outdent : forall r h, rope_wf h r -> forall gb, grapheme_bounds (rcontent r) gb -> forall white rs cfg,
  (translate_tabs cfg = true -> tab_size cfg <= 32) -> selects (rcontent r) rs -> white [32] = true -> white [9] = true ->
  exists d os es, modify_indent gb r white rs cfg false = Some d /\
    increasing os /\ (forall o, In o os <-> exists x, In x rs /\ lies_on (rcontent r) x o) /\
    Forall2 (outdented (rcontent r) gb white (tab_of (translate_tabs cfg) (tab_size cfg))) os es /\
    makes d (rcontent r) (edited 0 (map (fun p => (fst p, snd p, [])) (combine os es)) (rcontent r)).
Proof.
  intros r h W gb G white rs cfg T [_ B] W1 W2. destruct (lines_of r h W rs B) as (os & E & I1 & F & H).
  assert (Wt : white_text white (tab_of (translate_tabs cfg) (tab_size cfg))).
  { unfold tab_of. destruct (translate_tabs cfg); [|exists [[9]]; split; [constructor; auto|reflexivity]]. exists (repeat [32] (tab_size cfg)). split; [apply Forall_forall; intros c Hc; apply repeat_spec in Hc; subst; auto|].
    induction (tab_size cfg) as [|n IH]; cbn; [auto|]. f_equal. apply IH. intros H0. specialize (T H0). lia. }
  destruct (outdent_ok r h W gb G white _ os Wt F I1) as (d & es & Ed & D & M).
  exists d, os, es. unfold modify_indent. rewrite (tab_text_default cfg T). cbn [bind]. rewrite E. cbn [bind]. auto.
Qed.
Print Assumptions C33_outdent.

(** ** Tab *)
(** Full statement: for every selection. Missing: selections with a region of several lines whose
    first line has a region before it; see [C33_insert_tab_refuted]. *)
Theorem C33_insert_tab_partial : forall r h, rope_wf h r -> forall gb, grapheme_bounds (rcontent r) gb -> forall cfg rs,
  0 < tab_size cfg -> (translate_tabs cfg = true -> tab_size cfg <= 32) -> selects (rcontent r) rs -> tabs_apart (rcontent r) rs ->
  exists d ess, insert_tab gb r rs cfg = Some d /\ Forall2 (tab_edits (rcontent r) (translate_tabs cfg) (tab_size cfg)) rs ess /\
    makes d (rcontent r) (edited 0 (concat ess) (rcontent r)).
Proof. intros r h W gb G cfg rs T1 T2 H Ha. exact (insert_tab_ok r h W gb G cfg rs T1 T2 H Ha). Qed.
Print Assumptions C33_insert_tab_partial.

(** ** Duplicate lines *)
(** Each block of lines that ends with a newline is put before itself. *)
Theorem C33_duplicate_line : forall r h, rope_wf h r -> forall rs cfg, selects (rcontent r) rs ->
  exists d ls, duplicate_line r rs cfg = Some d /\ pairs_increasing ls /\
    (forall o e, In (o, e) ls <-> exists x, In x rs /\ line_block (rcontent r) x o e) /\
    makes d (rcontent r) (edited 0 (map (fun p => (fst p, fst p, block_text (rcontent r) (line_ending cfg) p)) ls) (rcontent r)).
Proof. intros r h W rs cfg [_ B]. exact (duplicate_ok r h W rs cfg B). Qed.
Print Assumptions C33_duplicate_line.

(** ** Backspace *)
(** At one region, backspace never fails: it removes the selection, or some whole characters. *)
Theorem C33_backspace_safe : forall r h, rope_wf h r -> forall P cfg x, 0 < tab_size cfg ->
  char_boundary (rcontent r) (lo x) -> char_boundary (rcontent r) (hi x) ->
  exists d q, delete_backward r P [x] cfg = Some d /\ q <= hi x /\ (0 < hi x -> q < hi x) /\ char_boundary (rcontent r) q /\ (lo x < hi x -> q = lo x) /\
    makes d (rcontent r) (firstn q (rcontent r) ++ skipn (hi x) (rcontent r)).
Proof.
  intros r h W P cfg x T B1 B2. destruct (backspace_any r h W P cfg x T B1 B2) as (q & E & H1 & H2 & H3 & H4).
  destruct (delete_backward_ok r h W P cfg [x] [q]) as (d & Ed & M).
  - intros y [<-|[]]. auto.
  - constructor; [exact E|constructor].
  - exact T.
  - intros [|i] a b q0 Ha Hb; [discriminate|destruct i; discriminate].
  - exists d, q. split; auto. split; auto. split; auto. split; auto. split; auto. cbn [combine map edited fst snd] in M. unfold slice in M. cbn [skipn app] in M. now rewrite Nat.sub_0_r in M.
Qed.
Print Assumptions C33_backspace_safe.
Lemma backspace_from_ok r h (W : rope_wf h r) P cfg x q : 0 < tab_size cfg -> backspace_from P (rcontent r) cfg x q -> offset_for_delete_backwards r P x cfg = Some q.
Proof.
  intros T [[L ->]|[E H]].
  - unfold offset_for_delete_backwards. rewrite is_caret_ok, <- lo_min, <- hi_max. replace (lo x =? hi x) with false by lia. reflexivity.
  - assert (E1 : r_start x = hi x /\ r_end x = hi x) by (unfold lo, hi in *; lia). destruct E1 as [E1 E2].
    assert (Cut : forall cs bs, Forall uchar (cs ++ bs) -> rcontent r = concat (cs ++ bs) -> hi x = clen cs ->
      (translate_tabs cfg = true /\ use_tab_stops cfg = true /\ exists st, to_tab_stop r (tab_size cfg) (hi x) st /\ offset_for_delete_backwards r P x cfg = Some st) \/
      (~ (translate_tabs cfg = true /\ use_tab_stops cfg = true /\ exists st, to_tab_stop r (tab_size cfg) (hi x) st)) /\
      offset_for_delete_backwards r P x cfg = Some (clen (firstn (length cs - bscan P BStart (rev cs) 0 0) cs))).
    { intros cs bs F Es Eh. apply (backspace_ok r h W P cfg (hi x) x cs bs); auto. }
    destruct H as [(T1 & T2 & Hq)|[N Hq]].
    + destruct Hq as (c & Hc & Hs & Hsp).
      assert (Hcs : exists cs bs, Forall uchar (cs ++ bs) /\ rcontent r = concat (cs ++ bs) /\ hi x = clen cs).
      { destruct Hc as (Hc1 & Hc2 & Hc3). assert (Bd : char_boundary (rcontent r) (hi x)).
        { assert (q < hi x). { destruct (Nat.eqb_spec (c mod tab_size cfg) 0); lia. }
          specialize (Hsp (hi x - 1) ltac:(lia)). destruct (utf8_s r h W) as (cs & F & Ecs). apply (bd_iff r h W). rewrite Ecs in *.
          assert (Hb : scut (concat cs) (hi x - 1)). { unfold scut, is_char_boundary. destruct (hi x - 1 =? 0); auto. rewrite Hsp. reflexivity. }
          destruct (cb_chars cs F _ Hb) as (a & b & -> & Ea). rewrite concat_app in Hsp. rewrite nth_error_app2 in Hsp by lia. rewrite Ea, Nat.sub_diag in Hsp.
          destruct b as [|ch b]; [discriminate|]. apply Forall_app in F as [Fa Fb]. inversion Fb as [|? ? Hch Fb']; subst. destruct (char_shape ch Hch) as (b0 & t0 & -> & _ & _ & L & _). cbn in Hsp. injection Hsp as ->.
          cbn in L. destruct t0; [|discriminate]. replace (hi x) with (clen (a ++ [[32]])) by (rewrite concat_app, app_length; cbn; lia).
          change (a ++ [32] :: b) with (a ++ [[32]] ++ b). rewrite app_assoc. now apply cb_start. }
        destruct Bd as (cs & bs & ? & ? & ?). eauto. }
      destruct Hcs as (cs & bs & F & Es & Eh). destruct (Cut cs bs F Es Eh) as [(_ & _ & st & (c' & Hc' & Hs' & _) & ->)|[N _]].
      * f_equal. destruct Hc as (A1 & A2 & A3), Hc' as (B1 & B2 & B3). assert (c = c').
        { destruct (Nat.lt_trichotomy c c') as [H|[H|H]]; auto; exfalso; [apply (B3 (hi x - c)); auto; lia|apply (A3 (hi x - c')); auto; lia]. }
        subst c'. lia.
      * exfalso. apply N. split; auto. split; auto. exists q, c. auto.
    + destruct Hq as [[E0 ->]|(a & u & b & F & Es & Eh & -> & U)].
      * destruct (utf8_s r h W) as (cs & F & Ecs). destruct (Cut [] cs F Ecs E0) as [(T1 & T2 & st & Hst & _)|[_ ->]]; [exfalso; apply N; eauto|]. reflexivity.
      * rewrite app_assoc in F, Es. destruct (Cut (a ++ u) b F Es Eh) as [(T1 & T2 & st & Hst & _)|[_ ->]]; [exfalso; apply N; eauto|].
        f_equal. rewrite (unit_scan P a u U), app_length. replace (length a + length u - length u) with (length a) by lia. now rewrite firstn_app_exact.
Qed.
(** Full statement: for every selection. Missing: regions whose deletions overlap; see
    [C33_delete_backward_refuted]; and sequences of characters that are none of [unit_after]. *)
Theorem C33_delete_backward_partial : forall r h, rope_wf h r -> forall P cfg rs qs, 0 < tab_size cfg -> selects (rcontent r) rs ->
  Forall2 (backspace_from P (rcontent r) cfg) rs qs ->
  (forall i a b q, nth_error rs i = Some a -> nth_error rs (S i) = Some b -> nth_error qs (S i) = Some q -> hi a <= q) ->
  exists d, delete_backward r P rs cfg = Some d /\ makes d (rcontent r) (edited 0 (map (fun p => (snd p, hi (fst p), [])) (combine rs qs)) (rcontent r)).
Proof.
  intros r h W P cfg rs qs T [_ B] F Ha. apply (delete_backward_ok r h W P cfg rs qs); auto. clear - F W T. induction F as [|x q rs qs H F IH]; constructor; auto. now apply (backspace_from_ok r h W).
Qed.
Print Assumptions C33_delete_backward_partial.
(** A caret after a sequence that goes as one: the sequence goes and nothing else. *)
Theorem C33_backspace_unit : forall r h, rope_wf h r -> forall P cfg a u b, 0 < tab_size cfg ->
  Forall (fun c => utf8_char c = true) (a ++ u ++ b) -> rcontent r = concat (a ++ u ++ b) -> unit_after P a u ->
  ~ (translate_tabs cfg = true /\ use_tab_stops cfg = true /\ exists q, tab_stop_before (rcontent r) (tab_size cfg) (clen (a ++ u)) q) ->
  exists d, delete_backward r P [caret (clen (a ++ u))] cfg = Some d /\ makes d (rcontent r) (concat (a ++ b)).
Proof.
  intros r h W P cfg a u b T F E U N. set (p := clen (a ++ u)) in *.
  assert (Bd : char_boundary (rcontent r) p) by (exists (a ++ u), b; rewrite <- app_assoc; auto).
  destruct (C33_delete_backward_partial r h W P cfg [caret p] [clen a] T) as (d & Ed & M).
  - split; [intros i j x y Hij Hi Hj; destruct j as [|[|j]]; [lia|discriminate|discriminate]|]. intros x [<-|[]]. unfold lo, hi. cbn [caret r_start r_end]. rewrite Nat.min_id, Nat.max_id. auto.
  - constructor; [|constructor]. right. unfold lo, hi. cbn [caret r_start r_end]. rewrite Nat.min_id, Nat.max_id. split; auto. right. split; auto. right. exists a, u, b. auto.
  - intros [|i] x y q Hx Hy; [discriminate|destruct i; discriminate].
  - exists d. split; auto. cbn [combine map edited fst snd] in M. unfold hi in M. cbn [caret r_start r_end] in M. rewrite Nat.max_id in M. unfold slice in M. cbn [skipn app] in M. rewrite Nat.sub_0_r in M.
    assert (E1 : firstn (clen a) (rcontent r) = concat a) by (rewrite E, concat_app; now rewrite firstn_app_exact).
    assert (E2 : skipn p (rcontent r) = concat b) by (unfold p; rewrite E, app_assoc, (concat_app (a ++ u)); now rewrite skipn_app_exact). rewrite E1, E2 in M. now rewrite concat_app.
Qed.
Print Assumptions C33_backspace_unit.

(** ** Numbers and capitals *)
(** Full statement: for every selection. Missing: regions in one number; see [C33_two_carets_refuted]. *)
Theorem C33_change_number_partial : forall r h, rope_wf h r -> forall change rs, selects (rcontent r) rs -> numbers_in_order (rcontent r) rs ->
  exists d ess, change_number r rs change = Some d /\ Forall2 (number_edits (rcontent r) change) rs ess /\ makes d (rcontent r) (edited 0 (concat ess) (rcontent r)).
Proof. intros r h W change rs [_ B] Ha. exact (change_number_ok r h W change rs B Ha). Qed.
Print Assumptions C33_change_number_partial.
(** Full statement: every word of every region is capitalised, and nothing else. Missing: all but one
    region inside one word that begins with an ASCII character; see the theorems [_refuted]. *)
Theorem C33_capitalize_partial : forall r h, rope_wf h r -> forall upper lower x st en c t,
  char_boundary (rcontent r) (lo x) -> char_boundary (rcontent r) (hi x) -> EditOpsWords.word_at (rcontent r) (lo x) st en -> hi x < en ->
  slice (rcontent r) st en = c :: t -> c < 128 ->
  exists d, capitalize_text r [x] upper lower = Some (d, [caret (hi x)]) /\
    makes d (rcontent r) (firstn st (rcontent r) ++ (upper [c] ++ lower t) ++ skipn en (rcontent r)).
Proof.
  intros r h W upper lower x st en c t B1 B2 Wd L Es Hc. destruct (capitalize_one r h W upper lower x st en c t B1 B2 Wd L Es Hc) as (d & E & M). exists d. split; auto.
  cbn [edited] in M. unfold slice in M. cbn [skipn] in M. now rewrite Nat.sub_0_r in M.
Qed.
Print Assumptions C33_capitalize_partial.

(** ** Transpose and paste *)
(** A caret between two graphemes of a line: they change places. *)
Theorem C33_transpose_partial : forall r h, rope_wf h r -> forall gb, grapheme_bounds (rcontent r) gb -> forall u x y v,
  rcontent r = u ++ x ++ y ++ v -> x <> [] -> y <> [] ->
  gb (length u) = true -> gb (length (u ++ x)) = true -> gb (length (u ++ x ++ y)) = true ->
  (forall q, length u < q < length (u ++ x ++ y) -> q <> length (u ++ x) -> gb q = false) ->
  (v = [] \/ ~ starts_line (rcontent r) (length (u ++ x ++ y))) ->
  exists d, transpose gb r [caret (length (u ++ x))] = Some d /\ makes d (rcontent r) (u ++ y ++ x ++ v).
Proof. intros r h W gb G u x y v E N1 N2 G1 G2 G3 Gn Hv. exact (swap_graphemes r h W gb G u x y v _ E eq_refl N1 N2 G1 G2 G3 Gn Hv). Qed.
Print Assumptions C33_transpose_partial.
(** Selections: each takes the text of the one before it, and the first that of the last. *)
Theorem C33_transpose_regions : forall r h, rope_wf h r -> forall gb rs x, selects (rcontent r) (rs ++ [x]) -> (forall y, In y (rs ++ [x]) -> lo y < hi y) ->
  exists d, transpose gb r (rs ++ [x]) = Some d /\
    makes d (rcontent r) (edited 0 (map (fun p => (lo (fst p), hi (fst p), snd p)) (combine (rs ++ [x]) (text_of (rcontent r) x :: map (text_of (rcontent r)) rs))) (rcontent r)).
Proof. intros r h W gb rs x. exact (transpose_regions r h W gb rs x). Qed.
Print Assumptions C33_transpose_regions.
(** Pasting: with as many lines as regions, each region gets its line; otherwise all get the whole. *)
Theorem C33_paste : forall r h, rope_wf h r -> forall lines rs chars, selects (rcontent r) rs -> text_lines chars (lines chars) ->
  exists d, do_paste r lines rs chars = Some d /\
    (length rs <> 1 -> length (lines chars) = length rs -> chars <> [] ->
      makes d (rcontent r) (edited 0 (map (fun p => (lo (fst p), hi (fst p), snd p)) (combine rs (lines chars))) (rcontent r))) /\
    (length rs = 1 \/ length (lines chars) <> length rs -> makes d (rcontent r) (replaced (rcontent r) rs (fun _ => chars))).
Proof.
  intros r h W lines rs chars H Hl. destruct (paste_ok r h W lines rs chars H Hl) as (d & E & M & Hn). exists d. split; auto. split.
  - intros N1 N2 Ne. rewrite (text_lines_count chars (lines chars) Hl Ne) in N2. replace ((length rs =? 1) || negb (length rs =? count_lines chars)) with false in M by lia. exact M.
  - intros Hc. destruct ((length rs =? 1) || negb (length rs =? count_lines chars)) eqn:C; [exact M|]. exfalso. specialize (Hn eq_refl). lia.
Qed.
Print Assumptions C33_paste.

(** ** The hypotheses are met, and what the commands do to small texts *)
Definition text (cs : list (list nat)) : rope := from_leaf rope_ops (concat cs).
Lemma text_wf cs : Forall (fun c => utf8_char c = true) cs -> clen cs <= MAX_LEAF -> rope_wf 0 (text cs).
Proof. intros F L. apply (from_leaf_wf rope_ops (fun s => s) leafV scut compute_info rope_leaf_spec). split; [|exact L]. exists cs. split; auto. Qed.
Definition ascii (l : list nat) : list (list nat) := map (fun c => [c]) l.
Lemma ascii_concat l : concat (ascii l) = l.
Proof. induction l as [|c l IH]; cbn; [auto|]. now f_equal. Qed.
Lemma ascii_chars l : Forall (fun c => c < 128) l -> Forall (fun c => utf8_char c = true) (ascii l).
Proof. induction 1 as [|c l H F IH]; constructor; auto. unfold utf8_char. apply Nat.leb_le. lia. Qed.
Lemma ascii_wf l : Forall (fun c => c < 128) l -> length l <= MAX_LEAF -> rope_wf 0 (text (ascii l)).
Proof. intros F L. apply text_wf; [now apply ascii_chars|now rewrite ascii_concat]. Qed.
Lemma ascii_bd l p : Forall (fun c => c < 128) l -> p <= length l -> char_boundary l p.
Proof.
  intros F L. exists (ascii (firstn p l)), (ascii (skipn p l)). assert (E : ascii (firstn p l) ++ ascii (skipn p l) = ascii l) by (unfold ascii; now rewrite <- map_app, firstn_skipn).
  rewrite E. split; [now apply ascii_chars|]. rewrite !ascii_concat. split; auto. now rewrite firstn_length_le.
Qed.
Lemma ascii_selects l rs : Forall (fun c => c < 128) l -> sok rs -> Forall (fun x => hi x <= length l) rs -> selects l rs.
Proof.
  intros F S B. split; [now apply sok_order|]. intros x Hx. rewrite Forall_forall in B. specialize (B x Hx). pose proof (lo_hi x). split; apply ascii_bd; auto; lia.
Qed.
(** Every character by itself is a possible segmentation. *)
Lemma chars_bounds r h : rope_wf h r -> grapheme_bounds (rcontent r) (is_char_boundary (rcontent r)).
Proof.
  intros W. split; [apply cb_len|]. split.
  - intros o H. apply (bd_iff r h W). now apply (start_bd r h W).
  - intros o H. now apply (bd_iff r h W).
Qed.
(** "ab cd" with the carets 0 and 5 and "b c" selected backwards. *)
Definition s1 : list nat := [97; 98; 32; 99; 100].
Definition sel1 : list region := [caret 0; region_new 4 1; caret 5].
Ltac small := repeat constructor; cbn; try lia.
Ltac selection := apply ascii_selects; [small|unfold sel1; cbn [sok]; repeat match goal with
  | |- ilt _ _ => unfold ilt; cbn; lia
  | |- True => exact Logic.I
  | |- _ /\ _ => split
  | |- Forall _ _ => constructor
  end|unfold sel1; repeat match goal with |- Forall _ _ => constructor | |- _ <= _ => unfold hi; cbn; lia end].
Definition run (d : option cdelta) (s : list nat) : option (list nat) := let? d := d in apply d s.
Example C33_ex_hyps : rope_wf 0 (text (ascii s1)) /\ selects s1 sel1 /\ rcontent (text (ascii s1)) = s1.
Proof. split; [apply ascii_wf; small|]. split; [selection|reflexivity]. Qed.
Example C33_ex_insert : run (insert (text (ascii s1)) sel1 [120]) s1 = Some [120; 97; 120; 100; 120].
Proof. vm_compute. reflexivity. Qed.
Example C33_ex_surround : run (surround (text (ascii s1)) sel1 [40] [41]) s1 = Some [40; 41; 97; 40; 98; 32; 99; 41; 100; 40; 41].
Proof. vm_compute. reflexivity. Qed.
Example C33_ex_transform : run (transform_text (text (ascii s1)) sel1 (@rev nat)) s1 = Some [97; 99; 32; 98; 100].
Proof. vm_compute. reflexivity. Qed.
Example C33_ex_delete : run (delete_sel_regions (text (ascii s1)) sel1) s1 = Some [97; 100] /\ extract_sel_regions (text (ascii s1)) sel1 = Some (Some [98; 32; 99]).
Proof. vm_compute. auto. Qed.
Example C33_ex_movement : delete_by_movement (text (ascii s1)) (fun x => Some (region_new (r_end x - 1) (r_end x))) sel1 true =
  Some (db_build (DBuilder [Copy 0 1] 5 5), Some [98; 32; 99; 10; 100]).
Proof. vm_compute. reflexivity. Qed.
Example C33_ex_movement_hyps : Forall2 (fun x y => (if lo x =? hi x then Some (region_new (r_end x - 1) (r_end x)) = Some y else y = x) /\ char_boundary s1 (lo y) /\ char_boundary s1 (hi y))
  sel1 [region_new 0 0; region_new 4 1; region_new 4 5].
Proof. repeat constructor; try reflexivity; apply ascii_bd; try small; unfold lo, hi; cbn; lia. Qed.
(** "a\n  b\n\n    c": lines at 0, 2, 6 and 7. *)
Definition s2 : list nat := [97; 10; 32; 32; 98; 10; 10; 32; 32; 32; 32; 99].
Definition cfg4 : config := Config 4 true true [10].
Definition gb2 : nat -> bool := is_char_boundary s2.
Definition white_space (c : list nat) : bool := match c with [b] => (b =? 32) || (b =? 9) || (b =? 10) | _ => false end.
Example C33_ex_lines_hyps : rope_wf 0 (text (ascii s2)) /\ rcontent (text (ascii s2)) = s2 /\ grapheme_bounds s2 gb2 /\ selects s2 [region_new 1 9] /\ tabs_apart s2 [region_new 1 9].
Proof.
  assert (W : rope_wf 0 (text (ascii s2))) by (apply ascii_wf; small). split; auto. split; [reflexivity|]. split; [exact (chars_bounds _ _ W)|]. split; [selection|].
  intros i j a b o Hij Hi Hj. destruct j as [|[|j]]; [lia|discriminate|discriminate].
Qed.
Example C33_ex_indent : run (modify_indent gb2 (text (ascii s2)) white_space [region_new 1 7] cfg4 true) s2 =
  Some ([32; 32; 32; 32; 97; 10; 32; 32; 32; 32; 32; 32; 98; 10; 32; 32; 32; 32; 10; 32; 32; 32; 32; 99]).
Proof. vm_compute. reflexivity. Qed.
Example C33_ex_outdent : run (modify_indent gb2 (text (ascii s2)) white_space [region_new 1 9] cfg4 false) s2 = Some [97; 10; 98; 10; 10; 99].
Proof. vm_compute. reflexivity. Qed.
Example C33_ex_tab : run (insert_tab gb2 (text (ascii s2)) [region_new 1 5; caret 6] cfg4) s2 =
  Some [32; 32; 32; 32; 97; 10; 32; 32; 32; 32; 32; 32; 98; 10; 32; 32; 32; 32; 10; 32; 32; 32; 32; 99].
Proof. vm_compute. reflexivity. Qed.
Example C33_ex_duplicate : run (duplicate_line (text (ascii s2)) [caret 3; caret 6] cfg4) s2 = Some [97; 10; 32; 32; 98; 10; 32; 32; 98; 10; 10; 10; 32; 32; 32; 32; 99].
Proof. vm_compute. reflexivity. Qed.
(** Of the properties of characters: the two parts of a flag. *)
Definition props : emoji_props :=
  EmojiProps (fun _ => false) (fun c => match c with [a; b; _; _] => (a =? 240) && (b =? 159) | _ => false end) (fun _ => false) (fun _ => false) (fun _ => false) (fun _ => false)
    (fun _ => false) (fun _ => false) (fun _ => false) (fun _ => false).
Example C33_ex_backspace : map (fun p => run (delete_backward (text (ascii s2)) props [caret p] cfg4) s2) [0; 2; 4; 5; 11] =
  [Some s2; Some [97; 32; 32; 98; 10; 10; 32; 32; 32; 32; 99]; Some [97; 10; 98; 10; 10; 32; 32; 32; 32; 99]; Some [97; 10; 32; 32; 10; 10; 32; 32; 32; 32; 99]; Some [97; 10; 32; 32; 98; 10; 10; 99]].
Proof. vm_compute. reflexivity. Qed.
Definition fl : list nat := [240; 159; 135; 166].
Definition flags : list (list nat) := [[97]; fl; fl; fl; fl; [98]].
Example C33_ex_flags : let s := concat flags in
  map (fun p => run (delete_backward (text flags) props [caret p] cfg4) s) [9; 13; 17] = [Some (concat [[97]; fl; fl; [98]]); Some (concat [[97]; fl; fl; fl; [98]]); Some (concat [[97]; fl; fl; [98]])].
Proof. vm_compute. reflexivity. Qed.
Example C33_ex_flags_hyps : Forall (fun c => utf8_char c = true) flags /\ rope_wf 0 (text flags) /\ unit_after props [[97]; fl; fl] [fl; fl] /\
  ~ (exists q, tab_stop_before (concat flags) 4 (clen [[97]; fl; fl; fl; fl]) q).
Proof.
  split; [repeat constructor|]. split; [apply text_wf; [repeat constructor|apply Nat.leb_le; reflexivity]|]. split.
  - apply (unit_flag props [[97]; fl; fl] [[97]] [fl; fl] fl fl); try reflexivity.
    + intros (a' & c & E & T). assert (L : a' = [] /\ c = [97]). { destruct a' as [|y [|z a']]; [injection E as <-; auto|discriminate|discriminate]. } destruct L as [_ ->]. discriminate.
    + repeat constructor; discriminate.
    + exists 1. reflexivity.
    + repeat split; discriminate.
    + repeat split; discriminate.
  - intros (q & c & _ & Hq & Hs). change (clen [[97]; fl; fl; fl; fl]) with 17 in *. assert (q < 17) by (destruct (Nat.eqb_spec (c mod 4) 0); lia). specialize (Hs 16 ltac:(lia)). discriminate.
Qed.
Example C33_ex_carets_hyps : Forall2 (backspace_from props s1 cfg4) [caret 0; region_new 4 1; caret 5] [0; 1; 4].
Proof.
  assert (N : forall p, p <> 3 -> ~ (exists q, tab_stop_before s1 4 p q)).
  { intros p Np (q & c & (Hc & _) & Hq & Hs). assert (q < p) by (destruct (Nat.eqb_spec (c mod 4) 0); lia). specialize (Hs (p - 1) ltac:(lia)). destruct p as [|[|[|[|[|[|p]]]]]]; cbn in Hs; try discriminate; try lia. destruct p; discriminate. }
  constructor; [|constructor; [|constructor; [|constructor]]].
  - right. split; auto. right. split; [intros (_ & _ & Hx); now apply (N 0)|]. left. auto.
  - left. unfold lo, hi. cbn. lia.
  - right. split; auto. right. split; [intros (_ & _ & Hx); now apply (N 5)|]. right. exists (ascii [97; 98; 32; 99]), (ascii [100]), []. split; [repeat constructor|]. split; auto. split; auto. split; auto.
    apply unit_ordinary. repeat split; discriminate.
Qed.
(** "x -5 y" and "ab cd": a number and words. *)
Definition s3 : list nat := [120; 32; 45; 53; 32; 121].
Definition succ_digit (w : list nat) : option (list nat) := match w with [45; d] => Some [45; d + 1] | [d] => if (48 <=? d) && (d <? 57) then Some [d + 1] else None | _ => None end.
Example C33_ex_number : run (change_number (text (ascii s3)) [caret 1; caret 3; caret 6] succ_digit) s3 = Some [120; 32; 45; 54; 32; 121].
Proof. vm_compute. reflexivity. Qed.
Example C33_ex_number_hyps : numbers_in_order s3 [caret 3].
Proof. intros i j a b m e m' e' Hij Hi Hj. destruct j as [|[|j]]; [lia|discriminate|discriminate]. Qed.
Definition up1 (w : list nat) : list nat := map (fun c => if (97 <=? c) && (c <? 123) then c - 32 else c) w.
Example C33_ex_capitalize : (let? (d, final) := capitalize_text (text (ascii s1)) [region_new 3 4] up1 (fun w => w) in let? t := apply d s1 in Some (t, final)) =
  Some ([97; 98; 32; 67; 100], [caret 4]).
Proof. vm_compute. reflexivity. Qed.
Example C33_ex_capitalize_hyps : exists st en c t, EditOpsWords.word_at s1 (lo (region_new 3 4)) st en /\ hi (region_new 3 4) < en /\ slice s1 st en = c :: t /\ c < 128.
Proof.
  assert (W : rope_wf 0 (text (ascii s1))) by (apply ascii_wf; small).
  destruct (word_ok (text (ascii s1)) 0 W 3) as (c & st & en & c' & E1 & E2 & Wd & _); [apply (ascii_bd s1); [small|cbn; lia]|].
  assert (E : (let? c := c_new (text (ascii s1)) 3 in let? (a, b, _) := select_word (text (ascii s1)) (n_len (text (ascii s1))) c in Some (a, b)) = Some (3, 5)) by (vm_compute; reflexivity).
  rewrite E1 in E. cbn [bind] in E. rewrite E2 in E. cbn [bind] in E. injection E as -> ->. exists 3, 5, 99, [100]. split; [exact Wd|]. unfold hi. cbn. repeat split; lia.
Qed.
Example C33_ex_transpose : run (transpose (is_char_boundary s1) (text (ascii s1)) [caret 1; caret 5]) s1 = Some [98; 97; 32; 99; 100] /\
  run (transpose (is_char_boundary s1) (text (ascii s1)) [region_new 0 1; region_new 1 3; region_new 3 5]) s1 = Some [99; 100; 97; 98; 32].
Proof. vm_compute. auto. Qed.
Example C33_ex_transpose_hyps : ~ starts_line s1 2 /\ (forall q, 0 < q < 2 -> q <> 1 -> is_char_boundary s1 q = false) /\ selects s1 [region_new 0 1; region_new 1 3; region_new 3 5].
Proof. split; [intros [_ [E|E]]; discriminate|]. split; [intros; lia|selection]. Qed.
Example C33_ex_paste : run (do_paste (text (ascii s1)) (fun _ => [[120]; [121; 121]; [122]]) sel1 [120; 10; 121; 121; 10; 122]) s1 = Some [120; 97; 121; 121; 100; 122].
Proof. vm_compute. reflexivity. Qed.
Example C33_ex_paste_hyps : text_lines [120; 10; 121; 121; 10; 122] [[120]; [121; 121]; [122]].
Proof.
  apply (tl_lf [120] [121; 121; 10; 122]).
  - cbn. lia.
  - intros l' E. destruct l' as [|? [|]]; discriminate.
  - apply (tl_lf [121; 121] [122]).
    + cbn. lia.
    + intros l' E. destruct l' as [|? [|? [|]]]; discriminate.
    + apply tl_last; [discriminate|cbn; lia].
Qed.

(** ** Where the commands fail *)
(** Capitalising a word that begins with a letter of two bytes panics. *)
Theorem C33_capitalize_letter_refuted : forall upper lower, let s := [[195; 169]; [97]] in
  rope_wf 0 (text s) /\ selects (concat s) [caret 0] /\ capitalize_text (text s) [caret 0] upper lower = None.
Proof.
  intros upper lower s. split; [apply text_wf; [repeat constructor|apply Nat.leb_le; reflexivity]|]. split; [|reflexivity].
  split; [intros i j a b Hij Hi Hj; destruct j as [|[|j]]; [lia|discriminate|discriminate]|]. intros x [<-|[]]. assert (B : char_boundary (concat s) 0) by (exists [], s; split; [repeat constructor|auto]). split; exact B.
Qed.
Print Assumptions C33_capitalize_letter_refuted.
(** Two carets in one word, or in one number: panic. *)
Theorem C33_two_carets_refuted : rope_wf 0 (text (ascii [49; 50])) /\ selects [49; 50] [caret 0; caret 1] /\
  capitalize_text (text (ascii [49; 50])) [caret 0; caret 1] up1 (fun w => w) = None /\ change_number (text (ascii [49; 50])) [caret 0; caret 1] (fun _ => Some [51]) = None.
Proof. split; [apply ascii_wf; small|]. split; [selection|]. vm_compute. auto. Qed.
Print Assumptions C33_two_carets_refuted.
(** With "ab" of "ab cd" selected, "cd" is changed too. *)
Theorem C33_capitalize_next_word_refuted : rope_wf 0 (text (ascii s1)) /\ selects s1 [region_new 0 2] /\
  (let? (d, _) := capitalize_text (text (ascii s1)) [region_new 0 2] up1 (fun w => w) in apply d s1) = Some [65; 98; 32; 67; 100].
Proof. split; [apply ascii_wf; small|]. split; [selection|]. vm_compute. reflexivity. Qed.
Print Assumptions C33_capitalize_next_word_refuted.
(** With both words selected: panic. *)
Theorem C33_capitalize_regions_refuted : rope_wf 0 (text (ascii s1)) /\ selects s1 [region_new 0 2; region_new 3 5] /\
  capitalize_text (text (ascii s1)) [region_new 0 2; region_new 3 5] up1 (fun w => w) = None.
Proof. split; [apply ascii_wf; small|]. split; [selection|]. vm_compute. reflexivity. Qed.
Print Assumptions C33_capitalize_regions_refuted.
(** A tab with a caret and, on the same line, the beginning of a selection of several lines: panic. *)
Theorem C33_insert_tab_refuted : let s := [97; 98; 99; 10; 100] in rope_wf 0 (text (ascii s)) /\ selects s [caret 1; region_new 2 5] /\
  grapheme_bounds s (is_char_boundary s) /\ insert_tab (is_char_boundary s) (text (ascii s)) [caret 1; region_new 2 5] cfg4 = None.
Proof.
  intros s. assert (W : rope_wf 0 (text (ascii s))) by (apply ascii_wf; small). split; auto. split; [selection|]. split; [exact (chars_bounds _ _ W)|]. vm_compute. reflexivity.
Qed.
Print Assumptions C33_insert_tab_refuted.
(** Two carets in the white space before a tab stop, and one in the middle and one at the end of
    "\r\n": panic. *)
Theorem C33_delete_backward_refuted : let s := [32; 32; 32; 32; 97] in let t := [13; 10] in
  (rope_wf 0 (text (ascii s)) /\ selects s [caret 2; caret 4] /\ delete_backward (text (ascii s)) props [caret 2; caret 4] cfg4 = None) /\
  (rope_wf 0 (text (ascii t)) /\ selects t [caret 1; caret 2] /\ delete_backward (text (ascii t)) props [caret 1; caret 2] cfg4 = None).
Proof. intros s t. split; (split; [apply ascii_wf; small|]); (split; [selection|]); vm_compute; reflexivity. Qed.
Print Assumptions C33_delete_backward_refuted.
(** A tab size of zero, or of more than 32 spaces: panic. *)
Theorem C33_tab_size_refuted : let s := [97; 98] in rope_wf 0 (text (ascii s)) /\ selects s [caret 1] /\
  insert_tab (is_char_boundary s) (text (ascii s)) [caret 1] (Config 0 true true [10]) = None /\
  delete_backward (text (ascii s)) props [caret 1] (Config 0 true true [10]) = None /\
  insert_tab (is_char_boundary s) (text (ascii s)) [caret 1] (Config 33 true true [10]) = None.
Proof. intros s. split; [apply ascii_wf; small|]. split; [selection|]. vm_compute. auto. Qed.
Print Assumptions C33_tab_size_refuted.
(** A caret at the end of a line after a letter of two bytes, and two carets at the end of a line:
    panic. *)
Theorem C33_transpose_refuted : let s := [[97]; [195; 169]; [10]; [98]] in let t := [97; 98; 99; 10; 100] in
  (rope_wf 0 (text s) /\ selects (concat s) [caret 3] /\ grapheme_bounds (concat s) (is_char_boundary (concat s)) /\ transpose (is_char_boundary (concat s)) (text s) [caret 3] = None) /\
  (rope_wf 0 (text (ascii t)) /\ selects t [caret 1; caret 3] /\ grapheme_bounds t (is_char_boundary t) /\ transpose (is_char_boundary t) (text (ascii t)) [caret 1; caret 3] = None).
Proof.
  intros s t. assert (W1 : rope_wf 0 (text s)) by (apply text_wf; [repeat constructor|apply Nat.leb_le; reflexivity]). assert (W2 : rope_wf 0 (text (ascii t))) by (apply ascii_wf; small).
  split; (split; [auto|]).
  - split; [|split; [exact (chars_bounds _ _ W1)|vm_compute; reflexivity]]. split; [intros i j a b Hij Hi Hj; destruct j as [|[|j]]; [lia|discriminate|discriminate]|].
    intros x [<-|[]]. assert (B : char_boundary (concat s) 3) by (exists [[97]; [195; 169]], [[10]; [98]]; split; [repeat constructor|auto]). split; exact B.
  - split; [selection|]. split; [exact (chars_bounds _ _ W2)|vm_compute; reflexivity].
Qed.
Print Assumptions C33_transpose_refuted.
(** The last line is not duplicated if it has no newline, and is followed by an empty line if it has. *)
Theorem C33_duplicate_last_line_refuted : let s := [97; 98] in let t := [97; 10] in
  (rope_wf 0 (text (ascii s)) /\ selects s [caret 1] /\ run (duplicate_line (text (ascii s)) [caret 1] cfg4) s = Some s) /\
  (rope_wf 0 (text (ascii t)) /\ selects t [caret 1] /\ run (duplicate_line (text (ascii t)) [caret 1] cfg4) t = Some [97; 10; 10; 97; 10]).
Proof. intros s t. split; (split; [apply ascii_wf; small|]); (split; [selection|]); vm_compute; reflexivity. Qed.
Print Assumptions C33_duplicate_last_line_refuted.
