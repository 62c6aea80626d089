(** C20-C23: ropes. *)
From Coq Require Import List Arith Lia Bool.
From Verif Require Import Base ListLib DeltaModel TreeModel TreeSpec TreeProofs MetricProofs CursorModel CursorProofs CursorBoundary
  RopeModel RopeSpec RopeProofs RopeMetric RopeIterModel RopeCursor RopeIterProofs.
Import ListNotations.
Local Notation concat := List.concat.
Local Notation idl := (fun s : list nat => s).

(** *** C20 *)
(** A program over ropes and what it means for strings. *)
Inductive rexpr :=
| XStr (s : list nat)
| XCat (a b : rexpr)
| XSlice (a : rexpr) (i j : nat)
| XEdit (a : rexpr) (i j : nat) (s : list nat).
Fixpoint eval (x : rexpr) : option rope :=
  match x with
  | XStr s => rope_from s
  | XCat a b => let? ra := eval a in let? rb := eval b in rope_add ra rb
  | XSlice a i j => let? ra := eval a in rope_slice ra i j
  | XEdit a i j s => let? ra := eval a in rope_edit ra i j s
  end.
Inductive denotes : rexpr -> list nat -> Prop :=
| den_str : forall s, utf8 s -> denotes (XStr s) s
| den_cat : forall a b s t, denotes a s -> denotes b t -> denotes (XCat a b) (s ++ t)
| den_slice : forall a s i j, denotes a s -> i <= j -> char_boundary s i -> char_boundary s j ->
    denotes (XSlice a i j) (firstn (j - i) (skipn i s))
| den_edit : forall a s i j t, denotes a s -> utf8 t -> i <= j -> char_boundary s i -> char_boundary s j ->
    denotes (XEdit a i j t) (firstn i s ++ t ++ skipn j s).

Lemma denotes_utf8 x s : denotes x s -> utf8 s.
Proof.
  induction 1; auto using utf8_app.
  - apply utf8_slice; auto; now apply boundary_iff.
  - apply utf8_app; [|apply utf8_app; auto]; apply utf8_cut; auto; now apply boundary_iff.
Qed.

(** Every program yields a balanced rope ([wf]: see TreeSpec) that holds the string the same
    program yields on strings; reading it back gives that string. *)
Theorem C20_ropes_are_strings x s : denotes x s ->
  exists r h, eval x = Some r /\ wf rope_ops idl leafV compute_info h r /\
    n_height r = h /\ n_len r = length s /\
    to_string r = Some s /\ display r = Some s.
Proof.
  intros D. assert (G : exists r h, eval x = Some r /\ rope_wf h r /\ rcontent r = s).
  { induction D; cbn [eval].
    - now apply rope_from_ok.
    - destruct IHD1 as (ra & ha & -> & Wa & <-). destruct IHD2 as (rb & hb & -> & Wb & <-). cbn [bind]. eapply rope_add_ok; eauto.
    - destruct IHD as (ra & ha & -> & Wa & <-). cbn [bind]. apply denotes_utf8 in D.
      eapply rope_slice_ok; eauto; now apply boundary_iff.
    - destruct IHD as (ra & ha & -> & Wa & <-). cbn [bind]. apply denotes_utf8 in D.
      eapply rope_edit_ok; eauto; now apply boundary_iff. }
  destruct G as (r & h & E & W & <-). exists r, h. split; auto. split; auto.
  split; [eapply wf_height; eauto|]. split; [eapply len_r; eauto|]. split; [eapply to_string_ok; eauto|eapply display_ok; eauto].
Qed.
Print Assumptions C20_ropes_are_strings.

(** Applying a delta to a rope is applying it to the string (which C04-C09 are about). *)
Theorem C20_delta_on_ropes base h els t : rope_wf h base -> Forall (rel_ok (rcontent base)) els ->
  apply (Delta (map abs_el els) (length (rcontent base))) (rcontent base) = Some t ->
  exists r h', rope_apply els base = Some r /\ rope_wf h' r /\ to_string r = Some t.
Proof.
  intros W F E. destruct (rope_apply_ok base h els t W F E) as (r & h' & -> & W' & <-).
  exists r, h'. split; auto. split; auto. eapply to_string_ok; eauto.
Qed.
Print Assumptions C20_delta_on_ropes.

(** Reading an interval, a byte, the lines. *)
Theorem C20_slice_to_string h r i j : rope_wf h r -> i <= j -> char_boundary (rcontent r) i -> char_boundary (rcontent r) j ->
  slice_to_cow r i j = Some (firstn (j - i) (skipn i (rcontent r))).
Proof. intros W H1 H2 H3. pose proof (rope_utf8 h r W). eapply slice_to_cow_ok; eauto; now apply boundary_iff. Qed.
Print Assumptions C20_slice_to_string.
Theorem C20_byte_at h r o : rope_wf h r -> o < length (rcontent r) -> byte_at r o = nth_error (rcontent r) o.
Proof. intros W H. eapply byte_at_ok; eauto. Qed.
Print Assumptions C20_byte_at.
Theorem C20_lines h r i j : rope_wf h r -> i <= j -> char_boundary (rcontent r) i -> char_boundary (rcontent r) j ->
  exists raw ls, rope_lines_raw r i j = Some raw /\ raw_lines (firstn (j - i) (skipn i (rcontent r))) raw /\
    rope_lines r i j = Some ls /\ text_lines (firstn (j - i) (skipn i (rcontent r))) ls.
Proof.
  intros W H1 H2 H3. pose proof (rope_utf8 h r W) as U.
  destruct (lines_raw_ok r h W i j H1) as (raw & E & R); [now apply boundary_iff|now apply boundary_iff|].
  exists raw, (map strip_ending raw). unfold rope_lines. rewrite E. cbn [bind]. auto using strip_ok.
Qed.
Print Assumptions C20_lines.
(** The lines of a text are determined by it. *)
Lemma cut_unique (l l2 t t2 : list nat) : ~ In 10 l -> ~ In 10 l2 -> l ++ [10] ++ t = l2 ++ [10] ++ t2 -> l = l2 /\ t = t2.
Proof.
  revert l2. induction l as [|x l IH]; intros [|y l2] N N2 E; cbn in *.
  - injection E as <-. auto.
  - injection E as <- _. exfalso. apply N2. now left.
  - injection E as -> _. exfalso. apply N. now left.
  - injection E as <- E. destruct (IH l2) as [-> ->]; auto.
Qed.
Lemma has_nl (l t : list nat) : In 10 (l ++ [10] ++ t).
Proof. apply in_or_app. right. now left. Qed.
Lemma crlf_shape (l t : list nat) : l ++ 13 :: 10 :: t = (l ++ [13]) ++ 10 :: t.
Proof. now rewrite <- app_assoc. Qed.
Lemma cr_no_nl (l : list nat) : ~ In 10 l -> ~ In 10 (l ++ [13]).
Proof. intros N X. apply in_app_or in X as [X|[X|[]]]; [auto|discriminate]. Qed.
Lemma cons_ne (l t : list nat) : l ++ [10] ++ t <> [].
Proof. destruct l; discriminate. Qed.

Theorem C20_raw_lines_determined t a : raw_lines t a -> forall b, raw_lines t b -> a = b.
Proof.
  induction 1 as [|s Hn N|l t ls N A IH]; intros b B.
  - inversion B as [|s0 ? ? E|l0 t0 ls0 N' A' E]; auto; [congruence|]. exfalso. exact (cons_ne _ _ E).
  - inversion B; subst; auto; [congruence|]. exfalso. apply N, has_nl.
  - inversion B as [E|s0 _ N' E|l0 t0 ls0 N' A' E]; subst.
    + exfalso. eapply cons_ne. symmetry. exact E.
    + exfalso. apply N', has_nl.
    + destruct (cut_unique _ _ _ _ N' N E) as [-> ->]. f_equal. now apply IH.
Qed.
Print Assumptions C20_raw_lines_determined.
Theorem C20_lines_determined t a : text_lines t a -> forall b, text_lines t b -> a = b.
Proof.
  induction 1 as [|s Hn N|l t ls N K A IH|l t ls N A IH]; intros b B.
  - inversion B as [|s0 ? ? E|l0 t0 ls0 N' K' A' E|l0 t0 ls0 N' A' E]; auto; [congruence| |].
    + exfalso. exact (cons_ne _ _ E).
    + exfalso. cbn [app] in E; rewrite crlf_shape in E. exact (cons_ne _ _ E).
  - inversion B as [|s0 ? ? E|l0 t0 ls0 N' K' A' E|l0 t0 ls0 N' A' E]; subst; auto; [congruence| |].
    + exfalso. apply N, has_nl.
    + exfalso. apply N. cbn [app]; rewrite crlf_shape. apply has_nl.
  - inversion B as [E|s0 ? N' E|l0 t0 ls0 N' K' A' E|l0 t0 ls0 N' A' E]; subst.
    + exfalso. eapply cons_ne. symmetry. exact E.
    + exfalso. apply N', has_nl.
    + destruct (cut_unique _ _ _ _ N' N E) as [-> ->]. f_equal. now apply IH.
    + exfalso. cbn [app] in E; rewrite crlf_shape in E. destruct (cut_unique _ _ _ _ (cr_no_nl _ N') N E) as [Q _]. now apply (K l0).
  - inversion B as [E|s0 ? N' E|l0 t0 ls0 N' K' A' E|l0 t0 ls0 N' A' E]; subst.
    + exfalso. cbn [app] in E; rewrite crlf_shape in E. eapply cons_ne. symmetry. exact E.
    + exfalso. apply N'. cbn [app]; rewrite crlf_shape. apply has_nl.
    + exfalso. cbn [app] in E; rewrite crlf_shape in E. destruct (cut_unique _ _ _ _ N' (cr_no_nl _ N) E) as [Q _]. now apply (K' l).
    + cbn [app] in E; rewrite !crlf_shape in E. destruct (cut_unique _ _ _ _ (cr_no_nl _ N') (cr_no_nl _ N) E) as [Q ->].
      apply app_inj_tail in Q as [-> _]. f_equal. now apply IH.
Qed.
Print Assumptions C20_lines_determined.

(** A multi-leaf example: build, slice, edit and concatenate. *)
Definition ex_text : list nat := concat (repeat [97; 195; 169; 10] 700).
Lemma ex_text_chars n : chars_of (concat (repeat [97; 195; 169; 10] n)) (concat (repeat [[97]; [195; 169]; [10]] n)).
Proof.
  split.
  - induction n; cbn; [constructor|]. repeat (constructor; [reflexivity|]). exact IHn.
  - induction n; cbn; auto. now rewrite IHn.
Qed.
Lemma ex_boundary i : is_char_boundary ex_text i = true -> char_boundary ex_text i.
Proof. intros H. apply boundary_iff; auto. exists (concat (repeat [[97]; [195; 169]; [10]] 700)). apply ex_text_chars. Qed.
Example C20_example : exists s, denotes (XCat (XSlice (XStr ex_text) 3 2000) (XEdit (XStr ex_text) 1000 1500 [226; 130; 172])) s /\ length s = 4300.
Proof.
  eexists. split.
  - assert (U : utf8 ex_text) by (eexists; apply ex_text_chars).
    apply den_cat; [apply den_slice|apply den_edit]; try (now constructor); try (apply ex_boundary; now vm_compute).
    + lia.
    + exists [[226; 130; 172]]. split; [repeat constructor|reflexivity].
    + lia.
  - now vm_compute.
Qed.
Example C20_example_runs :
  match eval (XCat (XSlice (XStr ex_text) 3 2000) (XEdit (XStr ex_text) 1000 1500 [226; 130; 172])) with
  | Some r => (n_height r, n_len r, length (leaves r)) | None => (0, 0, 0) end = (1, 4300, 5).
Proof. now vm_compute. Qed.
Example C20_lines_example :
  (let? r := rope_from [97; 13; 10; 10; 98] in rope_lines r 0 5) = Some [[97]; []; [98]].
Proof. now vm_compute. Qed.

(** The documentation of [iter_chunks] says that "the empty string will yield a single empty
    slice"; it yields none. *)
Theorem C48_empty_chunks_refuted : exists r it, rope_from [] = Some r /\ iter_chunks r 0 0 = Some it /\ chunks_rest 5 r it = Some [].
Proof. eexists _, _. split; [now vm_compute|]. split; now vm_compute. Qed.
Print Assumptions C48_empty_chunks_refuted.
(** An interval beyond the end panics on a rope of one leaf, but is silently clipped on a rope
    of several. *)
Theorem C48_slice_refuted :
  (exists r, rope_from [97; 98] = Some r /\ rope_slice r 1 9 = None) /\
  (let? r := rope_from ex_text in let? r' := rope_slice r 2799 3000 in to_string r') = Some [10].
Proof. split; [eexists; split|]; now vm_compute. Qed.
Print Assumptions C48_slice_refuted.

(** *** C21 *)
(** The number of the line an offset is in. *)
Theorem C21_line_of_offset h r o fuel : rope_wf h r -> char_boundary (rcontent r) o -> h + 1 < fuel ->
  line_of_offset fuel r o = Some (newlines (firstn o (rcontent r))).
Proof. intros W H Hf. eapply line_of_offset_ok; eauto. apply boundary_iff; auto. eapply rope_utf8; eauto. Qed.
Print Assumptions C21_line_of_offset.

(** The offset of a line: after exactly that many newlines, and just after the last of them;
    there is one such offset. The line after the last is the end of the text, and asking for a
    later one panics. *)
Theorem C21_offset_of_line h r line fuel : rope_wf h r -> h + 1 < fuel ->
  let s := rcontent r in
  (line <= newlines s -> exists o, offset_of_line fuel r line = Some o /\
     (o <= length s /\ newlines (firstn o s) = line /\ (o = 0 \/ nth_error s (o - 1) = Some 10)) /\
     forall o', o' <= length s -> newlines (firstn o' s) = line -> o' = 0 \/ nth_error s (o' - 1) = Some 10 -> o' = o) /\
  (line = newlines s + 1 -> offset_of_line fuel r line = Some (length s)) /\
  (newlines s + 1 < line -> offset_of_line fuel r line = None).
Proof.
  intros W Hf s. split; [|split].
  - intros Hl. destruct (offset_of_line_ok h r line fuel W Hl Hf) as (o & E & Ho). exists o. split; auto. split; auto.
    intros o' H1 H2 H3. eapply line_start_unique; [|exact Ho]. split; auto.
  - intros ->. eapply offset_of_line_end; eauto.
  - intros H. eapply offset_of_line_panic; eauto.
Qed.
Print Assumptions C21_offset_of_line.

(** There and back: the line of the offset of a line is that line; the offset of the line of
    an offset is not after it, and there is no newline in between. *)
Theorem C21_line_round_trip h r line fuel : rope_wf h r -> h + 1 < fuel -> line <= newlines (rcontent r) ->
  exists o, offset_of_line fuel r line = Some o /\ char_boundary (rcontent r) o /\ line_of_offset fuel r o = Some line.
Proof.
  intros W Hf Hl. destruct (offset_of_line_ok h r line fuel W Hl Hf) as (o & E & H1 & H2 & H3). exists o. split; auto.
  pose proof (rope_utf8 h r W) as U. assert (B : is_char_boundary (rcontent r) o = true).
  { destruct H3 as [->|H3]; [reflexivity|]. destruct o as [|o]; [reflexivity|]. cbn [Nat.sub] in H3. rewrite Nat.sub_0_r in H3. now apply cb_after_nl. }
  split; [now apply boundary_iff|]. rewrite <- H2. eapply line_of_offset_ok; eauto.
Qed.
Print Assumptions C21_line_round_trip.
Theorem C21_offset_round_trip h r o fuel : rope_wf h r -> h + 1 < fuel -> char_boundary (rcontent r) o ->
  exists line start, line_of_offset fuel r o = Some line /\ offset_of_line fuel r line = Some start /\
    start <= o /\ forall p, start <= p < o -> nth_error (rcontent r) p <> Some 10.
Proof.
  intros W Hf Hc. pose proof (rope_utf8 h r W) as U. apply boundary_iff in Hc; auto. set (s := rcontent r) in *.
  pose proof (cb_le _ _ Hc) as Ho. exists (newlines (firstn o s)).
  assert (Hl : newlines (firstn o s) <= newlines s).
  { rewrite !newlines_eq. rewrite <- (firstn_all s) at 2. apply count_newlines_mono. auto. }
  destruct (offset_of_line_ok h r _ fuel W Hl Hf) as (st & E & H1 & H2 & H3). fold s in H1, H2, H3. exists st.
  split; [eapply line_of_offset_ok; eauto|]. split; auto.
  assert (Hle : st <= o).
  { destruct (Nat.le_gt_cases st o); auto. exfalso. destruct H3 as [->|H3]; [lia|]. rewrite !newlines_eq in H2.
    pose proof (count_newlines_mono s o (st - 1) ltac:(lia)). rewrite (firstn_le_split s (st - 1) st), count_newlines_app in H2 by lia.
    destruct (count_newlines (slice s (st - 1) st)) eqn:Ec; [|lia]. rewrite count_newlines_zero in Ec. apply (Ec 0). rewrite nth_slice.
    replace (0 <? st - (st - 1)) with true by (symmetry; apply Nat.ltb_lt; lia). now rewrite Nat.add_0_r. }
  split; auto. intros p Hp Hn. rewrite !newlines_eq in H2. rewrite (firstn_le_split s st o), count_newlines_app in H2 by lia.
  assert (Ec : count_newlines (slice s st o) = 0) by lia. rewrite count_newlines_zero in Ec. apply (Ec (p - st)). rewrite nth_slice.
  replace (p - st <? o - st) with true by (symmetry; apply Nat.ltb_lt; lia). now replace (st + (p - st)) with p by lia.
Qed.
Print Assumptions C21_offset_round_trip.

(** UTF-16: the offset after the characters [cs1] is converted to their number of UTF-16 code
    units, and back. *)
Theorem C21_utf16 h r cs1 cs2 fuel : rope_wf h r -> h + 1 < fuel -> chars_of (rcontent r) (cs1 ++ cs2) ->
  utf16_of_offset fuel r (length (concat cs1)) = Some (utf16_len cs1) /\
  offset_of_utf16 fuel r (utf16_len cs1) = Some (length (concat cs1)).
Proof. intros W Hf HC. split; [eapply utf16_of_offset_ok|eapply offset_of_utf16_ok]; eauto. Qed.
Print Assumptions C21_utf16.

(** "This function will panic if [offset > self.len()]": it does not on a rope of several
    leaves, but goes round the tree again and counts lines that do not exist. *)
Theorem C48_line_of_offset_refuted :
  (let? r := rope_from ex_text in let? l := line_of_offset 10 r 4000 in Some (n_len r, l, newlines ex_text)) = Some (2800, 1000, 700).
Proof. now vm_compute. Qed.
Print Assumptions C48_line_of_offset_refuted.
(** [offset_of_line] keeps its promise to panic. *)
Theorem C48_offset_of_line_partial h r line fuel : rope_wf h r -> h + 1 < fuel ->
  newlines (rcontent r) + 1 < line -> offset_of_line fuel r line = None.
Proof. intros W Hf H. eapply offset_of_line_panic; eauto. Qed.
Print Assumptions C48_offset_of_line_partial.

Example C21_example :
  (let? r := rope_from ex_text in let? a := line_of_offset 3 r 1501 in let? b := offset_of_line 3 r 375 in
   let? c := utf16_of_offset 3 r 1500 in let? d := offset_of_utf16 3 r 1125 in Some (n_height r, a, b, c, d)) = Some (1, 375, 1500, 1125, 1500).
Proof. now vm_compute. Qed.

(** *** C22 *)
(** In any tree of any kind of leaf (that obeys [leaf_spec] and [text_spec]), for any metric
    (that obeys [bound_spec]: in a leaf it finds the nearest boundary, and a boundary of a leaf
    is one of the whole), and at any valid cursor: [next] goes to the first boundary strictly
    after, [prev] to the last strictly before, [is_boundary] decides, and the cursor is valid
    again. When there is none the cursor becomes invalid, until it is [set] again. *)
Section C22.
Context {L I X : Type} (ops : leafops L I) (lc : L -> list X) (V : L -> Prop) (cut : list X -> nat -> Prop)
  (cinfo : list X -> I) (T : list X -> Prop).
Context (LS : leaf_spec ops lc V cut cinfo) (TS : text_spec ops lc V cut T).
Context (M : metric (L:=L) (I:=I)) (mc : list X -> nat) (bnd : list X -> nat -> Prop).
Context (BS : bound_spec lc V cut cinfo T M mc bnd).
Context (root : node L I) (h : nat) (W : wf ops lc V cinfo h root).
Notation s := (content lc root).
Notation valid := (is_valid lc root).
(** A cursor that may have run off an end. *)
Definition usable (c : cursor (L:=L) (I:=I)) : Prop := valid c \/ c_leaf c = None /\ cache_ok root c.

Theorem C22_new pos : pos <= length s -> exists c, c_new root pos = Some c /\ c_pos c = pos /\ valid c.
Proof.
  intros H. destruct (new_ok ops lc V cinfo root h W pos H) as (c & l & pre & post & E & Ep & Hv). exists c. split; auto. split; auto. now exists l, pre, post.
Qed.
Theorem C22_set c pos : usable c -> pos <= length s -> exists c', c_set ops root c pos = Some c' /\ c_pos c' = pos /\ valid c'.
Proof.
  intros Hc Hp. destruct (set_ok ops lc V cut cinfo LS root h W c pos) as (c' & l & pre & post & E & Ep & Hv); auto.
  - destruct Hc as [(l & pre & post & Ha & _)|Hc]; [left; eauto|auto].
  - exists c'. split; auto. split; auto. now exists l, pre, post.
Qed.
Theorem C22_next c : valid c -> m_can_fragment M = true \/ cut s (c_pos c) ->
  exists r c', c_next ops root M c = Some (r, c') /\ usable c' /\
    match r with
    | Some x => c_pos c' = x /\ valid c' /\ c_pos c < x <= length s /\ bnd s x /\ forall y, c_pos c < y < x -> ~ bnd s y
    | None => c_leaf c' = None /\ forall y, c_pos c < y <= length s -> ~ bnd s y
    end.
Proof.
  intros Hv Hst. destruct (next_ok ops lc V cut cinfo T LS TS M mc bnd BS root h W c Hv Hst) as (r & c' & E & Hr). exists r, c'. split; auto. destruct r as [x|].
  - destruct Hr as (H1 & H2 & H3 & H4 & H5). split; [now left|]. repeat (split; [auto; lia|]). intros y Hy. apply H4. lia.
  - destruct Hr as (H1 & H2 & H3). split; [now right|]. split; auto.
Qed.
Theorem C22_prev c : valid c ->
  exists r c', c_prev ops root M c = Some (r, c') /\ usable c' /\
    match r with
    | Some x => c_pos c' = x /\ valid c' /\ x < c_pos c /\ bnd s x /\ forall y, x < y < c_pos c -> ~ bnd s y
    | None => c_leaf c' = None /\ forall y, y < c_pos c -> ~ bnd s y
    end.
Proof.
  intros Hv. destruct (prev_ok ops lc V cut cinfo T LS TS M mc bnd BS root h W c Hv) as (r & c' & E & Hr). exists r, c'. split; auto. destruct r as [x|].
  - destruct Hr as (H1 & H2 & H3 & H4 & H5). split; [now left|]. repeat (split; [auto; lia|]). intros y Hy. apply H4. lia.
  - destruct Hr as (H1 & H2 & H3). split; [now right|]. split; auto.
Qed.
Theorem C22_is_boundary c : valid c ->
  exists b c', c_is_boundary ops root M c = Some (b, c') /\ (b = true <-> bnd s (c_pos c)) /\ c_pos c' = c_pos c /\ valid c'.
Proof. exact (is_boundary_ok ops lc V cut cinfo T LS TS M mc bnd BS root h W c). Qed.
Theorem C22_at_or_next c : valid c -> m_can_fragment M = true \/ cut s (c_pos c) ->
  exists r c', c_at_or_next ops root M c = Some (r, c') /\ usable c' /\
    match r with
    | Some x => c_pos c' = x /\ valid c' /\ c_pos c <= x <= length s /\ bnd s x /\ forall y, c_pos c <= y < x -> ~ bnd s y
    | None => c_leaf c' = None /\ forall y, c_pos c <= y <= length s -> ~ bnd s y
    end.
Proof.
  intros Hv Hst. destruct (at_or_next_ok ops lc V cut cinfo T LS TS M mc bnd BS root h W c Hv Hst) as (r & c' & E & Hr). exists r, c'. split; auto. destruct r as [x|].
  - destruct Hr as (H1 & H2 & H3 & H4 & H5). split; [now left|]. repeat (split; [auto; lia|]). auto.
  - destruct Hr as (H1 & H2 & H3). split; [now right|]. split; auto.
Qed.
Theorem C22_at_or_prev c : valid c ->
  exists r c', c_at_or_prev ops root M c = Some (r, c') /\ usable c' /\
    match r with
    | Some x => c_pos c' = x /\ valid c' /\ x <= c_pos c /\ bnd s x /\ forall y, x < y <= c_pos c -> ~ bnd s y
    | None => c_leaf c' = None /\ forall y, y <= c_pos c -> ~ bnd s y
    end.
Proof.
  intros Hv. destruct (at_or_prev_ok ops lc V cut cinfo T LS TS M mc bnd BS root h W c Hv) as (r & c' & E & Hr). exists r, c'. split; auto. destruct r as [x|].
  - destruct Hr as (H1 & H2 & H3 & H4 & H5). split; [now left|]. repeat (split; [auto; lia|]). auto.
  - destruct Hr as (H1 & H2 & H3). split; [now right|]. split; auto.
Qed.
End C22.
Print Assumptions C22_new.
Print Assumptions C22_set.
Print Assumptions C22_next.
Print Assumptions C22_prev.
Print Assumptions C22_is_boundary.
Print Assumptions C22_at_or_next.
Print Assumptions C22_at_or_prev.

(** The three metrics of text obey the laws: codepoints, UTF-16 units and lines (a line break
    is where a line but the first starts). *)
Theorem C22_text_metrics :
  leaf_spec rope_ops idl leafV scut compute_info /\ text_spec rope_ops idl leafV scut utf8 /\
  bound_spec idl leafV scut compute_info utf8 base_metric (@length nat) scut /\
  bound_spec idl leafV scut compute_info utf8 utf16_metric count_utf16 scut /\
  bound_spec idl leafV scut compute_info utf8 lines_metric count_newlines (fun s o => 0 < o /\ nth_error s (o - 1) = Some 10) /\
  forall s i, utf8 s -> (scut s i <-> char_boundary s i).
Proof.
  split; [exact rope_leaf_spec|]. split; [exact rope_text_spec|]. split; [exact base_bound|]. split; [exact utf16_bound|].
  split; [exact lines_bound|]. intros s i U. now apply boundary_iff.
Qed.
Print Assumptions C22_text_metrics.

(** The codepoint methods of a rope. *)
Theorem C47_next_codepoint h r o : rope_wf h r -> char_boundary (rcontent r) o ->
  exists x, next_codepoint_offset r o = Some x /\
    match x with
    | Some p => o < p <= length (rcontent r) /\ char_boundary (rcontent r) p /\ forall y, o < y < p -> ~ char_boundary (rcontent r) y
    | None => o = length (rcontent r)
    end.
Proof.
  intros W Hc. pose proof (rope_utf8 h r W) as U. apply boundary_iff in Hc; auto. destruct (next_cp_ok r h W o Hc) as (x & E & Hx). exists x. split; auto.
  destruct x; auto. destruct Hx as (H1 & H2 & H3). split; auto. split; [now apply boundary_iff|]. intros y Hy Hn. apply boundary_iff in Hn; auto. now apply (H3 y).
Qed.
Print Assumptions C47_next_codepoint.
Theorem C47_prev_codepoint h r o : rope_wf h r -> o <= length (rcontent r) ->
  exists x, prev_codepoint_offset r o = Some x /\
    match x with
    | Some p => p < o /\ char_boundary (rcontent r) p /\ forall y, p < y < o -> ~ char_boundary (rcontent r) y
    | None => o = 0
    end.
Proof.
  intros W Ho. pose proof (rope_utf8 h r W) as U. destruct (prev_cp_ok r h W o Ho) as (x & E & Hx). exists x. split; auto.
  destruct x; auto. destruct Hx as (H1 & H2 & H3). split; auto. split; [now apply boundary_iff|]. intros y Hy Hn. apply boundary_iff in Hn; auto. now apply (H3 y).
Qed.
Print Assumptions C47_prev_codepoint.
Theorem C47_at_or_prev_codepoint h r o : rope_wf h r -> o <= length (rcontent r) ->
  exists p, at_or_prev_codepoint_boundary r o = Some (Some p) /\ p <= o /\ char_boundary (rcontent r) p /\
    forall y, p < y <= o -> ~ char_boundary (rcontent r) y.
Proof.
  intros W Ho. pose proof (rope_utf8 h r W) as U. unfold at_or_prev_codepoint_boundary. rewrite (is_cb_ok r h W o Ho). cbn [bind].
  destruct (is_char_boundary (rcontent r) o) eqn:B.
  - exists o. split; auto. split; auto. split; [now apply boundary_iff|]. lia.
  - destruct (C47_prev_codepoint h r o W Ho) as (x & -> & Hx). destruct x as [p|]; [|subst; discriminate].
    destruct Hx as (H1 & H2 & H3). exists p. split; auto. split; [lia|]. split; auto. intros y Hy. destruct (Nat.eq_dec y o) as [->|]; [|apply H3; lia].
    intros Hn. apply boundary_iff in Hn; auto. congruence.
Qed.
Print Assumptions C47_at_or_prev_codepoint.
(** "Returns [offset] if it lies on a codepoint boundary. Otherwise returns the codepoint after
    [offset]": from inside a codepoint it returns an offset that is no boundary (one past a
    four-byte character's first byte), or that is beyond the end. *)
Theorem C47_at_or_next_codepoint_refuted :
  (exists r, rope_from [240; 159; 152; 128] = Some r /\ at_or_next_codepoint_boundary r 1 = Some (Some 3) /\
     ~ char_boundary [240; 159; 152; 128] 3) /\
  (exists r, rope_from [195; 169] = Some r /\ at_or_next_codepoint_boundary r 1 = Some (Some 3) /\ n_len r = 2).
Proof.
  split; eexists; (split; [now vm_compute|]); (split; [now vm_compute|]).
  - intros H. apply boundary_iff in H; [discriminate|]. exists [[240; 159; 152; 128]]. split; [repeat constructor|reflexivity].
  - now vm_compute.
Qed.
Print Assumptions C47_at_or_next_codepoint_refuted.
(** From a boundary it is right. *)
Theorem C47_at_or_next_codepoint_partial h r o : rope_wf h r -> char_boundary (rcontent r) o ->
  at_or_next_codepoint_boundary r o = Some (Some o).
Proof.
  intros W Hc. pose proof (rope_utf8 h r W) as U. apply boundary_iff in Hc; auto. unfold at_or_next_codepoint_boundary.
  rewrite (is_cb_ok r h W o) by now apply cb_le. now rewrite Hc.
Qed.
Print Assumptions C47_at_or_next_codepoint_partial.

(** A walk over the lines of a rope of three leaves. *)
Example C22_example :
  (let? r := rope_from ex_text in let? c := c_new r 1022 in let? (a, c1) := c_next rope_ops r lines_metric c in
   let? (b, c2) := c_next rope_ops r lines_metric c1 in
   let? (d, _) := c_prev rope_ops r lines_metric c1 in Some (length (leaves r), a, b, d)) = Some (3, Some 1024, Some 1028, Some 1020).
Proof. now vm_compute. Qed.

(** *** C23 *)
(** Whatever the program, every leaf holds whole codepoints, at most 1024 bytes, and at least
    511 unless the leaf is the whole rope; together they are the text. *)
Theorem C23_leaves x s : denotes x s ->
  exists r, eval x = Some r /\ concat (leaves r) = s /\
    Forall (fun l => utf8 l /\ length l <= 1024) (leaves r) /\
    (length (leaves r) = 1 \/ Forall (fun l => 511 <= length l) (leaves r)).
Proof.
  intros D. destruct (C20_ropes_are_strings x s D) as (r & h & E & W & Eh & _ & Es & _). exists r. split; auto.
  rewrite (to_string_ok r h W) in Es. injection Es as <-. split; [|split].
  - unfold rcontent. rewrite (content_leaves rope_ops idl leafV compute_info h r W). now rewrite flat_map_concat_map, map_id.
  - exact (leaves_fit h r W).
  - destruct h as [|h].
    + left. destruct r; [reflexivity|destruct W].
    + right. apply (leaves_big (S h) r W). right. lia.
Qed.
Print Assumptions C23_leaves.
(** Where a text is cut into leaves, and where an over-full leaf is split, is a boundary. *)
Theorem C23_split_point s minsplit : utf8 s -> 1024 < length s -> 511 <= minsplit ->
  length s <= minsplit + 1024 \/ minsplit = 511 -> minsplit <= Nat.min 1024 (length s - 511) ->
  exists k, find_leaf_split s minsplit = Some k /\ char_boundary s k /\ 511 <= k <= 1024 /\ 511 <= length s - k.
Proof.
  intros U H1 H2 H3 H4. destruct (split_spec s minsplit U H1 H2 H3 H4) as (k & E & B & K & L & _). exists k. split; auto.
  split; [now apply boundary_iff|]. auto.
Qed.
Print Assumptions C23_split_point.
(** A text of three-byte characters without newlines, twice as long as a leaf. *)
Example C23_example : (let? r := rope_from (concat (repeat [226; 130; 172] 700)) in Some (map (@length nat) (leaves r))) = Some [1023; 564; 513].
Proof. now vm_compute. Qed.
