(** C04-C10: deltas. *)
From Coq Require Import List Arith Bool Lia ZifyBool.
From Verif Require Import Base ListLib MultisetModel MultisetSpec MultisetProofs SpreadFacts
  DeltaModel DeltaSpec ExpandProofs SynthProofs DeltaProofs DeltaProofs2 RebaseFacts.
Import ListNotations.

(** Discharges the side conditions of the examples. *)
Local Ltac conds := cbv zeta; repeat match goal with
  | |- _ /\ _ => split
  | |- wf_delta _ => split
  | |- wf_insert_delta _ => split
  | |- sorted_copies _ _ _ => cbn
  | |- contiguous _ _ _ => cbn
  | |- no_empty_insert _ => apply Forall_cons || apply Forall_nil
  | |- no_empty_copy _ => apply Forall_cons || apply Forall_nil
  | |- Forall _ _ => apply Forall_cons || apply Forall_nil
  end; try reflexivity; cbn; try exact I; try lia; try discriminate.

(** [wf_delta] (copies in order and in range, no empty insertion) is what the builder
    and [synthesize] produce (C04, C06); it is the hypothesis of the others. *)

(** *** C04 *)
(** [run_edits b eds] calls [Builder::replace] for each [(start, end, text)] of [eds]
    ([Builder::delete] is [replace] with no text, [C04_delete_is_replace]). *)
Theorem C04_builder {A} (base : list A) eds : sorted_edits 0 eds (length base) ->
  exists b, run_edits (dbuilder_new (length base)) eds = Some b /\
    wf_delta (db_build b) /\ no_empty_copy (els (db_build b)) /\ base_len (db_build b) = length base /\
    apply (db_build b) base = Some (edited 0 eds base) /\
    new_document_len (db_build b) = length (edited 0 eds base).
Proof. exact (builder_ok base eds). Qed.
Print Assumptions C04_builder.

Theorem C04_delete_is_replace {A} (b : @dbuilder A) s e : db_replace b s e [] = db_delete b s e.
Proof. unfold db_replace. now destruct (db_delete b s e). Qed.
Print Assumptions C04_delete_is_replace.

(** Unsorted edits are refused. *)
Theorem C04_unsorted_refused {A} (b b' : @dbuilder A) s e r s' e' r' :
  db_replace b s e r = Some b' -> s' < e -> db_replace b' s' e' r' = None.
Proof.
  intros H Hs. apply builder_unsorted. replace (db_last b') with e; auto.
  unfold db_replace, db_delete in H. destruct (s <? db_last b); [discriminate|].
  cbn in H. injection H as <-. now destruct r.
Qed.
Print Assumptions C04_unsorted_refused.

(** A simple edit replaces one interval. *)
Theorem C04_simple_edit {A} (base r : list A) s e : s <= e -> e <= length base ->
  exists d, simple_edit s e r (length base) = Some d /\ wf_delta d /\ base_len d = length base /\
    apply d base = Some (firstn s base ++ r ++ skipn e base).
Proof.
  intros H1 H2. destruct (builder_ok base [(s, e, r)]) as (b & E & J1 & _ & J3 & J4 & _); [cbn; lia|].
  rewrite simple_edit_builder, E. cbn [bind]. exists (db_build b). repeat (split; auto).
  rewrite J4. cbn [edited]. unfold slice. cbn [skipn]. now rewrite Nat.sub_0_r.
Qed.
Print Assumptions C04_simple_edit.

(** A builder that reports itself empty builds the identity. *)
Theorem C04_empty_builder {A} (b : @dbuilder A) base : db_is_empty b = true -> db_base b = length base ->
  apply (db_build b) base = Some base /\ (base <> [] -> is_identity (db_build b) = true).
Proof.
  destruct b as [l n last]. unfold db_is_empty, db_build. cbn [db_els db_base db_last].
  intros H ->. apply andb_true_iff in H as [H1 H2]. apply Nat.eqb_eq in H1. subst.
  destruct l; [|discriminate]. destruct base as [|x base].
  - split; [reflexivity|congruence].
  - cbn [length Nat.ltb Nat.leb app]. split.
    + apply is_identity_ok; auto. unfold is_identity. cbn [els base_len Nat.eqb andb]. now rewrite Nat.eqb_refl.
    + intros _. unfold is_identity. cbn [els base_len Nat.eqb andb]. now rewrite Nat.eqb_refl.
Qed.
Print Assumptions C04_empty_builder.

(** The recognisers of simple deltas are right about what the delta does. *)
Theorem C04_recognisers {A} (d : delta A) base : wf_delta d -> base_len d = length base ->
  (is_identity d = true -> apply d base = Some base) /\
  (forall s, as_simple_insert d = Some s ->
     exists i, i <= length base /\ apply d base = Some (firstn i base ++ s ++ skipn i base)) /\
  (is_simple_delete d = true ->
     exists s e, s < e /\ e <= length base /\ apply d base = Some (firstn s base ++ skipn e base)).
Proof.
  intros Hw Hb. split; [|split].
  - intros; now apply is_identity_ok.
  - intros; now apply as_simple_insert_ok.
  - intros; now apply is_simple_delete_ok.
Qed.
Print Assumptions C04_recognisers.

Example C04_case : let base := [10; 11; 12; 13; 14] in let eds := [(1, 2, [7; 8]); (2, 2, [9]); (4, 5, [])] in
  sorted_edits 0 eds 5 /\ edited 0 eds base = [10; 7; 8; 9; 12; 13] /\
  exists b, run_edits (dbuilder_new 5) eds = Some b /\
    db_build b = Delta [Copy 0 1; Insert [7; 8]; Insert [9]; Copy 2 4] 5.
Proof. cbn. repeat split; try lia. eexists; split; reflexivity. Qed.

(** *** C05 *)
(** Inserting with the first part and then deleting the second part, carried over the
    inserted characters, is applying the delta. *)
Theorem C05_factor {A} (d : delta A) base : wf_delta d -> base_len d = length base ->
  exists ins del inserted del' t1,
    factor d = Some (ins, del) /\ subset_len del = length base /\
    base_len ins = length base /\ apply ins base = Some t1 /\
    inserted_subset ins = Some inserted /\ delete_from inserted t1 = Some base /\
    transform_expand del inserted = Some del' /\
    delete_from del' t1 = apply d base.
Proof.
  intros Hw Hb. destruct (factor_ok d Hw) as (ins & del & E & (W1 & W2 & W3) & Hbi & Hc & Hl & Hd & Hi).
  destruct (inserted_subset_ok ins W2 W3) as (inserted & Ei & Ci & Fi).
  assert (Hk : keeps (script (els ins)) = length base).
  { rewrite (keeps_script 0 _ _ W1). lia. }
  destruct (transform_expand_ok del inserted Hc Ci) as (del' & Ed & Cd & Fd).
  { rewrite Hl, Fi, zeros_marks. lia. }
  exists ins, del, inserted, del', (fill (script (els ins)) base).
  split; [auto|]. rewrite subset_len_ok. split; [lia|]. split; [lia|].
  split; [apply insert_apply_ok; [split; auto|lia]|]. split; [auto|].
  split.
  { rewrite delete_from_ok by (rewrite Fi, marks_length, fill_length; auto).
    rewrite Fi. now rewrite kept_marks_fill. }
  split; [auto|]. rewrite delete_from_ok.
  - rewrite (apply_ok d base Hw Hb). f_equal. rewrite Fd, Fi, Hd, Hi, Hb.
    rewrite <- (factor_apply (els d) 0 base); [reflexivity|]. rewrite <- Hb. apply Hw.
  - rewrite Fd, spread_length, Fi, marks_length, fill_length; auto. rewrite Hl, Fi, zeros_marks. lia.
Qed.
Print Assumptions C05_factor.

(** The parts say what was inserted where and what was deleted. *)
Theorem C05_factor_parts {A} (d : delta A) : wf_delta d -> exists ins del, factor d = Some (ins, del) /\
  wf_insert_delta ins /\ canonical del /\
  flat del = del_counts 0 (els d) (base_len d) /\
  script (els ins) = ins_script 0 (els d) (base_len d).
Proof.
  intros Hw. destruct (factor_ok d Hw) as (ins & del & E & W & _ & Hc & _ & Hd & Hi).
  exists ins, del. auto.
Qed.
Print Assumptions C05_factor_parts.

Example C05_case : let d := Delta [Copy 0 1; Insert [7; 8]; Copy 2 4] 5 in
  wf_delta d /\ factor d = Some (Delta [Copy 0 1; Insert [7; 8]; Copy 1 5] 5, [Seg 1 0; Seg 1 1; Seg 2 0; Seg 1 1]) /\
  apply d [10; 11; 12; 13; 14] = Some [10; 7; 8; 12; 13].
Proof. conds. Qed.

(** *** C06 *)
Theorem C06_synthesize {A} fs ts (u : list A) : canonical fs -> canonical ts ->
  length (flat fs) = length u -> length (flat ts) = length u ->
  exists d, synthesize (removed (flat fs) u) fs ts = Some d /\ wf_delta d /\
    base_len d = length (kept (flat fs) u) /\
    apply d (kept (flat fs) u) = Some (kept (flat ts) u).
Proof. exact (synthesize_apply fs ts u). Qed.
Print Assumptions C06_synthesize.

(** Characters visible both before and after are copied, never deleted and re-inserted;
    the others come from the tombstones. *)
Theorem C06_synthesize_minimal {A} fs ts (u : list A) : canonical fs -> canonical ts ->
  length (flat fs) = length u -> length (flat ts) = length u ->
  exists d, synthesize (removed (flat fs) u) fs ts = Some d /\
    denote (els d) = between 0 (flat fs) (flat ts) u.
Proof.
  intros Hf Ht Hl1 Hl2. destruct (synthesize_ok fs ts u Hf Ht Hl1 Hl2) as (d & E & H & _). eauto.
Qed.
Print Assumptions C06_synthesize_minimal.

Example C06_case : let u := [1; 2; 3; 4; 5; 6] in
  let fs := [Seg 1 0; Seg 2 1; Seg 3 0] in let ts := [Seg 2 0; Seg 1 1; Seg 1 0; Seg 1 1; Seg 1 0] in
  canonical fs /\ canonical ts /\ removed (flat fs) u = [2; 3] /\
  synthesize [2; 3] fs ts = Some (Delta [Copy 0 1; Insert [2]; Copy 1 2; Copy 3 4] 4).
Proof. cbn. repeat split; auto. Qed.

(** *** C07 *)
Theorem C07_summary {A} (d : delta A) base s e n : wf_delta d -> base_len d = length base ->
  summary d = ((s, e), n) ->
  s <= e /\ e <= length base /\
  exists mid, length mid = n /\ apply d base = Some (firstn s base ++ mid ++ skipn e base).
Proof. exact (summary_ok d base s e n). Qed.
Print Assumptions C07_summary.

Theorem C07_new_length {A} (d : delta A) base r : apply d base = Some r -> new_document_len d = length r.
Proof. exact (new_document_len_ok d base r). Qed.
Print Assumptions C07_new_length.

Example C07_case : summary (Delta [Copy 0 3; Insert [7; 7]; Copy 4 6; Copy 7 9] 9 : delta nat) = ((3, 7), 4).
Proof. reflexivity. Qed.

(** *** C08 *)
(** Rebasing the insert delta [d] over new characters (those that [xform] counts in the
    string [u]) gives an insert delta for [u] that keeps both: deleting what it inserts
    gives back [u], and deleting [u]'s new characters gives what [d] alone gives. *)
Theorem C08_transform_expand {A} (d : delta A) xform after (u : list A) :
  wf_insert_delta d -> canonical xform -> base_len d = len_after_delete xform ->
  length (flat xform) = length u ->
  exists d' t ins x', delta_transform_expand d xform after = Some d' /\ wf_insert_delta d' /\
    base_len d' = length u /\ apply d' u = Some t /\
    inserted_subset d' = Some ins /\ delete_from ins t = Some u /\
    transform_expand xform ins = Some x' /\
    delete_from x' t = apply d (kept (flat xform) u).
Proof.
  intros Hw Hx Hb Hu. rewrite len_after_delete_ok in Hb.
  destruct (delta_transform_expand_ok d xform after Hw Hx Hb) as (d' & E & Hw' & Hb' & Hs).
  pose proof Hw as (W1 & W2 & W3). pose proof Hw' as (W1' & W2' & W3').
  destruct (inserted_subset_ok d' W2' W3') as (ins & Ei & Ci & Fi).
  assert (K : keeps (script (els d)) = zeros (flat xform)) by (rewrite (keeps_script 0 _ _ W1); lia).
  assert (K' : keeps (script (els d')) = length u) by (rewrite (keeps_script 0 _ _ W1'); lia).
  destruct (transform_expand_ok xform ins Hx Ci) as (x' & Ex & Cx & Fx).
  { rewrite Fi, zeros_marks. lia. }
  exists d', (fill (script (els d')) u), ins, x'.
  split; [auto|]. split; [auto|]. split; [lia|]. split; [apply insert_apply_ok; auto; lia|].
  split; [auto|]. split.
  { rewrite delete_from_ok by (rewrite Fi, marks_length, fill_length; auto). rewrite Fi. now rewrite kept_marks_fill. }
  split; [auto|]. rewrite delete_from_ok.
  - rewrite Fx, Fi. rewrite <- fill_shrink by lia. rewrite Hs, shrink_rebase by auto.
    rewrite insert_apply_ok; auto. rewrite kept_length; auto.
  - rewrite Fx, spread_length, Fi, marks_length, fill_length; auto. rewrite Fi, zeros_marks. lia.
Qed.
Print Assumptions C08_transform_expand.

(** The tie-break: where an insertion of [d] meets a run of new characters, it goes
    after the run if [after] is set (never directly before a new character) and before
    it otherwise (never directly after one). *)
Theorem C08_tie_break {A} (d d' : delta A) xform after :
  wf_insert_delta d -> canonical xform -> base_len d = len_after_delete xform ->
  delta_transform_expand d xform after = Some d' ->
  shrink_script (script (els d')) (flat xform) = script (els d) /\
  if after then never_followed 2 1 (kinds (script (els d')) (flat xform))
  else never_followed 1 2 (kinds (script (els d')) (flat xform)).
Proof.
  intros Hw Hx Hb E. rewrite len_after_delete_ok in Hb.
  destruct (delta_transform_expand_ok d xform after Hw Hx Hb) as (d'' & E' & _ & _ & Hs).
  rewrite E in E'. injection E' as <-. pose proof Hw as (W1 & _).
  assert (K : keeps (script (els d)) = zeros (flat xform)) by (rewrite (keeps_script 0 _ _ W1); lia).
  rewrite Hs. split; [now apply shrink_rebase|]. destruct after.
  - now apply rebase_after_order.
  - now apply rebase_before_order.
Qed.
Print Assumptions C08_tie_break.

(** Shrinking: applying the shrunk delta to the text without the deleted characters
    gives the full result without them. *)
Theorem C08_transform_shrink {A} (d : delta A) x (u : list A) : wf_insert_delta d -> canonical x ->
  base_len d = length u -> length (flat x) = length u ->
  exists d' t ins x', delta_transform_shrink d x = Some d' /\ apply d u = Some t /\
    inserted_subset d = Some ins /\ transform_expand x ins = Some x' /\
    base_len d' = length (kept (flat x) u) /\
    apply d' (kept (flat x) u) = delete_from x' t.
Proof.
  intros Hw Hx Hb Hu. pose proof Hw as (W1 & W2 & W3).
  destruct (delta_transform_shrink_ok d x Hw ltac:(lia)) as (d' & E & S1 & S2 & S3 & S4).
  destruct (inserted_subset_ok d W2 W3) as (ins & Ei & Ci & Fi).
  assert (K : keeps (script (els d)) = length u) by (rewrite (keeps_script 0 _ _ W1); lia).
  destruct (transform_expand_ok x ins Hx Ci) as (x' & Ex & Cx & Fx).
  { rewrite Fi, zeros_marks. lia. }
  exists d', (fill (script (els d)) u), ins, x'.
  split; [auto|]. split; [apply insert_apply_ok; auto|]. split; [auto|]. split; [auto|].
  assert (Hl : base_len d' = length (kept (flat x) u)) by (rewrite kept_length; auto).
  split; [auto|].
  unfold apply. rewrite (apply_insert 0) by (rewrite <- Hl; auto). rewrite S4. cbn [skipn].
  rewrite delete_from_ok.
  - rewrite Fx, Fi. now rewrite fill_shrink by lia.
  - rewrite Fx, spread_length, Fi, marks_length, fill_length; auto. rewrite Fi, zeros_marks. lia.
Qed.
Print Assumptions C08_transform_shrink.

Example C08_case : let d := Delta [Copy 0 1; Insert [7; 8]; Copy 1 2] 2 in let x := [Seg 1 0; Seg 2 1; Seg 1 0] in
  wf_insert_delta d /\ canonical x /\ base_len d = len_after_delete x /\
  delta_transform_expand d x true = Some (Delta [Copy 0 3; Insert [7; 8]; Copy 3 4] 4) /\
  delta_transform_expand d x false = Some (Delta [Copy 0 1; Insert [7; 8]; Copy 1 4] 4) /\
  delta_transform_shrink (Delta [Copy 0 3; Insert [7; 8]; Copy 3 4] 4) x = Some d.
Proof. conds. Qed.

(** *** C09 *)
(** A surviving character's offset goes to its new offset, and the offset after it to the
    offset after it; a deleted one goes to where the text around it is. *)
Theorem C09_transform {A} (d : delta A) ix : wf_delta d -> no_empty_copy (els d) ->
  (forall j, nth_error (denote (els d)) j = Some (inl ix) ->
     transform_ix d ix true = j /\ transform_ix d (S ix) false = S j) /\
  transform_ix d ix true = before_old ix (denote (els d)) /\
  transform_ix d 0 false = 0 /\
  (~ In (inl ix) (denote (els d)) -> transform_ix d (S ix) false = before_old (S ix) (denote (els d))).
Proof. exact (transform_ix_ok d ix). Qed.
Print Assumptions C09_transform.

Theorem C09_transform_in_text {A} (d : delta A) base r ix after : wf_delta d -> apply d base = Some r ->
  transform_ix d ix after <= length r.
Proof. intros Hw H. rewrite <- (new_document_len_ok d base r H). now apply transform_ix_le. Qed.
Print Assumptions C09_transform_in_text.

Theorem C09_transform_monotone {A} (d : delta A) i j a a' : wf_delta d ->
  i < j \/ (i = j /\ (a' = true \/ a = a')) -> transform_ix d i a <= transform_ix d j a'.
Proof. exact (transform_ix_mono d i j a a'). Qed.
Print Assumptions C09_transform_monotone.

(** An interval reported untouched is copied verbatim. *)
Theorem C09_untouched {A} (d : delta A) is ie : wf_delta d -> is <= ie ->
  interval_untouched d is ie = true ->
  exists j, forall k, is <= k -> k < ie -> nth_error (denote (els d)) (j + (k - is)) = Some (inl k).
Proof. intros [H _]. exact (untouched_ok 0 (els d) (base_len d) is ie H). Qed.
Print Assumptions C09_untouched.

(** The converse fails: an interval behind the first change is copied verbatim but not
    reported. *)
Theorem C09_untouched_converse_refuted : exists (d : delta nat) is ie,
  wf_delta d /\ no_empty_copy (els d) /\ is < ie /\ 0 < is /\
  (exists j, forall k, is <= k -> k < ie -> nth_error (denote (els d)) (j + (k - is)) = Some (inl k)) /\
  interval_untouched d is ie = false.
Proof.
  exists (Delta [Copy 0 2; Insert [7]; Copy 2 9] 9), 4, 6. conds.
  exists 5. intros k H1 H2. assert (k = 4 \/ k = 5) as [->| ->] by lia; reflexivity.
Qed.
Print Assumptions C09_untouched_converse_refuted.

Example C09_case : let d := Delta [Copy 0 2; Insert [7; 8]; Copy 4 6] 6 in
  wf_delta d /\ no_empty_copy (els d) /\
  map (fun i => transform_ix d i true) (seq 0 7) = [0; 1; 4; 4; 4; 5; 6] /\
  map (fun i => transform_ix d i false) (seq 0 7) = [0; 1; 2; 4; 4; 5; 6] /\
  interval_untouched d 1 2 = true.
Proof. conds. Qed.

(** *** C10 *)
(** Inserted regions are right unless two insertions are adjacent. *)
Theorem C10_inserts_partial {A} (d : delta A) r : no_adjacent_inserts (els d) ->
  In r (iter_inserts d) <-> exists l1 s l2, els d = l1 ++ Insert s :: l2 /\
    r_old r = passed 0 l1 /\ r_new r = total_element_len l1 /\ r_len r = length s.
Proof.
  intros H. unfold iter_inserts. rewrite (inserts_from_ok (els d) 0 0 r H).
  split; intros (l1 & s & l2 & E & Hr); exists l1, s, l2; (split; [auto|]).
  - subst r. auto.
  - destruct r as [[x y] z]. cbn in Hr. destruct Hr as (-> & -> & ->). reflexivity.
Qed.
Print Assumptions C10_inserts_partial.

(** Deleted regions are right for deltas that insert nothing. *)
Theorem C10_deletions_partial {A} (d : delta A) : wf_delta d ->
  Forall (fun x : element A => match x with Copy _ _ => True | Insert _ => False end) (els d) ->
  (forall k, k < base_len d -> (~ In (inl k) (denote (els d)) <->
     exists r, In r (iter_deletions d) /\ r_old r <= k /\ k < r_old r + r_len r)) /\
  (forall r, In r (iter_deletions d) -> r_old r + r_len r <= base_len d /\ 0 < r_len r /\
     r_new r = before_old (r_old r) (denote (els d))).
Proof.
  intros [H _] Hf. destruct (deletions_ok (base_len d) (els d) 0 0 H Hf) as [H1 H2]. split.
  - intros k Hk. apply H1; lia.
  - intros r Hr. destruct (H2 r Hr) as (_ & H3 & H4 & H5). auto.
Qed.
Print Assumptions C10_deletions_partial.

(** With an insertion before it, a deletion can be missed altogether: replacing two
    characters by three reports no deletion. *)
Theorem C10_deletions_refuted : exists (d : delta nat) k,
  wf_delta d /\ no_empty_copy (els d) /\ simple_edit 2 4 [7; 8; 9] 10 = Some d /\
  k < base_len d /\ ~ In (inl k) (denote (els d)) /\
  forall r, In r (iter_deletions d) -> ~ (r_old r <= k /\ k < r_old r + r_len r).
Proof.
  exists (Delta [Copy 0 2; Insert [7; 8; 9]; Copy 4 10] 10), 3. conds.
  intros H. repeat (destruct H as [H|H]; [discriminate|]). exact H.
Qed.
Print Assumptions C10_deletions_refuted.

(** Two adjacent insertions: the second is reported at an old offset inside text that
    comes after it. *)
Theorem C10_inserts_refuted : exists (d : delta nat) b r,
  run_edits (dbuilder_new 9) [(2, 2, [7; 8; 9]); (2, 2, [5])] = Some b /\ d = db_build b /\
  wf_delta d /\ In r (iter_inserts d) /\ nth_error (denote (els d)) (r_new r) = Some (inr 5) /\
  r_old r = 5 /\ nth_error (denote (els d)) (S (r_new r)) = Some (inl 2).
Proof.
  exists (Delta [Copy 0 2; Insert [7; 8; 9]; Insert [5]; Copy 2 9] 9),
    (DBuilder [Copy 0 2; Insert [7; 8; 9]; Insert [5]] 9 2), (5, 5, 1). split; [reflexivity|]. split; [reflexivity|].
  split; [conds|]. split; [right; left; reflexivity|]. split; [reflexivity|]. split; reflexivity.
Qed.
Print Assumptions C10_inserts_refuted.

Example C10_case : let d := Delta [Copy 0 2; Insert [7; 8]; Copy 2 4; Copy 6 9] 9 in
  no_adjacent_inserts (els d) /\ iter_inserts d = [(2, 2, 2)] /\
  iter_deletions (Delta [Copy 1 4; Copy 6 9] 10 : delta nat) = [(0, 0, 1); (4, 3, 2); (9, 6, 1)].
Proof.
  split; [|split; reflexivity]. intros l1 s1 s2 l2 E.
  do 4 (destruct l1 as [|? l1]; [discriminate E|injection E as _ E]). destruct l1; discriminate E.
Qed.
