(** Proofs about movement. *)
From Coq Require Import List Arith Lia Bool ZifyBool.
From Verif Require Import Base ListLib MultisetProofs DeltaModel DeltaSpec DeltaProofs DeltaProofs2 PropertiesDelta TreeModel TreeSpec TreeProofs MetricProofs CursorModel CursorProofs CursorBoundary
  RopeModel RopeSpec RopeProofs RopeMetric RopeIterModel RopeCursor RopeIterProofs SelectionModel SelectionProofs PropertiesSelection WordModel WordProofs PropertiesWord EditOpsModel EditOpsSpec EditOpsProofs EditOpsLines
  LinewrapSpec MovementModel MovementSpec.
Import ListNotations.
Local Notation concat := List.concat.
Local Notation region := SelectionModel.region.

Section Rows.
Context (s st : list nat) (V : visual s st).
Notation n := (length s).
Local Notation R := (row_start s st).
Local Notation last := (last_row st).
Local Notation on_row := (on_row s st).

Lemma st_pos : 0 < length st.
Proof. pose proof (vi_first _ _ V). destruct st; [discriminate|cbn; lia]. Qed.
Lemma R_0 : R 0 = 0.
Proof. pose proof (vi_first _ _ V) as H. unfold row_start. destruct st; [discriminate|]. now injection H as ->. Qed.
Lemma R_le l : R l <= n.
Proof.
  unfold row_start. destruct (Nat.lt_ge_cases l (length st)) as [H|H]; [|now rewrite nth_overflow].
  apply (vi_in _ _ V). now apply nth_In.
Qed.
Lemma R_past l : last < l -> R l = n.
Proof. intros H. unfold last_row in H. unfold row_start. apply nth_overflow. lia. Qed.
Lemma R_in l : l <= last -> In (R l) st.
Proof. intros H. unfold last_row in H. pose proof st_pos. apply nth_In. lia. Qed.
Lemma R_step l : l < last -> R l < R (l + 1).
Proof.
  intros H. unfold last_row in H. unfold row_start. apply (vi_sorted _ _ V l).
  - apply nth_error_nth'. lia.
  - rewrite Nat.add_1_r. apply nth_error_nth'. lia.
Qed.
Lemma R_lt i j : i < j -> j <= last -> R i < R j.
Proof.
  intros H. induction H as [|j H IH]; intros Hj.
  - rewrite <- Nat.add_1_r. apply R_step. lia.
  - etransitivity; [apply IH; lia|]. rewrite <- Nat.add_1_r. apply R_step. lia.
Qed.
Lemma R_mono i j : i <= j -> R i <= R j.
Proof.
  intros H. destruct (Nat.eq_dec i j) as [->|]; auto. destruct (Nat.le_gt_cases j last) as [Hj|Hj].
  - pose proof (R_lt i j ltac:(lia) Hj). lia.
  - rewrite (R_past j Hj). apply R_le.
Qed.
Lemma on_row_le l p : on_row l p -> p <= n.
Proof. intros (_ & _ & [H|[_ H]]); auto. pose proof (R_le (l + 1)). lia. Qed.
Lemma on_row_unique l k p : on_row l p -> on_row k p -> l = k.
Proof.
  intros (H1 & H2 & H3) (K1 & K2 & K3). destruct (Nat.lt_trichotomy l k) as [H|[H|H]]; auto; exfalso.
  - pose proof (R_mono (l + 1) k ltac:(lia)). lia.
  - pose proof (R_mono (k + 1) l ltac:(lia)). lia.
Qed.
Lemma on_row_start l : l <= last -> on_row l (R l).
Proof.
  intros H. split; auto. split; auto. destruct (Nat.eq_dec l last) as [->|]; [right; split; auto; apply R_le|left; apply R_step; lia].
Qed.
Lemma on_row_end : on_row last n.
Proof. split; auto. split; [apply R_le|]. now right. Qed.
Lemma on_row_order l k p q : on_row l p -> on_row k q -> p <= q -> l <= k.
Proof.
  intros (H1 & H2 & H3) (K1 & K2 & K3) Hpq. destruct (Nat.le_gt_cases l k) as [|H]; auto. exfalso. pose proof (R_mono (k + 1) l ltac:(lia)). lia.
Qed.
(** [row_of] is the row. *)
Lemma row_of_on p : p <= n -> on_row (row_of st p) p.
Proof.
  intros Hp. unfold row_of.
  assert (G : forall l a, st = a ++ l -> Forall (fun x => x <= p) a -> a <> [] -> on_row (length a + length (filter (fun x => x <=? p) l) - 1) p).
  { induction l as [|x l IH]; intros a E F Ne.
    - rewrite app_nil_r in E. subst a. cbn [filter length]. rewrite Nat.add_0_r. split; [unfold last_row; lia|].
      assert (Hin : In (R (length st - 1)) st) by (apply R_in; unfold last_row; lia). rewrite Forall_forall in F. split; [now apply F|]. right. split; auto.
    - cbn [filter]. destruct (Nat.leb_spec x p) as [Hx|Hx].
      + replace (length a + length (x :: filter (fun x => x <=? p) l) - 1) with (length (a ++ [x]) + length (filter (fun x => x <=? p) l) - 1) by (rewrite app_length; cbn; lia).
        apply IH; [now rewrite <- app_assoc|apply Forall_app; auto|now destruct a].
      + assert (Fl : filter (fun x => x <=? p) l = []).
        { assert (Hall : forall y, In y l -> p < y).
          { intros y Hy. apply In_nth_error in Hy as [i Hi]. assert (H1 : length a < length st) by (rewrite E, app_length; cbn; lia).
            assert (Ex : nth (length a) st n = x) by (rewrite E, app_nth2, Nat.sub_diag by lia; reflexivity).
            assert (Ey : nth (length a + S i) st n = y). { rewrite E, app_nth2 by lia. replace (length a + S i - length a) with (S i) by lia. cbn [nth]. now apply nth_error_nth. }
            assert (length a + S i < length st). { rewrite E, app_length. cbn [length]. assert (i < length l) by (apply nth_error_Some; congruence). lia. }
            pose proof (R_lt (length a) (length a + S i) ltac:(lia) ltac:(unfold last_row; lia)) as L. unfold row_start in L. lia. }
          clear - Hall. induction l as [|y l IH]; auto. cbn [filter]. pose proof (Hall y (or_introl eq_refl)). replace (y <=? p) with false by lia. apply IH. intros z Hz. apply Hall. now right. }
        rewrite Fl. cbn [length]. rewrite Nat.add_0_r. assert (La : 0 < length a) by (destruct a; [easy|cbn; lia]).
        assert (Lst : length st = length a + S (length l)) by (rewrite E, app_length; reflexivity).
        assert (Ex : nth (length a) st n = x) by (rewrite E, app_nth2, Nat.sub_diag by lia; reflexivity).
        split; [unfold last_row; lia|]. split.
        * unfold row_start. rewrite E, app_nth1 by lia. rewrite Forall_forall in F. apply F, nth_In. lia.
        * left. unfold row_start. replace (length a - 1 + 1) with (length a) by lia. lia. }
  pose proof R_0 as H0. pose proof st_pos as Hs. unfold row_start in H0. destruct st as [|x l] eqn:Est; [cbn in Hs; lia|]. cbn [nth] in H0. subst x.
  cbn [filter]. cbn [Nat.leb]. apply (G l [0]); [reflexivity|repeat constructor; lia|discriminate].
Qed.
End Rows.

Section Moves.
Context (r : rope) (h : nat) (W : rope_wf h r).
Notation s := (rcontent r).
Notation n := (length s).
Local Notation bd := (char_boundary s).
Context (st : list nat) (lo : line_off) (A : answers s st lo) (gb : nat -> bool) (G : grapheme_bounds s gb).
Local Notation R := (row_start s st).
Local Notation last := (last_row st).
Local Notation on_row := (on_row s st).
Let V := an_visual _ _ _ A.

Lemma gb_bd q : gb q = true -> bd q.
Proof. apply G. Qed.
Lemma gb_le q : gb q = true -> q <= n.
Proof. intros H. apply gb_bd in H. exact (bd_le r h W _ H). Qed.
Lemma gb_0 : gb 0 = true.
Proof. apply G. split; [lia|now left]. Qed.
Lemma pg o : 0 < o -> exists p, prev_grapheme_offset gb o = Some p /\ nearest_before (fun g => gb g = true) o p.
Proof.
  intros H. destruct (prev_g r gb G o H) as (p & E & H1 & H2 & H3). exists p. split; auto. split; auto. split; auto. intros z Hz. rewrite H3 by auto. discriminate.
Qed.
Lemma ng_loop k : forall o, o + k = n -> match next_grapheme_loop gb k o with
  | Some q => nearest_after (fun g => gb g = true) o q
  | None => o = n
  end.
Proof.
  induction k as [|k IH]; intros o Ho; cbn [next_grapheme_loop]; [lia|]. destruct (gb (S o)) eqn:E.
  - split; [lia|]. split; auto. intros z Hz. lia.
  - specialize (IH (S o) ltac:(lia)). destruct (next_grapheme_loop gb k (S o)) as [q|].
    + destruct IH as (H1 & H2 & H3). split; [lia|]. split; auto. intros z Hz. destruct (Nat.eq_dec z (S o)) as [->|]; [congruence|apply H3; lia].
    + destruct G as [G1 _]. congruence.
Qed.
Lemma ng o : o <= n -> match next_grapheme_offset gb r o with
  | Some q => nearest_after (fun g => gb g = true) o q
  | None => o = n
  end.
Proof. intros H. unfold next_grapheme_offset. rewrite (len_r r h W). apply ng_loop. lia. Qed.

Lemma line_of_row p : bd p -> exists l, lo_line_of_offset lo p = Some l /\ on_row l p.
Proof. apply (an_line _ _ _ A). Qed.
Lemma to_col p : bd p -> exists l, lo_offset_to_line_col lo p = Some (l, p - R l) /\ lo_line_of_offset lo p = Some l /\ on_row l p.
Proof.
  intros H. destruct (line_of_row p H) as (l & E & O). exists l. unfold lo_offset_to_line_col. rewrite E. cbn [bind]. rewrite (an_offset _ _ _ A). cbn [bind].
  destruct O as (O1 & O2 & O3). replace (R l <=? p) with true by lia. split; auto. split; auto. split; auto.
Qed.
Lemma line_end_row : lo_line_of_offset lo n = Some last.
Proof.
  destruct (line_of_row n (bd_len r h W)) as (l & E & O). rewrite E. f_equal. eapply on_row_unique; eauto. apply on_row_end; auto.
Qed.

(** ** From a line and column to a place *)
Lemma to_place_safe l col : exists q, lo_line_col_to_offset gb r lo l col = Some q /\ gb q = true /\ (last < l -> q = n).
Proof.
  unfold lo_line_col_to_offset. rewrite !(an_offset _ _ _ A). cbn [bind]. rewrite (len_r r h W), line_end_row. cbn [bind].
  assert (C : forall p, gb p = true -> exists q, (if R (l + 1) <=? p then match prev_grapheme_offset gb (R (l + 1)) with Some prev => Some prev | None => Some p end else Some p) = Some q /\ gb q = true).
  { intros p Hp. destruct (Nat.leb_spec (R (l + 1)) p); eauto. destruct (R (l + 1)) as [|k] eqn:E; [cbn; eauto|]. destruct (pg (S k) ltac:(lia)) as (q & -> & _ & H1 & _). eauto. }
  destruct (Nat.leb_spec n (R l + col)) as [Hn|Hn].
  - destruct (Nat.leb_spec last l) as [Hl|Hl].
    + exists n. split; auto. split; auto. exact (proj1 G).
    + destruct (C n (proj1 G)) as (q & E & Hq). exists q. split; auto. split; auto. lia.
  - destruct (pg (R l + col + 1) ltac:(lia)) as (p & -> & P1 & P2 & P3). cbn [bind]. destruct (C p P2) as (q & E & Hq). exists q. split; auto. split; auto.
    intros Hl. rewrite (R_past s st l Hl) in Hn. lia.
Qed.
(** ** The caret's position *)
Definition rbd (x : region) : Prop := bd (r_start x) /\ bd (r_end x).
Lemma rbd_lo x : rbd x -> bd (PropertiesSelection.lo x).
Proof. intros [H1 H2]. unfold PropertiesSelection.lo. destruct (Nat.min_spec (r_start x) (r_end x)) as [[_ ->]|[_ ->]]; auto. Qed.
Lemma rbd_hi x : rbd x -> bd (hi x).
Proof. intros [H1 H2]. unfold hi. destruct (Nat.max_spec (r_start x) (r_end x)) as [[_ ->]|[_ ->]]; auto. Qed.
Lemma active_bd x up modify : rbd x -> bd (active x up modify).
Proof. intros H. unfold active. destruct modify; [apply H|]. destruct up; [now apply rbd_lo|now apply rbd_hi]. Qed.
Lemma position x up modify : rbd x -> exists l col, selection_position lo x up modify = Some (col, l) /\
  on_row l (active x up modify) /\ keeps_col s st x (active x up modify) l col.
Proof.
  intros H. apply (active_bd x up modify) in H. destruct (to_col _ H) as (l & E & El & O). unfold selection_position.
  change (if modify then r_end x else if up then rmin x else rmax x) with (active x up modify). unfold keeps_col.
  destruct (r_horiz x) as [c|]; cbn [bind].
  - exists l, c. rewrite El. split; auto.
  - rewrite E. cbn [bind]. rewrite El. exists l, (active x up modify - R l). split; auto.
Qed.
Lemma len_ok l : line_length lo l = Some (R (l + 1) - R l).
Proof.
  unfold line_length. rewrite !(an_offset _ _ _ A). cbn [bind]. pose proof (R_mono s st V l (l + 1) ltac:(lia)). now replace (R l <=? R (l + 1)) with true by lia.
Qed.
(** The loop: the nearest line that is longer than the column. *)
Lemma exact_up fuel : forall c init line, line < init -> init <= last -> line <= fuel ->
  exists l', exact_loop lo fuel c last init true line = Some l' /\
    (l' <= line /\ c < R (l' + 1) - R l' /\ (forall k, l' < k <= line -> ~ c < R (k + 1) - R k) \/
     l' = init /\ forall k, k <= line -> ~ c < R (k + 1) - R k).
Proof.
  induction fuel as [|fuel IH]; intros c init line H1 H2 H3; cbn [exact_loop]; rewrite len_ok; cbn [bind]; destruct (Nat.ltb_spec c (R (line + 1) - R line)) as [L|L].
  - exists line. split; auto. left. split; auto. split; auto. intros k Hk. lia.
  - replace line with 0 in * by lia. rewrite orb_true_r. exists init. split; auto. right. split; auto. intros k Hk. replace k with 0 by lia. lia.
  - exists line. split; auto. left. split; auto. split; auto. intros k Hk. lia.
  - replace (last <=? line) with false by lia. cbn [orb]. destruct (Nat.eqb_spec line 0) as [->|Hz]; cbn [andb].
    + exists init. split; auto. right. split; auto. intros k Hk. replace k with 0 by lia. lia.
    + destruct (IH c init (line - 1) ltac:(lia) H2 ltac:(lia)) as (l' & E & [(Q1 & Q2 & Q3)|[Q1 Q2]]); exists l'; (split; [exact E|]); [left|right].
      * split; [lia|]. split; auto. intros k Hk. destruct (Nat.eq_dec k line) as [->|]; [lia|]. apply Q3. lia.
      * split; auto. intros k Hk. destruct (Nat.eq_dec k line) as [->|]; [lia|]. apply Q2. lia.
Qed.
Lemma exact_down fuel : forall c init line, init < line -> init <= last -> last - line <= fuel -> line <= last + 1 ->
  exists l', exact_loop lo fuel c last init false line = Some l' /\
    (line <= l' <= last /\ c < R (l' + 1) - R l' /\ (forall k, line <= k < l' -> ~ c < R (k + 1) - R k) \/
     l' = init /\ forall k, line <= k -> ~ c < R (k + 1) - R k).
Proof.
  assert (P : forall c k, last < k -> ~ c < R (k + 1) - R k) by (intros c k Hk; rewrite !(R_past s st) by lia; lia).
  induction fuel as [|fuel IH]; intros c init line H1 H2 H3 H4; cbn [exact_loop]; rewrite len_ok; cbn [bind]; destruct (Nat.ltb_spec c (R (line + 1) - R line)) as [L|L].
  - exists line. split; auto. left. destruct (Nat.le_gt_cases line last) as [Hl|Hl]; [|exfalso; now apply (P c line)]. split; auto. split; auto. intros k Hk. lia.
  - replace (last <=? line) with true by lia. cbn [orb]. exists init. split; auto. right. split; auto. intros k Hk. destruct (Nat.eq_dec k line) as [->|]; [lia|]. apply P. lia.
  - exists line. split; auto. left. destruct (Nat.le_gt_cases line last) as [Hl|Hl]; [|exfalso; now apply (P c line)]. split; auto. split; auto. intros k Hk. lia.
  - rewrite andb_false_r, orb_false_r. destruct (Nat.leb_spec last line) as [Hl|Hl].
    + exists init. split; auto. right. split; auto. intros k Hk. destruct (Nat.eq_dec k line) as [->|]; [lia|]. apply P. lia.
    + destruct (IH c init (line + 1) ltac:(lia) H2 ltac:(lia) ltac:(lia)) as (l' & E & [(Q1 & Q2 & Q3)|[Q1 Q2]]); exists l'; (split; [exact E|]); [left|right].
      * split; [lia|]. split; auto. intros k Hk. destruct (Nat.eq_dec k line) as [->|]; [lia|]. apply Q3. lia.
      * split; auto. intros k Hk. destruct (Nat.eq_dec k line) as [->|]; [lia|]. apply Q2. lia.
Qed.
Lemma exact_run c init up : init <= last -> (up = true -> 0 < init) ->
  exists l', exact_loop lo (init + last + 1) c last init up (if up then init - 1 else init + 1) = Some l' /\
    ((if up then l' < init /\ c < R (l' + 1) - R l' /\ (forall k, l' < k < init -> ~ c < R (k + 1) - R k)
      else init < l' <= last /\ c < R (l' + 1) - R l' /\ (forall k, init < k < l' -> ~ c < R (k + 1) - R k)) \/
     l' = init /\ forall k, (if up then k < init else init < k) -> ~ c < R (k + 1) - R k).
Proof.
  intros H1 H2. destruct up.
  - specialize (H2 eq_refl). destruct (exact_up (init + last + 1) c init (init - 1) ltac:(lia) H1 ltac:(lia)) as (l' & E & [(Q1 & Q2 & Q3)|[Q1 Q2]]); exists l'; (split; [exact E|]); [left|right].
    + split; [lia|]. split; auto. intros k Hk. apply Q3. lia.
    + split; auto. intros k Hk. apply Q2. lia.
  - destruct (exact_down (init + last + 1) c init (init + 1) ltac:(lia) H1 ltac:(lia) ltac:(lia)) as (l' & E & [(Q1 & Q2 & Q3)|[Q1 Q2]]); exists l'; (split; [exact E|]); [left|right].
    + split; [lia|]. split; auto. intros k Hk. apply Q3. lia.
    + split; auto. intros k Hk. apply Q2. lia.
Qed.
(** ** Text lines *)
Lemma prev_line p : bd p -> exists c b c', c_new r p = Some c /\ c_prev rope_ops r lines_metric c = Some (b, c') /\
  match b with
  | Some q => nearest_before (starts_line s) p q /\ 0 < q
  | None => forall z, 0 < z < p -> ~ starts_line s z
  end.
Proof.
  intros Hp. destruct (rnew_ok h r p W (bd_le r h W p Hp)) as (c & E & Ep & Vc).
  destruct (CursorBoundary.prev_ok _ _ _ _ _ _ rope_leaf_spec rope_text_spec _ _ _ lines_bound r h W c Vc) as (b & c' & E' & H).
  exists c, b, c'. split; auto. split; auto. rewrite Ep in H. destruct b as [q|].
  - destruct H as (_ & H1 & H2 & H3 & _). destruct H2 as [H2 H2']. split; [|auto]. split; auto. split.
    + split; [pose proof (bd_le r h W p Hp); lia|]. now right.
    + intros z Hz [_ [?|Sz]]; [lia|]. apply (H3 z); [lia|]. split; auto. lia.
  - destruct H as (_ & _ & H). intros z Hz [_ [?|Sz]]; [lia|]. apply (H z); [lia|]. split; auto. lia.
Qed.
Lemma next_line p : bd p -> exists c b c', c_new r p = Some c /\ c_next rope_ops r lines_metric c = Some (b, c') /\
  match b with
  | Some e => nearest_after (starts_line s) p e /\ exists c2, c_is_boundary rope_ops r lines_metric c' = Some (true, c2)
  | None => last_line s p
  end.
Proof.
  intros Hp. destruct (rnew_ok h r p W (bd_le r h W p Hp)) as (c & E & Ep & Vc).
  destruct (CursorBoundary.next_ok _ _ _ _ _ _ rope_leaf_spec rope_text_spec _ _ _ lines_bound r h W c Vc (or_introl eq_refl)) as (b & c' & E' & H).
  exists c, b, c'. split; auto. split; auto. rewrite Ep in H. destruct b as [q|].
  - destruct H as (H0 & H1 & H2 & H3 & V'). destruct (CursorBoundary.is_boundary_ok _ _ _ _ _ _ rope_leaf_spec rope_text_spec _ _ _ lines_bound r h W c' V') as (b & c2 & Eb & Hb & _).
    rewrite H0 in Hb. apply Hb in H2 as Hbt. subst b. split; [|eauto]. destruct H2 as [H2 H2']. split; [lia|]. split.
    + split; [unfold rcontent in *; lia|]. now right.
    + intros z Hz [_ [?|Sz]]; [lia|]. apply (H3 z); [lia|]. split; auto. lia.
  - destruct H as (_ & _ & H). intros z Hz [Hz1 [?|Sz]]; [lia|]. apply (H z); [unfold rcontent in *; lia|]. split; auto. lia.
Qed.
Context (GS : forall o, In o st -> gb o = true).
Lemma to_place l col : exists q, lo_line_col_to_offset gb r lo l col = Some q /\ place s st gb l col q.
Proof.
  destruct (Nat.lt_ge_cases last l) as [Hl|Hl].
  { destruct (to_place_safe l col) as (q & E & _ & H). exists q. split; auto. left. split; auto. }
  unfold lo_line_col_to_offset. rewrite !(an_offset _ _ _ A). cbn [bind]. rewrite (len_r r h W), line_end_row. cbn [bind].
  pose proof (GS _ (R_in s st V l Hl)) as Gl. pose proof (R_le s st V l) as Ll. pose proof (R_le s st V (l + 1)) as Le.
  assert (C : forall p, gb p = true -> R l <= p <= R l + col -> (l = last -> p < R (l + 1)) -> (forall g, gb g = true -> g <= R l + col -> g <= p) ->
    exists q, (if R (l + 1) <=? p then match prev_grapheme_offset gb (R (l + 1)) with Some prev => Some prev | None => Some p end else Some p) = Some q /\ place s st gb l col q).
  { intros p Hp Hr Hlast Mx. destruct (Nat.leb_spec (R (l + 1)) p) as [Hc|Hc].
    - assert (Hlt : l < last) by (destruct (Nat.eq_dec l last) as [E|]; [apply Hlast in E; lia|lia]). pose proof (R_step s st V l Hlt) as Hst.
      destruct (pg (R (l + 1)) ltac:(lia)) as (q & -> & Q1 & Q2 & Q3). exists q. split; auto. right. split; auto. split; auto.
      assert (R l <= q) by (destruct (Nat.le_gt_cases (R l) q); auto; exfalso; apply (Q3 (R l)); [lia|auto]).
      split; [split; [auto|split; [auto|left; auto]]|]. split; [lia|]. intros g Hg (_ & _ & [O|[O _]]) _; [|lia].
      destruct (Nat.le_gt_cases g q); auto. exfalso. apply (Q3 g); [lia|auto].
    - exists p. split; auto. right. split; auto. split; auto. split; [split; [auto|split; [lia|left; auto]]|]. split; [lia|]. intros g Hg _ Hgc. auto. }
  destruct (Nat.leb_spec n (R l + col)) as [Hn|Hn].
  - destruct (Nat.leb_spec last l) as [Hl'|Hl'].
    + assert (l = last) by lia. subst l. exists n. split; auto. right. split; auto. split; [exact (proj1 G)|]. split; [apply on_row_end; auto|]. split; auto. intros g Hg _ _. now apply gb_le.
    + apply C; [exact (proj1 G)|lia|lia|]. intros g Hg _. now apply gb_le.
  - destruct (pg (R l + col + 1) ltac:(lia)) as (p & -> & P1 & P2 & P3). cbn [bind].
    assert (R l <= p) by (destruct (Nat.le_gt_cases (R l) p); auto; exfalso; apply (P3 (R l)); [lia|auto]).
    apply C; auto; [lia| |].
    + intros ->. rewrite (R_past s st (last + 1) ltac:(lia)). lia.
    + intros g Hg Hgc. destruct (Nat.le_gt_cases g p); auto. exfalso. apply (P3 g); [lia|auto].
Qed.
(** ** Movements *)
Lemma vertical_ok x up d modify : rbd x -> exists q hz, vertical_motion gb r lo x up d modify = Some (q, hz) /\ vertical s st gb x up d modify q hz.
Proof.
  intros H. destruct (position x up modify H) as (l & col & E & O & K). unfold vertical_motion. rewrite E. cbn [bind]. rewrite (len_r r h W), line_end_row. cbn [bind].
  pose proof O as (Ol & _). destruct up; cbn [andb].
  - destruct (Nat.ltb_spec l d) as [Hd|Hd].
    + exists 0, (Some col). split; auto. exists l, col. split; auto.
    + replace (last <? l - d) with false by lia. destruct (to_place (l - d) col) as (q & -> & P). cbn [bind]. exists q, (Some col). split; auto. exists l, col. split; auto.
  - destruct (Nat.ltb_spec last (l + d)) as [Hd|Hd].
    + exists n, (Some col). split; auto. exists l, col. split; auto.
    + destruct (to_place (l + d) col) as (q & -> & P). cbn [bind]. exists q, (Some col). split; auto. exists l, col. split; auto.
Qed.
Lemma has_col_row l c : l < last -> (has_col s st l c <-> c < R (l + 1) - R l).
Proof.
  intros H. pose proof (R_step s st V l H). unfold has_col, MovementSpec.on_row. split.
  - intros (_ & _ & [L|[L _]]); lia.
  - intros L. split; [lia|]. split; [lia|]. left. lia.
Qed.
Lemma has_col_last c : has_col s st last c <-> R last + c <= n.
Proof.
  unfold has_col, MovementSpec.on_row. split.
  - intros (_ & _ & [L|[_ L]]); auto. rewrite (R_past s st (last + 1)) in L by lia. lia.
  - intros L. split; auto. split; [lia|]. now right.
Qed.
Lemma has_col_in l c : has_col s st l c -> l <= last.
Proof. intros [H _]. exact H. Qed.
(** Columns beyond the line's are the line's last. *)
Lemma place_cut l c col q : has_col s st l c -> c <= col -> (forall c', has_col s st l c' -> c' <= col -> c' <= c) -> place s st gb l col q -> place s st gb l c q.
Proof.
  intros Hc Hcol Mx [[H _]|(H1 & H2 & H3 & H4 & H5)]; [apply has_col_in in Hc; lia|]. right. split; auto. split; auto. split; auto. split.
  - pose proof H3 as (_ & L & _). specialize (Mx (q - R l)). unfold has_col in Mx. replace (R l + (q - R l)) with q in Mx by lia. specialize (Mx H3 ltac:(lia)). lia.
  - intros g Hg Og Lg. apply H5; auto. lia.
Qed.
Lemma exact_ok x (up : bool) modify : rbd x -> ordinary s st (if up then MUpExactPosition else MDownExactPosition) x modify ->
  exists q hz, vertical_motion_exact_pos gb r lo x up modify = Some (q, hz) /\ exact s st gb x up modify q hz.
Proof.
  intros H Hord. destruct (position x up modify H) as (l & col & E & O & K). unfold vertical_motion_exact_pos. rewrite E. cbn [bind]. rewrite (len_r r h W), line_end_row. cbn [bind]. rewrite len_ok. cbn [bind].
  pose proof O as (Ol & _).
  assert (Ho : (l = last -> col <= n - R l) /\ (l < last -> col <> R (l + 1) - R l) /\ (up = false -> l < last -> forall c, n = R last + c -> has_col s st l c -> c <= col -> ~ (forall c', has_col s st l c' -> c' <= col -> c' <= c))).
  { destruct up; apply (Hord l col); auto. }
  clear Hord. destruct Ho as (Ho1 & Ho3 & Ho2).
  pose proof (R_le s st V last) as Rlast.
  (* the column on this line *)
  set (c := if R (l + 1) - R l <? col then R (l + 1) - R l - 1 else col).
  assert (Hc : has_col s st l c /\ c <= col /\ forall c', has_col s st l c' -> c' <= col -> c' <= c).
  { unfold c. destruct (Nat.eq_dec l last) as [Hl|Hl].
    - specialize (Ho1 Hl). subst l. rewrite (R_past s st (last + 1)) by lia. replace (n - R last <? col) with false by lia.
      split; [apply has_col_last; lia|]. split; auto.
    - pose proof (R_step s st V l ltac:(lia)). specialize (Ho3 ltac:(lia)). destruct (Nat.ltb_spec (R (l + 1) - R l) col) as [L|L].
      + split; [apply has_col_row; lia|]. split; [lia|]. intros c' Hc' _. apply has_col_row in Hc'; lia.
      + split; [apply has_col_row; lia|]. split; auto. }
  destruct (up && (l =? 0)) eqn:Eup.
  { assert (up = true /\ l = 0) as [-> ->] by (destruct up; lia). destruct (to_place 0 col) as (q & -> & P). cbn [bind]. exists q, (Some col). split; auto.
    destruct Hc as (Hc1 & Hc2 & Hc3). exists 0, col, c. split; auto. split; auto. split; auto. split; auto. split; auto. exists 0. split; [eapply place_cut; eauto|]. split; auto.
    right. split; auto. intros k Hk. lia. }
  destruct Hc as (Hc1 & Hc2 & Hc3).
  assert (Ec : (if R (l + 1) - R l <? col then check (0 <? R (l + 1) - R l) (Some (R (l + 1) - R l - 1)) else Some col) = Some c).
  { unfold c. destruct (Nat.ltb_spec (R (l + 1) - R l) col) as [L|L]; auto. destruct (Nat.eq_dec l last) as [Hl|Hl].
    - specialize (Ho1 Hl). subst l. rewrite (R_past s st (last + 1)) in L by lia. lia.
    - pose proof (R_step s st V l ltac:(lia)). now replace (0 <? R (l + 1) - R l) with true by lia. }
  rewrite Ec. cbn [bind]. clear Ec.
  destruct (exact_run c l up Ol ltac:(intros ->; destruct l; [discriminate|lia])) as (l' & -> & Hl'). cbn [bind]. destruct (to_place l' c) as (q & -> & P). cbn [bind].
  exists q, (Some c). split; auto. exists l, col, c. split; auto. split; auto. split; auto. split; auto. split; auto. exists l'. split; auto. split; auto.
  (* a line has the column if it is longer *)
  assert (Hk : forall k, (if up then k < l else l < k) -> (has_col s st k c <-> c < R (k + 1) - R k)).
  { intros k Hk. destruct (Nat.lt_trichotomy k last) as [L|[->|L]]; [now apply has_col_row| |].
    - assert (up = false) by (destruct up; [lia|auto]). subst up. rewrite has_col_last, (R_past s st (last + 1)) by lia. split; [|lia]. intros L.
      destruct (Nat.eq_dec n (R last + c)) as [L'|]; [|lia]. exfalso. exact (Ho2 eq_refl Hk c L' Hc1 Hc2 Hc3).
    - split; [intros [L' _]; lia|]. rewrite !(R_past s st) by lia. lia. }
  destruct Hl' as [Hl'|[-> Hl']].
  - left. destruct up.
    + destruct Hl' as (L1 & L2 & L3). split; auto. split; [now apply Hk|]. intros k Lk. rewrite Hk by lia. now apply L3.
    + destruct Hl' as (L1 & L2 & L3). split; [lia|]. split; [apply Hk; auto; lia|]. intros k Lk. rewrite Hk by lia. now apply L3.
  - right. split; auto. intros k Lk. rewrite Hk by auto. auto.
Qed.
Lemma word_left p : bd p -> exists c b c', c_new r p = Some c /\ prev_boundary r (n_len r) c = Some (b, c') /\
  match b with Some q => nearest_before (word_begins s) p q /\ bd q | None => p = 0 end.
Proof.
  intros Hp. destruct (rnew_ok h r p W (bd_le r h W p Hp)) as (c & E & Ep & Vc). destruct (C44_prev_boundary r h W c (n_len r) Vc) as (b & c' & E' & H); [now rewrite Ep|rewrite (len_r r h W); auto|].
  exists c, b, c'. split; auto. split; auto. rewrite Ep in H. destruct b as [q|]; auto. destruct H as (H1 & H2 & H3 & H4 & _). split; auto. split; auto.
Qed.
Lemma word_right p : bd p -> exists c b c', c_new r p = Some c /\ next_boundary r (n_len r) c = Some (b, c') /\
  match b with Some q => nearest_after (word_ends s) p q /\ bd q | None => p = n end.
Proof.
  intros Hp. destruct (rnew_ok h r p W (bd_le r h W p Hp)) as (c & E & Ep & Vc). destruct (C44_next_boundary r h W c (n_len r) Vc) as (b & c' & E' & H); [now rewrite Ep|rewrite (len_r r h W); auto|].
  exists c, b, c'. split; auto. split; auto. rewrite Ep in H. destruct b as [q|]; auto. destruct H as ((H1 & _) & H2 & H3 & H4 & _). split; auto. split; auto.
Qed.
Lemma line_end_ex p e : nearest_after (starts_line s) p e -> exists q, prev_grapheme_offset gb e = Some q /\ line_end s gb p q e /\ gb q = true.
Proof. intros H. destruct (pg e) as (q & E & Hq); [destruct H; lia|]. exists q. split; auto. split; [split; auto|]. apply Hq. Qed.

Theorem move_ok m height x modify : rbd x -> ordinary s st m x modify ->
  exists q hz, movement_target gb r lo m x height modify = Some (q, hz) /\ moves s st gb m height x modify q hz.
Proof.
  intros H Ho. pose proof H as [Hs He]. pose proof (bd_le r h W _ He) as Le. destruct m; cbn [movement_target moves] in *.
  - rewrite is_caret_ok, <- lo_min, <- hi_max. destruct (_ || _); [|exists (PropertiesSelection.lo x), None; auto].
    destruct (r_end x) as [|e] eqn:Ee.
    + exists 0, (r_horiz x). split; auto.
    + destruct (pg (S e) ltac:(lia)) as (q & -> & Hq). exists q, None. split; auto.
  - rewrite is_caret_ok, <- lo_min, <- hi_max. destruct (_ || _); [|exists (hi x), None; auto].
    pose proof (ng (r_end x) Le) as Hn. destruct (next_grapheme_offset gb r (r_end x)) as [q|]; [exists q, None; auto|exists (r_end x), (r_horiz x); auto].
  - destruct (word_left _ He) as (c & b & c' & -> & E & Hb). cbn [bind]. rewrite E. cbn [bind]. destruct b as [q|]; [exists q, None; split; auto; split; auto; left; apply Hb|exists 0, None; split; auto].
  - destruct (word_right _ He) as (c & b & c' & -> & E & Hb). cbn [bind]. rewrite E. cbn [bind]. rewrite (len_r r h W). destruct b as [q|]; [exists q, None; split; auto; split; auto; left; apply Hb|exists n, None; split; auto].
  - destruct (line_of_row _ He) as (l & -> & O). cbn [bind]. rewrite (an_offset _ _ _ A). cbn [bind]. exists (R l), None. split; auto. split; auto. eauto.
  - destruct (line_of_row _ He) as (l & -> & O). cbn [bind]. rewrite (an_offset _ _ _ A). cbn [bind]. rewrite (len_r r h W), line_end_row. cbn [bind]. pose proof O as (Ol & _).
    destruct (Nat.ltb_spec l last) as [Hl|Hl].
    + pose proof (R_step s st V l Hl). destruct (pg (R (l + 1)) ltac:(lia)) as (q & -> & Q1 & Q2 & Q3). exists q, None. split; auto. split; auto. exists l. split; auto. split; auto.
      pose proof (GS _ (R_in s st V l ltac:(lia))) as Gl. assert (R l <= q) by (destruct (Nat.le_gt_cases (R l) q); auto; exfalso; apply (Q3 (R l)); [lia|auto]).
      split; [split; [auto|split; [auto|left; auto]]|]. intros g Hg (_ & _ & [Og|[Og _]]); [|lia]. destruct (Nat.le_gt_cases g q); auto. exfalso. apply (Q3 g); [lia|auto].
    + assert (l = last) by lia. subst l. exists n, None. split; auto. split; auto. exists last. split; auto. split; [exact (proj1 G)|]. split; [apply on_row_end; auto|]. intros g Hg _. now apply gb_le.
  - now apply vertical_ok.
  - now apply vertical_ok.
  - unfold MovementModel.scroll_height, SCROLL_OVERLAP. rewrite Nat.max_comm. now apply vertical_ok.
  - unfold MovementModel.scroll_height, SCROLL_OVERLAP. rewrite Nat.max_comm. now apply vertical_ok.
  - now apply (exact_ok x true).
  - now apply (exact_ok x false).
  - destruct (prev_line _ He) as (c & b & c' & -> & E & Hb). cbn [bind]. rewrite E. cbn [bind]. eexists _, None. split; [reflexivity|]. split; auto. destruct b as [q|].
    + destruct Hb as [(Q1 & Q2 & Q3) Q4]. split; auto. split; [lia|]. intros z Hz Sz. destruct (Nat.eq_dec z (r_end x)) as [->|]; [specialize (Ho Sz); lia|]. apply (Q3 z); auto. lia.
    + split; [split; [lia|auto]|]. split; [lia|]. intros z Hz Sz. destruct (Nat.eq_dec z (r_end x)) as [->|]; [specialize (Ho Sz); lia|]. apply (Hb z); auto. lia.
  - destruct (next_line _ He) as (c & b & c' & -> & E & Hb). cbn [bind]. rewrite E. cbn [bind]. destruct b as [e|].
    + destruct Hb as (Hb & c2 & ->). cbn [bind]. destruct (line_end_ex _ _ Hb) as (q & -> & Hq & _). exists q, None. split; auto. split; auto. eauto.
    + rewrite (len_r r h W). exists n, None. split; auto.
  - destruct (next_line _ He) as (c & b & c' & -> & E & Hb). cbn [bind]. rewrite E. cbn [bind]. destruct b as [e|].
    + destruct Hb as (Hb & c2 & ->). cbn [bind]. destruct (line_end_ex _ _ Hb) as (q & -> & Hq & _). eexists _, None. split; [reflexivity|]. split; auto. left. eauto.
    + exists (r_end x), None. split; auto.
  - exists 0, None. split; auto.
  - rewrite (len_r r h W). exists n, None. split; auto.
Qed.
(** ** No panics *)
Lemma vertical_safe x up d modify : rbd x -> exists q hz, vertical_motion gb r lo x up d modify = Some (q, hz) /\ bd q.
Proof.
  intros H. destruct (position x up modify H) as (l & col & E & O & K). unfold vertical_motion. rewrite E. cbn [bind]. rewrite (len_r r h W), line_end_row. cbn [bind].
  destruct (up && (l <? d)); [exists 0, (Some col); split; auto; apply (bd_0 r h W)|].
  destruct (last <? _); [exists n, (Some col); split; auto; apply (bd_len r h W)|].
  destruct (to_place_safe (if up then l - d else l + d) col) as (q & -> & Hq & _). cbn [bind]. exists q, (Some col). split; auto. now apply gb_bd.
Qed.
Lemma exact_safe x (up : bool) modify : rbd x -> ~ empty_end s st (if up then MUpExactPosition else MDownExactPosition) x modify ->
  exists q hz, vertical_motion_exact_pos gb r lo x up modify = Some (q, hz) /\ bd q.
Proof.
  intros H Hn. destruct (position x up modify H) as (l & col & E & O & K). unfold vertical_motion_exact_pos. rewrite E. cbn [bind]. rewrite (len_r r h W), line_end_row. cbn [bind]. rewrite len_ok. cbn [bind].
  pose proof O as (Ol & Oa & Ob). destruct (up && (l =? 0)) eqn:Eup.
  { destruct (to_place_safe l col) as (q & -> & Hq & _). cbn [bind]. exists q, (Some col). split; auto. now apply gb_bd. }
  assert (Ec : exists c, (if R (l + 1) - R l <? col then check (0 <? R (l + 1) - R l) (Some (R (l + 1) - R l - 1)) else Some col) = Some c).
  { destruct (Nat.ltb_spec (R (l + 1) - R l) col) as [L|L]; eauto. destruct (Nat.ltb_spec 0 (R (l + 1) - R l)) as [L'|L']; [cbn; eauto|]. exfalso.
    assert (l = last). { destruct (Nat.eq_dec l last) as [|Hl]; auto. pose proof (R_step s st V l ltac:(lia)). lia. } subst l.
    rewrite (R_past s st (last + 1)) in * by lia. pose proof (R_le s st V last). assert (Ea : active x up modify = n) by lia.
    apply Hn. unfold keeps_col in K. destruct (r_horiz x) as [c|] eqn:Eh; [|lia]. destruct up; cbn [empty_end]; exists c; (split; [exact Eh|]); (split; [lia|]); (split; [lia|]); (split; [exact Ea|]); [intros _; lia|discriminate]. }
  destruct Ec as (c & ->). cbn [bind]. destruct (exact_run c l up Ol ltac:(intros ->; destruct l; [discriminate|lia])) as (l' & -> & _). cbn [bind].
  destruct (to_place_safe l' c) as (q & -> & Hq & _). cbn [bind]. exists q, (Some c). split; auto. now apply gb_bd.
Qed.
Theorem move_safe m height x modify : rbd x -> ~ empty_end s st m x modify ->
  exists q hz, movement_target gb r lo m x height modify = Some (q, hz) /\ bd q.
Proof.
  intros H Ho. pose proof H as [Hs He]. pose proof (bd_le r h W _ He) as Le. pose proof (bd_0 r h W) as B0. pose proof (bd_len r h W) as Bn.
  destruct m; cbn [movement_target].
  - destruct (_ || _); [|exists (rmin x), None; split; auto; now apply rbd_lo].
    destruct (r_end x) as [|e] eqn:Ee.
    + exists 0, (r_horiz x). split; auto.
    + destruct (pg (S e) ltac:(lia)) as (q & -> & _ & Hq & _). exists q, None. split; auto. now apply gb_bd.
  - destruct (_ || _); [|exists (rmax x), None; split; auto; now apply rbd_hi].
    pose proof (ng (r_end x) Le) as Hn. destruct (next_grapheme_offset gb r (r_end x)) as [q|]; [exists q, None; split; auto; apply gb_bd; apply Hn|exists (r_end x), (r_horiz x); auto].
  - destruct (word_left _ He) as (c & b & c' & -> & E & Hb). cbn [bind]. rewrite E. cbn [bind]. destruct b as [q|]; [exists q, None; split; auto; apply Hb|exists 0, None; split; auto].
  - destruct (word_right _ He) as (c & b & c' & -> & E & Hb). cbn [bind]. rewrite E. cbn [bind]. rewrite (len_r r h W). destruct b as [q|]; [exists q, None; split; auto; apply Hb|exists n, None; split; auto].
  - destruct (line_of_row _ He) as (l & -> & O). cbn [bind]. rewrite (an_offset _ _ _ A). cbn [bind]. exists (R l), None. split; auto.
    apply (bd_iff r h W). apply (vi_in _ _ V). apply R_in; auto. apply O.
  - destruct (line_of_row _ He) as (l & -> & O). cbn [bind]. rewrite (an_offset _ _ _ A). cbn [bind]. rewrite (len_r r h W), line_end_row. cbn [bind].
    destruct (l <? last); [|exists n, None; auto]. destruct (R (l + 1)) as [|k]; [cbn [prev_grapheme_offset]; exists n, None; auto|].
    destruct (pg (S k) ltac:(lia)) as (q & -> & _ & Hq & _). exists q, None. split; auto. now apply gb_bd.
  - now apply vertical_safe.
  - now apply vertical_safe.
  - now apply vertical_safe.
  - now apply vertical_safe.
  - now apply (exact_safe x true).
  - now apply (exact_safe x false).
  - destruct (prev_line _ He) as (c & b & c' & -> & E & Hb). cbn [bind]. rewrite E. cbn [bind]. eexists _, None. split; [reflexivity|]. destruct b as [q|]; auto.
    destruct Hb as [(_ & Hb & _) _]. apply (start_bd r h W q Hb).
  - destruct (next_line _ He) as (c & b & c' & -> & E & Hb). cbn [bind]. rewrite E. cbn [bind]. destruct b as [e|].
    + destruct Hb as (Hb & c2 & ->). cbn [bind]. destruct (line_end_ex _ _ Hb) as (q & -> & _ & Hq). exists q, None. split; auto. now apply gb_bd.
    + rewrite (len_r r h W). exists n, None. split; auto.
  - destruct (next_line _ He) as (c & b & c' & -> & E & Hb). cbn [bind]. rewrite E. cbn [bind]. destruct b as [e|].
    + destruct Hb as (Hb & c2 & ->). cbn [bind]. destruct (line_end_ex _ _ Hb) as (q & -> & _ & Hq). eexists _, None. split; [reflexivity|].
      destruct (q =? r_end x); [|now apply gb_bd]. destruct Hb as (_ & Hb & _). apply (start_bd r h W e Hb).
    + exists (r_end x), None. split; auto.
  - exists 0, None. split; auto.
  - rewrite (len_r r h W). exists n, None. split; auto.
Qed.
(** ** Selections *)
Lemma movement_loop_ok m height modify rs : (forall x, In x rs -> exists y, region_movement gb r lo m x height modify = Some y) -> forall acc, sok acc ->
  exists ys out, map (fun x => region_movement gb r lo m x height modify) rs = map Some ys /\ movement_loop gb r lo m rs height modify acc = Some out /\
    sok out /\ forall k p, pts k out p <-> pts k acc p \/ pts k ys p.
Proof.
  induction rs as [|x rs IH]; intros H acc Ha; cbn [movement_loop map].
  - exists [], acc. split; auto. split; auto. split; auto. intros k p. split; auto. intros [?|Q]; auto. now apply pts_nil in Q.
  - destruct (H x (or_introl eq_refl)) as (y & E). rewrite E. cbn [bind]. destruct (add_region_ok acc y Ha) as (acc' & -> & S' & P). cbn [bind].
    destruct (IH (fun z Hz => H z (or_intror Hz)) acc' S') as (ys & out & E1 & E2 & E3 & E4). exists (y :: ys), out. split; [cbn [map]; now rewrite E1|]. split; auto. split; auto.
    intros k p. rewrite E4, P, pts_cons. tauto.
Qed.
End Moves.
