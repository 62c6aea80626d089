(** Deletions by movement, lines, indentation and duplicates. *)
From Coq Require Import List Arith Lia Bool ZifyBool.
From Verif Require Import Base ListLib MultisetProofs DeltaModel DeltaSpec DeltaProofs DeltaProofs2 PropertiesDelta TreeModel TreeSpec TreeProofs MetricProofs CursorModel CursorProofs CursorBoundary
  RopeModel RopeSpec RopeProofs RopeMetric RopeIterModel RopeCursor RopeIterProofs SelectionModel SelectionProofs PropertiesSelection WordModel WordProofs PropertiesWord EditOpsModel EditOpsSpec EditOpsProofs.
Import ListNotations.
Local Notation concat := List.concat.
Local Notation region := SelectionModel.region.
Local Notation edit := (nat * nat * list nat)%type.

Lemma covered_iff rs p : covered rs p = true <-> selected rs p.
Proof.
  unfold covered. rewrite existsb_exists. split; intros (x & H & E); exists x; (split; [auto|]); lia.
Qed.

Section Rope.
Context (r : rope) (h : nat) (W : rope_wf h r).
Notation s := (rcontent r).
Local Notation bd := (char_boundary s).
Local Notation run := (@run_edits nat).
Local Notation len_eq := (len_r r h W).

(** ** Deleting by movement *)
Lemma add_region_bd ds y : sok ds -> (forall z, In z ds -> bd (lo z) /\ bd (hi z)) -> bd (lo y) -> bd (hi y) ->
  exists ds', add_region ds y = Some ds' /\ sok ds' /\ (forall z, In z ds' -> bd (lo z) /\ bd (hi z)) /\
    forall p, covered ds' p = covered ds p || ((lo y <=? p) && (p <? hi y)).
Proof.
  intros S B B1 B2. destruct (add_region_ok ds y S) as (ds' & E & S' & P). exists ds'. split; auto. split; auto. split.
  - intros z Hz.
    assert (G : forall p, p = lo z \/ p = hi z -> bd p).
    { intros p Hp. pose proof (lo_hi z) as Lz. assert (T : pts KTouch ds' p). { exists z. split; auto. cbn. rewrite <- lo_min, <- hi_max. lia. }
      assert (N : ~ pts KIn ds' p).
      { intros (w & Hw & L). cbn in L. rewrite <- lo_min, <- hi_max in L. apply In_nth_error in Hz as [i Hi]. apply In_nth_error in Hw as [j Hj].
        apply sok_order in S'. destruct (Nat.lt_trichotomy i j) as [Hij|[Hij|Hij]].
        - pose proof (S' i j z w Hij Hi Hj). pose proof (lo_hi w). lia.
        - subst j. assert (z = w) by congruence. subst. lia.
        - pose proof (S' j i w z Hij Hj Hi). lia. }
      rewrite (P KTouch) in T. rewrite (P KIn) in N. cbn in T, N. rewrite <- lo_min, <- hi_max in T, N. destruct T as [(w & Hw & L)|L].
      - cbn in L. rewrite <- lo_min, <- hi_max in L. destruct (B w Hw) as [Bw1 Bw2].
        destruct (Nat.eq_dec p (lo w)) as [->|]; auto. destruct (Nat.eq_dec p (hi w)) as [->|]; auto. exfalso. apply N. left. exists w. split; auto. cbn. unfold lo, hi, rmin, rmax in *. lia.
      - destruct (Nat.eq_dec p (lo y)) as [->|]; auto. destruct (Nat.eq_dec p (hi y)) as [->|]; auto. exfalso. apply N. right. unfold lo, hi, rmin, rmax in *. lia. }
    split; apply G; auto.
  - intros p. apply eq_true_iff_eq. rewrite orb_true_iff, !covered_iff. rewrite (P KCov p : selected ds' p <-> _). cbn [has]. rewrite <- lo_min, <- hi_max.
    change (pts KCov ds p) with (selected ds p). unfold lo, hi, rmin, rmax in *. split; intros [H|H]; auto; right; lia.
Qed.
Definition target (move : region -> option region) (x : region) : option region := if lo x =? hi x then move x else Some x.
Lemma deletions_ok move rs : (forall x, In x rs -> exists y, target move x = Some y /\ bd (lo y) /\ bd (hi y)) ->
  forall ds, sok ds -> (forall z, In z ds -> bd (lo z) /\ bd (hi z)) ->
  exists ds' ys, deletions_loop move rs ds = Some ds' /\ sok ds' /\ (forall z, In z ds' -> bd (lo z) /\ bd (hi z)) /\
    map (target move) rs = map Some ys /\ forall p, covered ds' p = covered ds p || covered ys p.
Proof.
  induction rs as [|x rs IH]; intros H ds S B.
  { exists ds, []. cbn. split; auto. split; auto. split; auto. split; auto. intros. now rewrite orb_false_r. }
  destruct (H x (or_introl eq_refl)) as (y & E & B1 & B2). cbn [deletions_loop]. rewrite is_caret_ok, <- lo_min, <- hi_max. change (if lo x =? hi x then move x else Some x) with (target move x).
  rewrite E. cbn [bind]. destruct (add_region_bd ds y S B B1 B2) as (ds1 & -> & S1 & Bd1 & C1). cbn [bind].
  destruct (IH (fun z Hz => H z (or_intror Hz)) ds1 S1 Bd1) as (ds' & ys & E' & S' & B' & M & C'). exists ds', (y :: ys). split; auto. split; auto. split; auto.
  split; [cbn [map]; now rewrite E, M|]. intros p. rewrite C', C1. cbn [covered existsb]. now rewrite orb_assoc.
Qed.

(** ** Lines *)
Lemma newlines_mono i j : i <= j -> newlines (firstn i s) <= newlines (firstn j s).
Proof. rewrite !newlines_eq. apply count_newlines_mono. Qed.
Lemma newlines_total i : newlines (firstn i s) <= newlines s.
Proof. rewrite <- (firstn_all s) at 2. destruct (Nat.le_ge_cases i (length s)); [now apply newlines_mono|]. rewrite (firstn_all2 s) by auto. now rewrite firstn_all. Qed.
Lemma newlines_step p b : nth_error s p = Some 10 -> p < b -> newlines (firstn p s) < newlines (firstn b s).
Proof.
  intros N Hb. apply Nat.lt_le_trans with (newlines (firstn (S p) s)); [|apply newlines_mono; lia].
  assert (E : firstn (S p) s = firstn p s ++ [10]).
  { revert N. generalize s. induction p as [|p IH]; intros [|x l] N; cbn in *; try discriminate; [congruence|]. f_equal. apply IH; auto; lia. }
  rewrite E. unfold newlines. rewrite count_occ_app. cbn. lia.
Qed.
(** The order of line starts is that of the lines. *)
Lemma start_le o p : starts_line s o -> newlines (firstn o s) <= newlines (firstn p s) -> o <= p.
Proof.
  intros [L [->|N]] H; [lia|]. destruct (Nat.le_gt_cases o p); auto. exfalso. destruct o as [|o]; [lia|]. cbn [Nat.sub] in N. rewrite Nat.sub_0_r in N.
  pose proof (newlines_step o (S o) N ltac:(lia)). pose proof (newlines_mono p o ltac:(lia)). lia.
Qed.
Lemma start_lt o p : starts_line s o -> p < o -> newlines (firstn p s) < newlines (firstn o s).
Proof. intros S L. destruct (Nat.le_gt_cases (newlines (firstn o s)) (newlines (firstn p s))) as [H|H]; auto. apply start_le in H; auto. lia. Qed.
Lemma line_start_iff l o : line_start s l o <-> starts_line s o /\ newlines (firstn o s) = l.
Proof. unfold line_start, starts_line. tauto. Qed.
Local Notation fu := (tree_fuel r).
Lemma fu_ok : h + 1 < fu.
Proof. unfold tree_fuel. pose proof (wf_height rope_ops _ _ _ h r W). lia. Qed.

Lemma line_of o : bd o -> line_of_offset fu r o = Some (newlines (firstn o s)).
Proof. intros H. apply (line_of_offset_ok h r o fu W); [now apply (bd_iff r h W)|apply fu_ok]. Qed.
Lemma start_of l : l <= newlines s -> exists o, offset_of_line fu r l = Some o /\ starts_line s o /\ newlines (firstn o s) = l.
Proof. intros H. destruct (offset_of_line_ok h r l fu W H fu_ok) as (o & E & H1). exists o. split; auto. now apply line_start_iff. Qed.
Lemma start_bd o : starts_line s o -> bd o.
Proof.
  intros [L [->|N]]; [apply (bd_0 r h W)|]. destruct o as [|o]; [apply (bd_0 r h W)|]. cbn [Nat.sub] in N. rewrite Nat.sub_0_r in N. apply (bd_iff r h W). apply cb_after_nl; auto.
  eapply rope_utf8; eauto.
Qed.
(** The start of the line of an offset. *)
Definition line_at (p o : nat) : Prop := starts_line s o /\ o <= p /\ forall q, o < q <= p -> ~ starts_line s q.
Lemma line_at_iff p o : p <= length s -> (line_at p o <-> starts_line s o /\ newlines (firstn o s) = newlines (firstn p s)).
Proof.
  intros Hp. split.
  - intros (S & L & N). split; auto. pose proof (newlines_mono o p L). destruct (Nat.eq_dec (newlines (firstn o s)) (newlines (firstn p s))); auto. exfalso.
    destruct (start_of (newlines (firstn p s)) (newlines_total p)) as (q & _ & Sq & Eq). apply (N q); auto. pose proof (start_le q p Sq ltac:(lia)).
    destruct (Nat.le_gt_cases q o) as [Hq|Hq]; [|lia]. pose proof (newlines_mono q o Hq). lia.
  - intros [S E]. split; auto. split; [apply (start_le o p S); lia|]. intros q Hq Sq. pose proof (start_lt q o Sq ltac:(lia)). pose proof (newlines_mono q p ltac:(lia)). lia.
Qed.
Lemma line_at_exists p : p <= length s -> exists o, offset_of_line fu r (newlines (firstn p s)) = Some o /\ line_at p o.
Proof. intros Hp. destruct (start_of _ (newlines_total p)) as (o & E & S & N). exists o. split; auto. now apply line_at_iff. Qed.
Lemma to_line_col p : bd p -> exists o, offset_to_line_col r p = Some (newlines (firstn p s), p - o) /\ line_at p o /\
  offset_of_line fu r (newlines (firstn p s)) = Some o.
Proof.
  intros H. unfold offset_to_line_col. rewrite line_of by auto. cbn [bind]. destruct (line_at_exists p (bd_le r h W p H)) as (o & E & L). rewrite E. cbn [bind].
  pose proof L as (_ & L1 & _). replace (p <? o) with false by lia. eauto.
Qed.
Lemma next_start l : l <= newlines s -> exists e, offset_of_line fu r (l + 1) = Some e /\
  (l = newlines s /\ e = length s \/ l < newlines s /\ starts_line s e /\ newlines (firstn e s) = l + 1).
Proof.
  intros H. destruct (Nat.eq_dec l (newlines s)) as [->|].
  - exists (length s). split; auto. unfold offset_of_line.
    assert (Em : measure lines_metric r = newlines s).
    { unfold measure. rewrite (wf_info rope_ops (fun s => s) leafV compute_info h r W). rewrite newlines_eq. reflexivity. }
    rewrite Em, Nat.compare_refl. f_equal. apply len_eq.
  - destruct (start_of (l + 1) ltac:(lia)) as (e & E & S & N). exists e. split; auto. right. split; auto. lia.
Qed.
Lemma no_newline o p q : newlines (firstn o s) = newlines (firstn q s) -> o <= p < q -> nth_error s p <> Some 10.
Proof. intros E Hp N. pose proof (newlines_mono o p ltac:(lia)). pose proof (newlines_step p q N ltac:(lia)). lia. Qed.
Lemma same_line o q : o <= q -> (forall p, o <= p < q -> nth_error s p <> Some 10) -> newlines (firstn o s) = newlines (firstn q s).
Proof.
  intros L H. induction L as [|q L IH]; auto. rewrite IH by (intros p Hp; apply H; lia). specialize (H q ltac:(lia)).
  destruct (nth_error s q) as [x|] eqn:E.
  - assert (F : firstn (S q) s = firstn q s ++ [x]).
    { clear - E. revert E. generalize s. induction q as [|q IH]; intros [|y l] E; cbn in *; try discriminate; [congruence|]. f_equal. now apply IH. }
    rewrite F. unfold newlines. rewrite count_occ_app. cbn. destruct (Nat.eq_dec x 10); [congruence|lia].
  - apply nth_error_None in E. now rewrite !firstn_all2 by lia.
Qed.

(** ** From a line and column to an offset *)
Section Graphemes.
Context (gb : nat -> bool) (G : grapheme_bounds s gb).
Lemma prev_g o : 0 < o -> exists p, prev_grapheme_offset gb o = Some p /\ p < o /\ gb p = true /\ forall q, p < q < o -> gb q = false.
Proof.
  intros H. destruct o as [|o]; [lia|]. clear H. induction o as [|o IH]; cbn [prev_grapheme_offset].
  - destruct G as (_ & G2 & _). rewrite (G2 0) by (split; [lia|now left]). exists 0. split; auto. split; [lia|]. split; [|intros; lia]. apply G2. split; [lia|now left].
  - destruct (gb (S o)) eqn:E; [exists (S o); split; auto; split; [lia|]; split; auto; intros; lia|]. destruct IH as (p & E' & H1 & H2 & H3). cbn [prev_grapheme_offset] in E'. rewrite E'.
    exists p. split; auto. split; [lia|]. split; auto. intros q Hq. destruct (Nat.eq_dec q (S o)) as [->|]; auto. apply H3. lia.
Qed.
Lemma to_offset o col : starts_line s o -> let l := newlines (firstn o s) in
  exists q, line_col_to_offset gb r l col = Some q /\ o <= q <= o + col /\ gb q = true /\ newlines (firstn q s) = l /\
    (forall g, g <= o + col -> gb g = true -> newlines (firstn g s) = l -> g <= q).
Proof.
  intros So l. destruct G as (G1 & G2 & G3). pose proof (G2 o So) as Go. pose proof So as [Lo _].
  assert (Hl : l <= newlines s) by apply newlines_total.
  unfold line_col_to_offset. destruct (start_of l Hl) as (o' & -> & S' & N'). cbn [bind].
  assert (o' = o). { pose proof (start_le o o' So ltac:(unfold l in *; lia)). pose proof (start_le o' o S' ltac:(unfold l in *; lia)). lia. } subst o'.
  destruct (next_start l Hl) as (e & -> & He). rewrite len_eq.
  (* clamping *)
  assert (Cl : forall p, o <= p <= o + col -> gb p = true -> (e <= p -> l < newlines s) -> (forall g, g <= o + col -> gb g = true -> g <= p) ->
    exists q, (if e <=? p then match prev_grapheme_offset gb e with Some prev => Some prev | None => Some p end else Some p) = Some q /\
      o <= q <= o + col /\ gb q = true /\ newlines (firstn q s) = l /\ (forall g, g <= o + col -> gb g = true -> newlines (firstn g s) = l -> g <= q)).
  { intros p Hp Gp Hm Mx. destruct (Nat.leb_spec e p) as [Hep|Hep].
    - pose proof (Hm Hep) as Hlt. destruct He as [[He _]|(_ & Se & Ne)]; [lia|].
      assert (o < e). { destruct (Nat.le_gt_cases e o) as [H|H]; auto. pose proof (newlines_mono e o H). unfold l in *. lia. }
      destruct (prev_g e ltac:(lia)) as (q & -> & Q1 & Q2 & Q3). exists q. split; auto.
      assert (o <= q). { destruct (Nat.le_gt_cases o q); auto. rewrite (Q3 o) in Go by lia. discriminate. }
      split; [lia|]. split; auto. split.
      + pose proof (start_lt e q Se ltac:(lia)). pose proof (newlines_mono o q ltac:(lia)). unfold l in *. lia.
      + intros g Hg Gg Ng. destruct (Nat.le_gt_cases g q); auto. exfalso. destruct (Nat.lt_ge_cases g e); [rewrite (Q3 g) in Gg by lia; discriminate|]. pose proof (newlines_mono e g ltac:(lia)). lia.
    - exists p. split; auto. split; auto. split; auto. split; auto.
      pose proof (newlines_mono o p ltac:(lia)). destruct He as [[He ->]|(Hlt & Se & Ne)].
      + pose proof (newlines_total p). unfold l in *. lia.
      + pose proof (start_lt e p Se Hep). unfold l in *. lia. }
  destruct (Nat.leb_spec (length s) (o + col)) as [Hc|Hc].
  - assert (Mx : forall g, g <= o + col -> gb g = true -> g <= length s) by (intros g _ Hg; apply G3 in Hg; exact (bd_le r h W _ Hg)).
    rewrite line_of by apply (bd_len r h W). cbn [bind]. rewrite firstn_all. destruct (Nat.leb_spec (newlines s) l) as [Hn|Hn].
    + exists (length s). split; auto. split; [lia|]. split; auto. split; [rewrite firstn_all; lia|]. auto.
    + exact (Cl (length s) ltac:(lia) G1 ltac:(auto) Mx).
  - destruct (prev_g (o + col + 1) ltac:(lia)) as (p & -> & P1 & P2 & P3). cbn [bind].
    assert (o <= p). { destruct (Nat.le_gt_cases o p); auto. rewrite (P3 o) in Go by lia. discriminate. }
    apply Cl; auto; [lia| |].
    + intros Hep. destruct He as [[_ ->]|[? _]]; lia.
    + intros g Hg Gg. destruct (Nat.le_gt_cases g p); auto. rewrite (P3 g) in Gg by lia. discriminate.
Qed.
Lemma to_offset_0 o : starts_line s o -> line_col_to_offset gb r (newlines (firstn o s)) 0 = Some o.
Proof. intros So. destruct (to_offset o 0 So) as (q & E & H & _). rewrite E. f_equal. lia. Qed.

(** ** The lines of a region *)
Lemma line_range x : bd (lo x) -> bd (hi x) -> exists n m, get_line_range r x = Some (seq n m) /\ 0 < m /\ n = newlines (firstn (lo x) s) /\ n + m <= newlines s + 1 /\
  forall o, starts_line s o -> (In (newlines (firstn o s)) (seq n m) <-> lies_on s x o).
Proof.
  intros B1 B2. unfold get_line_range. rewrite <- lo_min, <- hi_max. destruct (to_line_col (lo x) B1) as (a & -> & La & Ea). destruct (to_line_col (hi x) B2) as (b & -> & Lb & Eb). cbn [bind].
  pose proof (lo_hi x) as Hl. pose proof (newlines_mono _ _ Hl) as Hm. set (n := newlines (firstn (lo x) s)) in *. set (k := newlines (firstn (hi x) s)) in *.
  pose proof (newlines_total (hi x)) as Ht. fold k in Ht.
  eexists n, _. split; [reflexivity|]. split; [destruct ((hi x - b =? 0) && (n <? k)) eqn:C; lia|]. split; auto. split; [destruct ((hi x - b =? 0) && (n <? k)) eqn:C; lia|]. intros o So. rewrite in_seq.
  assert (Hb : hi x - b = 0 <-> starts_line s (hi x)).
  { destruct Lb as (S1 & S2 & S3). split; [intros H; replace (hi x) with b by lia; auto|]. intros H. destruct (Nat.eq_dec b (hi x)); [lia|]. exfalso. apply (S3 (hi x)); auto. lia. }
  pose proof (bd_le r h W _ B1) as L1. pose proof (bd_le r h W _ B2) as L2.
  unfold lies_on. assert (A : (o <= lo x /\ (forall p, o < p <= lo x -> ~ starts_line s p)) <-> newlines (firstn o s) = n).
  { transitivity (line_at (lo x) o); [unfold line_at; tauto|]. rewrite line_at_iff by auto. unfold n. tauto. }
  rewrite A. split.
  - intros H. split; auto. destruct (Nat.eq_dec (newlines (firstn o s)) n); auto. right. split.
    + destruct (Nat.le_gt_cases o (lo x)) as [H'|]; auto. pose proof (newlines_mono _ _ H'). unfold n in *. lia.
    + assert (o <= hi x). { apply (start_le o (hi x) So). fold k. destruct ((hi x - b =? 0) && (n <? k)); lia. }
      destruct (Nat.eq_dec o (hi x)) as [->|]; [|lia]. exfalso. apply Hb in So. fold k in H. replace ((hi x - b =? 0) && (n <? k)) with true in H by (fold k in n0; lia). lia.
  - intros [_ [H|H]].
    + destruct ((hi x - b =? 0) && (n <? k)) eqn:C; lia.
    + pose proof (start_lt o (lo x) So ltac:(lia)) as H1. pose proof (newlines_mono o (hi x) ltac:(lia)) as H2. fold n in H1. fold k in H2.
      destruct ((hi x - b =? 0) && (n <? k)) eqn:C; [|lia]. assert (Sh : starts_line s (hi x)) by (apply Hb; lia). pose proof (start_lt (hi x) o Sh ltac:(lia)) as H3. fold k in H3. lia.
Qed.

(** A set of numbers, kept sorted. *)
Fixpoint sorted_from (k : nat) (l : list nat) : Prop := match l with [] => True | x :: l' => k <= x /\ sorted_from (S x) l' end.
Lemma sorted_weaken l : forall k k', k' <= k -> sorted_from k l -> sorted_from k' l.
Proof. destruct l; cbn; intros; auto. destruct H0. split; auto. lia. Qed.
Lemma sorted_lower l : forall k, sorted_from k l -> forall x, In x l -> k <= x.
Proof. induction l as [|y l IH]; intros k H x Hx; [destruct Hx|]. destruct H as [H1 H2]. destruct Hx as [<-|Hx]; auto. apply (IH (S y)) in Hx; auto. lia. Qed.
Lemma nat_insert_ok x l : forall k, sorted_from k l -> k <= x -> sorted_from k (nat_insert x l) /\ forall y, In y (nat_insert x l) <-> y = x \/ In y l.
Proof.
  induction l as [|y l IH]; intros k H Hk; cbn [nat_insert].
  { split; [cbn; auto|]. intros y. cbn. intuition. }
  destruct H as [H1 H2]. destruct (Nat.ltb_spec x y); [|destruct (Nat.eqb_spec x y) as [->|]].
  - split; [cbn; repeat split; auto; lia|]. intros z. cbn. intuition.
  - split; [cbn; auto|]. intros z. cbn. split; [auto|]. intros [->|]; auto.
  - destruct (IH (S y) H2 ltac:(lia)) as [I1 I2]. split; [cbn; auto|]. intros z. cbn. rewrite I2. tauto.
Qed.
Lemma nat_inserts l : forall acc, sorted_from 0 acc -> sorted_from 0 (fold_left (fun acc l => nat_insert l acc) l acc) /\
  forall y, In y (fold_left (fun acc l => nat_insert l acc) l acc) <-> In y l \/ In y acc.
Proof.
  induction l as [|x l IH]; intros acc H; cbn [fold_left]; [split; auto; intros; cbn; tauto|]. destruct (nat_insert_ok x acc 0 H ltac:(lia)) as [H1 H2].
  destruct (IH _ H1) as [I1 I2]. split; auto. intros y. rewrite I2, H2. cbn. intuition.
Qed.
Definition in_lines (rs : list region) (y : nat) : Prop := exists o x, In x rs /\ lies_on s x o /\ newlines (firstn o s) = y.
Lemma indent_lines_ok rs : (forall x, In x rs -> bd (lo x) /\ bd (hi x)) -> forall acc, sorted_from 0 acc ->
  exists ls, indent_lines r rs acc = Some ls /\ sorted_from 0 ls /\ forall y, In y ls <-> In y acc \/ in_lines rs y.
Proof.
  induction rs as [|x rs IH]; intros B acc Ha; cbn [indent_lines].
  { exists acc. split; auto. split; auto. intros y. split; auto. intros [|(o & x & [] & _)]; auto. }
  destruct (B x (or_introl eq_refl)) as [B1 B2]. destruct (line_range x B1 B2) as (n & m & -> & M & En & Lm & Hin). cbn [bind].
  destruct (nat_inserts (seq n m) acc Ha) as [A1 A2]. destruct (IH (fun z Hz => B z (or_intror Hz)) _ A1) as (ls & E & S & Hls). exists ls. split; auto. split; auto.
  intros y. rewrite Hls, A2. assert (Hx : In y (seq n m) <-> exists o, lies_on s x o /\ newlines (firstn o s) = y).
  { split.
    - intros Hy. pose proof Hy as Hy'. apply in_seq in Hy'. destruct (start_of y ltac:(lia)) as (o & _ & So & <-). exists o. split; auto. now apply Hin.
    - intros (o & Ho & <-). apply Hin; auto. apply Ho. }
  rewrite Hx. split.
  - intros [[(o & H1 & H2)|H]|(o & z & H1 & H2)]; auto; right; [exists o, x; cbn; auto|exists o, z; cbn; tauto].
  - intros [H|(o & z & [<-|H1] & H2 & H3)]; auto; [left; left; eauto|right; exists o, z; auto].
Qed.
(** The starts of the lines of a sorted set. *)
Lemma starts_ok ls : forall k, sorted_from k ls -> (forall y, In y ls -> y <= newlines s) ->
  exists os, map (fun o => newlines (firstn o s)) os = ls /\ increasing os /\ Forall (starts_line s) os.
Proof.
  induction ls as [|y ls IH]; intros k H B; [exists []; cbn; auto|]. destruct H as [H1 H2]. destruct (IH _ H2 (fun z Hz => B z (or_intror Hz))) as (os & E & I1 & F).
  destruct (start_of y (B y (or_introl eq_refl))) as (o & _ & So & Eo). exists (o :: os). cbn [map]. rewrite Eo, E. split; auto. split; [|constructor; auto].
  destruct os as [|o2 os]; [exact Logic.I|]. split; auto. cbn [map] in E. rewrite <- E in H2. cbn [sorted_from] in H2.
  destruct (Nat.lt_ge_cases o o2) as [|Hge]; auto. exfalso. pose proof (newlines_mono o2 o Hge). lia.
Qed.
Lemma increasing_tail o os : increasing (o :: os) -> increasing os /\ forall q, In q os -> o < q.
Proof.
  revert o. induction os as [|a os IH]; intros o H; [split; [exact Logic.I|intros ? []]|]. destruct H as [H1 H2]. split; auto. destruct (IH a H2) as [_ I2].
  intros q [<-|Hq]; auto. specialize (I2 q Hq). lia.
Qed.
Lemma tab_lines_run text os : Forall (starts_line s) os -> forall b, tab_lines gb r text (map (fun o => newlines (firstn o s)) os) b = run b (map (fun o => (o, o, text)) os).
Proof.
  induction 1 as [|o os So F IH]; intros b; [reflexivity|]. cbn [map tab_lines]. rewrite to_offset_0 by auto. cbn [bind]. rewrite run_edits_cons. destruct (db_replace _ _ _ _); cbn [bind]; auto.
Qed.
Lemma tab_lines_sorted (f : nat -> nat) (text : list nat) os : Forall (starts_line s) os -> increasing os ->
  (forall o, In o os -> o <= f o /\ bd (f o) /\ newlines (firstn (f o) s) = newlines (firstn o s)) -> forall k, (forall o, In o os -> k <= o) -> k <= length s ->
  sorted_edits k (map (fun o => (o, f o, text)) os) (length s) /\ Forall (ed_ok r) (map (fun o => (o, f o, text)) os).
Proof.
  induction 1 as [|o os So F IH]; intros Hi Hf k Hk Hl; [split; [exact Hl|constructor]|]. apply increasing_tail in Hi as [I1 I2]. destruct (Hf o (or_introl eq_refl)) as (F1 & F2 & F3).
  cbn [map sorted_edits]. destruct (IH I1 (fun z Hz => Hf z (or_intror Hz)) (f o)) as [J1 J2].
  - intros q Hq. rewrite Forall_forall in F. specialize (F q Hq). destruct (Nat.le_gt_cases (f o) q) as [|Hlt]; auto. exfalso. pose proof (start_lt q o F (I2 q Hq)). pose proof (newlines_mono q (f o) ltac:(lia)). lia.
  - now apply (bd_le r h W).
  - split; [split; [apply Hk; now left|auto]|]. constructor; auto. split; auto. now apply start_bd.
Qed.
Lemma lines_of rs : (forall x, In x rs -> bd (lo x) /\ bd (hi x)) -> exists os, indent_lines r rs [] = Some (map (fun o => newlines (firstn o s)) os) /\
  increasing os /\ Forall (starts_line s) os /\ forall o, In o os <-> exists x, In x rs /\ lies_on s x o.
Proof.
  intros B. destruct (indent_lines_ok rs B [] Logic.I) as (ls & E & S & H).
  destruct (starts_ok ls 0 S) as (os & Eo & I1 & F).
  { intros y Hy. apply H in Hy as [[]|(o & _ & _ & _ & <-)]. apply newlines_total. }
  exists os. rewrite Eo. split; auto. split; auto. split; auto. intros o. rewrite Forall_forall in F. split.
  - intros Ho. assert (Hy : In (newlines (firstn o s)) ls) by (rewrite <- Eo; now apply (in_map (fun o => newlines (firstn o s)))).
    apply H in Hy as [[]|(o' & x & Hx & L & N)]. exists x. split; auto. assert (o' = o); [|now subst]. pose proof L as [So' _]. pose proof (F o Ho) as So.
    pose proof (start_le o o' So ltac:(lia)). pose proof (start_le o' o So' ltac:(lia)). lia.
  - intros (x & Hx & L). assert (Hy : In (newlines (firstn o s)) ls) by (apply H; right; exists o, x; auto). rewrite <- Eo in Hy. apply in_map_iff in Hy as (o' & N & Ho').
    assert (o' = o); [|now subst]. pose proof L as [So _]. pose proof (F o' Ho') as So'. pose proof (start_le o o' So ltac:(lia)). pose proof (start_le o' o So' ltac:(lia)). lia.
Qed.
Lemma indent_ok os text : Forall (starts_line s) os -> increasing os -> exists d, indent gb r (map (fun o => newlines (firstn o s)) os) text = Some d /\
  makes d s (edited 0 (map (fun o => (o, o, text)) os) s).
Proof.
  intros F I1. destruct (tab_lines_sorted (fun o => o) text os F I1) with (k := 0) as [H1 H2]; [|intros; lia|lia|].
  { intros o Ho. split; auto. split; auto. rewrite Forall_forall in F. apply start_bd. auto. }
  destruct (edits_make r h W _ H1 H2) as (b & E & M). exists (db_build b). unfold indent. now rewrite tab_lines_run, E by auto.
Qed.
End Graphemes.
End Rope.
