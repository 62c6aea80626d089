(** The parts of [merge] computed on a lattice of edits. *)
From Coq Require Import List Arith Bool Lia ZifyBool.
From Verif Require Import Base ListLib MultisetModel MultisetSpec MultisetProofs SpreadFacts
  DeltaModel DeltaSpec ExpandProofs SynthProofs DeltaProofs RebaseFacts EngineModel EngineSpec EngineFacts
  EngineInv MergeModel MergeFacts MergeLattice.
Import ListNotations.

Lemma spread_spread' x m1 m2 : length m1 = zeros m2 -> length x = zeros m1 ->
  spread false x (spread true m1 m2) = spread false (spread false x m1) m2.
Proof. intros. symmetry. now apply spread_spread. Qed.

Lemma zeros_spread_true a b : length a = zeros b -> zeros (spread true a b) = zeros a.
Proof.
  revert a; induction b as [|x b IHb]; intros a Ha.
  - destruct a; auto. discriminate.
  - destruct x as [|x].
    + destruct a as [|c a]; [discriminate|]. cbn [spread]. rewrite !zeros_cons. f_equal. apply IHb.
      rewrite zeros_cons in Ha. cbn in Ha. lia.
    + cbn [spread]. rewrite zeros_cons. cbn. now apply IHb.
Qed.

Section Path.
Context {A : Type}.
Notation op := (@op A).
Notation lat := (@lat A).
Implicit Types (L : lat) (o : op) (l : list revision).

(** A revision that records the edit [o]. *)
Definition records (r : revision) (id : rev_id) (p : full_priority) (g : nat) o : Prop :=
  exists mx ins del, r = Rev id mx (Edit (fst p) g ins del) /\ snd p = session_of id /\
    canonical ins /\ canonical del /\ flat ins = marks (fst o) /\ flat del = snd o.

(** Revisions that lead from point [(0, 0)] to point [(k, m)]. *)
Inductive path L : list revision -> nat -> nat -> Prop :=
| path_nil : path L [] 0 0
| path_a l k m r : path L l k m -> valid L (S k) m ->
    records r (ida L (S k)) (pa L (S k)) (ga L (S k)) (ea L (S k) m) -> path L (l ++ [r]) (S k) m
| path_b l k m r : path L l k m -> valid L k (S m) ->
    records r (idb L (S m)) (pb L (S m)) (gb L (S m)) (eb L k (S m)) -> path L (l ++ [r]) k (S m).

Lemma path_valid L l k m : lat_ok L -> path L l k m -> valid L k m.
Proof. intros H. induction 1; auto. apply H. Qed.

Lemma path_swap L l k m : path L l k m -> path (swap L) l m k.
Proof.
  induction 1.
  - constructor.
  - apply path_b; auto; now rewrite ?valid_swap.
  - apply path_a; auto; now rewrite ?valid_swap.
Qed.

(** Characters of [(k, m + n)] added by the second peer's edits after the [m]-th. *)
Fixpoint cm L (k m n : nat) : list nat :=
  match n with
  | 0 => repeat 0 (length (fst (pt L k m)))
  | S n' => spread true (marks (fst (eb L k (S m)))) (cm L k (S m) n')
  end.

Definition col_valid L (k m n : nat) : Prop := forall i, i <= n -> valid L k (m + i).

Lemma col_valid_S L k m n : col_valid L k m (S n) -> valid L k m /\ col_valid L k (S m) n.
Proof.
  intros H. split.
  - specialize (H 0 ltac:(lia)). now rewrite Nat.add_0_r in H.
  - intros i Hi. specialize (H (S i) ltac:(lia)). now rewrite <- plus_n_Sm in H.
Qed.

Lemma col_valid_hd L k m n : col_valid L k m n -> valid L k m.
Proof. intros H. specialize (H 0 ltac:(lia)). now rewrite Nat.add_0_r in H. Qed.

Lemma eb_len L : lat_ok L -> forall k m, valid L k m -> valid L k (S m) ->
  keeps (fst (eb L k (S m))) = length (fst (pt L k m)) /\ length (fst (eb L k (S m))) = length (fst (pt L k (S m))) /\
  length (snd (eb L k (S m))) = length (fst (eb L k (S m))).
Proof.
  intros HL k m V1 V2. destruct (l_eb L HL k m V1 V2) as [F E].
  rewrite E. destruct (act_length _ _ F). destruct F as (F1 & F2 & F3). auto.
Qed.
Lemma ea_len L : lat_ok L -> forall k m, valid L k m -> valid L (S k) m ->
  keeps (fst (ea L (S k) m)) = length (fst (pt L k m)) /\ length (fst (ea L (S k) m)) = length (fst (pt L (S k) m)) /\
  length (snd (ea L (S k) m)) = length (fst (ea L (S k) m)).
Proof.
  intros HL k m V1 V2. destruct (l_ea L HL k m V1 V2) as [F E].
  rewrite E. destruct (act_length _ _ F). destruct F as (F1 & F2 & F3). auto.
Qed.

Lemma cm_len L : lat_ok L -> forall n k m, col_valid L k m n ->
  zeros (cm L k m n) = length (fst (pt L k m)) /\ length (cm L k m n) = length (fst (pt L k (m + n))).
Proof.
  intros HL n. induction n as [|n IH]; intros k m H; cbn [cm].
  - rewrite zeros_repeat, repeat_length, Nat.add_0_r. auto.
  - pose proof (col_valid_S _ _ _ _ H) as [V1 H1]. destruct (IH k (S m) H1) as [I1 I2].
    destruct (eb_len L HL k m V1 (col_valid_hd _ _ _ _ H1)) as (E1 & E2 & _).
    split.
    + rewrite zeros_spread_true; rewrite ?marks_length, ?zeros_marks; lia.
    + rewrite spread_length by (rewrite marks_length; lia). rewrite I2. f_equal. f_equal. f_equal. lia.
Qed.

Lemma cm_ea L : lat_ok L -> forall n k m, col_valid L k m n -> col_valid L (S k) m n ->
  spread false (marks (fst (ea L (S k) m))) (cm L (S k) m n) = marks (fst (ea L (S k) (m + n))) /\
  spread false (snd (ea L (S k) m)) (cm L (S k) m n) = snd (ea L (S k) (m + n)) /\
  kept (marks (fst (ea L (S k) (m + n)))) (cm L (S k) m n) = cm L k m n.
Proof.
  intros HL n. induction n as [|n IH]; intros k m H1 H2; cbn [cm].
  - apply col_valid_hd in H1, H2. destruct (ea_len L HL k m H1 H2) as (E1 & E2 & E3).
    rewrite Nat.add_0_r. rewrite !spread_all_zero by (rewrite ?marks_length; lia). repeat split; auto.
    rewrite <- E1, <- E2, <- (zeros_marks (fst (ea L (S k) m))), <- (marks_length (fst (ea L (S k) m))).
    generalize (marks (fst (ea L (S k) m))). clear. intros c. induction c as [|a c IH]; auto.
    cbn [length repeat kept]. rewrite zeros_cons. destruct (a =? 0); cbn [Nat.add repeat]; now rewrite IH.
  - pose proof (col_valid_S _ _ _ _ H1) as [V1 J1]. pose proof (col_valid_S _ _ _ _ H2) as [V2 J2].
    pose proof (col_valid_hd _ _ _ _ J1) as W1. pose proof (col_valid_hd _ _ _ _ J2) as W2.
    destruct (IH k (S m) J1 J2) as (I1 & I2 & I3). destruct (cell L HL k m V1 V2 W1) as (C1 & C2 & C3 & C4).
    destruct (cm_len L HL n (S k) (S m) J2) as [Q1 Q2].
    destruct (eb_len L HL (S k) m V2 W2) as (E1 & E2 & E3).
    destruct (ea_len L HL k m V1 V2) as (E4 & E5 & E6).
    destruct (ea_len L HL k (S m) W1 W2) as (E7 & E8 & E9).
    destruct (eb_len L HL k m V1 W1) as (E10 & E11 & _).
    replace (m + S n) with (S m + n) by lia.
    assert (T1 : length (marks (fst (eb L (S k) (S m)))) = zeros (cm L (S k) (S m) n))
      by (rewrite marks_length; lia).
    split; [|split].
    + rewrite <- I1, C1, spread_spread'; auto. rewrite marks_length, zeros_marks; lia.
    + rewrite <- I2, C3, spread_spread'; auto. rewrite zeros_marks; lia.
    + rewrite <- I1. rewrite kept_spread_comm; [|rewrite marks_length; lia|auto]. rewrite I1, I3. f_equal.
      rewrite C2 at 1. rewrite kept_spread; auto. rewrite marks_length, zeros_marks. lia.
Qed.

(** Revisions recording the edits [k + 1, k + 2, ...] of the first peer at column [m]. *)
Fixpoint row L l (k m : nat) : Prop :=
  match l with
  | [] => True
  | r :: l' => records r (ida L (S k)) (pa L (S k)) (ga L (S k)) (ea L (S k) m) /\ row L l' (S k) m
  end.

(** Nothing but shared revisions left. *)
Lemma rearrange_base L base : lat_ok L -> forall l k m, path L l k m ->
  (forall i, 1 <= i <= k -> has_id (ida L i) base = true) ->
  (forall i, 1 <= i <= m -> has_id (idb L i) base = true) ->
  forall s out, canonical s -> zeros (flat s) = length (fst (pt L k m)) ->
  rearrange_loop (rev l) base s out = Some out.
Proof.
  intros HL l k m P. induction P as [|l k m r P IH V R|l k m r P IH V R]; intros Ha Hb s out Cs Z.
  - reflexivity.
  - rewrite rev_app_distr. destruct R as (mx & ins & del & -> & Hs & C1 & C2 & F1 & F2).
    cbn [rev app rearrange_loop r_edit r_id max_undo_so_far]. rewrite Ha by lia.
    destruct (ea_len L HL k m (path_valid L _ _ _ HL P) V) as (E1 & E2 & E3).
    destruct (transform_union_ok ins s C1 Cs) as (s' & -> & C' & F'); [rewrite F1, marks_length; lia|].
    cbn [bind]. apply IH; auto.
    + intros i Hi. apply Ha. lia.
    + rewrite F', zeros_spread_true, F1, zeros_marks; auto. rewrite F1, marks_length; lia.
  - rewrite rev_app_distr. destruct R as (mx & ins & del & -> & Hs & C1 & C2 & F1 & F2).
    cbn [rev app rearrange_loop r_edit r_id max_undo_so_far]. rewrite Hb by lia.
    destruct (eb_len L HL k m (path_valid L _ _ _ HL P) V) as (E1 & E2 & E3).
    destruct (transform_union_ok ins s C1 Cs) as (s' & -> & C' & F'); [rewrite F1, marks_length; lia|].
    cbn [bind]. apply IH; auto.
    + intros i Hi. apply Hb. lia.
    + rewrite F', zeros_spread_true, F1, zeros_marks; auto. rewrite F1, marks_length; lia.
Qed.

(** [i] edits of the first peer are shared; those after it are moved to column [j]. *)
Lemma rearrange_loop_ok L base i j : lat_ok L -> cb L j <= i -> j <= nb L ->
  forall l k m, path L l k m -> m <= j ->
  (forall h, 1 <= h <= k -> has_id (ida L h) base = (h <=? i)) ->
  (forall h, 1 <= h <= m -> has_id (idb L h) base = true) ->
  forall s out, canonical s -> i <= k -> flat s = cm L k m (j - m) ->
  exists new, rearrange_loop (rev l) base s out = Some (new ++ out) /\ row L new i j /\ length new = k - i.
Proof.
  intros HL Hcb Hj l k m P. induction P as [|l k m r P IH V R|l k m r P IH V R]; intros Hm Ha Hb s out Cs Hi F.
  - exists []. repeat split.
  - assert (CV : forall k' , i <= k' -> valid L k' m -> col_valid L k' m (j - m)).
    { intros k' Hk' V' h Hh. unfold valid in *. pose proof (l_cb L HL (m + h) j). lia. }
    pose proof (path_valid L _ _ _ HL P) as V0.
    destruct (Nat.eq_dec i (S k)) as [->|Ne].
    { exists []. replace (S k - S k) with 0 by lia. repeat split. cbn [app].
      eapply rearrange_base; eauto; [eapply path_a; eauto|..].
      - intros h Hh. rewrite Ha by lia. lia.
      - rewrite F. apply cm_len; auto. }
    rewrite rev_app_distr. destruct R as (mx & ins & del & -> & Hs & C1 & C2 & F1 & F2).
    cbn [rev app rearrange_loop r_edit r_id max_undo_so_far]. rewrite Ha by lia. replace (S k <=? i) with false by lia.
    pose proof (CV k ltac:(lia) V0) as V1. pose proof (CV (S k) ltac:(lia) V) as V2.
    destruct (ea_len L HL k m V0 V) as (E1 & E2 & E3). destruct (cm_len L HL _ _ _ V2) as [Q1 Q2].
    destruct (cm_ea L HL _ _ _ V1 V2) as (M1 & M2 & M3). replace (m + (j - m)) with j in * by lia.
    destruct (transform_expand_ok ins s C1 Cs) as (ins' & -> & Ci & Fi); [rewrite F1, F, marks_length; lia|].
    cbn [bind]. destruct (transform_expand_ok del s C2 Cs) as (del' & -> & Cd & Fd); [rewrite F2, F; lia|].
    cbn [bind]. rewrite F1, F, M1 in Fi. rewrite F2, F, M2 in Fd.
    destruct (transform_shrink_ok s ins' Cs Ci) as (s' & -> & C' & F').
    { rewrite F, Fi, <- M1, spread_length; auto. rewrite marks_length; lia. }
    cbn [bind]. rewrite Fi, F, M3 in F'.
    destruct (IH Hm (fun h Hh => Ha h ltac:(lia)) Hb s' (Rev (ida L (S k)) mx (Edit (fst (pa L (S k))) (ga L (S k)) ins' del') :: out) C' ltac:(lia) F')
      as (new & -> & Rn & Ln).
    exists (new ++ [Rev (ida L (S k)) mx (Edit (fst (pa L (S k))) (ga L (S k)) ins' del')]).
    rewrite <- app_assoc. split; [reflexivity|]. split; [|rewrite app_length; cbn [length]; lia].
    assert (G : forall l1 r a, row L l1 a j -> records r (ida L (S (a + length l1))) (pa L (S (a + length l1)))
       (ga L (S (a + length l1))) (ea L (S (a + length l1)) j) -> row L (l1 ++ [r]) a j).
    { clear. induction l1 as [|x l1 IH]; intros r a; cbn [row app length].
      - rewrite Nat.add_0_r. auto.
      - intros [H1 H2] H3. split; auto. apply IH; auto. now rewrite <- plus_n_Sm in H3. }
    apply G; auto. rewrite Ln. replace (i + (k - i)) with k by lia.
    exists mx, ins', del'. auto 10.
  - assert (CV : col_valid L k (S m) (j - S m)).
    { intros h Hh. unfold valid in *. pose proof (l_cb L HL (S m + h) j). lia. }
    rewrite rev_app_distr. destruct R as (mx & ins & del & -> & Hs & C1 & C2 & F1 & F2).
    cbn [rev app rearrange_loop r_edit r_id max_undo_so_far]. rewrite Hb by lia.
    destruct (eb_len L HL k m (path_valid L _ _ _ HL P) V) as (E1 & E2 & E3).
    destruct (cm_len L HL _ _ _ CV) as [Q1 Q2].
    destruct (transform_union_ok ins s C1 Cs) as (s' & -> & C' & F'); [rewrite F1, F, marks_length; lia|].
    cbn [bind]. apply IH; auto; try lia.
    + intros h Hh. apply Hb. lia.
    + rewrite F', F1, F. replace (j - m) with (S (j - S m)) by lia. reflexivity.
Qed.

Lemma rearrange_ok L base i j l k : lat_ok L -> path L l k j -> cb L j <= i -> i <= k ->
  (forall h, 1 <= h <= k -> has_id (ida L h) base = (h <=? i)) ->
  (forall h, 1 <= h <= j -> has_id (idb L h) base = true) ->
  exists new, rearrange l base (length (fst (pt L k j))) = Some new /\ row L new i j /\ length new = k - i.
Proof.
  intros HL P Hc Hi Ha Hb. unfold rearrange. pose proof (path_valid L _ _ _ HL P) as V.
  destruct (subset_new_ok (length (fst (pt L k j)))) as (s & -> & Cs & Fs). cbn [bind].
  destruct (rearrange_loop_ok L base i j HL Hc ltac:(unfold valid in V; lia) l k j P (le_n _) Ha Hb s [] Cs Hi)
    as (new & E & R & Ln).
  - rewrite Fs, Nat.sub_diag. reflexivity.
  - exists new. now rewrite app_nil_r in E.
Qed.

(** ** Deltas from revisions *)
Fixpoint oprow L (ops : list (delta_op A)) (k m : nat) : Prop :=
  match ops with
  | [] => True
  | o :: ops' =>
      (op_id o = ida L (S k) /\ op_priority o = fst (pa L (S k)) /\ snd (pa L (S k)) = session_of (op_id o) /\
       op_group o = ga L (S k) /\ wf_insert_delta (op_inserts o) /\
       base_len (op_inserts o) = length (fst (pt L k m)) /\
       script (els (op_inserts o)) = fst (ea L (S k) m) /\
       canonical (op_deletes o) /\ flat (op_deletes o) = snd (ea L (S k) m)) /\
      oprow L ops' (S k) m
  end.

(** The new text of a script, as positions and new characters. *)
Fixpoint woven (pos : nat) (w : list (option A)) : list (nat + A) :=
  match w with
  | [] => []
  | None :: w' => inl pos :: woven (S pos) w'
  | Some c :: w' => inr c :: woven pos w'
  end.

Lemma ins_script_woven (l : list (element A)) : forall pos n w, sorted_copies pos l n -> no_empty_copy l ->
  denote l = woven pos w -> keeps w = n - pos -> ins_script pos l n = w.
Proof.
  induction l as [|[b e|s] l IH]; intros pos n w Hs Hn Hd Hk; cbn [denote ins_script sorted_copies] in *.
  - destruct w as [|[c|] w]; try discriminate. cbn in Hk. rewrite <- Hk. reflexivity.
  - destruct Hs as (H1 & H2 & H3). inversion Hn as [|? ? Hbe Hn']; subst. cbn in Hbe.
    assert (Eb : b = pos).
    { destruct (e - b) as [|m] eqn:Em; [lia|]. cbn in Hd. destruct w as [|[c|] w]; cbn in Hd; try discriminate.
      now injection Hd. }
    subst b. clear H1.
    assert (G : forall m q w', q + m <= n -> map inl (seq q m) ++ denote l = woven q w' -> keeps w' = n - q ->
       exists w2, w' = repeat None m ++ w2 /\ denote l = woven (q + m) w2 /\ keeps w2 = n - (q + m)).
    { clear. induction m as [|m IHm]; intros q w' Hq E K.
      - exists w'. rewrite Nat.add_0_r. auto.
      - cbn in E. destruct w' as [|[c|] w']; cbn in E; try discriminate. injection E as E.
        destruct (IHm (S q) w') as (w2 & -> & E2 & K2); [lia|auto| |].
        + rewrite keeps_None in K. lia.
        + exists w2. replace (q + S m) with (S q + m) by lia. auto. }
    assert (He : e <= n) by (apply sorted_in in H3; lia).
    destruct (G (e - pos) pos w ltac:(lia) Hd Hk) as (w2 & -> & E2 & K2).
    replace (pos + (e - pos)) with e in * by lia. f_equal. apply IH; auto.
  - inversion Hn; subst. clear Hn. revert w Hd Hk. induction s as [|c s IHs]; intros w Hd Hk; cbn [map app] in *.
    + apply IH; auto.
    + destruct w as [|[x|] w]; cbn in Hd; try discriminate. injection Hd as -> Hd. f_equal. apply IHs; auto.
Qed.

Lemma between_woven : forall cur (u z : list A) (w : list (option A)) k, length cur = length u ->
  length w = zeros cur -> keeps w = length z -> kept cur u = fill w z ->
  between k (spread true (marks w) cur) cur u = woven k w.
Proof.
  induction cur as [|c cur IH]; intros [|x u] z w k L1 L2 L3 E; cbn in L1; try lia.
  - destruct w; [reflexivity|discriminate].
  - destruct c as [|c].
    + rewrite zeros_cons in L2. cbn in L2. destruct w as [|[y|] w]; cbn in L2; try lia.
      * cbn in E. injection E as -> E. cbn [marks map spread between]. cbn. f_equal.
        fold (marks w). eapply IH; eauto.
      * rewrite keeps_None in L3. destruct z as [|a z]; cbn in L3; [lia|]. cbn in E. injection E as -> E.
        cbn [marks map spread between]. cbn. f_equal. fold (marks w). eapply IH; eauto.
    + rewrite zeros_cons in L2. cbn in L2, E. cbn [spread between]. cbn. eapply IH; eauto.
Qed.

(** Characters of [(k + n, m)] added by the first peer's edits after the [k]-th. *)
Fixpoint am L (k m n : nat) : list nat :=
  match n with
  | 0 => repeat 0 (length (fst (pt L k m)))
  | S n' => spread true (marks (fst (ea L (S k) m))) (am L (S k) m n')
  end.

Lemma am_ok L m : lat_ok L -> forall n k, (forall h, h <= n -> valid L (k + h) m) ->
  zeros (am L k m n) = length (fst (pt L k m)) /\ length (am L k m n) = length (fst (pt L (k + n) m)) /\
  kept (am L k m n) (fst (pt L (k + n) m)) = fst (pt L k m).
Proof.
  intros HL n. induction n as [|n IH]; intros k V; cbn [am].
  - rewrite zeros_repeat, repeat_length, Nat.add_0_r. repeat split; auto. now apply kept_all_zero.
  - pose proof (V 0 ltac:(lia)) as V0. rewrite Nat.add_0_r in V0.
    pose proof (V 1 ltac:(lia)) as V1. rewrite Nat.add_1_r in V1.
    destruct (IH (S k)) as (I1 & I2 & I3).
    { intros h Hh. specialize (V (S h) ltac:(lia)). now rewrite <- plus_n_Sm in V. }
    destruct (ea_len L HL k m V0 V1) as (E1 & E2 & E3).
    replace (k + S n) with (S k + n) by lia. split; [|split].
    + rewrite zeros_spread_true, zeros_marks; auto. rewrite marks_length; lia.
    + rewrite spread_length; auto. rewrite marks_length; lia.
    + rewrite kept_spread_true by (rewrite ?marks_length; lia). rewrite I3.
      destruct (l_ea L HL k m V0 V1) as [F E]. rewrite E. apply kept_marks_fill. apply F.
Qed.

Lemma deltas_loop_ok L m D u : lat_ok L -> canonical D -> length (flat D) = length u ->
  forall l k n cur out, row L l k m -> (forall h, h <= length l + n -> valid L (k + h) m) ->
  u = fst (pt L (k + length l + n) m) -> canonical cur -> flat cur = am L (k + length l) m n ->
  exists ops, deltas_loop (rev l) (kept (flat D) u) (removed (flat D) u) D cur out = Some (ops ++ out) /\
    oprow L ops k m /\ length ops = length l.
Proof.
  intros HL CD LD l. induction l as [|r l IH] using rev_ind; intros k n cur out R V Eu Cc Fc.
  - exists []. cbn. auto.
  - rewrite rev_app_distr. cbn [rev app deltas_loop]. rewrite app_length in *. cbn [length] in *.
    assert (R2 : row L l k m /\ records r (ida L (S (k + length l))) (pa L (S (k + length l)))
        (ga L (S (k + length l))) (ea L (S (k + length l)) m)).
    { revert R. clear. revert k. induction l as [|x l IH]; intros k; cbn [row app length].
      - rewrite Nat.add_0_r. tauto.
      - intros [H1 H2]. apply IH in H2 as [H2 H3]. rewrite <- plus_n_Sm. auto. }
    destruct R2 as [R1 (mx & ins & del & -> & Hs & C1 & C2 & F1 & F2)]. cbn [r_edit r_id].
    remember (k + length l) as q eqn:Eq.
    assert (Vq : forall h, h <= S n -> valid L (q + h) m).
    { intros h Hh. subst q. rewrite <- Nat.add_assoc. apply V. lia. }
    assert (V0 : valid L q m) by (specialize (Vq 0 ltac:(lia)); now rewrite Nat.add_0_r in Vq).
    assert (V1 : valid L (S q) m) by (specialize (Vq 1 ltac:(lia)); now rewrite Nat.add_1_r in Vq).
    destruct (ea_len L HL q m V0 V1) as (E1 & E2 & E3).
    destruct (am_ok L m HL (S n) q Vq) as (A1 & A2 & A3).
    destruct (am_ok L m HL n (S q)) as (B1 & B2 & B3).
    { intros h Hh. specialize (Vq (S h) ltac:(lia)). now rewrite <- plus_n_Sm in Vq. }
    replace (k + (length l + 1)) with (S q) in * by lia.
    assert (Lc : length (flat cur) = length u) by (rewrite Fc, B2, Eu; reflexivity).
    destruct (transform_union_ok ins cur C1 Cc) as (older & -> & Co & Fo); [rewrite F1, Fc, marks_length; lia|].
    cbn [bind]. rewrite F1, Fc in Fo. change (flat older = am L q m (S n)) in Fo.
    assert (Lo : length (flat older) = length u).
    { rewrite Fo, A2, Eu. f_equal. f_equal. f_equal. lia. }
    rewrite shuffle_tombstones_ok by auto. cbn [bind].
    destruct (synthesize_ok older cur u Co Cc Lo Lc) as (d & -> & Dd & Wd & Nd & Bd). cbn [bind].
    destruct (factor_ok d Wd) as (insd & del0 & -> & W0 & B0 & _ & _ & _ & S0). cbn [bind].
    destruct (l_ea L HL q m V0 V1) as [Fe Ee].
    assert (Kc : kept (flat cur) u = fst (pt L (S q) m)) by (rewrite Fc, Eu; exact B3).
    assert (Sc : script (els insd) = fst (ea L (S q) m)).
    { rewrite S0. apply ins_script_woven; auto.
      - apply Wd.
      - rewrite Dd, Fo. cbn [am]. rewrite <- Fc. eapply between_woven; auto.
        + rewrite Fc, B1. lia.
        + apply Fe.
        + rewrite Kc, Ee. reflexivity.
      - rewrite Bd, Fo, A1. lia. }
    edestruct (IH k (S n) older) as (ops & -> & O1 & O2); auto.
    + intros h Hh. apply V. lia.
    + rewrite <- Eq, Eu. f_equal. f_equal. lia.
    + rewrite <- Eq. exact Fo.
    + eexists (ops ++ [_]). rewrite <- app_assoc. split; [reflexivity|]. split; [|rewrite app_length; cbn; lia].
      assert (G : forall ops a (x0 : delta_op A), oprow L ops a m ->
         oprow L [x0] (a + length ops) m -> oprow L (ops ++ [x0]) a m).
      { clear. induction ops as [|x ops IH]; intros a x0; cbn [app length].
        - rewrite Nat.add_0_r. auto.
        - cbn [oprow]. intros [H1 H2] H3. split; auto. apply IH; auto. cbn [oprow]. now rewrite <- plus_n_Sm in H3. }
      apply G; auto. rewrite O2, <- Eq. cbn [oprow op_id op_priority op_group op_inserts op_deletes].
      rewrite B0, Bd, Fo, A1. repeat (split; auto).
Qed.

Lemma compute_deltas_ok L m D k l : lat_ok L -> row L l k m ->
  (forall h, h <= length l -> valid L (k + h) m) ->
  let u := fst (pt L (k + length l) m) in
  canonical D -> length (flat D) = length u ->
  exists ops, compute_deltas l (kept (flat D) u) (removed (flat D) u) D = Some ops /\
    oprow L ops k m /\ length ops = length l.
Proof.
  intros HL R V u CD LD. unfold compute_deltas.
  destruct (subset_new_ok (subset_len D)) as (s & -> & Cs & Fs). cbn [bind].
  destruct (deltas_loop_ok L m D u HL CD LD l k 0 s [] R) as (ops & E & O1 & O2); auto.
  - intros h Hh. apply V. lia.
  - unfold u. now rewrite Nat.add_0_r.
  - rewrite Fs, subset_len_ok, LD. reflexivity.
  - exists ops. rewrite app_nil_r in E. auto.
Qed.
End Path.
