(** Merging keeps two engines on one lattice. *)
From Coq Require Import List Arith Bool Lia ZifyBool.
From Verif Require Import Base ListLib MultisetModel MultisetSpec MultisetProofs SpreadFacts
  DeltaModel DeltaSpec ExpandProofs SynthProofs DeltaProofs RebaseFacts EngineModel EngineSpec EngineFacts
  EngineInv MergeModel MergeFacts MergeLattice MergePath MergeRebase.
Import ListNotations.

Lemma rev_id_eqb_eq a b : rev_id_eqb a b = true <-> a = b.
Proof.
  unfold rev_id_eqb. rewrite !andb_true_iff, !Nat.eqb_eq. destruct a, b; cbn. split.
  - intros [[-> ->] ->]. reflexivity.
  - intros [= -> -> ->]. auto.
Qed.
Lemma has_id_In id s : has_id id s = true <-> In id s.
Proof.
  unfold has_id. rewrite existsb_exists. split.
  - intros (x & H & E). apply rev_id_eqb_eq in E. now subst.
  - intros H. exists id. split; auto. now apply rev_id_eqb_eq.
Qed.

Section Sys.
Context {A : Type}.
Notation lat := (@lat A).
Implicit Types (L : lat) (e : engine A) (u : list A).

(** Appending one merged revision. *)
Lemma push_inv e u n0 (d : delta A) del id p g mx :
  Inv e u n0 -> undone_groups e = [] -> wf_insert_delta d -> base_len d = length u -> canonical del ->
  length (flat del) = length (script (els d)) -> ~ In id (map r_id (revs e)) -> session_of id <> session e ->
  max_undo_group_id e = Some mx ->
  let w := script (els d) in
  exists t_ins txt ins exp nd nt ntb,
    delta_transform_shrink d (deletes_from_union e) = Some t_ins /\ apply t_ins (text e) = Some txt /\
    inserted_subset d = Some ins /\ transform_expand (deletes_from_union e) ins = Some exp /\
    union exp del = Some nd /\ shuffle txt (tombstones e) exp nd = Some (nt, ntb) /\
    canonical ins /\ flat ins = marks w /\
    flat nd = zipw Nat.add (spread false (flat (deletes_from_union e)) (marks w)) (flat del) /\
    Inv (Engine (session e) (rev_id_counter e) nt ntb nd [] (revs e ++ [Rev id (Nat.max mx g) (Edit p g ins del)]))
        (fill w u) n0.
Proof.
  intros I Hu W B Cd Ld Hid Hs Hmx w.
  pose proof (i_can e u n0 I) as CU. pose proof (i_len e u n0 I) as LU.
  assert (Kw : keeps w = length u) by (unfold w; rewrite keeps_wf; auto).
  destruct (delta_transform_shrink_ok d (deletes_from_union e) W) as (d3 & E3 & Co3 & _ & B3 & S3); [lia|].
  exists d3. assert (Ht : apply d3 (text e) =
    Some (kept (spread false (flat (deletes_from_union e)) (marks w)) (fill w u))).
  { rewrite (i_text e u n0 I). unfold apply. rewrite (apply_insert 0); [|rewrite kept_length by lia; rewrite <- B3; exact Co3].
    rewrite S3. cbn [skipn]. f_equal. apply fill_shrink; lia. }
  destruct (inserted_subset_ok d) as (ins & Ei & Ci & Fi); try apply W. fold w in Fi.
  destruct (transform_expand_ok (deletes_from_union e) ins CU Ci) as (rbd & Er & Cr & Fr).
  { rewrite Fi, zeros_marks. lia. }
  rewrite Fi in Fr.
  assert (Lr : length (flat rbd) = length w).
  { rewrite Fr, spread_length, marks_length; auto. rewrite zeros_marks. lia. }
  destruct (union_ok rbd del Cr Cd) as (nd & En & Cn & Fn); [unfold w in *; lia|].
  assert (Ln : length (flat nd) = length w).
  { rewrite Fn, zipw_length; [lia|]. unfold w in *; lia. }
  assert (Lf : length (fill w u) = length w) by (apply fill_length; auto).
  assert (Hsh : shuffle (kept (spread false (flat (deletes_from_union e)) (marks w)) (fill w u))
     (tombstones e) rbd nd = Some (kept (flat nd) (fill w u), removed (flat nd) (fill w u))).
  { rewrite (i_tomb e u n0 I). rewrite <- (removed_spread w (flat (deletes_from_union e)) u) by lia. rewrite <- Fr.
    apply shuffle_ok; auto; lia. }
  do 6 eexists. split; [exact E3|]. split; [exact Ht|]. split; [exact Ei|]. split; [exact Er|]. split; [exact En|].
  split; [exact Hsh|]. split; [auto|]. split; [auto|]. split; [rewrite Fn, Fr; reflexivity|].
  unfold max_undo_group_id in Hmx. destruct (last_rev (revs e)) as [hr|] eqn:El; [|discriminate].
  cbn in Hmx. injection Hmx as Hmx.
  assert (Est : step [] (flat (deletes_from_union e)) (Rev id (Nat.max mx g) (Edit p g ins del)) = flat nd).
  { unfold step. cbn [r_edit mem existsb]. rewrite Fn, Fr, Fi. reflexivity. }
  pose proof (i_replay e u n0 I) as Rp. rewrite Hu in Rp. pose proof (i_hist e u n0 I) as Hh. rewrite Hu in Hh.
  constructor; cbn [revs deletes_from_union text tombstones undone_groups]; auto.
  - apply chain_app. exists (length u). split; [apply I|]. cbn. rewrite Fi, marks_length, zeros_marks. auto 10.
  - now destruct (revs e).
  - now rewrite Lf.
  - rewrite replay_app, <- Rp. unfold replay. cbn [fold_left]. now rewrite Est.
  - rewrite rev_app_distr. cbn [rev app hist fst snd]. split.
    + rewrite rev_involutive, replay_app, <- Rp. unfold replay. cbn [fold_left].
      rewrite Est. apply dominated_refl.
    + unfold unstep. cbn [r_edit fst snd mem existsb].
      replace (kept (flat ins) _) with (flat (deletes_from_union e)); [exact Hh|].
      rewrite Fn, Fr, Fi. rewrite unstep_expand; auto; rewrite ?zeros_marks, ?marks_length; unfold w in *; lia.
  - apply max_ok_app. split; [apply I|]. rewrite El. cbn. repeat split; [lia|].
    unfold has_group. cbn. intros g' Hg. apply Nat.eqb_eq in Hg. lia.
  - destruct (i_ids e u n0 I) as [N1 N2]. split; cbn.
    + rewrite map_app. cbn. apply NoDup_rev in N1. rewrite <- (rev_involutive (map r_id (revs e) ++ [_])).
      apply NoDup_rev. rewrite rev_app_distr. cbn. constructor; auto. now rewrite <- in_rev.
    + intros r' Hr Hs'. apply in_app_iff in Hr as [Hr|[<-|[]]]; auto. cbn in Hs'. congruence.
Qed.

(** The transforms of a stretch of the first peer's edits at column [m]. *)
Fixpoint rowm L (k n m : nat) : list tr :=
  match n with
  | 0 => []
  | S n' => (pa L (S k), marks (fst (ea L (S k) m))) :: rowm L (S k) n' m
  end.

Lemma row_trans L : forall l k m, row L l k m -> Forall2 trans_of l (rowm L k (length l) m).
Proof.
  induction l as [|r l IH]; intros k m; cbn [row rowm length].
  - constructor.
  - intros [(mx & ins & del & -> & Hs & C1 & C2 & F1 & F2) R]. constructor; auto.
    exists (ida L (S k)), mx, (fst (pa L (S k))), (ga L (S k)), ins, del. cbn [fst snd]. repeat split; auto.
    rewrite <- Hs. now destruct (pa L (S k)).
Qed.

Lemma rowm_chain L m : lat_ok L -> forall n k, (forall h, h <= n -> valid L (k + h) m) ->
  tchain (length (fst (pt L k m))) (rowm L k n m) (length (fst (pt L (k + n) m))).
Proof.
  intros HL n. induction n as [|n IH]; intros k V; cbn [rowm tchain].
  - now rewrite Nat.add_0_r.
  - pose proof (V 0 ltac:(lia)) as V0. rewrite Nat.add_0_r in V0.
    pose proof (V 1 ltac:(lia)) as V1. rewrite Nat.add_1_r in V1.
    destruct (ea_len L HL k m V0 V1) as (E1 & E2 & E3). rewrite zeros_marks, marks_length. split; auto.
    rewrite E2. replace (k + S n) with (S k + n) by lia. apply IH.
    intros h Hh. specialize (V (S h) ltac:(lia)). now rewrite <- plus_n_Sm in V.
Qed.

Lemma rowm_sess L sess : (forall k, 1 <= k <= na L -> snd (pa L k) = sess) -> forall n k m, k + n <= na L ->
  Forall (fun t : tr => snd (fst t) = sess) (rowm L k n m).
Proof.
  intros H n. induction n as [|n IH]; intros k m Hk; cbn [rowm]; constructor.
  - cbn. apply H. lia.
  - apply IH. lia.
Qed.

Lemma pushL_row L m : lat_ok L -> forall n k, (forall h, h <= n -> valid L (k + h) m /\ valid L (k + h) (S m)) ->
  pushL (pb L (S m)) (fst (eb L k (S m))) (snd (eb L k (S m))) (rowm L k n m) =
  (fst (eb L (k + n) (S m)), snd (eb L (k + n) (S m)), rowm L k n (S m)).
Proof.
  intros HL n. induction n as [|n IH]; intros k V; cbn [rowm pushL].
  - now rewrite Nat.add_0_r.
  - pose proof (V 0 ltac:(lia)) as [V0 V0']. rewrite Nat.add_0_r in *.
    pose proof (V 1 ltac:(lia)) as [V1 V1']. rewrite Nat.add_1_r in *.
    destruct (l_cell L HL k m V0 V1 V0') as [E1 E2]. destruct (cell L HL k m V0 V1 V0') as (C1 & C2 & C3 & C4).
    assert (Ew : rebase_script (priority_leb (pa L (S k)) (pb L (S m))) (fst (eb L k (S m))) (marks (fst (ea L (S k) m)))
       = fst (eb L (S k) (S m))) by (rewrite E2; reflexivity).
    rewrite Ew, <- C1, <- C4. rewrite IH.
    + cbn [fst snd]. replace (S k + n) with (k + S n) by lia. reflexivity.
    + intros h Hh. specialize (V (S h) ltac:(lia)). now rewrite <- plus_n_Sm in V.
Qed.

(** [rebase] walks up the lattice from [(i, j)]. *)
Lemma rebase_ok L i0 i sess : lat_ok L -> i0 <= i -> i <= na L ->
  (forall k, 1 <= k <= na L -> snd (pa L k) = sess) ->
  forall ops j E e l r0, oprow (swap L) ops j i0 -> j + length ops <= nb L -> ca L i <= j ->
  cb L (j + length ops) <= i0 ->
  canonicals E -> flats E = coal None (rowm L i0 (i - i0) j) ->
  Inv e (fst (pt L i j)) 0 -> flat (deletes_from_union e) = snd (pt L i j) -> undone_groups e = [] ->
  session e = sess -> (forall h, 1 <= h <= nb L -> session_of (idb L h) <> sess) ->
  (forall h h', 1 <= h <= nb L -> 1 <= h' <= nb L -> idb L h = idb L h' -> h = h') ->
  revs e = r0 :: l -> path L l i j -> (forall h, j < h <= nb L -> ~ In (idb L h) (map r_id (revs e))) ->
  forall mx, max_undo_group_id e = Some mx ->
  exists news e', rebase E ops (text e) (tombstones e) (deletes_from_union e) mx =
      Some (news, text e', tombstones e', deletes_from_union e') /\
    revs e' = revs e ++ news /\ path L (l ++ news) i (j + length ops) /\ session e' = session e /\
    rev_id_counter e' = rev_id_counter e /\ undone_groups e' = [] /\
    Inv e' (fst (pt L i (j + length ops))) 0 /\ flat (deletes_from_union e') = snd (pt L i (j + length ops)).
Proof.
  intros HL Hi0 Hi Hsa ops. induction ops as [|o ops IH];
    intros j E e l r0 HO Hj Hca Hcb CE FE I FD HU HS HSb Hinj Hr HP Hfr mx Hmx.
  - exists [], e. cbn [rebase length]. rewrite !app_nil_r, Nat.add_0_r. destruct e; cbn in *. auto 10.
  - cbn [oprow] in HO. destruct HO as [(O1 & O2 & O3 & O4 & O5 & O6 & O7 & O8 & O9) HO].
    cbn [swap ida pa ga ea pt] in O1, O2, O3, O4, O6, O7, O9. cbn [length] in *.
    assert (VV : forall h q, i0 <= h -> h <= i -> j <= q -> q <= S j -> valid L h q).
    { intros h q H1 H2 H3 H4. unfold valid. pose proof (l_ca L HL h i). pose proof (l_cb L HL q (j + S (length ops))). lia. }
    assert (Vrow : forall h, h <= i - i0 -> valid L (i0 + h) j /\ valid L (i0 + h) (S j)).
    { intros h Hh. split; apply VV; lia. }
    pose proof (pushL_row L j HL (i - i0) i0 Vrow) as PR. replace (i0 + (i - i0)) with i in PR by lia.
    pose proof (rowm_chain L j HL (i - i0) i0 (fun h Hh => proj1 (Vrow h Hh))) as TC.
    pose proof (rowm_chain L (S j) HL (i - i0) i0 (fun h Hh => proj2 (Vrow h Hh))) as TC'.
    replace (i0 + (i - i0)) with i in * by lia.
    pose proof (rowm_sess L sess Hsa (i - i0) i0 j ltac:(lia)) as RS.
    destruct (eb_len L HL i0 j (VV i0 j ltac:(lia) ltac:(lia) ltac:(lia) ltac:(lia))
       (VV i0 (S j) ltac:(lia) ltac:(lia) ltac:(lia) ltac:(lia))) as (B1 & B2 & B3).
    assert (TCc : forall (R : list tr) n m, tchain n R m -> forall q N, length N = n -> tchain (zeros N) (coal (Some (q, N)) R) m).
    { clear. induction R as [|[q2 M] R IHR]; intros n m Ht q N HN; cbn [coal tchain] in *.
      - subst. auto.
      - destruct Ht as [Hz Ht]. destruct (all_zero M) eqn:Ez.
        + eapply IHR; eauto. rewrite (all_zero_repeat _ Ez), zeros_repeat in Hz. cbn in Hz. lia.
        + destruct (fst q =? fst q2).
          * assert (Q : length N = zeros M) by lia. rewrite <- (zeros_spread_true N M Q).
            eapply IHR; eauto. now rewrite spread_length.
          * cbn [tchain]. split; auto. rewrite HN, <- Hz. eapply IHR; eauto. }
    assert (TCn : forall (R : list tr) n m, tchain n R m -> tchain n (coal None R) m).
    { clear -TCc. induction R as [|[q2 M] R IHR]; intros n m Ht; cbn [coal tchain] in *; auto.
      destruct Ht as [Hz Ht]. destruct (all_zero M) eqn:Ez.
      - apply IHR. rewrite (all_zero_repeat _ Ez), zeros_repeat in Hz. cbn in Hz. rewrite <- Hz. auto.
      - rewrite <- Hz. eapply TCc; eauto. }
    destruct (expand_over_ok (op_priority o, session_of (op_id o)) E (op_inserts o) (op_deletes o)
       (length (fst (pt L i j))) CE O5) as (d' & dels' & E' & EE & W' & B' & Cd' & CE' & PE); auto.
    { rewrite O6, FE. now apply TCn. }
    { rewrite O9, O7. exact B3. }
    assert (Ep : (op_priority o, session_of (op_id o)) = pb L (S j)).
    { rewrite O2, <- O3. now destruct (pb L (S j)). }
    rewrite Ep, O7, O9, FE in PE.
    assert (Ht0 : tchain (keeps (fst (eb L i0 (S j)))) (rowm L i0 (i - i0) j) (length (fst (pt L i j)))).
    { rewrite B1. exact TC. }
    pose proof (pushL_coal0 sess (pb L (S j)) (rowm L i0 (i - i0) j) (fst (eb L i0 (S j))) (snd (eb L i0 (S j)))
       _ RS B3 Ht0) as PC. cbv zeta in PC. rewrite PR in PC. cbn [fst snd] in PC.
    unfold tr, full_priority in *.
    rewrite PC in PE. injection PE as Q1 Q2 Q3.
    assert (Vij : valid L i j) by (apply VV; lia). assert (Vij' : valid L i (S j)) by (apply VV; lia).
    destruct (l_eb L HL i j Vij Vij') as [Fi Ei].
    destruct (eb_len L HL i j Vij Vij') as (K1 & K2 & K3).
    destruct (push_inv e (fst (pt L i j)) 0 d' dels' (idb L (S j)) (fst (pb L (S j))) (gb L (S j)) mx)
      as (t_ins & txt & ins & exp & nd & nt & ntb & P1 & P2 & P3 & P4 & P5 & P6 & P7 & P8 & P9 & P10); auto.
    { rewrite <- Q2, <- Q1. exact K3. }
    { apply Hfr. lia. }
    { rewrite HS. apply HSb. lia. }
    rewrite <- Q1 in *. rewrite <- Q2, FD in P9. unfold act in Ei.
    match type of P10 with Inv ?x _ _ => set (e1 := x) in * end.
    destruct (IH (S j) E' e1 (l ++ [Rev (idb L (S j)) (Nat.max mx (gb L (S j))) (Edit (fst (pb L (S j))) (gb L (S j)) ins dels')]) r0)
      with (mx := Nat.max mx (gb L (S j))) as (news & e' & R1 & R2 & R3 & R4 & R5 & R6 & R7 & R8); auto; try lia.
    { replace (S j + length ops) with (j + S (length ops)) by lia. exact Hcb. }
    { rewrite Ei. cbn [fst]. exact P10. }
    { rewrite Ei. cbn [snd]. exact P9. }
    { unfold e1. cbn [revs]. rewrite Hr. reflexivity. }
    { apply path_b; auto. exists (Nat.max mx (gb L (S j))), ins, dels'. repeat split; auto.
      rewrite O3, O1. reflexivity. }
    { intros h Hh Hin. unfold e1 in Hin. cbn [revs] in Hin. rewrite map_app, in_app_iff in Hin.
      destruct Hin as [Hin|[Hin|[]]].
      - apply (Hfr h ltac:(lia) Hin).
      - cbn in Hin. apply Hinj in Hin; lia. }
    { unfold max_undo_group_id, e1, last_rev. cbn [revs]. rewrite rev_app_distr. reflexivity. }
    exists (Rev (idb L (S j)) (Nat.max mx (gb L (S j))) (Edit (fst (pb L (S j))) (gb L (S j)) ins dels') :: news), e'.
    cbn [rebase]. unfold full_priority in *. rewrite EE. cbn [bind fst snd]. rewrite P1. cbn [bind]. rewrite P2. cbn [bind].
    rewrite P3. cbn [bind]. rewrite P4. cbn [bind]. rewrite P5. cbn [bind]. rewrite P6. cbn [bind].
    rewrite O4. cbn [e1 text tombstones deletes_from_union] in R1. rewrite R1. cbn [bind]. rewrite O1, O2.
    replace (j + S (length ops)) with (S j + length ops) by lia.
    split; [reflexivity|]. split; [rewrite R2; unfold e1; cbn [revs]; now rewrite <- app_assoc|].
    split; [now rewrite <- app_assoc in R3|]. auto 10.
Qed.

(** ** Merging *)
Definition first_id : rev_id := RevId 0 0 0.
(** Engine [e] holds the first [k] edits of the first peer and the first [m] of the
    second. *)
Record at_point L e (k m : nat) : Prop := {
  p_inv : Inv e (fst (pt L k m)) 0;
  p_del : flat (deletes_from_union e) = snd (pt L k m);
  p_und : undone_groups e = [];
  p_revs : exists r0 l, revs e = r0 :: l /\ r_id r0 = first_id /\ path L l k m }.

Lemma at_point_swap L e k m : at_point L e k m -> at_point (swap L) e m k.
Proof.
  intros [H1 H2 H3 (r0 & l & H4 & H5 & H6)]. constructor; auto. exists r0, l. repeat split; auto. now apply path_swap.
Qed.

Lemma path_ids L l k m : path L l k m -> forall id, In id (map r_id l) <->
  (exists h, 1 <= h <= k /\ id = ida L h) \/ (exists h, 1 <= h <= m /\ id = idb L h).
Proof.
  induction 1 as [|l k m r P IH V R|l k m r P IH V R]; intros id.
  - cbn. split; [tauto|]. intros [(h & ? & ?)|(h & ? & ?)]; lia.
  - destruct R as (mx & ins & del & -> & _). rewrite map_app, in_app_iff, IH. cbn. split.
    + intros [[(h & ? & ?)|(h & ? & ?)]|[<-|[]]].
      * left. exists h. split; auto; lia.
      * right. exists h. auto.
      * left. exists (S k). split; auto; lia.
    + intros [(h & Hh & ->)|(h & ? & ?)].
      * destruct (Nat.eq_dec h (S k)) as [->|]; auto. left. left. exists h. split; auto; lia.
      * left. right. exists h. auto.
  - destruct R as (mx & ins & del & -> & _). rewrite map_app, in_app_iff, IH. cbn. split.
    + intros [[(h & ? & ?)|(h & ? & ?)]|[<-|[]]].
      * left. exists h. auto.
      * right. exists h. split; auto; lia.
      * right. exists (S m). split; auto; lia.
    + intros [(h & ? & ?)|(h & Hh & ->)].
      * left. left. exists h. auto.
      * destruct (Nat.eq_dec h (S m)) as [->|]; auto. left. right. exists h. split; auto; lia.
Qed.

Lemma NoDup_snoc {T} (l : list T) x : NoDup (l ++ [x]) -> NoDup l /\ ~ In x l.
Proof.
  intros H. apply NoDup_remove in H. rewrite app_nil_r in H. exact H.
Qed.

Lemma path_inj L l k m : path L l k m -> NoDup (map r_id l) ->
  forall h h', 1 <= h <= k -> 1 <= h' <= k -> ida L h = ida L h' -> h = h'.
Proof.
  intros P. induction P as [|l k m r P IH V R|l k m r P IH V R]; intros N h h' H1 H2 E; [lia| |].
  - rewrite map_app in N. apply NoDup_snoc in N as [N1 N2]. destruct R as (mx & ins & del & -> & _). cbn in N2.
    pose proof (path_ids L l k m P) as PI.
    destruct (Nat.eq_dec h (S k)), (Nat.eq_dec h' (S k)); subst; auto.
    + exfalso. apply N2. apply PI. left. exists h'. split; auto; lia.
    + exfalso. apply N2. apply PI. left. exists h. split; auto; lia.
    + apply (IH N1); auto; lia.
  - rewrite map_app in N. apply NoDup_snoc in N as [N1 N2]. apply (IH N1); auto; lia.
Qed.

(** The first peer's engine [a] and the second's [b] on one lattice: each holds all its
    own edits, [a] the first [j] of the second peer and [b] the first [i] of the first. *)
Record sys L (a b : engine A) (i j : nat) : Prop := {
  y_lat : lat_ok L;
  y_a : at_point L a (na L) j;
  y_b : at_point L b i (nb L);
  y_ne : session a <> session b;
  y_sa : forall k, 1 <= k <= na L -> snd (pa L k) = session a /\ session_of (ida L k) = session a;
  y_sb : forall k, 1 <= k <= nb L -> snd (pb L k) = session b /\ session_of (idb L k) = session b }.

Lemma sys_swap L a b i j : sys L a b i j -> sys (swap L) b a j i.
Proof.
  intros [H1 H2 H3 H4 H5 H6]. constructor; auto.
  - now apply swap_ok.
  - now apply at_point_swap.
  - now apply at_point_swap.
Qed.

Lemma bool_eq_iff (x y : bool) : (x = true <-> y = true) -> x = y.
Proof. destruct x, y; intuition congruence. Qed.

Theorem merge_ok L a b i j : sys L a b i j ->
  exists a', merge a b = Some a' /\ sys L a' b i (nb L) /\
    session a' = session a /\ rev_id_counter a' = rev_id_counter a /\
    exists news, revs a' = revs a ++ news.
Proof.
  intros [HL [Ia Da Ua (ra & la & Ra & Ra0 & Pa)] [Ib Db Ub (rb & lb & Rb & Rb0 & Pb)] Hne Hsa Hsb].
  pose proof (path_valid L _ _ _ HL Pa) as Va. pose proof (path_valid L _ _ _ HL Pb) as Vb.
  assert (Hi : i <= na L) by (unfold valid in Vb; lia). assert (Hj : j <= nb L) by (unfold valid in Va; lia).
  pose proof (path_ids L _ _ _ Pa) as Ja. pose proof (path_ids L _ _ _ Pb) as Jb.
  destruct (i_ids _ _ _ Ia) as [Na _]. destruct (i_ids _ _ _ Ib) as [Nb _].
  rewrite Ra in Na. rewrite Rb in Nb. cbn [map] in Na, Nb. apply NoDup_cons_iff in Na as [Na0 Na].
  apply NoDup_cons_iff in Nb as [Nb0 Nb].
  pose proof (path_inj L _ _ _ Pa Na) as Inja.
  pose proof (path_inj (swap L) _ _ _ (path_swap _ _ _ _ Pb) Nb) as Injb. cbn [swap ida] in Injb.
  assert (Hab : forall h h', 1 <= h <= na L -> 1 <= h' <= nb L -> ida L h <> idb L h').
  { intros h h' H1 H2 E. apply Hne. destruct (Hsa h H1) as [_ <-]. destruct (Hsb h' H2) as [_ <-]. now rewrite E. }
  assert (Hcom : forall id, has_id id (find_common la lb) = has_id id (map r_id la) && has_id id (map r_id lb)).
  { intros id. apply bool_eq_iff. rewrite andb_true_iff, !has_id_In. unfold find_common. rewrite filter_In, has_id_In. tauto. }
  assert (Ca : forall h, 1 <= h <= na L -> has_id (ida L h) (find_common la lb) = (h <=? i)).
  { intros h Hh. rewrite Hcom. apply bool_eq_iff. rewrite andb_true_iff, !has_id_In, Ja, Jb, Nat.leb_le. split.
    - intros [_ [(h' & H1 & H2)|(h' & H1 & H2)]].
      + apply Inja in H2; lia.
      + exfalso. revert H2. apply Hab; auto.
    - intros Hle. split; left; exists h; split; auto; lia. }
  assert (Cb : forall h, 1 <= h <= nb L -> has_id (idb L h) (find_common la lb) = (h <=? j)).
  { intros h Hh. rewrite Hcom. apply bool_eq_iff. rewrite andb_true_iff, !has_id_In, Ja, Jb, Nat.leb_le. split.
    - intros [[(h' & H1 & H2)|(h' & H1 & H2)] _].
      + exfalso. symmetry in H2. revert H2. apply Hab; auto.
      + apply Injb in H2; lia.
    - intros Hle. split; right; exists h; split; auto; lia. }
  unfold merge. rewrite Ra, Rb. cbn [find_base_index]. rewrite Ra0, Rb0.
  replace (rev_id_eqb first_id first_id) with true by (symmetry; now apply rev_id_eqb_eq). cbn [bind skipn].
  rewrite !subset_len_ok, (i_len _ _ _ Ia), (i_len _ _ _ Ib).
  destruct (rearrange_ok L (find_common la lb) i j la (na L) HL Pa) as (anew & -> & RA & LA); auto.
  { unfold valid in *. pose proof (l_cb L HL j (nb L)). lia. }
  { intros h Hh. rewrite Cb by (unfold valid in *; lia). apply Nat.leb_le. lia. }
  cbn [bind].
  destruct (rearrange_ok (swap L) (find_common la lb) j i lb (nb L) (swap_ok L HL) (path_swap _ _ _ _ Pb))
    as (bnew & EB & RB & LB); cbn [swap ida idb cb pt] in *; auto.
  { unfold valid in *. pose proof (l_ca L HL i (na L)). lia. }
  { intros h Hh. rewrite Ca by (unfold valid in *; lia). apply Nat.leb_le. lia. }
  rewrite EB. cbn [bind]. clear EB.
  destruct (compute_deltas_ok (swap L) i (deletes_from_union b) j bnew (swap_ok L HL) RB) as (ops & ED & RO & LO).
  { intros h Hh. rewrite valid_swap. unfold valid in *. pose proof (l_cb L HL (j + h) (nb L)).
    pose proof (l_ca L HL i (na L)). lia. }
  { apply (i_can _ _ _ Ib). }
  { rewrite LB. replace (j + (nb L - j)) with (nb L) by lia. cbn [swap pt]. apply (i_len _ _ _ Ib). }
  rewrite LB in ED. replace (j + (nb L - j)) with (nb L) in ED by lia. cbn [swap pt] in ED.
  rewrite (i_text _ _ _ Ib), (i_tomb _ _ _ Ib), ED. cbn [bind]. clear ED.
  assert (Vrow : forall h, h <= na L - i -> valid L (i + h) j).
  { intros h Hh. unfold valid in *. pose proof (l_cb L HL j (nb L)). pose proof (l_ca L HL (i + h) (na L)). lia. }
  destruct (transforms_loop_ok (session a) anew (rowm L i (na L - i) j)) with
    (n := length (fst (pt L i j))) (m := length (fst (pt L (i + (na L - i)) j)))
    as [_ (E & EE & CE & FE)].
  { rewrite <- LA. now apply row_trans. }
  { apply rowm_sess; [intros; now apply Hsa|lia]. }
  { apply rowm_chain; auto. }
  unfold compute_transforms. rewrite EE. cbn [bind].
  destruct (last_rev_ex (revs a) (i_ne _ _ _ Ia)) as (hr & El & _).
  assert (Em : max_undo_group_id a = Some (max_undo_so_far hr)) by (unfold max_undo_group_id; rewrite El; reflexivity).
  rewrite Em. cbn [bind].
  destruct (rebase_ok L i (na L) (session a) HL Hi (le_n _)) with (ops := ops) (j := j) (E := E) (e := a) (l := la)
    (r0 := ra) (mx := max_undo_so_far hr)
    as (news & a' & ER & R2 & R3 & R4 & R5 & R6 & R7 & R8); auto.
  { intros; now apply Hsa. }
  { rewrite LO, LB. lia. }
  { unfold valid in Va. lia. }
  { rewrite LO, LB. replace (j + (nb L - j)) with (nb L) by lia. unfold valid in Vb. lia. }
  { intros h Hh E1. apply Hne. rewrite <- E1. now apply Hsb. }
  { intros h Hh Hin. rewrite Ra in Hin. cbn [map] in Hin. destruct Hin as [Hin|Hin].
    - apply Nb0. rewrite Rb0, <- Ra0, Hin. apply Jb. right. exists h. split; auto; lia.
    - apply Ja in Hin as [(h' & H1 & H2)|(h' & H1 & H2)].
      + symmetry in H2. revert H2. apply Hab; auto. lia.
      + apply Injb in H2; lia. }
  rewrite ER. cbn [bind]. rewrite LO, LB in *. replace (j + (nb L - j)) with (nb L) in * by lia.
  exists a'. split.
  { f_equal. destruct a'. cbn in *. subst. now rewrite Ua, Ra. }
  split; [|split; [auto|split; [auto|exists news; congruence]]].
  constructor; auto; try (rewrite R4; auto).
  - constructor; auto. exists ra, (la ++ news). split; [rewrite R2, Ra; reflexivity|]. auto.
  - constructor; auto. exists rb, lb. auto.
Qed.
End Sys.
