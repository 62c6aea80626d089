(** A collected engine behaves as the uncollected one. *)
From Coq Require Import List Arith Bool Lia ZifyBool.
From Verif Require Import Base ListLib MultisetModel MultisetSpec MultisetProofs SpreadFacts
  DeltaModel DeltaSpec ExpandProofs SynthProofs DeltaProofs DeltaProofs2 RebaseFacts
  EngineModel EngineSpec EngineFacts EngineInv EngineGc EngineGc2 EngineHist.
Import ListNotations.

Lemma shrink_rebase_covered {A} D : forall (w : list (option A)) H, keeps w = zeros D -> length H = length D ->
  covers D H -> shrink_script (rebase_script true w D) H = rebase_script true w (kept H D).
Proof.
  induction D as [|k D IH]; intros w [|h H] H1 H2 Hc; cbn [length] in *; try lia.
  - cbn [rebase_script kept]. change (zeros []) with 0 in H1. destruct (keeps0_map w H1) as (s & ->).
    rewrite <- (app_nil_r (map Some s)), shrink_script_Some. reflexivity.
  - rewrite zeros_cons in H1. rewrite covers_cons in Hc. destruct Hc as [Hc0 Hc].
    destruct k; cbn [Nat.eqb Nat.add] in H1.
    + assert (h = 0) by lia. subst h. cbn [kept Nat.eqb rebase_script].
      destruct (span_spec w) as (s & r & -> & -> & [->|(r' & ->)]); rewrite keeps_app, keeps_Some in H1.
      * discriminate.
      * rewrite keeps_None in H1. rewrite shrink_script_Some. cbn [tl shrink_script Nat.eqb]. rewrite IH by (auto; lia). reflexivity.
    + cbn [rebase_script]. destruct h; cbn [shrink_script kept Nat.eqb rebase_script]; rewrite IH by (auto; lia); reflexivity.
Qed.

Lemma kept_spread_false D : forall x H, length x = zeros D -> length H = length D -> covers D H ->
  kept H (spread false x D) = spread false x (kept H D).
Proof.
  induction D as [|k D IH]; intros x [|h H] H1 H2 Hc; cbn [length] in *; try lia; auto.
  rewrite zeros_cons in H1. rewrite covers_cons in Hc. destruct Hc as [Hc0 Hc]. destruct k; cbn [Nat.eqb Nat.add] in H1.
  - assert (h = 0) by lia. subst h. destruct x as [|y x]; [discriminate|]. cbn in H1. cbn [spread kept Nat.eqb].
    rewrite IH by (auto; lia). reflexivity.
  - cbn [spread kept]. destruct h; cbn [Nat.eqb kept spread]; rewrite IH by (auto; lia); reflexivity.
Qed.

Lemma covers_spread b m : forall R H, length R = zeros m -> length H = zeros m -> covers R H ->
  covers (spread b R m) (spread false H m).
Proof.
  induction m as [|k m IH]; intros R H H1 H2 Hc; [constructor|]. rewrite zeros_cons in *.
  destruct k; cbn [Nat.eqb Nat.add] in *.
  - destruct R as [|x R], H as [|h H]; try discriminate. cbn in H1, H2. rewrite covers_cons in Hc.
    cbn [spread]. rewrite covers_cons. split; [tauto|]. apply IH; tauto || lia.
  - cbn [spread]. rewrite covers_cons. split; auto.
Qed.
Lemma covers_add a : forall b H, length b = length a -> length H = length a -> covers a H -> covers (zipw Nat.add a b) H.
Proof.
  induction a as [|x a IH]; intros [|y b] [|h H] H1 H2 Hc; cbn [length] in *; try lia; [constructor|].
  rewrite zipw_cons. rewrite covers_cons in *. split; [lia|]. apply IH; tauto || lia.
Qed.

Section Sim.
Context {A : Type} (tok : rev_id -> nat) (gs U0 : list nat).
Implicit Types (e : engine A) (u : list A).

Definition agree (V : list nat) : Prop := forall g, mem g gs = true -> mem g V = mem g U0.

Definition sim e1 e2 : Prop := exists u n1 n2 H, Inv e1 u n1 /\ Inv e2 (kept H u) n2 /\
  length H = length u /\ agree (undone_groups e1) /\ undone_groups e2 = undone_groups e1 /\
  session e2 = session e1 /\ rev_id_counter e2 = rev_id_counter e1 /\
  get_head_rev_id e2 = get_head_rev_id e1 /\
  forall V, agree V -> kept H (replay V (revs e1) (repeat 0 n1)) = replay V (revs e2) (repeat 0 n2) /\
    covers (replay V (revs e1) (repeat 0 n1)) H.

Lemma sim_text e1 e2 : sim e1 e2 -> text e2 = text e1.
Proof.
  intros (u & n1 & n2 & H & I1 & I2 & LH & Ha & Eu & _ & _ & _ & HV).
  destruct (HV _ Ha) as [K1 K2].
  rewrite (i_text _ _ _ I1), (i_text _ _ _ I2), (i_replay _ _ _ I2), Eu, <- K1, <- (i_replay _ _ _ I1).
  rewrite <- (i_replay _ _ _ I1) in K2. apply gc_text; auto. rewrite (i_len _ _ _ I1). auto.
Qed.

Lemma sim_undo e1 e2 G : sim e1 e2 -> agree G -> exists e1' e2',
  undo e1 G = Some e1' /\ undo e2 G = Some e2' /\ sim e1' e2'.
Proof.
  intros (u & n1 & n2 & H & I1 & I2 & LH & Ha & Eu & Es & Ec & Eh & HV) HG.
  destruct (undo_ok e1 u n1 G I1) as (e1' & R1 & J1 & D1 & U1 & S1 & C1 & mx1 & bx1 & Er1 & _).
  destruct (undo_ok e2 _ n2 G I2) as (e2' & R2 & J2 & D2 & U2 & S2 & C2 & mx2 & bx2 & Er2 & _).
  exists e1', e2'. split; [auto|]. split; [auto|]. exists u, n1, n2, H.
  split; [auto|]. split; [auto|]. split; [auto|]. split; [now rewrite U1|]. split; [congruence|].
  split; [congruence|]. split; [congruence|]. split.
  { unfold get_head_rev_id, last_rev. rewrite Er1, Er2, !rev_app_distr. cbn. f_equal.
    unfold next_rev_id. now rewrite Es, Ec. }
  intros V Hv. rewrite Er1, Er2, !replay_app. unfold replay at 1 3 5. cbn [fold_left]. unfold step. cbn [r_edit].
  apply HV; auto.
Qed.

Lemma edit_head_cases e u n0 id p g d : Inv e u n0 -> get_head_rev_id e = Some id -> wf_delta d ->
  let D := flat (deletes_from_union e) in
  if base_len d =? zeros D then
    let w := rebase_script true (ins_script 0 (els d) (base_len d)) D in
    let del := spread false (spread false (del_counts 0 (els d) (base_len d)) D) (marks w) in
    exists e' ins dels mx, try_edit_rev tok e p g (tok id) d = Some (e', Ok tt) /\
      Inv e' (fill w u) n0 /\ flat ins = marks w /\ flat dels = del /\ session e' = session e /\
      rev_id_counter e' = rev_id_counter e + 1 /\ undone_groups e' = undone_groups e /\
      revs e' = revs e ++ [Rev (next_rev_id e) mx (Edit p g ins dels)]
  else try_edit_rev tok e p g (tok id) d = Some (e, Err (MalformedDelta (zeros D) (base_len d))).
Proof.
  intros I Hh W D. destruct (head_index tok e id Hh) as (l & r & El & Er & Hf & _).
  destruct (counts_head e l r El) as [Hc Hs].
  pose proof (edit_ok tok e u n0 p g (tok id) d _ I W Hf) as H. cbv zeta in *. rewrite Hc, Hs in H. fold D in H.
  destruct (base_len d =? zeros D); auto. cbn [rb carry] in H.
  destruct H as (e' & ins & dels & H1 & H2 & H3 & Ci & Fi & Cd & Fd & Ld & H4 & H4' & H5 & H6 & mx & H7).
  exists e', ins, dels, mx. auto 10.
Qed.

Lemma sim_edit e1 e2 p g d : sim e1 e2 -> wf_delta d -> exists e1' e2',
  run_call tok e1 (EditHead p g d) = Some e1' /\ run_call tok e2 (EditHead p g d) = Some e2' /\ sim e1' e2'.
Proof.
  intros Hsim W. pose proof (sim_text _ _ Hsim) as Et.
  destruct Hsim as (u & n1 & n2 & H & I1 & I2 & LH & Ha & Eu & Es & Ec & Eh & HV).
  destruct (get_head_rev_id e1) as [id|] eqn:Eh1.
  2:{ unfold get_head_rev_id in Eh1. destruct (last_rev_ex (revs e1) (i_ne _ _ _ I1)) as (r & El & _). rewrite El in Eh1. discriminate. }
  cbn [run_call]. rewrite Eh1, Eh. cbn [bind].
  pose proof (edit_head_cases e1 u n1 id p g d I1 Eh1 W) as K1.
  pose proof (edit_head_cases e2 _ n2 id p g d I2 Eh W) as K2. cbv zeta in K1, K2.
  set (D1 := flat (deletes_from_union e1)) in *. set (D2 := flat (deletes_from_union e2)) in *.
  assert (LD1 : length D1 = length u) by apply I1.
  destruct (HV _ Ha) as [HD Hcov]. rewrite <- (i_replay _ _ _ I1) in HD, Hcov.
  rewrite <- Eu, <- (i_replay _ _ _ I2) in HD. fold D1 in HD, Hcov. fold D2 in HD.
  assert (Z : zeros D2 = zeros D1).
  { rewrite <- (kept_length D1 u) by auto. rewrite <- (kept_length D2 (kept H u)).
    - unfold D1, D2. rewrite <- (i_text _ _ _ I1), <- (i_text _ _ _ I2), Et. reflexivity.
    - apply I2. }
  rewrite Z in K2. destruct (base_len d =? zeros D1) eqn:Eb.
  2:{ rewrite K1, K2. cbn [bind fst]. exists e1, e2. split; [auto|]. split; [auto|].
      exists u, n1, n2, H. rewrite Eh1, Eh. auto 15. }
  apply Nat.eqb_eq in Eb.
  set (wi := ins_script 0 (els d) (base_len d)) in *. set (dc := del_counts 0 (els d) (base_len d)) in *.
  set (w1 := rebase_script true wi D1) in *. set (w2 := rebase_script true wi D2) in *.
  destruct K1 as (e1' & ins1 & dels1 & mx1 & R1 & J1 & F1 & G1 & S1 & C1 & U1 & Er1).
  destruct K2 as (e2' & ins2 & dels2 & mx2 & R2 & J2 & F2 & G2 & S2 & C2 & U2 & Er2).
  rewrite R1, R2. cbn [bind fst]. exists e1', e2'. split; [auto|]. split; [auto|].
  assert (Hki : keeps wi = zeros D1) by (unfold wi; rewrite ins_script_keeps by apply W; lia).
  assert (Hk : keeps w1 = length D1) by (apply keeps_rebase; auto).
  assert (Ldc : length dc = zeros D1) by (unfold dc; rewrite del_counts_length by apply W; lia).
  assert (Ew : w2 = shrink_script w1 H).
  { unfold w1, w2. rewrite <- HD. symmetry. apply shrink_rebase_covered; auto. lia. }
  set (H' := spread false H (marks w1)).
  assert (LH' : length H' = length (marks w1)) by (apply spread_length; rewrite zeros_marks; lia).
  assert (Em : kept H' (marks w1) = marks w2) by (rewrite Ew; apply marks_shrink; lia).
  exists (fill w1 u), n1, n2, H'. split; [auto|].
  split. { unfold H'. rewrite <- fill_shrink by lia. rewrite <- Ew. exact J2. }
  split. { rewrite LH', marks_length, fill_length; lia. }
  split; [now rewrite U1|]. split; [congruence|]. split; [congruence|]. split; [congruence|]. split.
  { unfold get_head_rev_id, last_rev. rewrite Er1, Er2, !rev_app_distr. cbn. f_equal.
    unfold next_rev_id. now rewrite Es, Ec. }
  intros V Hv. rewrite Er1, Er2, !replay_app. unfold replay at 1 3 5. cbn [fold_left]. unfold step. cbn [r_edit].
  destruct (HV V Hv) as [K1 K2]. rewrite <- K1. clear K1.
  assert (LR : length (replay V (revs e1) (repeat 0 n1)) = length u).
  { eapply replay_length; [apply I1|apply repeat_length]. }
  set (R := replay V (revs e1) (repeat 0 n1)) in *.
  rewrite F1, F2, G1, G2. 
  assert (Zm : zeros (marks w1) = length u) by (rewrite zeros_marks; lia).
  assert (Ks : forall b x, length x = length u -> kept H' (spread b x (marks w1)) = spread b (kept H x) (marks w2)).
  { intros b x Hx. unfold H'. rewrite kept_spread_comm by lia. fold H'. now rewrite Em. }
  assert (Lsp : length (spread false dc D1) = length u) by (rewrite spread_length; lia).
  destruct (mem g V).
  - split; [apply Ks; auto|]. apply covers_spread; auto; lia.
  - split.
    + rewrite kept_zipw; [|rewrite LH'; apply spread_length; lia..].
      rewrite !Ks by auto. rewrite kept_spread_false, HD by (auto; lia). reflexivity.
    + apply covers_add; [rewrite !spread_length; lia|rewrite LH', spread_length; lia|].
      apply covers_spread; auto; lia.
Qed.

Lemma agree_leaves G : (forall g, In g gs -> (In g G <-> In g U0)) -> agree G.
Proof.
  intros H g Hg. apply mem_In in Hg. specialize (H g Hg). rewrite <- !mem_In in H.
  destruct (mem g G), (mem g U0); auto; [symmetry|]; now apply H.
Qed.

Lemma sim_calls l : forall e1 e2, sim e1 e2 -> Forall (leaves gs U0) l -> exists e1' e2',
  run_calls tok e1 l = Some e1' /\ run_calls tok e2 l = Some e2' /\ sim e1' e2'.
Proof.
  induction l as [|c l IH]; intros e1 e2 Hs Hl.
  - exists e1, e2. auto.
  - inversion Hl as [|? ? Hc Hl']; subst. cbn [run_calls].
    assert (K : exists e1' e2', run_call tok e1 c = Some e1' /\ run_call tok e2 c = Some e2' /\ sim e1' e2').
    { destruct c as [p g d|G]; cbn [leaves] in Hc.
      - apply sim_edit; auto.
      - apply sim_undo; auto. now apply agree_leaves. }
    destruct K as (e1' & e2' & -> & -> & Hs'). cbn [bind]. apply IH; auto.
Qed.
End Sim.
