(** Garbage collection. *)
From Coq Require Import List Arith Bool Lia ZifyBool.
From Verif Require Import Base ListLib MultisetModel MultisetSpec MultisetProofs SpreadFacts
  DeltaModel DeltaSpec ExpandProofs SynthProofs DeltaProofs RebaseFacts
  EngineModel EngineSpec EngineFacts EngineInv.
Import ListNotations.

(** ** Count lists as subsets *)
Definition enc (c : list nat) : subset := fold_left (fun l k => segs_push l 1 k) c [].

Lemma enc_from c : forall s, canonical s -> canonical (fold_left (fun l k => segs_push l 1 k) c s) /\
  flat (fold_left (fun l k => segs_push l 1 k) c s) = flat s ++ c.
Proof.
  induction c as [|k c IH]; intros s Hs; cbn [fold_left].
  - now rewrite app_nil_r.
  - destruct (IH (segs_push s 1 k)) as [H1 H2]; [apply canonical_segs_push; auto|].
    split; auto. rewrite H2, flat_segs_push, <- app_assoc. reflexivity.
Qed.
Lemma enc_canonical c : canonical (enc c).
Proof. apply (enc_from c []). exact I. Qed.
Lemma flat_enc c : flat (enc c) = c.
Proof. apply (enc_from c []). exact I. Qed.
Lemma enc_eq s c : canonical s -> flat s = c -> s = enc c.
Proof. intros H <-. apply flat_inj; auto using enc_canonical. now rewrite flat_enc. Qed.
Opaque enc.

(** ** Restricting counts *)
(** Every marked position of [a] is marked in [b]. *)
Definition covers (b a : list nat) : Prop := Forall (fun p => fst p = 0 \/ snd p <> 0) (combine a b).

Lemma covers_cons x a y b : covers (y :: b) (x :: a) <-> (x = 0 \/ y <> 0) /\ covers b a.
Proof.
  unfold covers. cbn. split.
  - intros H. inversion H; subst. auto.
  - intros [? ?]. constructor; auto.
Qed.
Lemma covers_dominated a : forall b, dominated a b -> covers b a.
Proof.
  induction a as [|x a IH]; intros [|y b]; try constructor.
  - rewrite dominated_cons in H. cbn. lia.
  - rewrite dominated_cons in H. apply IH. tauto.
Qed.
Lemma covers_trans a : forall b c, length a = length b -> length b = length c ->
  covers b a -> covers c b -> covers c a.
Proof.
  induction a as [|x a IH]; intros [|y b] [|z c]; cbn [length]; try lia; intros H1 H2.
  - intros; constructor.
  - rewrite !covers_cons. intros [? ?] [? ?]. split; [lia|]. apply (IH b); auto.
Qed.

Lemma kept_spread_restrict b ins : forall c H, length c = zeros ins -> length H = length ins ->
  kept H (spread b c ins) = spread b (kept (kept ins H) c) (kept H ins).
Proof.
  induction ins as [|k ins IH]; intros c [|h H]; cbn [length]; intros H1 H2; try lia; auto.
  rewrite zeros_cons in H1. destruct k; cbn [Nat.eqb Nat.add] in H1.
  - destruct c as [|c0 c]; [discriminate|]. cbn in H1. cbn [spread kept Nat.eqb].
    destruct h; cbn [Nat.eqb kept spread]; rewrite IH by lia; reflexivity.
  - cbn [spread kept Nat.eqb]. destruct h; cbn [Nat.eqb kept spread]; rewrite IH by lia; reflexivity.
Qed.

Lemma kept_zipw f H : forall a b, length a = length H -> length b = length H ->
  kept H (zipw f a b) = zipw f (kept H a) (kept H b).
Proof.
  induction H as [|h H IH]; intros [|x a] [|y b] H1 H2; cbn in H1, H2; try lia; auto.
  rewrite zipw_cons. cbn [kept]. destruct (h =? 0); rewrite IH by lia; reflexivity.
Qed.

Lemma kept_zero H n : kept H (repeat 0 n) = repeat 0 (length (kept H (repeat 0 n))).
Proof.
  revert n; induction H as [|h H IH]; intros [|n]; cbn; auto.
  destruct (h =? 0); cbn; [f_equal|]; auto.
Qed.

(** Insertions that are all collected vanish. *)
Lemma kept_spread_gone b ins : forall c H, length c = zeros ins -> length H = length ins ->
  covers H ins -> kept H (spread b c ins) = kept (kept ins H) c.
Proof.
  induction ins as [|k ins IH]; intros c [|h H]; cbn [length]; intros H1 H2; try lia; auto.
  rewrite zeros_cons in H1. rewrite covers_cons. intros [H3 H4]. destruct k; cbn [Nat.eqb Nat.add] in H1.
  - destruct c as [|c0 c]; [discriminate|]. cbn in H1. cbn [spread kept Nat.eqb].
    rewrite IH by (auto; lia). reflexivity.
  - cbn [spread kept Nat.eqb]. destruct h; [lia|]. cbn [Nat.eqb kept]. apply IH; auto; lia.
Qed.

Lemma zeros_kept_covered ins : forall H, length H = length ins -> covers H ins ->
  zeros (kept ins H) = zeros H.
Proof.
  induction ins as [|k ins IH]; intros [|h H]; cbn [length]; intros H1; try lia; auto.
  rewrite covers_cons. intros [H3 H4]. cbn [kept]. rewrite zeros_cons.
  destruct k; cbn [Nat.eqb]; [rewrite zeros_cons|]; rewrite IH by (auto; lia); [reflexivity|].
  destruct h; [lia|reflexivity].
Qed.

Lemma kept_covered H : forall D, length D = length H -> covers H D -> kept H D = repeat 0 (zeros H).
Proof.
  induction H as [|h H IH]; intros [|x D]; cbn [length]; intros H1; try lia; auto.
  rewrite covers_cons. intros [H3 H4]. cbn [kept]. rewrite zeros_cons. destruct h; cbn [Nat.eqb].
  - cbn. rewrite IH by (auto; lia). f_equal. lia.
  - rewrite IH by (auto; lia). reflexivity.
Qed.

Lemma kept_add_covered H : forall a del, length a = length H -> length del = length H -> covers H del ->
  kept H (zipw Nat.add a del) = kept H a.
Proof.
  induction H as [|h H IH]; intros [|x a] [|y del]; cbn [length]; intros H1 H2; try lia; auto.
  rewrite covers_cons. intros [H3 H4]. rewrite zipw_cons. cbn [kept]. destruct h; cbn [Nat.eqb].
  - rewrite IH by (auto; lia). f_equal. lia.
  - apply IH; auto; lia.
Qed.

Lemma gc_text {B} H : forall D (u : list B), length D = length H -> length u = length H -> covers D H ->
  kept (kept H D) (kept H u) = kept D u.
Proof.
  induction H as [|h H IH]; intros [|x D] [|y u]; cbn [length]; intros H1 H2; try lia; auto.
  rewrite covers_cons. intros [H3 H4]. cbn [kept]. destruct h; cbn [Nat.eqb kept].
  - rewrite IH by (auto; lia). reflexivity.
  - destruct x; [lia|]. cbn. apply IH; auto; lia.
Qed.
Lemma gc_tomb {B} H : forall D (u : list B), length D = length H -> length u = length H -> covers D H ->
  kept (removed D H) (removed D u) = removed (kept H D) (kept H u).
Proof.
  induction H as [|h H IH]; intros [|x D] [|y u]; cbn [length]; intros H1 H2; try lia; auto.
  rewrite covers_cons. intros [H3 H4]. cbn [kept removed]. destruct x, h; cbn [Nat.eqb kept removed]; try lia.
  - apply IH; auto; lia.
  - rewrite IH by (auto; lia). reflexivity.
  - apply IH; auto; lia.
Qed.

Lemma dominated_spread b ins : forall c c', length c = zeros ins -> length c' = zeros ins ->
  dominated c c' -> dominated (spread b c ins) (spread b c' ins).
Proof.
  induction ins as [|k ins IH]; intros c c' H1 H2; [intros; constructor|].
  rewrite zeros_cons in *. destruct k; cbn [Nat.eqb Nat.add] in *.
  - destruct c as [|x c], c' as [|y c']; try discriminate. cbn in H1, H2. cbn [spread].
    rewrite !dominated_cons. intros [? ?]. split; auto.
  - intros. cbn [spread]. rewrite dominated_cons. split; auto.
Qed.
Lemma dominated_add_mono a : forall a' b, length a = length a' -> length b = length a ->
  dominated a a' -> dominated (zipw Nat.add a b) (zipw Nat.add a' b).
Proof.
  induction a as [|x a IH]; intros [|y a'] [|z b]; cbn [length]; intros H1 H2; try lia; [intros; constructor|].
  rewrite !zipw_cons, !dominated_cons. intros [? ?]. split; [lia|]. apply IH; auto.
Qed.
Lemma dominated_add_l a : forall b c, length a = length b -> length c = length b ->
  dominated a b -> dominated a (zipw Nat.add b c).
Proof.
  induction a as [|x a IH]; intros [|y a'] [|z b]; cbn [length]; intros H1 H2; try lia; [intros; constructor|].
  rewrite !zipw_cons, !dominated_cons. intros [? ?]. split; [lia|]. apply IH; auto.
Qed.
Lemma dominated_zero n a : dominated (repeat 0 n) a.
Proof. unfold dominated. revert a; induction n as [|n IH]; intros [|x a]; cbn; constructor; cbn; auto; lia. Qed.

(** ** What collection does to the counts *)
Section Gc.
Context (ret : revision -> bool) (gs U : list nat).

(** Is this edit collected? *)
Definition gcd (r : revision) : bool :=
  match r_edit r with Edit _ g _ _ => negb (ret r) && mem g gs | Undo _ _ => false end.

Definition gstep (c : list nat) (r : revision) : list nat :=
  match r_edit r with
  | Edit _ g ins del =>
      if gcd r then
        if mem g U then spread true c (flat ins)
        else zipw Nat.add (spread false c (flat ins)) (flat del)
      else spread false c (flat ins)
  | Undo _ _ => c
  end.

(** The collected characters of the union string before the revisions of [l], from
    those at its end. *)
Fixpoint hback (l : list revision) (H : list nat) : list nat :=
  match l with
  | [] => H
  | r :: l' =>
      match r_edit r with
      | Edit _ _ ins _ => kept (flat ins) (hback l' H)
      | Undo _ _ => hback l' H
      end
  end.

Fixpoint gcl (l : list revision) (H : list nat) : list revision :=
  match l with
  | [] => []
  | r :: l' =>
      let H1 := hback l' H in
      match r_edit r with
      | Edit p g ins del =>
          if ret r || negb (mem g gs) then
            Rev (r_id r) (max_undo_so_far r) (Edit p g (enc (kept H1 (flat ins))) (enc (kept H1 (flat del))))
              :: gcl l' H
          else gcl l' H
      | Undo tg bx =>
          if ret r then
            Rev (r_id r) (max_undo_so_far r) (Undo (set_minus tg gs) (enc (kept H1 (flat bx)))) :: gcl l' H
          else gcl l' H
      end
  end.

Lemma hback_app l1 l2 H : hback (l1 ++ l2) H = hback l1 (hback l2 H).
Proof. induction l1 as [|r l1 IH]; cbn; auto. now rewrite IH. Qed.
Lemma gcl_app l1 l2 H : gcl (l1 ++ l2) H = gcl l1 (hback l2 H) ++ gcl l2 H.
Proof.
  induction l1 as [|r l1 IH]; cbn [app gcl]; auto. rewrite IH, hback_app.
  destruct (r_edit r) as [p g ins del|tg bx]; [destruct (ret r || negb (mem g gs))|destruct (ret r)]; reflexivity.
Qed.

Lemma hback_length l : forall n m H, chain n l m -> length H = m -> length (hback l H) = n.
Proof.
  induction l as [|[id mx [p g ins del|tg bx]] l IH]; intros n m H Hc Hl; cbn [chain hback r_edit] in *.
  - lia.
  - destruct Hc as (I1 & I2 & I3 & I4 & I5). rewrite kept_length; auto. erewrite (IH _ _ _ I5); auto.
  - destruct Hc as (_ & _ & ?). eauto.
Qed.

Lemma gstep_length c r n m : chain n [r] m -> length c = n -> length (gstep c r) = m.
Proof.
  destruct r as [id mx [p g ins del|tg bx]]; cbn [chain r_edit]; unfold gstep; cbn [r_edit].
  - intros (_ & _ & H3 & H4 & H5) H. destruct (gcd _); [destruct (mem g U)|]; rewrite ?zipw_length; rewrite ?spread_length; lia.
  - intros (_ & _ & ->) H. auto.
Qed.

Definition gplay (l : list revision) (c : list nat) : list nat := fold_left gstep l c.
Arguments gplay : simpl never.
Lemma gplay_app l1 l2 c : gplay (l1 ++ l2) c = gplay l2 (gplay l1 c).
Proof. apply fold_left_app. Qed.
Lemma gplay_cons r l c : gplay (r :: l) c = gplay l (gstep c r).
Proof. reflexivity. Qed.
Lemma gplay_length l : forall n m c, chain n l m -> length c = n -> length (gplay l c) = m.
Proof.
  induction l as [|r l IH]; intros n m c Hc Hl.
  - cbn in Hc. unfold gplay. cbn [fold_left]. lia.
  - change (r :: l) with ([r] ++ l) in Hc. apply chain_app in Hc as (k & H1 & H2).
    rewrite gplay_cons. apply (IH k); auto. eapply gstep_length; eauto.
Qed.

(** What is collected so far is still collected at the end. *)
Lemma hback_dominates l : forall n m c, chain n l m -> length c = n ->
  dominated c (hback l (gplay l c)).
Proof.
  induction l as [|r l IH]; intros n m c Hc Hl.
  - apply dominated_refl.
  - change (r :: l) with ([r] ++ l) in Hc. apply chain_app in Hc as (k & H1 & H2).
    rewrite gplay_cons.
    assert (L1 : length (gstep c r) = k) by (eapply gstep_length; eauto).
    specialize (IH k m _ H2 L1).
    assert (Lh : length (hback l (gplay l (gstep c r))) = k).
    { eapply hback_length; eauto. eapply gplay_length; eauto. }
    destruct r as [id mx [p g ins del|tg bx]]; cbn [chain hback r_edit] in *; auto.
    destruct H1 as (I1 & I2 & I3 & I4 & I5).
    assert (E : dominated (spread false c (flat ins)) (gstep c (Rev id mx (Edit p g ins del)))).
    { unfold gstep. cbn [r_edit]. destruct (gcd _); [destruct (mem g U)|].
      - rewrite spread_true by lia. apply dominated_add_l; try (rewrite spread_length; lia); auto. apply dominated_refl.
      - apply dominated_add_l; try (rewrite spread_length; lia); auto. apply dominated_refl.
      - apply dominated_refl. }
    rewrite <- (kept_spread false c (flat ins)) at 1 by lia.
    apply dominated_kept; [rewrite spread_length; lia|lia|].
    eapply dominated_trans; [..|exact E|exact IH]; rewrite ?spread_length; lia.
Qed.

(** Every collected character is deleted under [U], and under any [V] that agrees with
    it on the collected groups. *)
Lemma gplay_dominated V l : (forall g, mem g gs = true -> mem g V = mem g U) ->
  forall n m c c', chain n l m -> length c = n -> length c' = n ->
  dominated c c' -> dominated (gplay l c) (replay V l c').
Proof.
  intros HV. induction l as [|r l IH]; intros n m c c' Hc L1 L2 Hd; auto.
  change (r :: l) with ([r] ++ l) in Hc. apply chain_app in Hc as (k & H1 & H2).
  rewrite gplay_cons, replay_cons. apply (IH k m); auto.
  - eapply gstep_length; eauto.
  - eapply step_length; eauto.
  - destruct r as [id mx [p g ins del|tg bx]]; unfold gstep, step; cbn [chain r_edit] in *; auto.
    destruct H1 as (I1 & I2 & I3 & I4 & I5).
    assert (E : dominated (spread false c (flat ins)) (spread false c' (flat ins))) by (apply dominated_spread; auto; lia).
    destruct (gcd _) eqn:Eg.
    + unfold gcd in Eg. cbn [r_edit] in Eg. apply andb_true_iff in Eg as [_ Eg]. rewrite (HV g Eg).
      destruct (mem g U).
      * apply dominated_spread; auto; lia.
      * apply dominated_add_mono; auto; rewrite ?spread_length; lia.
    + destruct (mem g V).
      * rewrite (spread_true c') by lia. apply dominated_add_l; auto; rewrite ?spread_length; lia.
      * apply dominated_add_l; auto; rewrite ?spread_length; lia.
Qed.

(** Conditions on the collected edits of [l]: their insertions are all collected, as
    are the deletions of those not undone. *)
Fixpoint gc_ok (l : list revision) (H : list nat) : Prop :=
  match l with
  | [] => True
  | r :: l' =>
      (if gcd r then
         match r_edit r with
         | Edit _ g ins del =>
             covers (hback l' H) (flat ins) /\ (mem g U = false -> covers (hback l' H) (flat del))
         | Undo _ _ => True
         end
       else True) /\ gc_ok l' H
  end.

Lemma gcd_split r : match r_edit r with
  | Edit p g ins del => ret r || negb (mem g gs) = negb (gcd r)
  | Undo _ _ => gcd r = false end.
Proof. unfold gcd. destruct (r_edit r); auto. now destruct (ret r), (mem undo_group gs). Qed.

Lemma gcl_chain l : forall n m H, chain n l m -> length H = m -> gc_ok l H ->
  chain (zeros (hback l H)) (gcl l H) (zeros H).
Proof.
  induction l as [|r l IH]; intros n m H Hc Hl Hg; [reflexivity|].
  pose proof (gcd_split r) as Hs.
  destruct r as [id mx [p g ins del|tg bx]]; cbn [chain hback gcl gc_ok r_edit r_id max_undo_so_far] in *.
  - destruct Hc as (I1 & I2 & I3 & I4 & I5), Hg as [G1 G2].
    assert (Lh : length (hback l H) = length (flat ins)) by (eapply hback_length; eauto).
    specialize (IH _ _ H I5 Hl G2). rewrite Hs. destruct (gcd _); cbn [negb].
    + rewrite zeros_kept_covered; tauto.
    + cbn [chain r_edit]. rewrite !flat_enc, !kept_length by lia. split; [apply enc_canonical|]. split; [apply enc_canonical|].
      split; [|auto]. clear - Lh. revert Lh. generalize (hback l H) (flat ins). clear.
      intros a b; revert a; induction b as [|y b IH]; intros [|x a]; cbn [length]; intros L; try lia; auto.
      cbn [kept]. destruct x, y; cbn [Nat.eqb kept]; rewrite ?zeros_cons; rewrite IH by lia; reflexivity.
  - destruct Hc as (I1 & I2 & I3), Hg as [G1 G2]. specialize (IH _ _ H I3 Hl G2).
    assert (Lh : length (hback l H) = n) by (eapply hback_length; eauto).
    destruct (ret _); auto. cbn [chain r_edit]. rewrite flat_enc, kept_length by lia. auto using enc_canonical.
Qed.

(** Replaying the remaining revisions gives the remaining counts. *)
Lemma gcl_replay V l : (forall g, mem g gs = true -> mem g V = mem g U) ->
  forall n m H c, chain n l m -> length H = m -> length c = n -> gc_ok l H ->
  kept H (replay V l c) = replay V (gcl l H) (kept (hback l H) c).
Proof.
  intros HV. induction l as [|r l IH]; intros n m H c Hc Hl Lc Hg; [reflexivity|].
  pose proof (gcd_split r) as Hs. rewrite replay_cons.
  assert (L1 : forall n', chain n [r] n' -> length (step V c r) = n') by (intros; eapply step_length; eauto).
  destruct r as [id mx [p g ins del|tg bx]]; cbn [chain hback gcl gc_ok r_edit r_id max_undo_so_far] in *.
  - destruct Hc as (I1 & I2 & I3 & I4 & I5), Hg as [G1 G2].
    assert (Lh : length (hback l H) = length (flat ins)) by (eapply hback_length; eauto).
    rewrite (IH _ _ H _ I5 Hl); [|apply L1; auto 10|auto]. rewrite Hs.
    unfold step. cbn [r_edit]. destruct (gcd _) eqn:Eg; cbn [negb].
    + f_equal. unfold gcd in Eg. cbn [r_edit] in Eg. apply andb_true_iff in Eg as [_ Eg].
      rewrite (HV g Eg). destruct G1 as [G1 G3]. destruct (mem g U).
      * apply kept_spread_gone; auto; lia.
      * rewrite kept_add_covered; auto; try (rewrite ?spread_length; lia).
        apply kept_spread_gone; auto; lia.
    + rewrite replay_cons. f_equal. unfold step. cbn [r_edit]. rewrite !flat_enc. destruct (mem g V).
      * apply kept_spread_restrict; lia.
      * rewrite kept_zipw by (rewrite ?spread_length; lia). f_equal. apply kept_spread_restrict; lia.
  - destruct Hc as (I1 & I2 & I3), Hg as [G1 G2]. unfold step. cbn [r_edit].
    rewrite (IH _ _ H _ I3 Hl); auto. destruct (ret _); auto.
Qed.

(** The same as a lower bound, for any undone set. *)
Lemma gcl_replay_le V l : forall n m H c c', chain n l m -> length H = m -> length c = n -> gc_ok l H ->
  length c' = zeros (hback l H) -> dominated c' (kept (hback l H) c) ->
  dominated (replay V (gcl l H) c') (kept H (replay V l c)).
Proof.
  induction l as [|r l IH]; intros n m H c c' Hc Hl Lc Hg Lc' Hd; auto.
  pose proof (gcd_split r) as Hs. rewrite replay_cons.
  assert (L1 : forall n', chain n [r] n' -> length (step V c r) = n') by (intros; eapply step_length; eauto).
  destruct r as [id mx [p g ins del|tg bx]]; cbn [chain hback gcl gc_ok r_edit r_id max_undo_so_far] in *.
  - destruct Hc as (I1 & I2 & I3 & I4 & I5), Hg as [G1 G2].
    assert (Lh : length (hback l H) = length (flat ins)) by (eapply hback_length; eauto).
    rewrite Hs. unfold step. cbn [r_edit].
    destruct (gcd _) eqn:Eg; cbn [negb].
    + destruct G1 as [G1 G3]. rewrite zeros_kept_covered in Lc' by auto.
      eapply IH; eauto.
      { destruct (mem g V); rewrite ?zipw_length; rewrite ?spread_length; lia. }
      destruct (mem g V).
      * rewrite kept_spread_gone; auto; lia.
      * rewrite kept_zipw by (rewrite ?spread_length; lia). rewrite kept_spread_gone by (auto; lia).
        apply dominated_add_l; auto; rewrite ?kept_length; try lia.
        all: rewrite ?kept_length; rewrite ?zeros_kept_covered; auto; lia.
    + rewrite replay_cons. unfold step at 1. cbn [r_edit]. rewrite !flat_enc.
      assert (Z : zeros (kept (hback l H) (flat ins)) = zeros (kept (flat ins) (hback l H))).
      { clear - Lh. revert Lh. generalize (hback l H) (flat ins). clear.
        intros a b; revert a; induction b as [|y b IH]; intros [|x a]; cbn [length]; intros L; try lia; auto.
        cbn [kept]. destruct x, y; cbn [Nat.eqb kept]; rewrite ?zeros_cons; rewrite IH by lia; reflexivity. }
      assert (Lk : length (kept (kept (flat ins) (hback l H)) c) = zeros (kept (flat ins) (hback l H))).
      { rewrite kept_length; auto. rewrite kept_length; lia. }
      eapply IH; eauto.
      { destruct (mem g V); rewrite ?zipw_length; rewrite ?spread_length; lia. }
      { destruct (mem g V); rewrite ?zipw_length; rewrite ?spread_length, ?kept_length; rewrite ?kept_length; try lia. }
      destruct (mem g V).
      * rewrite kept_spread_restrict by lia. apply dominated_spread; auto; lia.
      * rewrite kept_zipw by (rewrite ?spread_length; lia). rewrite kept_spread_restrict by lia.
        assert (Q1 : length (spread false c' (kept (hback l H) (flat ins))) = length (kept (hback l H) (flat ins))) by (apply spread_length; lia).
        assert (Q2 : length (spread false (kept (kept (flat ins) (hback l H)) c) (kept (hback l H) (flat ins))) = length (kept (hback l H) (flat ins))) by (apply spread_length; lia).
        assert (Q3 : length (kept (hback l H) (flat del)) = length (kept (hback l H) (flat ins))) by (rewrite !kept_length; lia).
        apply dominated_add_mono; [lia|lia|].
        apply dominated_spread; auto; lia.
  - destruct Hc as (I1 & I2 & I3), Hg as [G1 G2]. unfold step. cbn [r_edit].
    destruct (ret _); eapply IH; eauto.
Qed.

(** Prefix of collected edits: nothing of it remains deleted. *)
Lemma clean_prefix V l : (forall g, mem g gs = true -> mem g V = mem g U) ->
  (forall r, In r l -> match r_edit r with Edit _ _ _ _ => gcd r = true | Undo _ _ => True end) ->
  forall c, replay V l c = gplay l c.
Proof.
  intros HV. induction l as [|r l IH]; intros Hg c; auto. rewrite replay_cons, gplay_cons.
  rewrite IH by (intros; apply Hg; now right). f_equal. specialize (Hg r (or_introl eq_refl)).
  unfold step, gstep. destruct (r_edit r) eqn:E; auto. rewrite Hg.
  unfold gcd in Hg. rewrite E in Hg. apply andb_true_iff in Hg as [_ Hg]. now rewrite HV.
Qed.
Lemma clean_prefix_gcl l H :
  (forall r, In r l -> match r_edit r with Edit _ _ _ _ => gcd r = true | Undo _ _ => ret r = false end) ->
  gcl l H = [].
Proof.
  induction l as [|r l IH]; intros Hg; auto. cbn [gcl]. rewrite IH by (intros; apply Hg; now right).
  pose proof (gcd_split r) as Hs. specialize (Hg r (or_introl eq_refl)).
  destruct (r_edit r).
  - rewrite Hs, Hg. reflexivity.
  - now rewrite Hg.
Qed.

Lemma covers_self c ins : length c = zeros ins -> covers (spread true c ins) ins.
Proof.
  revert c; induction ins as [|k ins IH]; intros c H; [constructor|]. rewrite zeros_cons in H.
  destruct k; cbn [Nat.eqb Nat.add] in H.
  - destruct c as [|x c]; [discriminate|]. cbn in H. cbn [spread]. rewrite covers_cons. split; auto.
  - cbn [spread]. rewrite covers_cons. split; [lia|auto].
Qed.
Lemma covers_repeat0 H n : covers H (repeat 0 n).
Proof. unfold covers. revert H; induction n as [|n IH]; intros [|h H]; cbn; constructor; cbn; auto. Qed.

Lemma gc_ok_of l : forall n m c, chain n l m -> length c = n ->
  (forall r, In r l -> gcd r = true ->
     match r_edit r with Edit _ g ins _ => mem g U = true \/ is_empty ins = true | Undo _ _ => True end) ->
  gc_ok l (gplay l c).
Proof.
  induction l as [|r l IH]; intros n m c Hc Hl Hg; [exact I|].
  change (r :: l) with ([r] ++ l) in Hc. apply chain_app in Hc as (k & H1 & H2).
  rewrite gplay_cons.
  assert (L1 : length (gstep c r) = k) by (eapply gstep_length; eauto).
  assert (Lh : length (hback l (gplay l (gstep c r))) = k).
  { eapply hback_length; eauto. eapply gplay_length; eauto. }
  pose proof (hback_dominates l k m _ H2 L1) as Hd.
  cbn [gc_ok]. split; [|apply (IH k m); auto; intros; apply Hg; auto; now right].
  specialize (Hg r (or_introl eq_refl)). destruct (gcd r) eqn:Eg; auto. specialize (Hg eq_refl).
  destruct r as [id mx [p g ins del|tg bx]]; cbn [r_edit chain] in *; auto.
  destruct H1 as (I1 & I2 & I3 & I4 & I5).
  apply covers_dominated in Hd. revert Hd. unfold gstep in L1, Lh |- *. cbn [r_edit] in *. rewrite Eg in *. intros Hd.
  destruct (mem g U) eqn:Em.
  - split; [|discriminate]. eapply covers_trans; [| |apply covers_self|exact Hd]; rewrite ?spread_length; lia.
  - destruct Hg as [Hg|Hg]; [discriminate|]. split.
    + rewrite (is_empty_repeat ins I1 Hg). apply covers_repeat0.
    + intros _. eapply covers_trans; [| |apply covers_dominated, dominated_add|exact Hd];
        rewrite ?zipw_length; rewrite ?spread_length; lia.
Qed.

(** Where the collected prefix ends. *)
Lemma prefix_split l : exists l1 l2, l = l1 ++ l2 /\
  (forall r, In r l1 -> match r_edit r with Edit _ _ _ _ => gcd r = true | Undo _ _ => ret r = false end) /\
  match l2 with
  | [] => True
  | r :: _ => match r_edit r with Edit _ _ _ _ => gcd r = false | Undo _ _ => ret r = true end
  end.
Proof.
  induction l as [|r l (l1 & l2 & -> & H1 & H2)].
  - exists [], []. repeat split; auto. intros r [].
  - destruct (match r_edit r with Edit _ _ _ _ => gcd r | Undo _ _ => negb (ret r) end) eqn:E.
    + exists (r :: l1), l2. split; [reflexivity|]. split; [|auto]. intros r' [<-|Hr]; [|exact (H1 _ Hr)].
      destruct (r_edit r); auto. now apply negb_true_iff.
    + exists [], (r :: l1 ++ l2). split; [reflexivity|]. split; [intros r' []|].
      destruct (r_edit r); auto. now apply negb_false_iff.
Qed.

Lemma max_ok_mono l : forall lo lo', lo' <= lo -> max_ok lo l -> max_ok lo' l.
Proof. destruct l; cbn; auto. intros lo lo' H (? & ? & ?). repeat split; auto. lia. Qed.
Lemma max_ok_gcl l : forall lo H, max_ok lo l -> max_ok lo (gcl l H).
Proof.
  induction l as [|r l IH]; intros lo H Hm; cbn [gcl]; auto. destruct Hm as (H1 & H2 & H3). pose proof H2 as H2'.
  pose proof (fun lo' (Q : lo' <= max_undo_so_far r) => max_ok_mono _ _ _ Q (IH _ H H3)) as J.
  unfold has_group in H2. destruct (r_edit r) as [p g ins del|tg bx].
  - destruct (ret r || negb (mem g gs)); [|auto]. cbn [max_ok max_undo_so_far has_group r_edit]. repeat split; auto.
  - destruct (ret r); [|auto]. cbn [max_ok max_undo_so_far has_group r_edit]. repeat split; auto; discriminate.
Qed.
Lemma ids_gcl l : forall H r, In r (gcl l H) -> In (r_id r) (map r_id l).
Proof.
  induction l as [|r l IH]; intros H r'; cbn [gcl map]; auto.
  destruct (r_edit r) as [p g ins del|tg bx]; [destruct (ret r || negb (mem g gs))|destruct (ret r)];
    cbn [In]; intros Hr; try (destruct Hr as [<-|Hr]; [now left|]); right; eauto.
Qed.
Lemma NoDup_gcl l : forall H, NoDup (map r_id l) -> NoDup (map r_id (gcl l H)).
Proof.
  induction l as [|r l IH]; intros H Hn; cbn [gcl]; auto. cbn [map] in Hn. inversion Hn; subst.
  assert (Q : ~ In (r_id r) (map r_id (gcl l H))).
  { intros Hi. apply in_map_iff in Hi as (r' & E & Hr). apply ids_gcl in Hr. congruence. }
  destruct (r_edit r) as [p g ins del|tg bx]; [destruct (ret r || negb (mem g gs))|destruct (ret r)];
    auto; cbn [map r_id]; constructor; auto.
Qed.
End Gc.

(** ** The code *)
Definition is_rev (id : rev_id) (r : revision) : bool := rev_id_eqb (r_id r) id.

Section GcCode.
Context (last : rev_id) (gs U : list nat).
Local Notation ret := (is_rev last).

Lemma gc_loop_ok l : forall D n m, canonical D -> length (flat D) = n -> chain n l m ->
  exists D', gc_loop l last gs U D = Some D' /\ canonical D' /\ flat D' = gplay ret gs U l (flat D).
Proof.
  induction l as [|[id mx [p g ins del|tg bx]] l IH]; intros D n m HD Hl Hc; cbn [gc_loop chain r_edit r_id] in *.
  - exists D. auto.
  - destruct Hc as (I1 & I2 & I3 & I4 & I5). rewrite gplay_cons. unfold gstep. cbn [r_edit].
    unfold gcd. cbn [r_edit].
    change (ret (Rev id mx (Edit p g ins del))) with (rev_id_eqb id last).
    assert (Ex : exists D1, (if is_empty ins then Some D else transform_expand D ins) = Some D1 /\
            canonical D1 /\ flat D1 = spread false (flat D) (flat ins)).
    { destruct (is_empty ins) eqn:Ei.
      - exists D. rewrite spread_empty_ins by (auto; lia). auto.
      - apply transform_expand_ok; auto. lia. }
    destruct Ex as (D1 & Ex & C1 & F1). rewrite Ex.
    assert (L1 : length (flat D1) = length (flat ins)) by (rewrite F1; apply spread_length; lia).
    destruct (negb (rev_id_eqb id last) && mem g gs); cbn [bind].
    + destruct (mem g U).
      * assert (Ey : exists D2, (if is_empty ins then Some D else transform_union D ins) = Some D2 /\
            canonical D2 /\ flat D2 = spread true (flat D) (flat ins)).
        { destruct (is_empty ins) eqn:Ei.
          - exists D. rewrite spread_empty_ins by (auto; lia). auto.
          - apply transform_union_ok; auto. lia. }
        destruct Ey as (D2 & -> & C2 & F2). cbn [bind]. rewrite <- F2. apply (IH _ (length (flat ins)) m); auto.
        rewrite F2. apply spread_length. lia.
      * cbn [bind]. rewrite <- F1. destruct (is_empty del) eqn:Ed; cbn [bind].
        -- rewrite add_empty_del by (auto; lia). eapply IH; eauto.
        -- destruct (union_ok D1 del C1 I2) as (D2 & -> & C2 & F2); [lia|]. cbn [bind].
           rewrite <- F2. apply (IH _ (length (flat ins)) m); auto. rewrite F2, zipw_length; lia.
    + rewrite <- F1. eapply IH; eauto.
  - destruct Hc as (I1 & I2 & I3). cbn [bind]. rewrite gplay_cons. unfold gstep at 1. cbn [r_edit]. eauto.
Qed.

Lemma gc_revs_ok l : forall D n m out, canonical D -> length (flat D) = m -> chain n l m ->
  gc_revs (rev l) last gs D out = Some (gcl ret gs l (flat D) ++ out).
Proof.
  induction l as [|r l IH] using rev_ind; intros D n m out HD Hl Hc; [reflexivity|].
  rewrite rev_app_distr. cbn [rev app gc_revs]. rewrite gcl_app. cbn [gcl hback].
  apply chain_app in Hc as (k & H1 & H2).
  destruct r as [id mx [p g ins del|tg bx]]; cbn [chain r_edit r_id max_undo_so_far] in *.
  - destruct H2 as (I1 & I2 & I3 & I4 & I5).
    assert (Ex : exists D1, (if is_empty ins then Some D else transform_shrink D ins) = Some D1 /\
            canonical D1 /\ flat D1 = kept (flat ins) (flat D)).
    { destruct (is_empty ins) eqn:Ei.
      - exists D. rewrite kept_empty by (auto; lia). auto.
      - apply transform_shrink_ok; auto. lia. }
    destruct Ex as (D1 & -> & C1 & F1). cbn [bind].
    assert (L1 : length (flat D1) = k) by (rewrite F1, kept_length; lia).
    change (ret (Rev id mx (Edit p g ins del))) with (rev_id_eqb id last). rewrite <- F1. destruct (rev_id_eqb id last || negb (mem g gs)).
    + assert (Ey : (if is_empty D then Some (ins, del)
               else let? i := transform_shrink ins D in let? x := transform_shrink del D in Some (i, x)) =
            Some (enc (kept (flat D) (flat ins)), enc (kept (flat D) (flat del)))).
      { destruct (is_empty D) eqn:Ei.
        - rewrite !kept_empty by (auto; lia). f_equal. f_equal; apply enc_eq; auto.
        - destruct (transform_shrink_ok ins D I1 HD) as (i & -> & Ci & Fi); [lia|]. cbn [bind].
          destruct (transform_shrink_ok del D I2 HD) as (x & -> & Cx & Fx); [lia|]. cbn [bind].
          f_equal. f_equal; apply enc_eq; auto. }
      rewrite Ey. cbn [bind]. rewrite (IH D1 n k) by auto. rewrite <- app_assoc. reflexivity.
    + rewrite (IH D1 n k) by auto. now rewrite app_nil_r.
  - destruct H2 as (I1 & I2 & I3). 
    change (ret (Rev id mx (Undo tg bx))) with (rev_id_eqb id last). destruct (rev_id_eqb id last).
    + assert (Ey : (if is_empty D then Some bx else transform_shrink bx D) = Some (enc (kept (flat D) (flat bx)))).
      { destruct (is_empty D) eqn:Ei.
        - rewrite !kept_empty by (auto; lia). f_equal. apply enc_eq; auto.
        - destruct (transform_shrink_ok bx D I1 HD) as (i & -> & Ci & Fi); [lia|]. f_equal. apply enc_eq; auto. }
      rewrite Ey. cbn [bind]. rewrite (IH D n k) by (auto; lia). rewrite <- app_assoc. reflexivity.
    + rewrite (IH D n k) by (auto; lia). now rewrite app_nil_r.
Qed.
End GcCode.

Lemma hist_edits n0 U l : forall m c, chain n0 l m -> length c = m ->
  (forall r, In r l -> match r_edit r with Edit _ _ _ _ => True | Undo _ _ => False end) ->
  dominated (replay U l (repeat 0 n0)) c -> hist n0 (rev l) (c, U).
Proof.
  induction l as [|r l IH] using rev_ind; intros m c Hc Hl He Hd.
  - cbn. auto.
  - rewrite rev_app_distr. cbn [rev app hist fst snd]. rewrite rev_involutive. split; auto.
    apply chain_app in Hc as (k & H1 & H2). rewrite replay_app in Hd.
    assert (Lk : length (replay U l (repeat 0 n0)) = k) by (eapply replay_length; eauto; apply repeat_length).
    assert (He' : forall r0, In r0 l -> match r_edit r0 with Edit _ _ _ _ => True | Undo _ _ => False end).
    { intros; apply He. apply in_or_app. auto. }
    specialize (He r). rewrite in_app_iff in He. specialize (He (or_intror (or_introl eq_refl))).
    unfold replay in Hd at 1. cbn [fold_left] in Hd.
    destruct r as [id mx [p g ins del|tg bx]]; cbn [r_edit] in He; [|easy].
    cbn [chain r_edit] in H2. destruct H2 as (I1 & I2 & I3 & I4 & I5).
    unfold unstep. cbn [r_edit fst snd]. unfold step in Hd. cbn [r_edit] in Hd.
    destruct (mem g U).
    + apply (IH k); auto; [rewrite kept_length; lia|].
      apply (dominated_kept (flat ins)) in Hd; [|rewrite spread_length; lia|lia].
      rewrite kept_spread in Hd by lia. auto.
    + apply (IH k); auto; [rewrite kept_length; [lia|rewrite zipw_length; lia]|].
      apply dominated_sub in Hd; [|rewrite spread_length; lia|lia].
      apply (dominated_kept (flat ins)) in Hd; [|rewrite spread_length; lia|rewrite zipw_length; lia].
      rewrite kept_spread in Hd by lia. auto.
Qed.
