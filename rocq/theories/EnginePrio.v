(** The order of concurrent insertions at one place. *)
From Coq Require Import List Arith Bool Lia ZifyBool.
From Verif Require Import Base ListLib MultisetModel MultisetSpec MultisetProofs SpreadFacts
  DeltaModel DeltaSpec ExpandProofs SynthProofs DeltaProofs DeltaProofs2 RebaseFacts
  EngineModel EngineSpec EngineFacts EngineInv EngineGc EngineGc2 EngineHist EngineConc.
Import ListNotations.

Section Prio.
Context {A : Type} (tok : rev_id -> nat).
Implicit Types (e : engine A) (u s : list A).

Definition sc (k : nat) s (m : nat) : list (option A) := repeat None k ++ map Some s ++ repeat None m.

Lemma span_none (w : list (option A)) : span (None :: w) = ([], None :: w).
Proof. reflexivity. Qed.
Lemma rebase_none D : rebase_script true (repeat (@None A) (zeros D)) D = repeat None (length D).
Proof.
  induction D as [|k D IH]; auto. rewrite zeros_cons. destruct k; cbn [Nat.eqb Nat.add rebase_script repeat length].
  - rewrite span_none. cbn [app tl]. now rewrite IH.
  - now rewrite IH.
Qed.
Lemma span_Some s m : span (map Some s ++ repeat (@None A) m) = (map Some s, repeat None m).
Proof.
  induction s as [|x s IH]; cbn [map app].
  - destruct m; reflexivity.
  - cbn [span]. rewrite IH. reflexivity.
Qed.
Lemma rebase_sc D : forall i, i <= zeros D -> exists k, k <= length D /\ zeros (firstn k D) = i /\
  forall s, rebase_script true (sc i s (zeros D - i)) D = sc k s (length D - k).
Proof.
  induction D as [|x D IH]; intros i Hi.
  - cbn in Hi. exists 0. split; [auto|]. split; [cbn; lia|]. intros s. assert (i = 0) as -> by lia. reflexivity.
  - rewrite zeros_cons in *. destruct x; cbn [Nat.eqb Nat.add] in *.
    + destruct i as [|i].
      * exists 0. split; [lia|]. split; [reflexivity|]. intros s. rewrite !Nat.sub_0_r. unfold sc. cbn [repeat app rebase_script length].
        change (map Some s ++ None :: repeat None (zeros D)) with (map Some s ++ repeat (@None A) (S (zeros D))).
        rewrite span_Some. cbn [repeat tl]. now rewrite rebase_none.
      * destruct (IH i ltac:(lia)) as (k & K1 & K2 & K3). exists (S k). split; [cbn; lia|].
        split; [cbn [firstn]; rewrite zeros_cons; cbn; lia|]. intros s. specialize (K3 s). unfold sc in *.
        cbn [repeat app rebase_script Nat.sub length]. rewrite span_none. cbn [app tl]. now rewrite K3.
    + destruct (IH i ltac:(lia)) as (k & K1 & K2 & K3). exists (S k). split; [cbn; lia|].
      split; [cbn [firstn]; rewrite zeros_cons; cbn; lia|]. intros s. specialize (K3 s). unfold sc in *.
      cbn [rebase_script length Nat.sub]. rewrite K3. reflexivity.
Qed.
Lemma rebase_sc2 after s1 s2 k m :
  rebase_script after (sc k s2 m) (repeat 0 k ++ repeat 1 (length s1) ++ repeat 0 m) =
  if after then sc (k + length s1) s2 m else sc k s2 (length s1 + m).
Proof.
  assert (K0 : forall n, rebase_script after (repeat (@None A) n) (repeat 0 n) = repeat None n).
  { induction n; cbn [repeat rebase_script]; auto. rewrite span_none. cbn [app tl]. now rewrite IHn. }
  assert (K1 : forall s n, rebase_script after (map Some s ++ repeat (@None A) n) (repeat 0 n) = map Some s ++ repeat None n).
  { intros s [|n]; [cbn; auto|]. cbn [repeat rebase_script]. 
    change (map Some s ++ None :: repeat None n) with (map Some s ++ repeat (@None A) (S n)). rewrite span_Some. cbn [repeat tl]. now rewrite K0. }
  unfold sc. induction k as [|k IH].
  - cbn [repeat app Nat.add]. induction s1 as [|x s1 IH1]; cbn [length repeat app].
    + rewrite K1. destruct after; reflexivity.
    + cbn [rebase_script]. destruct after.
      * cbn [app]. rewrite IH1. reflexivity.
      * rewrite span_Some. cbn [Nat.add repeat]. f_equal. f_equal. clear IH1.
        induction s1 as [|y s1 IH1]; cbn [length repeat app Nat.add]; [apply K0|].
        cbn [rebase_script]. destruct m; cbn [repeat]; [|rewrite span_none]; cbn [span app]; f_equal; apply IH1.
  - cbn [repeat app rebase_script]. rewrite span_none. cbn [app tl]. rewrite IH. destruct after; reflexivity.
Qed.

Lemma marks_sc k s m : marks (sc k s m) = repeat 0 k ++ repeat 1 (length s) ++ repeat 0 m.
Proof.
  unfold marks, sc. rewrite !map_app, !map_repeat, map_map. f_equal. f_equal.
  induction s; cbn; auto. now f_equal.
Qed.
Lemma fill_sc k s u : k <= length u -> fill (sc k s (length u - k)) u = firstn k u ++ s ++ skipn k u.
Proof.
  intros H. unfold sc. rewrite <- (firstn_skipn k u) at 2.
  rewrite fill_app by (rewrite keeps_repeat, firstn_length; lia).
  rewrite fill_repeat by (rewrite firstn_length; lia). rewrite fill_Some_app, fill_repeat; auto. rewrite skipn_length. lia.
Qed.
Lemma spread_sc k (s : list A) D : k <= length D ->
  spread false D (repeat 0 k ++ repeat 1 (length s) ++ repeat 0 (length D - k)) =
  firstn k D ++ repeat 0 (length s) ++ skipn k D.
Proof.
  intros H. rewrite <- (firstn_skipn k D) at 1.
  rewrite spread_app by (rewrite zeros_repeat, firstn_length; cbn; lia).
  rewrite spread_all_zero by (rewrite firstn_length; lia). f_equal.
  change (skipn k D) with ([] ++ skipn k D) at 1. rewrite spread_app by (rewrite zeros_repeat; reflexivity).
  rewrite spread_all_zero by (rewrite skipn_length; lia). f_equal.
  induction (length s); cbn; auto. now f_equal.
Qed.
Lemma spread_zero n m : n = zeros m -> spread false (repeat 0 n) m = repeat 0 (length m).
Proof.
  intros ->. induction m as [|k m IH]; auto. rewrite zeros_cons. destruct k; cbn [Nat.eqb Nat.add repeat spread length]; now rewrite IH.
Qed.
Lemma kept_firstn D : forall k u, length D = length u -> kept (firstn k D) (firstn k u) = firstn (zeros (firstn k D)) (kept D u) /\
  kept (skipn k D) (skipn k u) = skipn (zeros (firstn k D)) (kept D u).
Proof.
  induction D as [|x D IH]; intros [|k] [|y u] H; try discriminate; cbn [firstn skipn kept]; auto.
  injection H as H. destruct (IH k u H) as [K1 K2]. rewrite zeros_cons. destruct (x =? 0); cbn [Nat.add firstn skipn].
  - split; [now rewrite K1|auto].
  - auto.
Qed.
Lemma zip_zero D : zipw Nat.add D (repeat 0 (length D)) = D.
Proof. induction D as [|x D IH]; auto. cbn [length repeat]. rewrite zipw_cons, IH. f_equal. lia. Qed.

Lemma insert_script i s n : i <= n -> s <> [] -> exists d, simple_edit i i s n = Some d /\ base_len d = n /\ wf_delta d /\
  ins_script 0 (els d) n = sc i s (n - i) /\ del_counts 0 (els d) n = repeat 0 n.
Proof.
  intros Hi Hs. unfold simple_edit, db_replace, db_delete. destruct s as [|x s]; [congruence|].
  set (t := x :: s) in *. unfold t at 1. cbn [dbuilder_new db_last db_els db_base].
  change (i <? 0) with false. cbn [bind db_last db_els db_base].
  eexists. split; [reflexivity|]. unfold db_build. cbn [db_last db_els db_base base_len els app].
  split; [reflexivity|].
  assert (E : forall a b, a <= b -> repeat (@None A) a ++ repeat None (b - a) = repeat None b)
    by (intros a b H; rewrite <- repeat_app; f_equal; lia).
  assert (E0 : forall a b, a <= b -> repeat 0 a ++ repeat 0 (b - a) = repeat 0 b)
    by (intros a b H; rewrite <- repeat_app; f_equal; lia).
  unfold wf_delta, no_empty_insert, sc. cbn [els base_len].
  destruct (0 <? i) eqn:E1, (i <? n) eqn:E2; cbn [app ins_script del_counts sorted_copies];
    rewrite ?Nat.sub_0_r, ?Nat.sub_diag; cbn [repeat app]; rewrite ?app_nil_r.
  - split; [split; [lia|repeat constructor; discriminate]|]. split; [reflexivity|]. apply E0. lia.
  - assert (i = n) as -> by lia. rewrite Nat.sub_diag. cbn [repeat]. rewrite !app_nil_r.
    split; [split; [lia|repeat constructor; discriminate]|]. auto.
  - assert (i = 0) as -> by lia. cbn [repeat app Nat.sub]. rewrite ?Nat.sub_0_r.
    split; [split; [lia|repeat constructor; discriminate]|]. auto.
  - assert (i = 0) as -> by lia. assert (n = 0) as -> by lia. cbn [repeat app Nat.sub]. rewrite ?app_nil_r.
    split; [split; [lia|repeat constructor; discriminate]|]. auto.
Qed.

Theorem priority_ok e u n0 id p1 g1 p2 g2 i s1 s2 : Inv e u n0 -> get_head_rev_id e = Some id ->
  tok id <> tok (next_rev_id e) -> i <= length (text e) -> s1 <> [] -> s2 <> [] ->
  mem g1 (undone_groups e) = false -> mem g2 (undone_groups e) = false ->
  exists d1 d2 e1 e2, simple_edit i i s1 (length (text e)) = Some d1 /\ simple_edit i i s2 (length (text e)) = Some d2 /\
    try_edit_rev tok e p1 g1 (tok id) d1 = Some (e1, Ok tt) /\
    try_edit_rev tok e1 p2 g2 (tok id) d2 = Some (e2, Ok tt) /\
    text e2 = firstn i (text e) ++ (if p1 <=? p2 then s1 ++ s2 else s2 ++ s1) ++ skipn i (text e).
Proof.
  intros I Hh Ht Hi N1 N2 M1 M2.
  destruct (insert_script i s1 (length (text e)) Hi N1) as (d1 & S1 & B1 & W1 & Is1 & Dc1).
  destruct (insert_script i s2 (length (text e)) Hi N2) as (d2 & S2 & B2 & W2 & Is2 & Dc2).
  exists d1, d2. destruct (head_index tok e id Hh) as (l & r & El & Er & Hf & _).
  destruct (counts_head e l r El) as [Hc Hs].
  pose proof (i_len e u n0 I) as LU. pose proof (i_text e u n0 I) as Et.
  set (D := flat (deletes_from_union e)) in *.
  assert (Z : length (text e) = zeros D) by (rewrite Et, kept_length; auto).
  pose proof (edit_ok tok e u n0 p1 g1 (tok id) d1 _ I W1 Hf) as K. cbv zeta in K. rewrite Hc, Hs in K.
  rewrite B1, Z, Nat.eqb_refl in K. rewrite Z in Is1, Is2, Dc1, Dc2. rewrite Is1, Dc1 in K. cbn [rb carry] in K.
  fold D in K. destruct (rebase_sc D i ltac:(lia)) as (k & Hk & Zk & Kk). rewrite Kk in K.
  rewrite M1 in K.
  destruct K as (e1 & ins & dels & K1 & I1 & Kp & Ci & Fi & Cd & Fd & _ & Ss & _ & U1 & ED & mx & Er1).
  pose proof (kept_firstn D k u LU) as [KF KS]. rewrite Zk, <- Et in KF, KS.
  rewrite LU in *. 
  rewrite fill_sc in I1 by lia. rewrite marks_sc in ED, Fi, Fd.
  assert (SP : forall n m, n = zeros m -> spread false (repeat 0 n) m = repeat 0 (length m)) by (intros; now apply spread_zero).
  set (D1 := firstn k D ++ repeat 0 (length s1) ++ skipn k D).
  assert (LD1 : length D1 = k + (length s1 + (length u - k))).
  { unfold D1. rewrite !app_length, firstn_length, skipn_length, repeat_length. lia. }
  assert (EDL : flat (deletes_from_union e1) = D1).
  { rewrite ED. fold D. rewrite <- LU. rewrite spread_sc by lia. fold D1. rewrite (SP (zeros D) D) by auto.
    rewrite SP.
    - replace (length (repeat 0 k ++ repeat 1 (length s1) ++ repeat 0 (length D - k))) with (length D1); [apply zip_zero|].
      rewrite !app_length, !repeat_length. lia.
    - rewrite !zeros_app, !zeros_repeat. cbn. lia. }
  (* the second edit *)
  set (r1 := Rev (next_rev_id e) mx (Edit p1 g1 ins dels)) in *.
  assert (Er1' : revs e1 = l ++ [r; r1]) by (rewrite Er1, El, <- app_assoc; reflexivity).
  assert (Hf1 : find_rev_token tok e1 (tok id) = Some (length l)).
  { unfold find_rev_token. rewrite Er1'. change (l ++ [r; r1]) with (l ++ [r] ++ [r1]). rewrite app_assoc.
    assert (G : forall q l2 x, q x = false -> find_last q (l2 ++ [x]) = find_last q l2).
    { clear. intros q l2 x Hx. induction l2 as [|y l2 IH]; cbn [app find_last]; [now rewrite Hx|]. now rewrite IH. }
    rewrite G.
    - apply find_last_app_hit. rewrite <- Er. apply Nat.eqb_refl.
    - cbn [r_id r1]. apply Nat.eqb_neq. congruence. }
  assert (Hs1 : skipn (length l + 1) (revs e1) = [r1]).
  { rewrite Er1', skipn_app, skipn_all2 by lia. replace (length l + 1 - length l) with 1 by lia. reflexivity. }
  assert (Hc1 : counts_at e1 (length l) = D).
  { unfold counts_at. rewrite Hs1. cbn [rev app unplay]. unfold unstep. cbn [r1 r_edit fst snd]. rewrite U1, M1.
    rewrite EDL, Fi, Fd. rewrite (SP (zeros D) D) by auto.
    rewrite SP by (rewrite !zeros_app, !zeros_repeat; cbn; lia).
    assert (Q : forall c n, length c = n -> zipw Nat.sub c (repeat 0 n) = c).
    { clear. intros c n <-. induction c as [|y c IH]; auto. cbn [length repeat]. rewrite zipw_cons, IH. f_equal. lia. }
    rewrite Q by (rewrite LD1, !app_length, !repeat_length; lia).
    unfold D1. rewrite kept_app by (rewrite repeat_length, firstn_length; lia).
    rewrite kept_app by (rewrite !repeat_length; lia).
    rewrite kept_all_zero by (rewrite firstn_length; lia). rewrite kept_nil_all by apply repeat_length.
    rewrite kept_all_zero by (rewrite skipn_length; lia). cbn [app]. apply firstn_skipn. }
  pose proof (edit_ok tok e1 _ n0 p2 g2 (tok id) d2 _ I1 W2 Hf1) as K. cbv zeta in K. rewrite Hc1, Hs1 in K.
  rewrite B2, Z, Nat.eqb_refl, Is2, Dc2, Kk in K. cbn [rb carry r1 r_edit r_id] in K.
  rewrite (SP (zeros D) D) in K by auto. rewrite Fi, LU, rebase_sc2, U1, M2 in K.
  assert (Pr : priority_leb (p1, session_of (next_rev_id e)) (p2, session e1) = (p1 <=? p2)).
  { unfold priority_leb, session_leb, session_of, next_rev_id. rewrite Ss. destruct (session e) as [a b]. cbn [fst snd session1 session2]. lia. }
  rewrite Pr in K. rewrite (SP (length u)) in K by (rewrite !zeros_app, !zeros_repeat; cbn; lia).
  destruct K as (e2 & ins2 & dels2 & K2 & I2 & Kp2 & _ & _ & _ & _ & _ & _ & _ & _ & ED2 & _).
  exists e1, e2. split; [auto|]. split; [auto|]. split; [exact K1|]. split; [exact K2|].
  rewrite (i_text _ _ _ I2), ED2, EDL.
  rewrite (SP (length (repeat 0 k ++ repeat 1 (length s1) ++ repeat 0 (length u - k)))).
  2:{ rewrite zeros_marks, Kp2, !app_length, !repeat_length, firstn_length, skipn_length. lia. }
  set (u1 := firstn k u ++ s1 ++ skipn k u) in *.
  assert (Lu1 : length u1 = length D1) by (unfold u1; rewrite !app_length, firstn_length, skipn_length; lia).
  assert (G : forall j, j <= length D1 -> 
    kept (zipw Nat.add (spread false D1 (marks (sc j s2 (length D1 - j)))) (repeat 0 (length (marks (sc j s2 (length D1 - j))))))
      (fill (sc j s2 (length D1 - j)) u1) = kept (firstn j D1) (firstn j u1) ++ s2 ++ kept (skipn j D1) (skipn j u1)).
  { intros j Hj. rewrite marks_sc, spread_sc by auto.
    replace (length (repeat 0 j ++ repeat 1 (length s2) ++ repeat 0 (length D1 - j)))
      with (length (firstn j D1 ++ repeat 0 (length s2) ++ skipn j D1))
      by (rewrite !app_length, !repeat_length, firstn_length, skipn_length; lia).
    rewrite zip_zero. rewrite <- Lu1 at 1. rewrite fill_sc by lia.
    rewrite kept_app by (rewrite !firstn_length; lia). rewrite kept_app by apply repeat_length.
    rewrite kept_all_zero by auto. reflexivity. }
  destruct (p1 <=? p2).
  - replace (length u - k) with (length D1 - (k + length s1)) by lia. rewrite G by lia.
    unfold D1, u1. rewrite !firstn_app, !skipn_app, !firstn_firstn, !firstn_length, !repeat_length.
    replace (Nat.min (k + length s1) k) with k by lia.
    rewrite !(skipn_all2 (firstn k _)) by (rewrite firstn_length; lia).
    replace (Nat.min k (length D)) with k by lia. replace (Nat.min k (length u)) with k by lia.
    replace (k + length s1 - k) with (length s1) by lia. rewrite !Nat.sub_diag. cbn [firstn skipn]. rewrite !app_nil_r.
    rewrite (firstn_all2 (repeat 0 (length s1))), (firstn_all2 s1), (skipn_all2 (repeat 0 (length s1))), (skipn_all2 s1) by (rewrite ?repeat_length; lia). cbn [app].
    rewrite kept_app by (rewrite !firstn_length; lia). rewrite kept_all_zero by auto.
    rewrite KF, KS, <- !app_assoc. reflexivity.
  - replace (length s1 + (length u - k)) with (length D1 - k) by lia. rewrite G by lia.
    unfold D1, u1. rewrite !firstn_app, !skipn_app, !firstn_firstn, !firstn_length.
    replace (Nat.min k k) with k by lia. rewrite !(skipn_all2 (firstn k _)) by (rewrite firstn_length; lia).
    replace (Nat.min k (length D)) with k by lia. replace (Nat.min k (length u)) with k by lia.
    rewrite !Nat.sub_diag. cbn [firstn skipn]. rewrite !app_nil_r. cbn [app].
    rewrite kept_app by apply repeat_length. rewrite kept_all_zero by auto.
    cbn [Nat.sub skipn]. rewrite KF, KS, <- !app_assoc. reflexivity.
Qed.
End Prio.
