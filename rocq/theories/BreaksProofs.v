(** Break sequences are sequences of booleans: the [i]th says whether there is a break after
    base unit [i], that is at offset [i + 1]. *)
From Coq Require Import List Arith Lia Bool ZifyBool.
From Verif Require Import Base ListLib SynthProofs TreeModel TreeSpec TreeProofs MetricProofs CursorModel CursorProofs CursorBoundary BreaksModel BreaksSpec.
Import ListNotations.

Definition bits (len : nat) (d : list nat) : list bool := map (fun i => existsb (Nat.eqb (S i)) d) (seq 0 len).
Definition blc (l : bleaf) : list bool := bits (bl_len l) (bl_data l).

(** The data of a leaf is strictly increasing, within the leaf. *)
Fixpoint sorted_in (lo hi : nat) (d : list nat) : Prop :=
  match d with [] => lo <= hi | v :: d' => lo < v /\ v <= hi /\ sorted_in v hi d' end.
Definition bV (l : bleaf) : Prop := sorted_in 0 (bl_len l) (bl_data l) /\ length (bl_data l) <= 64.

Lemma bits_len n d : length (bits n d) = n.
Proof. unfold bits. now rewrite map_length, seq_length. Qed.
Lemma bits_nth n d i : nth_error (bits n d) i = if i <? n then Some (existsb (Nat.eqb (S i)) d) else None.
Proof.
  unfold bits. destruct (i <? n) eqn:E.
  - rewrite (map_nth_error _ _ _ (d := i)); auto. rewrite (nth_error_nth' _ 0) by (rewrite seq_length; lia). rewrite seq_nth by lia. reflexivity.
  - apply nth_error_None. rewrite map_length, seq_length. lia.
Qed.
Lemma existsb_in x d : existsb (Nat.eqb x) d = true <-> In x d.
Proof. rewrite existsb_exists. split; [intros (y & H & E); assert (x = y) by lia; now subst|]. intros H. exists x. split; auto. apply Nat.eqb_refl. Qed.
Lemma at_break_bits n d o : at_break (bits n d) o <-> 0 < o <= n /\ In o d.
Proof.
  unfold at_break. rewrite bits_nth. split.
  - intros [H E]. destruct (o - 1 <? n) eqn:El; [|discriminate]. assert (E' : existsb (Nat.eqb (S (o - 1))) d = true) by congruence. replace (S (o - 1)) with o in E' by lia. apply existsb_in in E'. split; auto. lia.
  - intros [H E]. split; [lia|]. replace (o - 1 <? n) with true by lia. f_equal. replace (S (o - 1)) with o by lia. now apply existsb_in.
Qed.
Lemma ext_break (a b : list bool) : length a = length b -> (forall o, at_break a o <-> at_break b o) -> a = b.
Proof.
  intros Hl H. apply nth_error_ext. intros i. destruct (Nat.lt_ge_cases i (length a)) as [Hi|Hi].
  2: { rewrite !(proj2 (nth_error_None _ _)) by lia. reflexivity. }
  specialize (H (S i)). unfold at_break in H. replace (S i - 1) with i in H by lia.
  destruct (nth_error a i) as [x|] eqn:Ea; [|apply nth_error_None in Ea; lia].
  destruct (nth_error b i) as [y|] eqn:Eb; [|apply nth_error_None in Eb; lia].
  destruct x, y; auto; exfalso.
  - destruct H as [H _]. destruct H as [_ H]; [split; [lia|auto]|congruence].
  - destruct H as [_ H]. destruct H as [_ H]; [split; [lia|auto]|congruence].
Qed.
Lemma at_break_app a b o : at_break (a ++ b) o <-> at_break a o \/ length a < o /\ at_break b (o - length a).
Proof.
  unfold at_break. destruct (Nat.lt_ge_cases (o - 1) (length a)) as [H|H].
  - rewrite nth_error_app1 by auto. split; [auto|]. intros [?|[? [? ?]]]; auto. lia.
  - rewrite nth_error_app2 by auto. rewrite (proj2 (nth_error_None a _)) by auto. replace (o - length a - 1) with (o - 1 - length a) by lia. split.
    + intros [H1 H2]. destruct (Nat.eq_dec (o - 1) (length a)); right; split; auto; try lia; split; auto; lia.
    + intros [[_ ?]|[? [? ?]]]; [discriminate|]. split; [lia|auto].
Qed.
Lemma at_break_firstn s k o : at_break (firstn k s) o <-> o <= k /\ at_break s o.
Proof.
  unfold at_break. rewrite nth_error_firstn. destruct (o - 1 <? k) eqn:E; split.
  - intros [H1 H2]. split; [lia|auto].
  - tauto.
  - intros [_ H]. discriminate.
  - intros [H1 [H2 H3]]. lia.
Qed.
Lemma at_break_skipn s k o : at_break (skipn k s) o <-> 0 < o /\ at_break s (k + o).
Proof.
  unfold at_break. rewrite nth_error_skipn. split.
  - intros [H1 H2]. split; auto. split; [lia|]. replace (k + o - 1) with (k + (o - 1)) by lia. auto.
  - intros [H1 [H2 H3]]. split; auto. replace (k + (o - 1)) with (k + o - 1) by lia. auto.
Qed.
Lemma at_break_le s o : at_break s o -> 0 < o <= length s.
Proof. intros [H E]. assert (o - 1 < length s) by (apply nth_error_Some; congruence). lia. Qed.

(** ** Sorted lists *)
Lemma si_in lo hi d x : sorted_in lo hi d -> In x d -> lo < x <= hi.
Proof. revert lo. induction d as [|v d IH]; intros lo H Hx; [destruct Hx|]. destruct H as (H1 & H2 & H3). destruct Hx as [->|Hx]; auto. specialize (IH _ H3 Hx). lia. Qed.
Lemma si_le lo hi d : sorted_in lo hi d -> lo <= hi.
Proof. destruct d; cbn; intros; lia. Qed.
Lemma si_app lo hi a b m : sorted_in lo m a -> sorted_in m hi b -> sorted_in lo hi (a ++ b).
Proof.
  revert lo. induction a as [|v a IH]; intros lo Ha Hb; cbn [app].
  - cbn in Ha. destruct b; cbn in *; [lia|]. intuition lia.
  - destruct Ha as (H1 & H2 & H3). pose proof (si_le _ _ _ Hb). cbn. split; auto. split; [lia|auto].
Qed.
Lemma si_widen lo lo' hi hi' d : sorted_in lo hi d -> lo' <= lo -> hi <= hi' -> sorted_in lo' hi' d.
Proof. revert lo lo'. induction d as [|v d IH]; intros lo lo' H H1 H2; cbn in *; [lia|]. destruct H as (A & B & C). split; [lia|]. split; [lia|]. eapply IH; eauto. Qed.
Lemma si_map f lo hi lo' hi' d : sorted_in lo hi d -> lo' <= f lo -> f hi <= hi' ->
  (forall x y, lo <= x -> x < y -> y <= hi -> f x < f y) -> sorted_in lo' hi' (map f d).
Proof.
  intros H H1 H2 Hf. revert lo lo' H H1 Hf. induction d as [|v d IH]; intros lo lo' H H1 Hf; cbn in *.
  - destruct (Nat.eq_dec lo hi) as [->|]; [lia|]. specialize (Hf lo hi). lia.
  - destruct H as (A & B & C). pose proof (Hf lo v ltac:(lia) A B). split; [lia|]. split.
    + destruct (Nat.eq_dec v hi) as [->|]; auto. specialize (Hf v hi). lia.
    + apply (IH v); auto. intros x y Hx. apply Hf. lia.
Qed.
Lemma si_filter_none s e lo hi d : sorted_in lo hi d -> e <= lo -> filter (fun v => (s <? v) && (v <=? e)) d = [].
Proof.
  revert lo. induction d as [|w d IH]; intros lo C He; auto. destruct C as (A & B & C). cbn [filter].
  replace (w <=? e) with false by lia. rewrite andb_false_r. apply (IH w); auto. lia.
Qed.
Lemma si_filter s e lo hi d : sorted_in lo hi d -> s <= e -> s <= hi -> lo <= e ->
  sorted_in (Nat.max lo s) (Nat.min e hi) (filter (fun v => (s <? v) && (v <=? e)) d).
Proof.
  revert lo. induction d as [|v d IH]; intros lo H He Hs Hl; [cbn in *; lia|]. destruct H as (A & B & C). cbn [filter].
  destruct (s <? v) eqn:E1; cbn [andb].
  - destruct (v <=? e) eqn:E2; cbn [sorted_in].
    + split; [lia|]. split; [lia|]. specialize (IH v C). replace (Nat.max v s) with v in IH by lia. apply IH; lia.
    + rewrite (si_filter_none s e v hi) by (auto; lia). cbn [sorted_in]. lia.
  - eapply si_widen; [apply (IH v C); lia|lia|lia].
Qed.
Lemma si_split lo hi d k : sorted_in lo hi d -> 0 < k <= length d ->
  exists u, nth_error d (k - 1) = Some u /\ sorted_in lo u (firstn k d) /\ sorted_in u hi (skipn k d).
Proof.
  revert lo k. induction d as [|v d IH]; intros lo k H Hk; [cbn in Hk; lia|]. destruct H as (A & B & C).
  destruct k as [|k]; [lia|]. destruct k as [|k].
  - exists v. cbn. repeat split; auto.
  - destruct (IH v (S k) C) as (u & E & F1 & F2); [cbn in *; lia|]. exists u. cbn [Nat.sub nth_error] in *. rewrite Nat.sub_0_r in E. split; auto.
    split; [|exact F2]. cbn [firstn]. cbn. split; auto. split; [|exact F1]. now apply si_le in F1.
Qed.
(** The rank of a prefix is the number of breaks not after it. *)
Lemma rank_app a b : rank (a ++ b) = rank a + rank b.
Proof. apply count_occ_app. Qed.
Lemma rank_zero s : rank s = 0 <-> forall o, ~ at_break s o.
Proof.
  unfold rank. split.
  - intros H o [H1 H2]. apply nth_error_In in H2. apply (count_occ_In bool_dec) in H2. lia.
  - intros H. apply count_occ_not_In. intros Hi. apply In_nth_error in Hi as [i Hi]. apply (H (S i)). split; [lia|]. now replace (S i - 1) with i by lia.
Qed.
Lemma bits_split k n d : k <= n -> bits n d = firstn k (bits n d) ++ map (fun i => existsb (Nat.eqb (S i)) d) (seq k (n - k)).
Proof.
  intros H. rewrite <- (firstn_skipn k (bits n d)) at 1. f_equal. unfold bits. rewrite skipn_map. f_equal.
  apply nth_error_ext. intros i. rewrite nth_error_skipn. destruct (Nat.lt_ge_cases i (n - k)).
  - rewrite !(nth_error_nth' _ 0) by (rewrite seq_length; lia). rewrite !seq_nth by lia. reflexivity.
  - rewrite !(proj2 (nth_error_None _ _)) by (rewrite seq_length; lia). reflexivity.
Qed.
Lemma rank_bits lo n d o : sorted_in lo n d -> rank (firstn o (bits n d)) = length (filter (fun v => v <=? o) d).
Proof.
  intros H. revert o. assert (K : forall o, o <= n -> rank (firstn o (bits n d)) = length (filter (fun v => v <=? o) d)).
  { induction o as [|o IH]; intros Ho.
    - cbn. symmetry. rewrite length_zero_iff_nil. clear -H. pose proof (fun x => si_in _ _ _ x H) as K. clear H. induction d as [|v d IH]; auto. cbn.
      specialize (K v (or_introl eq_refl)) as Kv. replace (v <=? 0) with false by lia. apply IH. intros x Hx. apply K. now right.
    - replace (firstn (S o) (bits n d)) with (firstn o (bits n d) ++ [existsb (Nat.eqb (S o)) d]).
      2: { rewrite (firstn_S_nth _ _ (existsb (Nat.eqb (S o)) d)); auto. rewrite bits_nth. now replace (o <? n) with true by lia. }
      rewrite rank_app, IH by lia. clear IH. revert lo H. induction d as [|v d IHd]; intros lo H; [reflexivity|]. destruct H as (A & B & C). cbn [filter existsb].
      specialize (IHd _ C). destruct (Nat.eqb_spec (S o) v) as [E|E]; cbn [orb].
      + replace (v <=? o) with false by lia. replace (v <=? S o) with true by lia. cbn [length rank count_occ]. subst v.
        assert (Z : existsb (Nat.eqb (S o)) d = false).
        { destruct (existsb _ _) eqn:Ex; auto. apply existsb_in in Ex. apply (si_in _ _ _ _ C) in Ex. lia. }
        rewrite Z in IHd. unfold rank in *. cbn in *. lia.
      + destruct (v <=? o) eqn:Ev.
        * replace (v <=? S o) with true by lia. cbn [length]. lia.
        * replace (v <=? S o) with false by lia. lia. }
  intros o. destruct (Nat.le_gt_cases o n) as [Ho|Ho]; auto.
  rewrite firstn_all2 by (rewrite bits_len; lia). rewrite <- (firstn_all (bits n d)), bits_len, K by lia. f_equal.
  pose proof (fun x => si_in _ _ _ x H) as B. clear -B Ho. induction d as [|v d IH]; auto. cbn. specialize (B v (or_introl eq_refl)) as Bv.
  replace (v <=? n) with true by lia. replace (v <=? o) with true by lia. f_equal. apply IH. intros x Hx. apply B. now right.
Qed.
Lemma rank_all lo n d : sorted_in lo n d -> rank (bits n d) = length d.
Proof.
  intros H. rewrite <- (firstn_all (bits n d)), bits_len, (rank_bits lo) by auto. f_equal.
  pose proof (fun x => si_in _ _ _ x H) as B. clear -B. induction d as [|v d IH]; auto. cbn. specialize (B v (or_introl eq_refl)) as Bv.
  replace (v <=? n) with true by lia. f_equal. apply IH. intros x Hx. apply B. now right.
Qed.

(** ** The leaf obeys the laws *)
Lemma bl_push_ok a b i j : bV a -> bV b -> i <= j -> j <= bl_len b ->
  (length (bl_data a) < 32 \/ length (bl_data b) < 32) ->
  exists a' r, bl_push a b i j = Some (a', r) /\ bV a' /\
    match r with
    | None => blc a' = blc a ++ slice (blc b) i j /\
        length (bl_data a') = length (bl_data a) + length (filter (fun v => (i <? v) && (v <=? j)) (bl_data b))
    | Some b' => bV b' /\ blc a' ++ blc b' = blc a ++ slice (blc b) i j /\ 32 <= length (bl_data a') /\ 32 <= length (bl_data b')
    end.
Proof.
  intros [Sa La] [Sb Lb] Hij Hj Hsz. unfold bl_push. rewrite (Nat.min_l j) by auto.
  set (f := filter (fun v => (i <? v) && (v <=? j)) (bl_data b)). set (d := bl_data a ++ map (fun v => v - i + bl_len a) f).
  replace (i <=? j) with true by lia. cbn [check].
  assert (Lf : length f <= length (bl_data b)) by apply filter_length_le.
  assert (Sf : sorted_in i j f).
  { unfold f. pose proof (si_filter i j 0 (bl_len b) (bl_data b) Sb Hij) as S. cbn [Nat.max] in S. rewrite (Nat.min_l j) in S by auto. apply S; lia. }
  assert (Sd : sorted_in 0 (bl_len a + (j - i)) d).
  { apply si_app with (bl_len a); auto. eapply si_map; eauto; lia. }
  assert (Ec : bits (bl_len a + (j - i)) d = blc a ++ slice (blc b) i j).
  { unfold blc. apply ext_break. { rewrite app_length, slice_length, !bits_len by (rewrite bits_len; lia). lia. }
    intros o. rewrite at_break_app. unfold slice. rewrite at_break_firstn, at_break_skipn, !at_break_bits, bits_len. unfold d. rewrite in_app_iff, in_map_iff. split.
    - intros [H [K|(v & E & K)]].
      + left. split; auto. now apply (si_in _ _ _ _ Sa).
      + right. pose proof (si_in _ _ _ _ Sf K). apply filter_In in K as [K _]. subst o. split; [lia|]. split; [lia|]. split; [lia|]. split; [lia|].
        replace (i + (v - i + bl_len a - bl_len a)) with v by lia. auto.
    - intros [[H K]|(H1 & H2 & H3 & H4 & K)]; [split; [lia|auto]|]. split; [lia|]. right. exists (i + (o - bl_len a)). split; [lia|].
      apply filter_In. split; auto. lia. }
  assert (Ld : length d = length (bl_data a) + length f) by (unfold d; rewrite app_length, map_length; auto).
  destruct (length d <=? BR_MAX) eqn:El; unfold BR_MAX in El.
  { eexists _, None. split; [reflexivity|]. split; [split; cbn; auto; lia|]. split; [exact Ec|exact Ld]. }
  assert (Hd : length d = 2 * (length d / 2) + length d mod 2) by apply Nat.div_mod_eq. pose proof (Nat.mod_upper_bound (length d) 2 ltac:(lia)) as Hm.
  set (k := length d / 2) in *. destruct (si_split _ _ _ k Sd) as (u & Eu & S1 & S2); [lia|]. rewrite Eu. cbn [bind].
  replace (forallb (fun x => u <=? x) (skipn k d)) with true.
  2: { symmetry. apply forallb_forall. intros x Hx. apply (si_in _ _ _ _ S2) in Hx. lia. }
  pose proof (si_le _ _ _ S2) as Hu. replace (u <=? bl_len a + (j - i)) with true by lia. cbn [check].
  eexists _, (Some _). split; [reflexivity|]. split. { split; cbn [bl_len bl_data]; auto. rewrite firstn_length. lia. }
  split. { split; cbn [bl_len bl_data]; [|rewrite map_length, skipn_length; lia]. eapply si_map; eauto; lia. }
  cbn [bl_len bl_data]. rewrite map_length, firstn_length, skipn_length. split; [|lia]. rewrite <- Ec. unfold blc. cbn [bl_len bl_data].
  apply ext_break. { rewrite app_length, !bits_len. lia. }
  intros o. rewrite at_break_app, !at_break_bits, bits_len. 
  assert (Hin : In o d <-> In o (firstn k d) \/ In o (skipn k d)) by (rewrite <- in_app_iff, firstn_skipn; tauto).
  rewrite Hin, in_map_iff. split.
  - intros [[H1 H2]|(H1 & H2 & v & H3 & H4)]; [split; [lia|auto]|]. pose proof (si_in _ _ _ _ S2 H4). split; [lia|]. right. now replace o with v by lia.
  - intros [H1 [H2|H2]].
    + left. split; auto. now apply (si_in _ _ _ _ S1).
    + right. pose proof (si_in _ _ _ _ S2 H2). split; [lia|]. split; [lia|]. exists o. split; [lia|auto].
Qed.

Definition bcut (_ : list bool) (_ : nat) : Prop := True.
Definition bT (_ : list bool) : Prop := True.
Lemma filter_all_len hi d lo : sorted_in lo hi d -> length (filter (fun v => (0 <? v) && (v <=? hi)) d) = length d.
Proof.
  intros H. pose proof (fun x => si_in _ _ _ x H) as K. clear H. induction d as [|v d IH]; auto. cbn [filter]. specialize (K v (or_introl eq_refl)) as Kv.
  replace ((0 <? v) && (v <=? hi)) with true by lia. cbn [length]. f_equal. apply IH. intros x Hx. apply K. now right.
Qed.
Lemma br_leaf_spec : leaf_spec br_ops blc bV bcut rank.
Proof.
  constructor; cbn [br_ops l_len l_ok l_push l_default i_acc i_of].
  - intros l _. unfold blc. now rewrite bits_len.
  - split; [split; cbn; lia|reflexivity].
  - intros l [S _]. unfold blc. now rewrite (rank_all 0).
  - apply rank_app.
  - intros a b Va Vb Hok. unfold BR_MIN in *. destruct (bl_push_ok a b 0 (bl_len b) Va Vb) as (a' & r & E & Va' & Hr); try lia.
    exists a', r. unfold blc at 1. rewrite bits_len. split; auto. split; auto.
    rewrite slice_all in Hr by (unfold blc; rewrite bits_len; lia). destruct r as [b'|].
    + destruct Hr as (Vb' & Ec & H1 & H2). split; auto. split; auto. lia.
    + destruct Hr as [Ec Ed]. split; auto. destruct Vb as [Sb _]. rewrite (filter_all_len _ _ 0 Sb) in Ed. lia.
  - intros l i j Vl Hij Hj _ _. unfold blc in Hj. rewrite bits_len in Hj.
    destruct (bl_push_ok (BLeaf 0 []) l i j) as (a' & r & E & Va' & Hr); auto; try (cbn; lia). { split; cbn; lia. }
    destruct r as [b'|].
    + exfalso. unfold bl_push in E. cbn [bl_data bl_len app] in E. unfold check in E. destruct (i <=? _); [|discriminate]. rewrite map_length in E.
      destruct (_ <=? BR_MAX) eqn:El; [discriminate|]. unfold BR_MAX in El. destruct Vl as [_ Ll].
      pose proof (filter_length_le (fun v => (i <? v) && (v <=? j)) (bl_data l)). lia.
    + destruct Hr as [Hr _]. exists a'. split; auto.
  - intros s. now split.
  - now intros.
Qed.
Lemma br_text_spec : text_spec br_ops blc bV bcut bT.
Proof.
  constructor; try (now (unfold bT, bcut; intros; auto)).
  intros l [S _] Hok E. cbn [br_ops l_ok] in Hok. unfold BR_MIN in Hok. pose proof (rank_all 0 _ _ S) as R. unfold blc in E. rewrite E in R. cbn in R. lia.
Qed.

(** ** The metrics *)
Lemma bs_after_ok lo hi d x : sorted_in lo hi d -> bs_after d x = length (filter (fun v => v <=? x) d).
Proof.
  revert lo. induction d as [|v d IH]; intros lo H; [reflexivity|]. destruct H as (A & B & C). unfold bs_after in *. cbn [bsearch filter].
  assert (Z : v >= x -> length (filter (fun v => v <=? x) d) = 0).
  { intros Hv. pose proof (fun y => si_in _ _ _ y C) as K. clear -K Hv. induction d as [|w d IH]; auto. cbn. specialize (K w (or_introl eq_refl)) as Kw.
    replace (w <=? x) with false by lia. apply IH. intros y Hy. apply K. now right. }
  destruct (Nat.eqb_spec v x).
  - replace (v <=? x) with true by lia. cbn [length]. rewrite Z by lia. reflexivity.
  - destruct (x <? v) eqn:E.
    + replace (v <=? x) with false by lia. rewrite Z by lia. reflexivity.
    + specialize (IH _ C). destruct (bsearch d x) as [f k]. replace (v <=? x) with true by lia. cbn [length]. destruct f; lia.
Qed.
Lemma bsearch_found lo hi d x : sorted_in lo hi d -> (fst (bsearch d x) = true <-> In x d).
Proof.
  revert lo. induction d as [|v d IH]; intros lo H; [cbn; split; [discriminate|tauto]|]. destruct H as (A & B & C). cbn [bsearch In].
  destruct (Nat.eqb_spec v x); [cbn; tauto|]. destruct (x <? v) eqn:E.
  - cbn. split; [discriminate|]. intros [?|Hx]; [lia|]. apply (si_in _ _ _ _ C) in Hx. lia.
  - specialize (IH _ C). destruct (bsearch d x). cbn in *. tauto.
Qed.
Lemma filter_le_nth lo hi d m u : sorted_in lo hi d -> 0 < m -> nth_error d (m - 1) = Some u ->
  length (filter (fun v => v <=? u) d) = m /\ (forall o, o < u -> length (filter (fun v => v <=? o) d) < m).
Proof.
  revert lo m. induction d as [|v d IH]; intros lo m H Hm E; [destruct (m - 1); discriminate|]. destruct H as (A & B & C).
  destruct m as [|m]; [lia|]. cbn [Nat.sub] in E. rewrite Nat.sub_0_r in E. destruct m as [|m].
  - cbn in E. injection E as <-. cbn [filter]. rewrite Nat.leb_refl.
    assert (Z : forall o, o <= v -> length (filter (fun w => w <=? o) d) = 0).
    { intros o Ho. pose proof (fun y => si_in _ _ _ y C) as K. clear -K Ho. induction d as [|w d IH]; auto. cbn. specialize (K w (or_introl eq_refl)) as Kw.
      replace (w <=? o) with false by lia. apply IH. intros y Hy. apply K. now right. }
    split; [cbn; now rewrite Z|]. intros o Ho. replace (v <=? o) with false by lia. rewrite Z by lia. lia.
  - destruct (IH _ (S m) C) as [K1 K2]; [lia|cbn [Nat.sub] in *; now rewrite Nat.sub_0_r|]. cbn in E. apply nth_error_In in E. apply (si_in _ _ _ _ C) in E.
    cbn [filter]. replace (v <=? u) with true by lia. split; [cbn; lia|]. intros o Ho. specialize (K2 o Ho). destruct (v <=? o); cbn [length]; lia.
Qed.

Lemma br_metric_spec : metric_spec blc bV bcut rank bT br_metric rank (fun _ _ => True).
Proof.
  constructor; cbn [br_metric m_measure m_from_base m_to_base m_can_fragment]; auto; try discriminate.
  - intros. apply rank_app.
  - intros l o [S _] _ Ho. unfold blc. now rewrite (bs_after_ok 0 _ _ _ S), (rank_bits 0).
  - intros l m [S _] Hm _. unfold blc in Hm. rewrite (rank_all 0) in Hm by auto. unfold br_to_base.
    replace (length (bl_data l) <? m) with false by lia. destruct (Nat.eqb_spec m 0) as [->|Hz].
    + exists 0. split; auto. split; [lia|]. split; [exact Logic.I|]. split; lia.
    + destruct (nth_error (bl_data l) (m - 1)) as [u|] eqn:E; [|apply nth_error_None in E; lia]. exists u. split; auto.
      destruct (filter_le_nth 0 _ _ m u S ltac:(lia) E) as [K1 K2]. apply nth_error_In in E. apply (si_in _ _ _ _ S) in E. unfold blc.
      split; [rewrite bits_len; lia|]. split; [exact Logic.I|]. split.
      * rewrite (rank_bits 0) by auto. lia.
      * intros o' Ho' _. rewrite (rank_bits 0) by auto. auto.
Qed.
Lemma br_base_spec : metric_spec blc bV bcut rank bT br_base (@length bool) (fun _ _ => True).
Proof.
  constructor; cbn [br_base m_measure m_from_base m_to_base m_can_fragment]; auto; try discriminate.
  - intros. apply app_length.
  - intros l o _ _ Ho. now rewrite firstn_length_le.
  - intros l m _ Hm _. exists m. split; auto. split; auto. split; [exact Logic.I|]. rewrite firstn_length_le by auto. split; auto. intros o' Ho' _. rewrite firstn_length. lia.
Qed.

Lemma br_bound : bound_spec blc bV bcut rank bT br_metric rank at_break.
Proof.
  constructor; cbn [br_metric m_measure m_is_boundary m_next m_prev m_can_fragment].
  - intros. apply rank_app.
  - auto.
  - intros l o [S _] Ho. eexists. split; [reflexivity|]. unfold blc in *. rewrite bits_len in Ho. rewrite (bsearch_found 0 _ _ _ S), at_break_bits.
    split; [|tauto]. intros Hi. split; auto. now apply (si_in _ _ _ _ S).
  - intros l o [S _] Ho _. unfold br_next, blc in *. rewrite bits_len in *. rewrite (bs_after_ok 0 _ _ _ S).
    assert (K : exists r, (if length (filter (fun v => v <=? o) (bl_data l)) =? length (bl_data l) then Some None
       else let? v := nth_error (bl_data l) (length (filter (fun v => v <=? o) (bl_data l))) in Some (Some v)) = Some r /\
       match r with Some x => In x (bl_data l) /\ o < x /\ forall y, In y (bl_data l) -> o < y -> x <= y
       | None => forall y, In y (bl_data l) -> y <= o end).
    { generalize 0 S. intros lo S0. clear S. revert lo S0. generalize (bl_data l) as d. induction d as [|v d IH]; intros lo S.
      - exists None. split; auto. intros y [].
      - destruct S as (A & B & C). cbn [filter]. destruct (v <=? o) eqn:E.
        + cbn [length]. destruct (IH _ C) as (r & Er & Hr). exists r. split.
          * replace (Datatypes.S (length (filter (fun v => v <=? o) d)) =? Datatypes.S (length d)) with (length (filter (fun v => v <=? o) d) =? length d) by lia. exact Er.
          * destruct r; [destruct Hr as (H1 & H2 & H3); split; [now right|]; split; auto; intros y [<-|Hy] Hl; [lia|auto]|].
            intros y [<-|Hy]; [lia|auto].
        + exists (Some v). assert (length (filter (fun v => v <=? o) d) = 0) as ->.
          { pose proof (fun y => si_in _ _ _ y C) as K. clear -K E. induction d as [|w d IH]; auto. cbn. specialize (K w (or_introl eq_refl)) as Kw.
            replace (w <=? o) with false by lia. apply IH. intros y Hy. apply K. now right. }
          cbn. split; auto. split; auto. split; [lia|]. intros y [<-|Hy] _; auto. apply (si_in _ _ _ _ C) in Hy. lia. }
    destruct K as (r & Er & Hr). exists r. split; auto. destruct r as [x|].
    + destruct Hr as (H1 & H2 & H3). pose proof (si_in _ _ _ _ S H1). rewrite at_break_bits. split; [lia|]. split; [split; [lia|auto]|].
      intros y Hy Hb. apply at_break_bits in Hb as [_ Hb]. specialize (H3 y Hb). lia.
    + intros y Hy Hb. apply at_break_bits in Hb as [_ Hb]. specialize (Hr y Hb). lia.
  - intros l o [S _] Ho. unfold br_prev, blc in *. rewrite bits_len in *. eexists. split; [reflexivity|].
    assert (K : forall lo d before, sorted_in lo (bl_len l) d -> match before with Some x => x <= lo /\ x < o | None => True end ->
       match br_prev_loop d before o with
       | Some x => (before = Some x \/ In x d) /\ x < o /\ forall y, In y d -> y < o -> y <= x
       | None => before = None /\ forall y, In y d -> o <= y end).
    { intros lo d. revert lo. induction d as [|v d IH]; intros lo before Sd Hb; cbn [br_prev_loop].
      - destruct before; [split; auto; split; [tauto|]; intros y []|split; auto; intros y []].
      - destruct Sd as (A & B & C). destruct (o <=? v) eqn:E.
        + destruct before as [x|].
          * split; auto. split; [tauto|]. intros y [<-|Hy] Hl; [lia|]. apply (si_in _ _ _ _ C) in Hy. lia.
          * split; auto. intros y [<-|Hy]; [lia|]. apply (si_in _ _ _ _ C) in Hy. lia.
        + assert (Hv : v <= v /\ v < o) by lia. specialize (IH v (Some v) C Hv). destruct (br_prev_loop d (Some v) o) as [x|].
          * destruct IH as (H1 & H2 & H3). split; [right; destruct H1 as [H1|H1]; [injection H1 as <-; now left|now right]|]. split; auto.
            intros y [->|Hy] Hl; auto. destruct H1 as [H1|H1]; [injection H1 as <-; lia|]. apply (si_in _ _ _ _ C) in H1. lia.
          * destruct IH as [IH _]. discriminate. }
    specialize (K 0 (bl_data l) None S Logic.I). destruct (br_prev_loop (bl_data l) None o) as [x|].
    + destruct K as ([K|K] & H2 & H3); [discriminate|]. split; auto. pose proof (si_in _ _ _ _ S K). rewrite at_break_bits. split; [split; [lia|auto]|].
      intros y Hy Hb. apply at_break_bits in Hb as [_ Hb]. specialize (H3 y Hb). lia.
    + destruct K as [_ K]. intros y Hy Hb. apply at_break_bits in Hb as [_ Hb]. specialize (K y Hb). lia.
  - intros a b c o _ _ _ Ho. unfold at_break. replace (length a + o - 1) with (length a + (o - 1)) by lia.
    rewrite nth_error_app2 by lia. replace (length a + (o - 1) - length a) with (o - 1) by lia. rewrite nth_error_app1 by lia. intuition lia.
  - intros s _. unfold at_break. split; [lia|discriminate].
  - discriminate.
  - intros s _ _. rewrite rank_zero. split; [intros H x _; auto|]. intros H o Hb. pose proof (at_break_le _ _ Hb). now apply (H o).
Qed.

(** ** The builder *)
Definition b_inv (b : bbuilder) : Prop := exists lo, stack_ok br_ops blc bV rank lo (bb_b b) /\ bV (bb_leaf b).
Definition bb_content (b : bbuilder) : list bool := b_content blc (bb_b b) ++ blc (bb_leaf b).

Lemma b_push_leaf b l lo : stack_ok br_ops blc bV rank lo b -> bV l ->
  exists b', b_push br_ops b (from_leaf br_ops l) = Some b' /\ stack_ok br_ops blc bV rank 0 b' /\ b_content blc b' = b_content blc b ++ blc l.
Proof.
  intros S Vl. destruct (from_leaf_wf br_ops blc bV bcut rank br_leaf_spec l Vl) as [W C].
  destruct (b_push_ok br_ops blc bV bcut rank br_leaf_spec b lo 0 _ S W) as (b' & E & S' & C'). exists b'. split; auto. split; [eapply stack0; eauto|]. now rewrite C', C.
Qed.
Lemma add_no_break_ok b k : b_inv b -> exists b', add_no_break b k = Some b' /\ b_inv b' /\ bb_content b' = bb_content b ++ repeat false k.
Proof.
  intros (lo & S & Vl & Ll). eexists. split; [reflexivity|]. split.
  - exists lo. split; auto. split; auto. cbn [bb_leaf bl_len bl_data]. eapply si_widen; eauto. lia.
  - unfold bb_content. cbn [bb_b bb_leaf]. rewrite <- app_assoc. f_equal. unfold blc. cbn [bl_len bl_data]. apply ext_break. { rewrite app_length, !bits_len, repeat_length. lia. }
    intros o. rewrite at_break_app, !at_break_bits, bits_len. split.
    + intros [H1 H2]. left. split; auto. apply (si_in _ _ _ _ Vl H2).
    + intros [[H1 H2]|[H1 [H2 H3]]]; [split; [lia|auto]|]. apply nth_error_In, repeat_spec in H3. discriminate.
Qed.
Lemma add_break_ok b k : b_inv b -> 0 < k -> exists b', add_break b k = Some b' /\ b_inv b' /\ bb_content b' = bb_content b ++ call_bits (true, k).
Proof.
  intros (lo & S & Vl) Hk. unfold add_break.
  assert (K : exists b0 leaf, (if length (bl_data (bb_leaf b)) =? BR_MAX
     then let? b' := b_push br_ops (bb_b b) (from_leaf br_ops (bb_leaf b)) in Some (b', BLeaf 0 [])
     else Some (bb_b b, bb_leaf b)) = Some (b0, leaf) /\ (exists lo, stack_ok br_ops blc bV rank lo b0) /\ bV leaf /\ length (bl_data leaf) < 64 /\
     b_content blc b0 ++ blc leaf = bb_content b).
  { destruct (Nat.eqb_spec (length (bl_data (bb_leaf b))) BR_MAX) as [E|E].
    - destruct (b_push_leaf _ _ _ S Vl) as (b' & -> & S' & C'). cbn [bind]. exists b', (BLeaf 0 []). split; auto. split; [eauto|]. split; [split; cbn; lia|].
      split; [cbn; lia|]. unfold blc at 2. cbn. now rewrite app_nil_r.
    - exists (bb_b b), (bb_leaf b). split; auto. split; [eauto|]. split; auto. split; auto. destruct Vl. unfold BR_MAX in E. lia. }
  destruct K as (b0 & leaf & -> & (lo' & S') & [V1 V2] & Hl & E). cbn [bind]. eexists. split; [reflexivity|]. split.
  - exists lo'. split; auto. cbn [bb_leaf]. split; cbn [bl_len bl_data]; [|rewrite app_length; cbn; lia].
    apply si_app with (bl_len leaf); auto. cbn. lia.
  - unfold bb_content at 1. cbn [bb_b bb_leaf]. rewrite <- E, <- app_assoc. f_equal. unfold blc. cbn [bl_len bl_data call_bits].
    apply ext_break. { rewrite app_length, app_length, !bits_len, repeat_length. cbn. lia. }
    intros o. rewrite !at_break_app, !at_break_bits, bits_len, repeat_length, in_app_iff. split.
    + intros [H1 [H2|[<-|[]]]].
      * left. split; auto. apply (si_in _ _ _ _ V1 H2).
      * right. split; [lia|]. right. split; [lia|]. unfold at_break. replace (bl_len leaf + k - bl_len leaf - (k - 1) - 1) with 0 by lia. split; [lia|auto].
    + intros [[H1 H2]|[H1 [[_ H2]|[H2 H3]]]]; [split; [lia|auto]| |].
      * apply nth_error_In, repeat_spec in H2. discriminate.
      * apply at_break_le in H3. cbn in H3. assert (o = bl_len leaf + k) by lia. split; [lia|]. right. now left.
Qed.
Lemma bb_run_ok calls : forall b, b_inv b -> Forall (fun c => fst c = true -> 0 < snd c) calls ->
  exists b', bb_run b calls = Some b' /\ b_inv b' /\ bb_content b' = bb_content b ++ flat_map call_bits calls.
Proof.
  induction calls as [|[f k] cs IH]; intros b Hb F; cbn [bb_run flat_map].
  - exists b. rewrite app_nil_r. auto.
  - inversion F as [|? ? F1 F2]; subst. cbn in F1. destruct f.
    + destruct (add_break_ok b k Hb) as (b1 & -> & H1 & C1); auto. cbn [bind]. destruct (IH b1 H1 F2) as (b2 & -> & H2 & C2). exists b2. rewrite C2, C1, app_assoc. auto.
    + destruct (add_no_break_ok b k Hb) as (b1 & -> & H1 & C1); auto. cbn [bind]. destruct (IH b1 H1 F2) as (b2 & -> & H2 & C2). exists b2. rewrite C2, C1, app_assoc. auto.
Qed.
Lemma bb_build_ok b : b_inv b -> exists n h, bb_build b = Some n /\ wf br_ops blc bV rank h n /\ content blc n = bb_content b.
Proof.
  intros (lo & S & Vl). unfold bb_build. destruct (b_push_leaf _ _ _ S Vl) as (b' & -> & S' & C'). cbn [bind].
  destruct (build_ok br_ops blc bV bcut rank br_leaf_spec b' 0 S') as (n & h & E & W & C). exists n, h. rewrite C, C'. auto.
Qed.
Lemma bb_new_ok : b_inv bb_new /\ bb_content bb_new = [].
Proof. split; [|reflexivity]. exists 0. split; [exact Logic.I|]. split; cbn; lia. Qed.
