(** Index sets are sets of natural numbers. *)
From Coq Require Import List Arith Lia Bool ZifyBool.
From Verif Require Import Base ListLib DeltaModel DeltaSpec DeltaProofs2 IndexSetModel.
Import ListNotations.

(** The numbers in a list of ranges. *)
Definition mem (rs : ranges) (x : nat) : Prop := exists a b, In (a, b) rs /\ a <= x < b.
(** The ranges are sorted and do not overlap. *)
Fixpoint rok (rs : ranges) : Prop :=
  match rs with [] => True | (a, b) :: rest => a <= b /\ (forall c d, In (c, d) rest -> b <= c /\ b < d) /\ rok rest end.

Lemma mem_nil x : ~ mem [] x.
Proof. intros (a & b & [] & _). Qed.
Lemma mem_cons a b rs x : mem ((a, b) :: rs) x <-> a <= x < b \/ mem rs x.
Proof.
  split.
  - intros (c & d & [E|H] & Hx); [injection E as <- <-; auto|]. right. now exists c, d.
  - intros [H|(c & d & H & Hx)]; [exists a, b; split; [now left|auto]|exists c, d; split; [now right|auto]].
Qed.
Lemma mem_app a b x : mem (a ++ b) x <-> mem a x \/ mem b x.
Proof.
  split.
  - intros (c & d & H & Hx). apply in_app_iff in H as [H|H]; [left|right]; now exists c, d.
  - intros [(c & d & H & Hx)|(c & d & H & Hx)]; exists c, d; rewrite in_app_iff; auto.
Qed.
Lemma rok_le rs a b : rok rs -> In (a, b) rs -> a <= b.
Proof. induction rs as [|[c d] rs IH]; [intros _ []|]. intros (H1 & _ & H3) [E|H]; [injection E as <- <-; auto|auto]. Qed.
Lemma rok_app a b : rok (a ++ b) <-> rok a /\ rok b /\ (forall x y c d, In (x, y) a -> In (c, d) b -> y <= c /\ y < d).
Proof.
  induction a as [|[x y] a IH]; cbn [app rok].
  - split; [intros H; split; auto; split; auto; intros ? ? ? ? []|tauto].
  - rewrite IH. split.
    + intros (H1 & H2 & H3 & H4 & H5). split; [split; auto; split; auto; intros c d Hc; apply H2, in_app_iff; auto|]. split; auto.
      intros x' y' c d [E|H] Hc; [injection E as <- <-; apply H2, in_app_iff; auto|eauto].
    + intros ((H1 & H2 & H3) & H4 & H5). split; auto. split; [|split; auto; split; auto; intros x' y' c d Ha Hc; apply (H5 x' y' c d); [now right|auto]].
      intros c d Hc. apply in_app_iff in Hc as [Hc|Hc]; auto. eapply H5; eauto. now left.
Qed.

(** ** union *)
Lemma absorb_ok e rest : forall last, rok rest -> (forall c d, In (c, d) rest -> last <= c /\ last < d) ->
  let (k, l) := union_absorb e last rest in
  k <= length rest /\ last <= l /\
  (forall c d, In (c, d) (skipn k rest) -> e < c /\ l <= c /\ l < d) /\
  (forall x, mem (firstn k rest) x -> last <= x < l) /\
  (forall x, last <= x < l -> mem (firstn k rest) x \/ x < e).
Proof.
  induction rest as [|[s1 e1] rest IH]; intros last R Hb; cbn [union_absorb].
  - split; auto. split; auto. split; [intros c d []|]. split; [intros x H; now apply mem_nil in H|lia].
  - destruct R as (R1 & R2 & R3). destruct (s1 <=? e) eqn:E.
    + specialize (IH e1 R3 R2). destruct (union_absorb e e1 rest) as [k l]. destruct IH as (A & B & C & D & F).
      specialize (Hb s1 e1 (or_introl eq_refl)). split; [cbn; lia|]. split; [lia|]. cbn [skipn firstn]. split; auto.
      split.
      * intros x H. apply mem_cons in H as [H|H]; [lia|]. apply D in H. lia.
      * intros x Hx. destruct (Nat.lt_ge_cases x s1); [lia|]. rewrite mem_cons. destruct (Nat.lt_ge_cases x e1); [auto|]. destruct (F x ltac:(lia)); auto.
    + split; [lia|]. split; auto. cbn [skipn firstn]. split.
      * intros c d H. pose proof (Hb c d H). destruct H as [H|H]; [injection H as <- <-; lia|]. apply R2 in H. lia.
      * split; [intros x H; now apply mem_nil in H|lia].
Qed.
Lemma union_in rs s e c d : rok rs -> s <= e -> In (c, d) (union_one_range rs s e) ->
  In (c, d) rs \/ ((c = s \/ exists d', In (c, d') rs) /\ e <= d).
Proof.
  induction rs as [|[a b] rs IH]; intros R He; cbn [union_one_range].
  - intros [E|[]]. injection E as <- <-. auto.
  - destruct R as (R1 & R2 & R3). destruct (b <? s) eqn:E1.
    + intros [E|H]; [left; now left|]. destruct (IH R3 He H) as [H1|[[H1|(d' & H1)] H2]]; [left; now right|auto|]. right. split; auto. right. exists d'. now right.
    + destruct (e <? a) eqn:E2; [intros [E|H]; [injection E as <- <-; auto|auto]|].
      pose proof (absorb_ok e rs b R3 R2) as K. destruct (union_absorb e b rs) as [k l]. intros [E|H].
      * injection E as <- <-. right. split; [|lia]. destruct (Nat.min_spec s a) as [[_ ->]|[_ ->]]; auto. right. exists b. now left.
      * left. right. rewrite <- (firstn_skipn k rs). apply in_app_iff. auto.
Qed.
Lemma union_ok rs s e : rok rs -> s <= e ->
  rok (union_one_range rs s e) /\ forall x, mem (union_one_range rs s e) x <-> mem rs x \/ s <= x < e.
Proof.
  induction rs as [|[a b] rs IH]; intros R He; cbn [union_one_range].
  - split; [cbn; repeat split; auto; tauto|]. intros x. rewrite mem_cons. tauto.
  - pose proof R as (R1 & R2 & R3). destruct (b <? s) eqn:E1.
    + destruct (IH R3 He) as [I1 I2]. split.
      * cbn [rok]. split; auto. split; auto. intros c d H. destruct (union_in rs s e c d R3 He H) as [H1|[[->|(d' & H1)] H2]]; auto; [lia|].
        destruct (R2 _ _ H1). lia.
      * intros x. rewrite !mem_cons, I2. tauto.
    + destruct (e <? a) eqn:E2.
      * split; [|intros x; rewrite !mem_cons; tauto]. split; auto. split; auto. intros c d [H|H]; [injection H as <- <-; lia|]. apply R2 in H. lia.
      * pose proof (absorb_ok e rs b R3 R2) as K. destruct (union_absorb e b rs) as [k l]. destruct K as (K1 & K2 & K3 & K4 & K5).
        rewrite <- (firstn_skipn k rs) in R3. apply rok_app in R3 as (R3 & R4 & R5). split.
        { cbn [rok]. split; [lia|]. split; auto. intros c d H. pose proof (rok_le _ _ _ R4 H). apply K3 in H. lia. }
        intros x. rewrite !mem_cons. rewrite <- (firstn_skipn k rs) at 2. rewrite mem_app. split.
        -- intros [H|H]; [|auto]. destruct (Nat.lt_ge_cases x s); [left; left; lia|].
           destruct (Nat.lt_ge_cases x e); [auto|]. destruct (Nat.lt_ge_cases x b); [left; left; lia|]. destruct (K5 x ltac:(lia)); [auto|lia].
        -- intros [[H|[H|H]]|H]; [left; lia| |auto|left; lia]. apply K4 in H. left. lia.
Qed.

(** ** delete *)
Fixpoint del (rs : ranges) (s e : nat) : ranges :=
  match rs with
  | [] => []
  | (a, b) :: rest =>
      if e <=? a then rs
      else if a <? s then if e <? b then (a, s) :: (e, b) :: rest else (a, s) :: del rest s e
      else if e <? b then (e, b) :: del rest s e
      else del rest s e
  end.
Lemma delete_loop_run rs s e f0 : forall ix n0, rok rs -> (forall a b, In (a, b) rs -> s <= a) ->
  exists m r, delete_loop rs ix s e (Some f0) n0 = (r, Some f0, n0 + m) /\ m <= length r /\ skipn m r = del rs s e.
Proof.
  induction rs as [|[a b] rs IH]; intros ix n0 R Ha; cbn [delete_loop del].
  - exists 0, []. rewrite Nat.add_0_r. auto.
  - destruct R as (R1 & R2 & R3). specialize (Ha a b (or_introl eq_refl)) as Hab. destruct (e <=? a) eqn:E1.
    { exists 0, ((a, b) :: rs). rewrite Nat.add_0_r. split; auto. split; [lia|auto]. }
    replace (a <? s) with false by lia. destruct (e <? b) eqn:E2.
    + destruct (delete_loop rs (S ix) s e (Some f0) n0) as [[r f] n] eqn:El.
      assert (Ed : delete_loop rs (S ix) s e (Some f0) n0 = (rs, Some f0, n0) /\ del rs s e = rs).
      { destruct rs as [|[c d] rs]; [auto|]. cbn. destruct (R2 c d (or_introl eq_refl)). replace (e <=? c) with true by lia. auto. }
      destruct Ed as [Ed1 Ed2]. rewrite Ed1 in El. injection El as <- <- <-. exists 0, ((e, b) :: rs). rewrite Ed2, Nat.add_0_r. split; auto. split; [lia|auto].
    + destruct (IH (S ix) (S n0) R3) as (m & r & -> & Hm & Er). { intros. eapply Ha. right. eauto. }
      exists (S m), ((a, b) :: r). split; [f_equal; lia|]. split; [cbn; lia|exact Er].
Qed.
Lemma delete_loop_ok rs s e : forall ix, rok rs -> s <= e ->
  exists r, (delete_loop rs ix s e None 0 = (r, None, 0) /\ r = del rs s e) \/
    (exists k n, delete_loop rs ix s e None 0 = (r, Some (ix + k), n) /\ 0 < n /\ k + n <= length r /\ firstn k r ++ skipn (k + n) r = del rs s e).
Proof.
  induction rs as [|[a b] rs IH]; intros ix R He; cbn [delete_loop del].
  - exists []. auto.
  - destruct R as (R1 & R2 & R3). destruct (e <=? a) eqn:E1; [eexists; left; auto|]. destruct (a <? s) eqn:E2; [destruct (e <? b) eqn:E3; [eexists; left; auto|]|destruct (e <? b) eqn:E3].
    + destruct (IH (S ix) R3 He) as (r & [[-> E]|(k & n & -> & H1 & H2 & H3)]).
      * exists ((a, s) :: r). left. now rewrite E.
      * exists ((a, s) :: r). right. exists (S k), n. split; [do 3 f_equal; lia|]. split; auto. split; [cbn; lia|]. cbn. now rewrite H3.
    + destruct (IH (S ix) R3 He) as (r & [[-> E]|(k & n & -> & H1 & H2 & H3)]).
      * exists ((e, b) :: r). left. now rewrite E.
      * exists ((e, b) :: r). right. exists (S k), n. split; [do 3 f_equal; lia|]. split; auto. split; [cbn; lia|]. cbn. now rewrite H3.
    + destruct (delete_loop_run rs s e ix (S ix) 1 R3) as (m & r & -> & Hm & Er). { intros c d H. apply R2 in H. lia. }
      exists ((a, b) :: r). right. exists 0, (S m). rewrite Nat.add_0_r. split; auto. split; [lia|]. split; [cbn; lia|exact Er].
Qed.
Lemma remove_n_at_ok {T} (v : list T) i n : i + n <= length v -> remove_n_at v i n = Some (firstn i v ++ skipn (i + n) v).
Proof.
  intros H. unfold remove_n_at. destruct n as [|[|n]].
  - now rewrite Nat.add_0_r, firstn_skipn.
  - replace (i <? length v) with true by lia. cbn [check]. now replace (i + 1) with (S i) by lia.
  - replace (S (S n) <=? length v) with true by lia. cbn [check]. f_equal. apply firstn_all2. rewrite app_length, firstn_length, skipn_length. lia.
Qed.
Lemma search_end_ok rs s : rok rs -> let ix := search_end rs s in ix <= length rs /\
  (forall a b, In (a, b) (firstn ix rs) -> b < s) /\ (forall a b, In (a, b) (skipn ix rs) -> s <= b).
Proof.
  induction rs as [|[a b] rs IH]; intros R; cbn [search_end]. { cbn. split; auto. split; intros ? ? []. }
  destruct R as (R1 & R2 & R3). destruct (b <? s) eqn:E.
  - destruct (IH R3) as (A & B & C). cbn [firstn skipn]. split; [cbn; lia|]. split; auto. intros c d [H|H]; [injection H as <- <-; lia|eauto].
  - cbn. split; [lia|]. split; [intros ? ? []|]. intros c d [H|H]; [injection H as <- <-; lia|]. apply R2 in H. lia.
Qed.
Lemma del_ok rs s e : rok rs -> s <= e -> (forall a b, In (a, b) rs -> s <= b) ->
  rok (del rs s e) /\ (forall x, mem (del rs s e) x <-> mem rs x /\ ~ s <= x < e) /\
  (forall c d lo, In (c, d) (del rs s e) -> (forall a b, In (a, b) rs -> lo <= a /\ lo < b) -> lo <= c /\ lo < d).
Proof.
  revert s. induction rs as [|[a b] rs IH]; intros s R He Hb; cbn [del].
  - split; [exact Logic.I|]. split; [intros x; split; [intros H; now apply mem_nil in H|tauto]|intros c d lo []].
  - pose proof R as (R1 & R2 & R3). specialize (Hb a b (or_introl eq_refl)) as Hab.
    assert (G : forall x, mem rs x -> b <= x) by (intros x (c & d & H & Hx); apply R2 in H; lia).
    destruct (e <=? a) eqn:E1.
    { split; auto. split; [|auto]. intros x. rewrite mem_cons. split; [|tauto]. intros H. split; auto. destruct H as [H|H]; [lia|apply G in H; lia]. }
    destruct (IH s R3 He) as (I1 & I2 & I3). { intros c d H. apply R2 in H. lia. }
    destruct (a <? s) eqn:E2; [destruct (e <? b) eqn:E3|destruct (e <? b) eqn:E3].
    + split; [|split].
      * cbn [rok]. split; [lia|]. split; [|split; [lia|split; auto]]. intros c d [H|H]; [injection H as <- <-; lia|]. apply R2 in H. lia.
      * intros x. rewrite !mem_cons. split; [|intuition lia]. intros [H|[H|H]]; [split; [left; lia|lia]|split; [left; lia|lia]|]. split; auto. apply G in H. lia.
      * intros c d lo [H|[H|H]] K; [injection H as <- <-| injection H as <- <-|apply K; now right]; specialize (K a b (or_introl eq_refl)); lia.
    + split; [|split].
      * cbn [rok]. split; [lia|]. split; auto. intros c d H. destruct (I3 c d b H R2). lia.
      * intros x. rewrite !mem_cons, I2. split; [|intuition lia]. intros [H|H]; [split; [left; lia|lia]|tauto].
      * intros c d lo [H|H] K; [injection H as <- <-; specialize (K a b (or_introl eq_refl)); lia|]. apply (I3 c d lo H). intros. apply K. now right.
    + split; [|split].
      * cbn [rok]. split; [lia|]. split; [|auto]. intros c d H. apply (I3 c d b H R2).
      * intros x. rewrite !mem_cons, I2. split; [|intuition lia]. intros [H|H]; [split; [left; lia|lia]|tauto].
      * intros c d lo [H|H] K; [injection H as <- <-; specialize (K a b (or_introl eq_refl)); lia|]. apply (I3 c d lo H). intros. apply K. now right.
    + split; auto. split; [intros x; rewrite !mem_cons, I2; intuition lia|].
      intros c d lo H K. apply (I3 c d lo H). intros. apply K. now right.
Qed.
Lemma delete_ok rs s e : rok rs -> s <= e ->
  exists rs', delete_range rs s e = Some rs' /\ rok rs' /\ forall x, mem rs' x <-> mem rs x /\ ~ s <= x < e.
Proof.
  intros R He. unfold delete_range. destruct (search_end_ok rs s R) as (H1 & H2 & H3). set (ix := search_end rs s) in *.
  pose proof R as R'. rewrite <- (firstn_skipn ix rs) in R'. apply rok_app in R' as (R1 & R2 & R3).
  destruct (del_ok (skipn ix rs) s e R2 He H3) as (D1 & D2 & D3).
  assert (K : rok (firstn ix rs ++ del (skipn ix rs) s e) /\ forall x, mem (firstn ix rs ++ del (skipn ix rs) s e) x <-> mem rs x /\ ~ s <= x < e).
  { split.
    - apply rok_app. split; auto. split; auto. intros x y c d Hx Hc. apply (D3 c d y Hc). intros a b Hab. eapply R3; eauto.
    - intros x. rewrite <- (firstn_skipn ix rs) at 3. rewrite !mem_app, D2. split; [|tauto]. intros [H|H]; [|tauto]. split; auto.
      destruct H as (a & b & Hi & Hx). apply H2 in Hi. lia. }
  destruct (delete_loop_ok (skipn ix rs) s e ix R2 He) as (r & [[-> Er]|(k & n & -> & Hn & Hk & Er)]).
  - exists (firstn ix rs ++ r). rewrite Er. auto.
  - assert (Lf : length (firstn ix rs) = ix) by (rewrite firstn_length; lia).
    rewrite remove_n_at_ok by (rewrite app_length, Lf; lia). eexists. split; [reflexivity|].
    replace (firstn (ix + k) (firstn ix rs ++ r) ++ skipn (ix + k + n) (firstn ix rs ++ r)) with (firstn ix rs ++ del (skipn ix rs) s e); auto.
    rewrite <- Er, firstn_app, skipn_app, Lf. rewrite (firstn_all2 (firstn ix rs)) by lia. rewrite (skipn_all2 (firstn ix rs)) by lia.
    cbn [app]. rewrite <- app_assoc. f_equal. f_equal; f_equal; lia.
Qed.

(** ** minus *)
Lemma drop_before_ok rs start : rok rs -> rok (drop_before rs start) /\
  (forall x, start <= x -> (mem (drop_before rs start) x <-> mem rs x)) /\ (forall a b, In (a, b) (drop_before rs start) -> start < b).
Proof.
  induction rs as [|[a b] rs IH]; intros R; cbn [drop_before]. { split; auto. split; [tauto|intros ? ? []]. }
  pose proof R as (R1 & R2 & R3). destruct (b <=? start) eqn:E.
  - destruct (IH R3) as (A & B & C). split; auto. split; auto. intros x Hx. rewrite mem_cons, B by auto. split; auto. intros [H|H]; [lia|auto].
  - split; auto. split; [tauto|]. intros c d [H|H]; [injection H as <- <-; lia|]. apply R2 in H. lia.
Qed.
(** What one call of [next] yields: the first piece, and what remains. *)
Lemma minus_next_ok rs : forall start e, rok rs -> (forall a b, In (a, b) rs -> start <= b) ->
  match minus_next rs start e with
  | (None, _) => forall x, start <= x < e -> mem rs x
  | (Some (a, b), m) => start <= a /\ a < b /\ b <= e /\ (forall x, start <= x < a -> mem rs x) /\ (forall x, a <= x < b -> ~ mem rs x) /\
      mi_end m = e /\ b <= mi_start m /\ (forall x, b <= x < mi_start m -> x < e -> mem rs x) /\
      (forall x, mi_start m <= x -> (mem (mi_ranges m) x <-> mem rs x)) /\ rok (mi_ranges m) /\ (forall a' b', In (a', b') (mi_ranges m) -> mi_start m <= b') /\
      (length (mi_ranges m) < length rs \/ mi_start m = e)
  end.
Proof.
  induction rs as [|[a b] rs IH]; intros start e R Hb; cbn [minus_next].
  - destruct (e <=? start) eqn:E; [lia|]. split; [lia|]. split; [lia|]. split; [lia|]. split; [lia|]. split; [intros x _; apply mem_nil|]. cbn.
    split; auto. split; [lia|]. split; [lia|]. split; [tauto|]. split; auto. split; [intros ? ? []|auto].
  - pose proof R as (R1 & R2 & R3). specialize (Hb a b (or_introl eq_refl)) as Hab. destruct (e <=? start) eqn:E; [lia|].
    assert (G : forall x, mem rs x -> b <= x) by (intros x (c & d & H & Hx); apply R2 in H; lia).
    destruct (e <=? a) eqn:E2.
    + split; [lia|]. split; [lia|]. split; [lia|]. split; [lia|]. split. { intros x Hx H. apply mem_cons in H as [H|H]; [lia|apply G in H; lia]. }
      cbn [mi_end mi_start mi_ranges]. split; auto. split; [lia|]. split; [lia|]. split; [tauto|]. split; auto. split; [|auto].
      intros c d [H|H]; [injection H as <- <-; lia|]. apply R2 in H. lia.
    + destruct (start <? a) eqn:E3.
      * split; [lia|]. split; [lia|]. split; [lia|]. split; [lia|]. split. { intros x Hx H. apply mem_cons in H as [H|H]; [lia|apply G in H; lia]. }
        cbn [mi_end mi_start mi_ranges]. split; auto. split; [lia|]. split. { intros x Hx _. apply mem_cons. left. lia. }
        split. { intros x Hx. rewrite mem_cons. intuition lia. } split; auto. split; [|cbn; lia]. intros c d H. apply R2 in H. lia.
      * specialize (IH b e R3 ltac:(intros c d H; apply R2 in H; lia)). destruct (minus_next rs b e) as [[[c d]|] m].
        -- destruct IH as (I1 & I2 & I3 & I4 & I5 & I6 & I7 & I8 & I9 & I10 & I11 & I12). split; [lia|]. split; auto. split; auto.
           split. { intros x Hx. apply mem_cons. destruct (Nat.lt_ge_cases x b); [left; lia|right; apply I4; lia]. }
           split. { intros x Hx H. apply mem_cons in H as [H|H]; [lia|]. apply (I5 x Hx H). }
           split; auto. split; auto. split. { intros x Hx Hxe. apply mem_cons. right. auto. }
           split. { intros x Hx. rewrite I9 by auto. rewrite mem_cons. intuition lia. } split; auto. split; auto. cbn. lia.
        -- intros x Hx. apply mem_cons. destruct (Nat.lt_ge_cases x b); [left; lia|right; apply IH; lia].
Qed.
Lemma minus_all_ok fuel : forall m, rok (mi_ranges m) -> (forall a b, In (a, b) (mi_ranges m) -> mi_start m <= b) -> S (length (mi_ranges m)) < fuel \/ (mi_end m <= mi_start m /\ 0 < fuel) ->
  exists rs, minus_all mi_next fuel m = Some rs /\ rok rs /\ Forall (fun r => fst r < snd r) rs /\
    (forall x, mem rs x <-> mi_start m <= x < mi_end m /\ ~ mem (mi_ranges m) x).
Proof.
  induction fuel as [|f IH]; intros [rs s e] R Hb Hf; cbn [mi_ranges mi_start mi_end] in *; [lia|]. cbn [minus_all]. change (mi_next (MinusIter rs s e)) with (minus_next rs s e).
  pose proof (minus_next_ok rs s e R Hb) as K. destruct (minus_next rs s e) as [[[a b]|] m] eqn:En.
  - destruct K as (I1 & I2 & I3 & I4 & I5 & I6 & I7 & I8 & I9 & I10 & I11 & I12).
    assert (Hse : s < e) by lia.
    destruct (IH m I10 I11) as (out & -> & O1 & O2 & O3). { destruct I12; lia. }
    cbn [bind]. exists ((a, b) :: out). split; auto. split.
    { split; [lia|]. split; auto. intros c d H. assert (Hcd : c < d) by (rewrite Forall_forall in O2; apply (O2 _ H)).
      assert (Hc : mem out c) by (exists c, d; split; [auto|lia]). apply O3 in Hc as [Hc _]. lia. }
    split; [constructor; auto|]. intros x. rewrite mem_cons, O3. rewrite I6. split.
    + intros [H|[H1 H2]]; [split; [lia|auto]|]. rewrite I9 in H2 by lia. split; [lia|auto].
    + intros [H1 H2]. destruct (Nat.lt_ge_cases x a); [exfalso; apply H2, I4; lia|]. destruct (Nat.lt_ge_cases x b); [left; lia|].
      destruct (Nat.lt_ge_cases x (mi_start m)); [exfalso; apply H2, I8; lia|]. right. rewrite I9 by auto. split; [lia|auto].
  - exists []. split; auto. split; [exact Logic.I|]. split; auto. intros x. split; [intros H; now apply mem_nil in H|]. intros [H1 H2]. exfalso. auto.
Qed.

(** Backwards, if no range starts at or after the end. *)
Lemma minus_next_back_ok rs : forall start e, rok (rev rs) -> (forall a b, In (a, b) rs -> a <= e) ->
  match minus_next_back rs start e with
  | (None, _) => forall x, start <= x < e -> mem rs x
  | (Some (a, b), m) => start <= a /\ a < b /\ b <= e /\ (forall x, b <= x < e -> mem rs x) /\ (forall x, a <= x < b -> ~ mem rs x) /\
      (mi_end m <= mi_start m /\ (forall x, start <= x < a -> mem rs x) \/
       mi_start m = start /\ mi_end m <= a /\ (forall x, mi_end m <= x < a -> start <= x -> mem rs x) /\
       (forall x, x < mi_end m -> (mem (mi_ranges m) x <-> mem rs x)) /\ rok (mi_ranges m) /\ (forall a' b', In (a', b') (mi_ranges m) -> a' <= mi_end m) /\
       length (mi_ranges m) < length rs)
  end.
Proof.
  induction rs as [|[a b] rs IH]; intros start e R Ha; cbn [minus_next_back].
  - destruct (e <=? start) eqn:E; [intros x Hx; exfalso; lia|]. split; [lia|]. split; [lia|]. split; [lia|]. split; [intros x Hx; exfalso; lia|]. split; [intros x _; apply mem_nil|]. cbn. left. split; [lia|intros x Hx; exfalso; lia].
  - specialize (Ha a b (or_introl eq_refl)) as Hab. destruct (e <=? start) eqn:E; [intros x Hx; exfalso; lia|]. cbn [rev] in R. pose proof R as R'.
    apply rok_app in R' as (R1 & (R2 & _ & _) & R4).
    assert (G : forall c d, In (c, d) rs -> c <= d /\ d <= a /\ d < b).
    { intros c d H. apply in_rev in H. split; [eapply rok_le; eauto|]. apply (R4 c d a b); auto. now left. }
    assert (Gm : forall x, mem rs x -> x < a) by (intros x (c & d & H & Hx); apply G in H; lia).
    destruct (b <=? start) eqn:E2.
    + split; [lia|]. split; [lia|]. split; [lia|]. split; [intros x Hx; exfalso; lia|]. split. { intros x Hx H. apply mem_cons in H as [H|H]; [lia|apply Gm in H; lia]. } cbn. left. split; [lia|intros x Hx; exfalso; lia].
    + destruct (b <? e) eqn:E3.
      * split; [lia|]. split; [lia|]. split; [lia|]. split; [intros x Hx; exfalso; lia|]. split. { intros x Hx H. apply mem_cons in H as [H|H]; [lia|apply Gm in H; lia]. }
        cbn [mi_start mi_end mi_ranges]. right. split; auto. split; [lia|]. split. { intros x Hx _. apply mem_cons. left. lia. }
        split. { intros x Hx. rewrite mem_cons. split; [|intros [H|H]; [lia|]].
                 - intros (c & d & H & Hx'). right. exists c, d. split; auto. now apply in_rev.
                 - destruct H as (c & d & H & Hx'). exists c, d. split; auto. now apply in_rev in H. }
        split; auto. split; [|rewrite rev_length; cbn; lia]. intros c d H. apply in_rev in H. apply G in H. lia.
      * specialize (IH start a R1 ltac:(intros c d H; apply G in H; lia)). destruct (minus_next_back rs start a) as [[[c d]|] m].
        -- destruct IH as (I1 & I2 & I3 & I4 & I5 & I6). split; auto. split; auto. split; [lia|].
           split. { intros x Hx. apply mem_cons. destruct (Nat.lt_ge_cases x a); [right; apply I4; lia|left; lia]. }
           split. { intros x Hx H. apply mem_cons in H as [H|H]; [lia|]. apply (I5 x Hx H). }
           destruct I6 as [[I6 I7]|(I6 & I7 & I8 & I9 & I10 & I11 & I12)]; [left; split; auto; intros x Hx; apply mem_cons; right; auto|].
           right. split; auto. split; auto. split. { intros x Hx Hs. apply mem_cons. right. auto. }
           split. { intros x Hx. rewrite I9 by auto. rewrite mem_cons. split; auto. intros [H|H]; [lia|auto]. } split; auto. split; auto. cbn. lia.
        -- intros x Hx. apply mem_cons. destruct (Nat.lt_ge_cases x a); [right; apply IH; lia|left; lia].
Qed.
Lemma mem_rev rs x : mem (rev rs) x <-> mem rs x.
Proof. split; intros (a & b & H & Hx); exists a, b; (split; [|auto]); now apply in_rev in H || now (apply in_rev; rewrite rev_involutive). Qed.
Lemma minus_back_ok fuel : forall m, rok (mi_ranges m) -> (forall a b, In (a, b) (mi_ranges m) -> a <= mi_end m) -> S (length (mi_ranges m)) < fuel \/ (mi_end m <= mi_start m /\ 0 < fuel) ->
  exists rs, minus_all mi_next_back fuel m = Some rs /\ rok (rev rs) /\ Forall (fun r => fst r < snd r) rs /\
    (forall x, mem rs x <-> mi_start m <= x < mi_end m /\ ~ mem (mi_ranges m) x).
Proof.
  induction fuel as [|f IH]; intros [rs s e] R Ha Hf; cbn [mi_ranges mi_start mi_end] in *; [lia|]. cbn [minus_all].
  change (mi_next_back (MinusIter rs s e)) with (minus_next_back (rev rs) s e).
  pose proof (minus_next_back_ok (rev rs) s e) as K. rewrite rev_involutive in K. specialize (K R).
  specialize (K ltac:(intros a b H; apply (Ha a b); now apply in_rev)). destruct (minus_next_back (rev rs) s e) as [[[a b]|] m] eqn:En.
  - destruct K as (I1 & I2 & I3 & I4 & I5 & I6).
    assert (O : exists out, minus_all mi_next_back f m = Some out /\ rok (rev out) /\ Forall (fun r => fst r < snd r) out /\
      (forall x, mem out x <-> s <= x < a /\ ~ mem rs x)).
    { destruct I6 as [[I6 I7]|(I6 & I7 & I8 & I9 & I10 & I11 & I12)].
      - destruct f; [lia|]. exists []. split.
        + cbn [minus_all]. unfold mi_next_back. destruct (rev (mi_ranges m)) as [|[c d] l]; cbn [minus_next_back]; replace (mi_end m <=? mi_start m) with true by lia; reflexivity.
        + split; [exact Logic.I|]. split; auto. intros x. split; [intros H; now apply mem_nil in H|]. intros [H1 H2]. exfalso. apply H2, mem_rev. auto.
      - destruct (IH m I10 I11) as (out & E & O1 & O2 & O3). { rewrite rev_length in I12. lia. }
        exists out. split; auto. split; auto. split; auto. intros x. rewrite O3, I6. split.
        + intros [H1 H2]. split; [lia|]. rewrite I9, mem_rev in H2 by lia. auto.
        + intros [H1 H2]. destruct (Nat.lt_ge_cases x (mi_end m)).
          * split; [lia|]. rewrite I9, mem_rev by lia. auto.
          * exfalso. apply H2, mem_rev, I8; lia. }
    destruct O as (out & -> & O1 & O2 & O3). cbn [bind]. exists ((a, b) :: out). split; auto. split.
    { cbn [rev]. apply rok_app. split; auto. split; [cbn [rok]; split; [lia|split; [intros ? ? []|exact Logic.I]]|]. intros x y c d H [Ec|[]]. injection Ec as <- <-.
      apply in_rev in H. assert (Hxy : x < y) by (rewrite Forall_forall in O2; apply (O2 _ H)).
      assert (Hc : mem out (y - 1)) by (exists x, y; split; [auto|lia]). apply O3 in Hc as [Hc _]. lia. }
    split; [constructor; auto|]. intros x. rewrite mem_cons, O3. setoid_rewrite mem_rev in I5. setoid_rewrite mem_rev in I4. split.
    + intros [H|[H1 H2]]; [split; [lia|auto]|split; [lia|auto]].
    + intros [H1 H2]. destruct (Nat.lt_ge_cases x a); [right; split; [lia|auto]|]. destruct (Nat.lt_ge_cases x b); [left; lia|]. exfalso. apply H2, I4. lia.
  - exists []. split; auto. split; [exact Logic.I|]. split; auto. intros x. split; [intros H; now apply mem_nil in H|]. intros [H1 H2]. exfalso. apply H2. apply mem_rev. auto.
Qed.

(** Applying a delta. *)
Lemma iset_apply_ok {A} (d : delta A) rs : forall acc, wf_delta d -> rok rs -> rok (rev acc) ->
  (forall a b c e, In (a, b) acc -> In (c, e) rs -> b <= transform_ix d c false) ->
  Forall (fun r => fst r < snd r) acc ->
  rok (iset_apply d rs acc) /\ Forall (fun r => fst r < snd r) (iset_apply d rs acc) /\
  forall y, mem (iset_apply d rs acc) y <-> mem acc y \/ exists a b, In (a, b) rs /\ transform_ix d a false <= y < transform_ix d b false.
Proof.
  induction rs as [|[s e] rs IH]; intros acc Hw R Ra Hb Hn; cbn [iset_apply].
  - split; auto. split; [now apply Forall_rev|]. intros y. rewrite mem_rev. split; auto. intros [H|(a & b & [] & _)]; auto.
  - cbn [rok] in R. destruct R as (R1 & R2 & R3).
    assert (Hs : transform_ix d s false <= transform_ix d e false) by (apply transform_ix_mono; auto; destruct (Nat.eq_dec s e); [right; auto|left; lia]).
    assert (Hr : forall c f, In (c, f) rs -> transform_ix d e false <= transform_ix d c false).
    { intros c f H. apply R2 in H. apply transform_ix_mono; auto. destruct (Nat.eq_dec e c); [right; auto|left; lia]. }
    assert (Hb' : forall a b c f, In (a, b) acc -> In (c, f) rs -> b <= transform_ix d c false) by (intros a b c f H1 H2; apply (Hb a b c f); [|right]; auto).
    assert (Hbs : forall a b, In (a, b) acc -> b <= transform_ix d s false) by (intros a b H; apply (Hb a b s e); [|left]; auto).
    set (S' := transform_ix d s false) in *. set (E' := transform_ix d e false) in *.
    assert (Hgen : S' <> E' -> rok (rev ((S', E') :: acc))).
    { intros H. cbn [rev]. apply rok_app. split; auto. split; [cbn [rok]; split; [lia|split; [intros ? ? []|exact Logic.I]]|].
      intros x y c f Hx [Ef|[]]. injection Ef as <- <-. apply in_rev in Hx. apply Hbs in Hx. lia. }
    destruct (Nat.eqb_spec S' E') as [Eq|Ne].
    + destruct (IH acc) as (I1 & I2 & I3); auto. split; auto. split; auto. intros y. rewrite I3. split.
      * intros [H|(a & b & H & Hy)]; [auto|]. right. exists a, b. split; [right|]; auto.
      * intros [H|(a & b & [Ef|H] & Hy)]; [auto| |]; [injection Ef as <- <-; fold S' E' in Hy; lia|]. right. exists a, b. auto.
    + assert (Hpush : rok (iset_apply d rs ((S', E') :: acc)) /\ Forall (fun r => fst r < snd r) (iset_apply d rs ((S', E') :: acc)) /\
        forall y, mem (iset_apply d rs ((S', E') :: acc)) y <-> mem acc y \/ exists a b, In (a, b) ((s, e) :: rs) /\ transform_ix d a false <= y < transform_ix d b false).
      { destruct (IH ((S', E') :: acc)) as (I1 & I2 & I3); auto.
        - intros a b c f [Ef|H1] H2; [injection Ef as <- <-; eauto|eauto].
        - constructor; auto. cbn. lia.
        - split; auto. split; auto. intros y. rewrite I3, mem_cons. split.
          + intros [[H|H]|(a & b & H & Hy)]; [right; exists s, e; split; [left|]; auto|auto|right; exists a, b; split; [right|]; auto].
          + intros [H|(a & b & [Ef|H] & Hy)]; [auto|injection Ef as <- <-; auto|right; exists a, b; auto]. }
      destruct acc as [|[s0 e0] acc']; auto.
      destruct (Nat.eqb_spec e0 S') as [Eq|Ne']; auto.
      destruct (IH ((s0, E') :: acc')) as (I1 & I2 & I3); auto.
      * cbn [rev] in Ra |- *. apply rok_app in Ra as (Ra1 & Ra2 & Ra3). apply rok_app. split; auto. cbn [rok] in Ra2.
        split; [cbn [rok]; split; [lia|split; [intros ? ? []|exact Logic.I]]|]. intros x y c f Hx [Ef|[]]. injection Ef as <- <-.
        specialize (Ra3 x y s0 e0 Hx (or_introl eq_refl)). lia.
      * intros a b c f [Ef|H1] H2; [injection Ef as <- <-; eauto|]. apply (Hb' a b c f); [right|]; auto.
      * inversion_clear Hn as [|? ? Hn1 Hn2]. constructor; auto. cbn in *. lia.
      * split; auto. split; auto. intros y. rewrite I3, !mem_cons. inversion_clear Hn as [|? ? Hn1 Hn2]. cbn in Hn1. split.
        -- intros [[H|H]|(a & b & H & Hy)]; [|auto|right; exists a, b; split; [right|]; auto].
           destruct (Nat.lt_ge_cases y e0); [left; left; lia|right; exists s, e; split; [left; auto|fold S' E'; lia]].
        -- intros [[H|H]|(a & b & [Ef|H] & Hy)]; [left; left; lia|auto|injection Ef as <- <-; fold S' E' in Hy; left; left; lia|right; exists a, b; auto].
Qed.
Lemma iset_apply_delta_ok {A} (d : delta A) rs : wf_delta d -> no_empty_copy (els d) -> rok rs ->
  rok (iset_apply_delta rs d) /\ Forall (fun r => fst r < snd r) (iset_apply_delta rs d) /\
  (forall x j, nth_error (denote (els d)) j = Some (inl x) -> (mem (iset_apply_delta rs d) j <-> mem rs x)) /\
  (forall y, mem (iset_apply_delta rs d) y -> y < new_document_len d).
Proof.
  intros Hw Hc R. unfold iset_apply_delta. destruct (iset_apply_ok d rs [] Hw R Logic.I) as (I1 & I2 & I3); [intros ? ? ? ? []|constructor|].
  split; auto. split; auto. split.
  - intros x j Hj. rewrite I3. destruct (transform_ix_ok d x Hw Hc) as (T & _). apply T in Hj as [T1 T2]. clear T. split.
    + intros [H|(a & b & H & Hy)]; [now apply mem_nil in H|]. exists a, b. split; auto. split.
      * destruct (Nat.lt_ge_cases x a) as [L|]; auto. pose proof (transform_ix_mono d (S x) a false false Hw ltac:(lia)). lia.
      * destruct (Nat.lt_ge_cases x b) as [L|L]; auto.
        assert (transform_ix d b false <= transform_ix d x true) by (apply transform_ix_mono; auto; lia). lia.
    + intros (a & b & H & Hx). right. exists a, b. split; auto.
      assert (transform_ix d a false <= transform_ix d x true) by (apply transform_ix_mono; auto; lia).
      pose proof (transform_ix_mono d (S x) b false false Hw ltac:(lia)). lia.
  - intros y Hy. apply I3 in Hy as [H|(a & b & _ & Hy)]; [now apply mem_nil in H|]. pose proof (transform_ix_le d b false Hw). lia.
Qed.
