(** Lemmas on counts used by the engine proofs. *)
From Coq Require Import List Arith Bool Lia ZifyBool.
From Verif Require Import Base ListLib MultisetModel MultisetSpec MultisetProofs SpreadFacts
  DeltaModel DeltaSpec ExpandProofs SynthProofs DeltaProofs RebaseFacts EngineModel EngineSpec.
Import ListNotations.

Lemma mem_In g s : mem g s = true <-> In g s.
Proof. unfold mem. rewrite existsb_exists. split.
  - intros (x & H & E). apply Nat.eqb_eq in E. now subst.
  - intros H. exists g. rewrite Nat.eqb_refl. auto. Qed.

Lemma mem_app g a b : mem g (a ++ b) = mem g a || mem g b.
Proof. unfold mem. apply existsb_app. Qed.

Lemma mem_filter g f s : mem g (filter f s) = mem g s && f g.
Proof.
  unfold mem. induction s as [|x s IH]; cbn; auto. destruct (f x) eqn:E; cbn; rewrite IH.
  - destruct (g =? x) eqn:Q; cbn; auto. apply Nat.eqb_eq in Q. subst. now rewrite E.
  - destruct (g =? x) eqn:Q; cbn; auto. apply Nat.eqb_eq in Q. subst. rewrite E. now rewrite andb_false_r.
Qed.

Lemma mem_symdiff g a b : mem g (symdiff a b) = xorb (mem g a) (mem g b).
Proof. unfold symdiff. rewrite mem_app, !mem_filter. destruct (mem g a), (mem g b); reflexivity. Qed.

Lemma mem_minus g a b : mem g (set_minus a b) = mem g a && negb (mem g b).
Proof. apply mem_filter. Qed.

Lemma set_min_None s : set_min s = None -> s = [].
Proof. destruct s; cbn; auto. destruct (set_min s); discriminate. Qed.

Lemma set_min_le s m g : set_min s = Some m -> mem g s = true -> m <= g.
Proof.
  revert m; induction s as [|x s IH]; intros m; cbn; [discriminate|].
  unfold mem in *. cbn [existsb]. rewrite orb_true_iff. destruct (set_min s) as [h|] eqn:E.
  - intros [= <-] [H|H]; [apply Nat.eqb_eq in H; lia|]. specialize (IH h eq_refl H). lia.
  - intros [= <-] [H|H]; [apply Nat.eqb_eq in H; lia|]. apply set_min_None in E. subst. discriminate.
Qed.

(** Two lists denote the same set of groups. *)
Definition same_groups (a b : list nat) : Prop := forall g, mem g a = mem g b.

Lemma same_refl a : same_groups a a. Proof. now intros g. Qed.

Lemma dominated_refl a : dominated a a.
Proof. unfold dominated. induction a; cbn; constructor; auto. Qed.

Lemma dominated_cons x a y b : dominated (x :: a) (y :: b) <-> x <= y /\ dominated a b.
Proof.
  unfold dominated. cbn. split.
  - intros H. inversion H; subst. auto.
  - intros [? ?]. constructor; auto.
Qed.

Lemma dominated_trans a : forall b c, length a = length b -> length b = length c ->
  dominated a b -> dominated b c -> dominated a c.
Proof.
  induction a as [|x a IH]; intros [|y b] [|z c]; cbn [length]; try lia; intros H1 H2.
  - intros; constructor.
  - rewrite !dominated_cons. intros [? ?] [? ?]. split; [lia|]. apply (IH b); auto.
Qed.

Lemma zipw_cons f x a y b : zipw f (x :: a) (y :: b) = f x y :: zipw f a b.
Proof. reflexivity. Qed.

Lemma zipw_zero_r a n : length a = n -> zipw Nat.add a (repeat 0 n) = a.
Proof. intros <-. induction a; auto. cbn [length repeat]. rewrite zipw_cons, IHa. f_equal. lia. Qed.

Lemma lxor_cancel a : forall b, length a = length b ->
  zipw Nat.lxor b (zipw Nat.lxor a b) = a.
Proof.
  induction a as [|x a IH]; intros [|y b]; cbn [length]; intros H; try lia; auto.
  rewrite !zipw_cons, IH by lia. f_equal.
  rewrite (Nat.lxor_comm x y), <- Nat.lxor_assoc, Nat.lxor_nilpotent. apply Nat.lxor_0_l.
Qed.

Lemma zeros_le_length c : zeros c <= length c.
Proof. unfold zeros. induction c as [|k c IH]; cbn; auto. destruct (k =? 0); cbn; lia. Qed.

Lemma zeros_cons k c : zeros (k :: c) = (if k =? 0 then 1 else 0) + zeros c.
Proof. unfold zeros. cbn. now destruct (k =? 0). Qed.

Lemma zeros_spread_false s o : length s = zeros o ->
  zeros (spread false s o) = zeros s + (length o - zeros o).
Proof.
  revert s; induction o as [|k o IH]; intros s H; cbn [spread length] in *.
  - destruct s; cbn in *; auto; discriminate.
  - rewrite zeros_cons in *. pose proof (zeros_le_length o). destruct k; cbn [Nat.eqb] in *.
    + destruct s as [|c s]; [discriminate|]. rewrite !zeros_cons, IH by (cbn in H; lia). lia.
    + rewrite zeros_cons, IH by lia. cbn [Nat.eqb]. lia.
Qed.

(** Visible characters through two layers. *)
Lemma kept_add {A} a : forall b (u : list A), length a = length u -> length b = length u ->
  kept (zipw Nat.add a b) u = kept (kept a b) (kept a u).
Proof.
  induction a as [|x a IH]; intros [|y b] [|z u]; cbn [length]; intros H1 H2; try lia; auto.
  rewrite zipw_cons. cbn [kept]. destruct x; cbn [Nat.add Nat.eqb]; cbn [kept].
  - destruct (y =? 0); rewrite IH by lia; reflexivity.
  - apply IH; lia.
Qed.

Lemma zipw_add_comm a : forall b, zipw Nat.add a b = zipw Nat.add b a.
Proof. induction a as [|x a IH]; intros [|y b]; auto. rewrite !zipw_cons, IH. f_equal. lia. Qed.

(** Restricting a carried set. *)
Lemma kept_spread_comm u x c m : length c = zeros m -> length x = zeros m ->
  kept (spread false c m) (spread u x m) = spread u (kept c x) (kept (spread false c m) m).
Proof.
  revert x c; induction m as [|k m IH]; intros x c H1 H2; cbn [spread kept].
  - reflexivity.
  - rewrite zeros_cons in *. destruct k; cbn [Nat.eqb Nat.add] in *.
    + destruct c as [|c0 c], x as [|x0 x]; try discriminate. cbn [kept]. cbn in H1, H2.
      destruct (c0 =? 0); cbn [spread]; rewrite IH by lia; reflexivity.
    + cbn [spread kept Nat.eqb]. rewrite IH by lia. reflexivity.
Qed.

Lemma marks_shrink {A} (w : list (option A)) c : keeps w = length c ->
  kept (spread false c (marks w)) (marks w) = marks (shrink_script w c).
Proof.
  revert c; induction w as [|[x|] w IH]; intros c H.
  - reflexivity.
  - cbn [marks map spread shrink_script kept Nat.eqb]. rewrite keeps_Some_cons in H.
    unfold marks in IH. now rewrite IH.
  - rewrite keeps_None in H. destruct c as [|k c]; [discriminate|].
    cbn [marks map spread shrink_script kept]. cbn in H. unfold marks in IH.
    destruct (k =? 0); cbn [map]; rewrite IH by lia; reflexivity.
Qed.

(** Inverting one edit. *)
Lemma unstep_expand c ins del : length c = zeros ins -> length del = length ins ->
  kept ins (zipw Nat.sub (zipw Nat.add (spread false c ins) del) del) = c.
Proof.
  intros H1 H2. replace (zipw Nat.sub _ del) with (spread false c ins).
  - now apply kept_spread.
  - generalize (spread_length false c ins H1). generalize (spread false c ins). clear H1.
    rewrite <- H2. clear. induction del as [|x del IH]; intros [|y l] H; cbn in H; try lia; auto.
    rewrite !zipw_cons, <- IH by lia. f_equal. lia.
Qed.

Lemma dominated_add a b : length a = length b -> dominated b (zipw Nat.add a b).
Proof.
  revert b; induction a as [|x a IH]; intros [|y b] H; cbn in H; try lia; [constructor|].
  rewrite zipw_cons, dominated_cons. split; [lia|]. apply IH; lia.
Qed.

Lemma dominated_sub a b d : length a = length d -> length b = length d ->
  dominated (zipw Nat.add a b) d -> dominated a (zipw Nat.sub d b).
Proof.
  revert b d; induction a as [|x a IH]; intros [|y b] [|z d] H1 H2; cbn in H1, H2; try lia; [constructor|].
  rewrite !zipw_cons, !dominated_cons. intros [? ?]. split; [lia|]. apply IH; auto; lia.
Qed.

Lemma dominated_kept o : forall a b, length a = length o -> length b = length o ->
  dominated a b -> dominated (kept o a) (kept o b).
Proof.
  induction o as [|k o IH]; intros [|x a] [|y b] H1 H2; cbn in H1, H2; try lia; [constructor|].
  rewrite dominated_cons. intros [? ?]. cbn [kept]. destruct (k =? 0).
  - rewrite dominated_cons. split; [auto|apply IH; auto; lia].
  - apply IH; auto; lia.
Qed.

Lemma dominated_weak a b c : length a = length c -> length b = length c ->
  dominated (zipw Nat.add a b) c -> dominated b c.
Proof.
  revert b c; induction a as [|x a IH]; intros [|y b] [|z c] H1 H2; cbn in H1, H2; try lia; [constructor|].
  rewrite !zipw_cons, !dominated_cons. intros [? ?]. split; [lia|]. apply IH; auto; lia.
Qed.

(** Complement. *)
Definition compl (c : list nat) : list nat := map (fun k => if k =? 0 then 1 else 0) c.
Lemma kept_compl {A} c (u : list A) : kept (compl c) u = removed c u.
Proof. revert u; induction c as [|k c IH]; intros [|x u]; cbn; auto. destruct k; cbn; auto. now rewrite IH. Qed.
Lemma removed_compl {A} c (u : list A) : removed (compl c) u = kept c u.
Proof. revert u; induction c as [|k c IH]; intros [|x u]; cbn; auto. destruct k; cbn; auto. now rewrite IH. Qed.
Lemma compl_length c : length (compl c) = length c.
Proof. apply map_length. Qed.

Section Shuffle.
Context {A : Type}.
Implicit Types u : list A.

Lemma shuffle_tombstones_ok old new u : canonical old -> canonical new ->
  length (flat old) = length u -> length (flat new) = length u ->
  shuffle_tombstones (kept (flat old) u) (removed (flat old) u) old new = Some (removed (flat new) u).
Proof.
  intros H1 H2 L1 L2. unfold shuffle_tombstones.
  destruct (complement_ok old H1) as (io & -> & Ci & Fi).
  destruct (complement_ok new H2) as (no & -> & Cn & Fn). cbn [bind].
  assert (Li : length (flat io) = length u) by (rewrite Fi, map_length; auto).
  assert (Ln : length (flat no) = length u) by (rewrite Fn, map_length; auto).
  destruct (synthesize_apply io no u Ci Cn Li Ln) as (d & E & _ & _ & Ea).
  change (map _ _) with (compl (flat old)) in Fi. change (map _ _) with (compl (flat new)) in Fn.
  rewrite Fi, removed_compl in E. rewrite Fi, Fn, !kept_compl in Ea. rewrite E. exact Ea.
Qed.

Lemma shuffle_ok old new u : canonical old -> canonical new ->
  length (flat old) = length u -> length (flat new) = length u ->
  shuffle (kept (flat old) u) (removed (flat old) u) old new =
  Some (kept (flat new) u, removed (flat new) u).
Proof.
  intros H1 H2 L1 L2. unfold shuffle.
  destruct (synthesize_apply old new u H1 H2 L1 L2) as (d & -> & _ & _ & Ea). cbn [bind].
  rewrite Ea. cbn [bind]. rewrite shuffle_tombstones_ok by auto. reflexivity.
Qed.
End Shuffle.

(** Empty subsets. *)
Lemma spread_empty_ins u c ins : canonical ins -> is_empty ins = true ->
  length c = zeros (flat ins) -> spread u c (flat ins) = c.
Proof.
  intros Hc He Hl. apply is_empty_repeat in He; auto. rewrite He in Hl |- *.
  rewrite zeros_repeat in Hl. cbn [Nat.eqb] in Hl. apply spread_all_zero. exact Hl.
Qed.

Lemma add_empty_del c del : canonical del -> is_empty del = true ->
  length c = length (flat del) -> zipw Nat.add c (flat del) = c.
Proof.
  intros Hc He Hl. apply is_empty_repeat in He; auto. rewrite He. apply zipw_zero_r. auto.
Qed.

Lemma kept_empty {A} ins (u : list A) : canonical ins -> is_empty ins = true ->
  length u = length (flat ins) -> kept (flat ins) u = u.
Proof.
  intros Hc He Hl. apply is_empty_repeat in He; auto. rewrite He.
  apply kept_all_zero. auto.
Qed.
