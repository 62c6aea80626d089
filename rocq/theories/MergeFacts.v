(** The diamond of two concurrent insertion scripts. *)
From Coq Require Import List Arith Bool Lia ZifyBool.
From Verif Require Import Base ListLib MultisetModel MultisetSpec MultisetProofs SpreadFacts
  DeltaModel DeltaSpec ExpandProofs SynthProofs DeltaProofs RebaseFacts EngineModel EngineSpec EngineFacts.
Import ListNotations.

(** ** Counts *)
Lemma spread_spread u x m1 m2 : length m1 = zeros m2 -> length x = zeros m1 ->
  spread u (spread u x m1) m2 = spread u x (spread true m1 m2).
Proof.
  revert x m1; induction m2 as [|k m2 IH]; intros x m1 H1 H2.
  - destruct m1; [|discriminate]. now destruct x.
  - destruct k as [|k].
    + destruct m1 as [|j m1]; [discriminate|]. cbn in H1. injection H1 as H1.
      destruct j as [|j].
      * destruct x as [|c x]; [discriminate|]. cbn in H2. injection H2 as H2.
        cbn [spread]. f_equal. apply IH; auto.
      * cbn [spread]. f_equal. apply IH; auto.
    + cbn [spread]. f_equal. apply IH; auto.
Qed.

Lemma spread_false_add x : forall y m, length x = zeros m -> length y = zeros m ->
  spread false (zipw Nat.add x y) m = zipw Nat.add (spread false x m) (spread false y m).
Proof.
  intros y m; revert x y; induction m as [|k m IH]; intros x y H1 H2; auto.
  destruct k as [|k]; cbn [spread].
  - destruct x as [|a x]; [discriminate|]. destruct y as [|b y]; [discriminate|].
    cbn in H1, H2. rewrite !zipw_cons. f_equal. apply IH; auto; unfold zeros; lia.
  - rewrite zipw_cons. f_equal. apply IH; auto.
Qed.

Lemma zipw_add_assoc a : forall b c, zipw Nat.add a (zipw Nat.add b c) = zipw Nat.add (zipw Nat.add a b) c.
Proof.
  induction a as [|x a IH]; intros [|y b] [|z c]; auto. rewrite !zipw_cons, IH. f_equal. lia.
Qed.

Section MF.
Context {A : Type}.
Implicit Types (w v : list (option A)).

(** Counts carried by a script. *)
Definition zscript w : list (option nat) := map (option_map (fun _ => 0)) w.
Lemma marks_z w : marks (zscript w) = marks w.
Proof. unfold marks, zscript. rewrite map_map. apply map_ext. now intros []. Qed.
Lemma keeps_z w : keeps (zscript w) = keeps w.
Proof. now rewrite <- !zeros_marks, marks_z. Qed.
Lemma span_z w : span (zscript w) = (zscript (fst (span w)), zscript (snd (span w))).
Proof. induction w as [|[x|] w IH]; cbn; auto. fold (zscript w). rewrite IH. now destruct (span w). Qed.
Lemma rebase_z f w c : zscript (rebase_script f w c) = rebase_script f (zscript w) c.
Proof.
  revert w; induction c as [|[|k] c IH]; intros w; auto; cbn [rebase_script].
  - rewrite span_z. destruct (span w) as [p r]. unfold zscript. rewrite map_app. cbn [map option_map fst snd].
    f_equal. f_equal. fold (zscript (rebase_script f (tl r) c)). rewrite IH. unfold zscript. now destruct r.
  - destruct f; [cbn; f_equal; apply IH|].
    rewrite span_z. destruct (span w) as [p r]. unfold zscript. rewrite map_app. cbn [map option_map fst snd].
    f_equal. f_equal. apply IH.
Qed.
Lemma fill_z w D : keeps w = length D -> fill (zscript w) D = spread false D (marks w).
Proof.
  revert D; induction w as [|[x|] w IH]; intros D H; auto; cbn.
  - f_equal. now apply IH.
  - destruct D as [|d D]; [discriminate|]. f_equal. apply IH. cbn in H. unfold keeps in *. lia.
Qed.

Lemma rebase_false_Some x w c : rebase_script false (Some x :: w) c = Some x :: rebase_script false w c.
Proof. destruct c as [|[|k] c]; cbn [rebase_script span]; auto; destruct (span w); reflexivity. Qed.

Lemma rebase_false_None n w c :
  rebase_script false (None :: w) (repeat 1 n ++ 0 :: c) = repeat None n ++ None :: rebase_script false w c.
Proof. induction n as [|n IH]; cbn [repeat app rebase_script span tl]; auto. now rewrite IH. Qed.

Lemma rebase_nil_marks n : rebase_script false (@nil (option A)) (repeat 1 n) = repeat None n.
Proof. induction n as [|n IH]; cbn; auto. now rewrite IH. Qed.

Lemma diamond_true w : forall v, keeps w = keeps v ->
  let v' := rebase_script true v (marks w) in
  let w' := rebase_script false w (marks v) in
  marks w' = spread false (marks w) (marks v') /\ marks v' = spread false (marks v) (marks w') /\
  forall u, keeps w = length u -> fill v' (fill w u) = fill w' (fill v u).
Proof.
  induction w as [|[x|] w IH]; intros v H; cbv zeta.
  - change (keeps []) with 0 in H. symmetry in H. destruct (keeps0_map v H) as (s & ->).
    rewrite marks_Some. change (marks []) with (@nil nat). cbn [rebase_script].
    rewrite rebase_nil_marks, marks_repeat, marks_Some. split; [|split].
    + rewrite <- (app_nil_r (repeat 1 _)), spread_nonzeros. cbn. now rewrite app_nil_r.
    + symmetry. apply spread_all_zero. apply repeat_length.
    + intros [|]; cbn; try discriminate. intros _. rewrite !fill_Some, fill_repeat; auto.
  - destruct (IH v H) as (I1 & I2 & I3). change (marks (Some x :: w)) with (1 :: marks w). cbn [rebase_script].
    rewrite rebase_false_Some. cbn [marks map spread]. fold (marks (rebase_script true v (marks w))).
    fold (marks (rebase_script false w (marks v))). split; [|split].
    + f_equal. exact I1.
    + f_equal. exact I2.
    + intros u Hu. cbn [fill]. f_equal. now apply I3.
  - rewrite keeps_None in H. destruct (span_spec v) as (s & r & Es & -> & [->|(v1 & ->)]);
      rewrite keeps_app, keeps_Some in H; [discriminate|]. rewrite keeps_None in H. cbn in H. injection H as H.
    destruct (IH v1 H) as (I1 & I2 & I3).
    change (marks (None :: w)) with (0 :: marks w). cbn [rebase_script]. rewrite Es. cbn [tl].
    rewrite !marks_app, marks_Some. change (marks (None :: v1)) with (0 :: marks v1).
    rewrite rebase_false_None. rewrite ?marks_app, ?marks_Some, ?marks_repeat.
    change (marks (None :: ?z)) with (0 :: marks z). split; [|split].
    + rewrite spread_nonzeros. cbn [spread]. now rewrite <- I1.
    + rewrite spread_zeros by (rewrite app_length, repeat_length; lia).
      assert (E1 : forall l, firstn (length s) (repeat 1 (length s) ++ l) = repeat 1 (length s)).
      { intros l. rewrite firstn_app, repeat_length, Nat.sub_diag. cbn [firstn]. rewrite app_nil_r.
        apply firstn_all2. rewrite repeat_length; lia. }
      assert (E2 : forall l : list nat, skipn (length s) (repeat 1 (length s) ++ l) = l).
      { intros l. rewrite skipn_app, repeat_length, Nat.sub_diag. cbn [skipn].
        rewrite skipn_all2 by (rewrite repeat_length; lia). reflexivity. }
      rewrite E1, E2. cbn [spread]. now rewrite <- I2.
    + intros [|a u] Hu; [discriminate|]. rewrite !fill_Some_app. cbn [fill].
      rewrite keeps_None in Hu. cbn in Hu.
      rewrite (fill_app (repeat None _) _ s).
      * rewrite fill_repeat by auto. f_equal. cbn [fill]. f_equal. apply I3. lia.
      * now rewrite keeps_repeat.
Qed.

Lemma diamond f w v : keeps w = keeps v ->
  let v' := rebase_script f v (marks w) in
  let w' := rebase_script (negb f) w (marks v) in
  marks w' = spread false (marks w) (marks v') /\ marks v' = spread false (marks v) (marks w') /\
  forall u, keeps w = length u -> fill v' (fill w u) = fill w' (fill v u).
Proof.
  intros H. destruct f; cbn [negb].
  - now apply diamond_true.
  - destruct (diamond_true v w (eq_sym H)) as (I1 & I2 & I3). cbv zeta. split; [|split]; auto.
    intros u Hu. symmetry. apply I3. lia.
Qed.

End MF.

Section MF2.
Context {A : Type}.
Implicit Types (w v : list (option A)).

Lemma diamond_counts f w v D : keeps w = keeps v -> keeps w = length D ->
  let v' := rebase_script f v (marks w) in
  let w' := rebase_script (negb f) w (marks v) in
  spread false (spread false D (marks w)) (marks v') = spread false (spread false D (marks v)) (marks w').
Proof.
  intros H1 H2. cbv zeta.
  assert (K1 : keeps (rebase_script f v (marks w)) = length w).
  { rewrite keeps_rebase, marks_length; auto. rewrite zeros_marks; lia. }
  assert (K2 : keeps (rebase_script (negb f) w (marks v)) = length v).
  { rewrite keeps_rebase, marks_length; auto. rewrite zeros_marks; lia. }
  rewrite <- !fill_z; rewrite ?fill_length, ?keeps_z; auto; try lia.
  - rewrite !rebase_z. destruct (diamond f (zscript w) (zscript v)) as (_ & _ & E).
    + now rewrite !keeps_z.
    + rewrite !marks_z in E. apply E. now rewrite keeps_z.
  - rewrite spread_length, marks_length; auto. rewrite zeros_marks. lia.
  - rewrite spread_length, marks_length; auto. rewrite zeros_marks. lia.
Qed.

(** Rebasing over two groups of insertions with the same tie-break is rebasing over
    both at once. *)
Lemma rebase_twice f w : forall m1 m2, keeps w = zeros m1 -> length m1 = zeros m2 ->
  rebase_script f (rebase_script f w m1) m2 = rebase_script f w (spread true m1 m2).
Proof.
  intros m1 m2; revert w m1; induction m2 as [|k m2 IH]; intros w m1 H1 H2.
  - destruct m1; [reflexivity|discriminate].
  - destruct k as [|k].
    + destruct m1 as [|j m1]; [discriminate|]. cbn in H2. injection H2 as H2. cbn [spread].
      destruct j as [|j].
      * cbn [rebase_script]. destruct (span_spec w) as (s & r & -> & -> & [->|(r' & ->)]);
          rewrite keeps_app, keeps_Some in H1; [unfold zeros in H1; cbn in H1; discriminate|].
        rewrite keeps_None in H1. cbn [tl]. unfold zeros in H1; cbn in H1.
        rewrite span_app_Some. cbn [span fst snd tl]. rewrite app_nil_r. f_equal. f_equal.
        apply IH; auto; unfold zeros; lia.
      * change (zeros (S j :: m1)) with (zeros m1) in H1. destruct f; cbn [rebase_script].
        -- cbn [span app tl]. f_equal. apply IH; auto.
        -- destruct (span_spec w) as (s & r & -> & -> & Hr). rewrite keeps_app, keeps_Some in H1.
           rewrite span_app_Some. cbn [span fst snd tl]. rewrite app_nil_r. f_equal. f_equal.
           apply IH; auto.
    + change (zeros (S k :: m2)) with (zeros m2) in H2. cbn [spread]. destruct f; cbn [rebase_script].
      * f_equal. apply IH; auto.
      * destruct (span_spec w) as (s & r & E & -> & Hr). rewrite E. rewrite keeps_app, keeps_Some in H1.
        rewrite rebase_ins by auto.
        assert (Es : fst (span r) = []) by (destruct Hr as [->|(r' & ->)]; reflexivity).
        rewrite span_app_Some.
        destruct (span_spec (rebase_script false r m1)) as (s2 & r2 & E2 & E3 & _).
        rewrite E2. cbn [fst snd].
        destruct s2 as [|x s2].
        -- cbn [map] in *. rewrite app_nil_r. cbn [app] in E3. subst r2. f_equal. f_equal. apply IH; auto.
        -- exfalso. clear -Es E3 Hr. destruct Hr as [->|(r' & ->)].
           ++ destruct m1 as [|[|j] m1]; cbn in E3; discriminate.
           ++ destruct m1 as [|[|j] m1]; cbn in E3; discriminate.
Qed.
End MF2.
