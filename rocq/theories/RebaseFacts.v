(** Facts about [rebase_script]. *)
From Coq Require Import List Arith Bool Lia ZifyBool.
From Verif Require Import Base ListLib MultisetModel MultisetSpec MultisetProofs DeltaModel DeltaSpec
  ExpandProofs SynthProofs DeltaProofs SpreadFacts.
Import ListNotations.

Section RF.
Context {A : Type}.
Implicit Types (w p r : list (option A)).

Lemma span_spec w : exists s r, span w = (map Some s, r) /\ w = map Some s ++ r /\
  (r = [] \/ exists r', r = None :: r').
Proof.
  induction w as [|[c|] w IH]; cbn.
  - exists [], []. auto.
  - destruct IH as (s & r & -> & -> & H). exists (c :: s), r. auto.
  - exists [], (None :: w). eauto.
Qed.

Lemma keeps_None w : keeps (None :: w) = S (keeps w).
Proof. reflexivity. Qed.
Lemma keeps_Some_cons x w : keeps (Some x :: w) = keeps w.
Proof. reflexivity. Qed.

Lemma keeps_rebase after w c : keeps w = zeros c -> keeps (rebase_script after w c) = length c.
Proof.
  revert w; induction c as [|[|k] c IH]; intros w H; cbn [rebase_script].
  - exact H.
  - destruct (span_spec w) as (s & r & -> & -> & [->|(r' & ->)]);
      rewrite keeps_app, keeps_Some in H.
    + unfold zeros in H; cbn in H. discriminate.
    + rewrite keeps_app, keeps_Some, keeps_None. cbn [tl]. rewrite IH; [auto|].
      rewrite keeps_None in H. unfold zeros in *; cbn in H. lia.
  - change (zeros (S k :: c)) with (zeros c) in H. destruct after.
    + rewrite keeps_None, IH; auto.
    + destruct (span_spec w) as (s & r & -> & -> & Hr).
      rewrite keeps_app, keeps_Some in *. rewrite keeps_None, IH; auto.
Qed.

Lemma shrink_rebase after w c : keeps w = zeros c -> shrink_script (rebase_script after w c) c = w.
Proof.
  revert w; induction c as [|[|k] c IH]; intros w H; cbn [rebase_script].
  - change (zeros []) with 0 in H. induction w as [|[x|] w IHw]; cbn; auto; [|discriminate].
    f_equal. now apply IHw.
  - destruct (span_spec w) as (s & r & -> & -> & [->|(r' & ->)]);
      rewrite keeps_app, keeps_Some in H.
    + unfold zeros in H; cbn in H. discriminate.
    + rewrite shrink_script_Some. cbn [tl shrink_script Nat.eqb]. rewrite IH; [auto|].
      rewrite keeps_None in H. unfold zeros in *; cbn in H. lia.
  - change (zeros (S k :: c)) with (zeros c) in H. destruct after.
    + cbn. now apply IH.
    + destruct (span_spec w) as (s & r & -> & -> & Hr). rewrite keeps_app, keeps_Some in H.
      rewrite shrink_script_Some. cbn. now rewrite IH.
Qed.

Lemma kinds_Some (s : list A) w c : kinds (map Some s ++ w) c = repeat 2 (length s) ++ kinds w c.
Proof. induction s; cbn; auto. now f_equal. Qed.

Lemma never_cons a b x l : match l with [] => True | y :: _ => ~ (x = a /\ y = b) end ->
  never_followed a b l -> never_followed a b (x :: l).
Proof. destruct l; cbn; auto. Qed.

Lemma never_twos a b n l : ~ (a = 2 /\ b = 2) -> match l with [] => True | y :: _ => ~ (2 = a /\ y = b) end ->
  never_followed a b l -> never_followed a b (repeat 2 n ++ l).
Proof.
  intros H0 H1 H2. induction n as [|n IH]; cbn [repeat app]; auto.
  apply never_cons; auto. destruct n; cbn; auto. lia.
Qed.

Lemma never_twos' a b n : ~ (a = 2 /\ b = 2) -> never_followed a b (repeat 2 n).
Proof. intros. rewrite <- (app_nil_r (repeat 2 n)). apply never_twos; cbn; auto. Qed.

Lemma keeps0_map w : keeps w = 0 -> exists s, w = map Some s.
Proof.
  induction w as [|[x|] w IH]; intros H; [exists []; auto| |discriminate].
  destruct (IH H) as (s & ->). exists (x :: s). auto.
Qed.

Lemma rebase_after_order w c : keeps w = zeros c -> never_followed 2 1 (kinds (rebase_script true w c) c).
Proof.
  revert w; induction c as [|[|k] c IH]; intros w H; cbn [rebase_script].
  - destruct (keeps0_map w H) as (s & ->). rewrite <- (app_nil_r (map Some s)), kinds_Some. cbn.
    rewrite app_nil_r. apply never_twos'. lia.
  - destruct (span_spec w) as (s & r & -> & -> & [->|(r' & ->)]);
      rewrite keeps_app, keeps_Some in H.
    + unfold zeros in H; cbn in H. discriminate.
    + rewrite kinds_Some. cbn [tl kinds Nat.eqb]. rewrite keeps_None in H.
      assert (keeps r' = zeros c) by (unfold zeros in *; cbn in H; lia).
      apply never_twos; [lia|lia|]. apply never_cons; [|now apply IH].
      destruct (kinds _ c); auto. lia.
  - change (zeros (S k :: c)) with (zeros c) in H. cbn [kinds Nat.eqb]. apply never_cons; [|now apply IH].
    destruct (kinds _ c); auto. lia.
Qed.

Lemma rebase_before_order w c : keeps w = zeros c -> never_followed 1 2 (kinds (rebase_script false w c) c) /\
  (fst (span w) = [] -> match kinds (rebase_script false w c) c with 2 :: _ => False | _ => True end).
Proof.
  revert w; induction c as [|[|k] c IH]; intros w H; cbn [rebase_script].
  - destruct (keeps0_map w H) as (s & ->). rewrite <- (app_nil_r (map Some s)), kinds_Some. cbn [kinds].
    split; [rewrite app_nil_r; apply never_twos'; lia|]. rewrite app_nil_r.
    destruct s as [|x s]; [cbn; auto|]. cbn. destruct (span (map Some s)); discriminate.
  - destruct (span_spec w) as (s & r & Es & -> & [->|(r' & ->)]); rewrite Es;
      rewrite keeps_app, keeps_Some in H.
    + unfold zeros in H; cbn in H. discriminate.
    + rewrite kinds_Some. cbn [tl kinds Nat.eqb fst]. rewrite keeps_None in H.
      assert (keeps r' = zeros c) by (unfold zeros in *; cbn in H; lia).
      destruct (IH r' H0) as [I1 I2]. split.
      * apply never_twos; [lia|lia|]. apply never_cons; auto. destruct (kinds _ c); auto. lia.
      * intros E. destruct s; [cbn; auto|discriminate].
  - change (zeros (S k :: c)) with (zeros c) in H.
    destruct (span_spec w) as (s & r & Es & -> & Hr); rewrite Es. rewrite keeps_app, keeps_Some in H.
    rewrite kinds_Some. cbn [kinds Nat.eqb fst]. destruct (IH r H) as [I1 I2]. split.
    + apply never_twos; [lia|lia|]. apply never_cons; auto.
      assert (fst (span r) = []) as E by (destruct Hr as [->|(r' & ->)]; reflexivity).
      specialize (I2 E). destruct (kinds (rebase_script false r c) c) as [|y l]; auto. intros [_ ->]. exact I2.
    + intros E. destruct s; [cbn; auto|discriminate].
Qed.

End RF.
