(** Algebra of [spread], [kept] and [zipw]. *)
From Coq Require Import List Arith Bool Lia ZifyBool.
From Verif Require Import Base ListLib MultisetModel MultisetSpec MultisetProofs.
Import ListNotations.

Lemma kept_spread u s o : length s = zeros o -> kept o (spread u s o) = s.
Proof.
  revert s; induction o as [|[|k] o IH]; intros s H; cbn in *.
  - now destruct s.
  - destruct s as [|c s]; [discriminate|]. cbn in *. f_equal. apply IH. unfold zeros in *. lia.
  - now apply IH.
Qed.

Lemma spread_true s o : length s = zeros o -> spread true s o = zipw Nat.add (spread false s o) o.
Proof.
  unfold zipw. revert s; induction o as [|[|k] o IH]; intros s H; cbn in *; auto.
  - destruct s as [|c s]; [discriminate|]. cbn in *. rewrite Nat.add_0_r. f_equal. apply IH. unfold zeros in *. lia.
  - f_equal. now apply IH.
Qed.

Lemma kept_spread_true {A} s o (u : list A) : length s = zeros o -> length o = length u ->
  kept (spread true s o) u = kept s (kept o u).
Proof.
  revert s u; induction o as [|[|k] o IH]; intros s [|x u] H Hu; cbn in *; try lia.
  - now destruct s.
  - destruct s as [|c s]; [discriminate|]. cbn in *. rewrite IH by (unfold zeros in *; lia). reflexivity.
  - apply IH; auto.
Qed.

Lemma zipw_length f a b : length a = length b -> length (zipw f a b) = length a.
Proof. intros. unfold zipw. rewrite map_length, combine_length. lia. Qed.

Lemma zipw_nth f a b i x y : nth_error a i = Some x -> nth_error b i = Some y ->
  nth_error (zipw f a b) i = Some (f x y).
Proof.
  unfold zipw. revert b i; induction a as [|a0 a IH]; intros [|b0 b] [|i]; cbn; try discriminate.
  - now intros [= ->] [= ->].
  - apply IH.
Qed.

Lemma zeros_zipw_add a b : length a = length b -> zeros (zipw Nat.add a b) =
  length (filter (fun p => (fst p =? 0) && (snd p =? 0)) (combine a b)).
Proof.
  unfold zeros, zipw. revert b; induction a as [|x a IH]; intros [|y b]; cbn; auto; intros H; try lia.
  replace (x + y =? 0) with ((x =? 0) && (y =? 0)) by lia.
  destruct ((x =? 0) && (y =? 0)); cbn; rewrite IH; auto.
Qed.

Lemma repeat_seq (c k x : nat) : repeat c k = map (fun _ : nat => c) (seq x k).
Proof. revert x; induction k; intros; cbn; auto. now f_equal. Qed.
