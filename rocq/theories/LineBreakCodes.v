(** The characters of a class. *)
From Coq Require Import List Arith NArith ZArith Bool Lia ZifyBool ZifyN ZifyNat FMapPositive.
From Verif Require Import Base LineBreakTables LineBreakModel LineBreakSpec LineBreakRules LineBreakChars.
Import ListNotations.
Local Open Scope N_scope.
Ltac Zify.zify_post_hook ::= Z.div_mod_to_equations.

(** Where a value stands in a table, from the index [i] on. *)
Fixpoint places_from (i v : N) (t : list N) : list N :=
  match t with
  | [] => []
  | x :: t' => if x =? v then i :: places_from (N.succ i) v t' else places_from (N.succ i) v t'
  end.
Definition places (v : N) (t : list N) : list N := places_from 0 v t.
Lemma places_from_in v t : forall i k, In k (places_from i v t) <-> i <= k /\ tab t (k - i) = Some v.
Proof.
  induction t as [|x t IH]; intros i k; cbn [places_from].
  - split; [intros []|]. intros [_ H]. unfold tab in H. now destruct (N.to_nat (k - i)).
  - assert (G : In k (places_from (N.succ i) v t) <-> i < k /\ tab (x :: t) (k - i) = Some v).
    { rewrite IH. unfold tab. split; intros [H1 H2]; (split; [lia|]).
      - replace (N.to_nat (k - i)) with (S (N.to_nat (k - N.succ i))) by lia. exact H2.
      - replace (N.to_nat (k - i)) with (S (N.to_nat (k - N.succ i))) in H2 by lia. exact H2. }
    assert (T0 : tab (x :: t) (i - i) = Some x) by (unfold tab; now replace (N.to_nat (i - i)) with O by lia).
    destruct (x =? v) eqn:E.
    + cbn [In]. rewrite G. apply N.eqb_eq in E. subst x. split; [intros [->|[H1 H2]]; split; auto; lia|].
      intros [H1 H2]. destruct (N.eq_dec i k); [auto|right; split; [lia|auto]].
    + rewrite G. split; [intros [H1 H2]; split; [lia|auto]|]. intros [H1 H2]. split; [|auto].
      destruct (N.eq_dec i k) as [->|]; [|lia]. rewrite T0 in H2. injection H2 as ->. rewrite N.eqb_refl in E. discriminate.
Qed.
Lemma places_in v t k : In k (places v t) <-> tab t k = Some v.
Proof. unfold places. rewrite places_from_in, N.sub_0_r. split; [intros [_ H]; auto|split; [lia|auto]]. Qed.

(** The indices that one level of a trie sends to [js], with [k] entries in a block. *)
Definition up (k : N) (root js : list N) : list N := flat_map (fun j => map (fun i => i * k + j mod k) (places (j / k) root)) js.
Lemma up_in k root js x : 0 < k -> In x (up k root js) <-> exists c, tab root (x / k) = Some c /\ In (c * k + x mod k) js.
Proof.
  intros Hk. assert (K : k <> 0) by (clear -Hk; lia). unfold up. rewrite in_flat_map. split.
  - intros (j & Hj & Hx). apply in_map_iff in Hx as (i & Ex & Hi). apply places_in in Hi. exists (j / k).
    assert (Hm : j mod k < k) by (apply N.mod_lt; exact K).
    assert (E1 : x / k = i). { subst x. rewrite N.div_add_l by exact K. rewrite (N.div_small _ _ Hm). apply N.add_0_r. }
    assert (E2 : x mod k = j mod k). { subst x. rewrite N.add_comm, N.mod_add by exact K. exact (N.mod_small _ _ Hm). }
    rewrite E1, E2. split; [exact Hi|]. replace (j / k * k + j mod k) with j; [exact Hj|]. rewrite N.mul_comm. apply N.div_mod. exact K.
  - intros (c & Ht & Hin). exists (c * k + x mod k). split; [exact Hin|]. apply in_map_iff. exists (x / k).
    assert (Hm : x mod k < k) by (apply N.mod_lt; exact K).
    split.
    + rewrite N.add_comm with (n := c * k), N.mod_add by exact K. rewrite (N.mod_small _ _ Hm). rewrite N.mul_comm. symmetry. apply N.div_mod. exact K.
    + apply places_in. rewrite N.div_add_l by exact K. rewrite (N.div_small _ _ Hm). now rewrite N.add_0_r.
Qed.

(** The code points of a class. *)
Definition codes (v : N) : list N :=
  filter (fun cp => cp <? 0x800) (places v LINEBREAK_1_2)
  ++ filter (fun cp => (0x800 <=? cp) && (cp <? 0x10000)) (up 64 LINEBREAK_3_ROOT (places v LINEBREAK_3_CHILD))
  ++ filter (fun cp => 0x10000 <=? cp) (up 4096 LINEBREAK_4_ROOT (up 64 LINEBREAK_4_MID (places v LINEBREAK_4_LEAVES))).
Lemma codes_ok v cp : linebreak_property cp = Some v <-> In cp (codes v).
Proof.
  unfold codes. rewrite !in_app_iff, !filter_In, places_in, !up_in by lia. unfold linebreak_property.
  destruct (cp <? 0x800) eqn:E1; [|destruct (cp <? 0x10000) eqn:E2].
  - replace (0x800 <=? cp) with false by lia. replace (0x10000 <=? cp) with false by lia. cbn [andb]. intuition congruence.
  - replace (0x800 <=? cp) with true by lia. replace (0x10000 <=? cp) with false by lia. cbn [andb]. split.
    + intros H. right. left. destruct (tab LINEBREAK_3_ROOT (cp / 64)) as [c|]; [|discriminate]. split; auto. exists c. split; auto. now apply places_in.
    + intros [[_ H]|[[(c & -> & Hc) _]|[_ H]]]; try discriminate. cbn [bind]. now apply places_in.
  - replace (0x800 <=? cp) with true by lia. replace (0x10000 <=? cp) with true by lia. cbn [andb].
    assert (A : forall mid, (mid * 4096 + cp mod 4096) / 64 = mid * 64 + (cp / 64) mod 64) by lia.
    assert (B : forall mid, (mid * 4096 + cp mod 4096) mod 64 = cp mod 64) by lia. split.
    + intros H. right. right. destruct (tab LINEBREAK_4_ROOT (cp / 4096)) as [mid|]; [|discriminate]. cbn [bind] in H.
      destruct (tab LINEBREAK_4_MID (mid * 64 + (cp / 64) mod 64)) as [leaf|] eqn:El; [|discriminate]. split; auto. exists mid. split; auto.
      apply up_in; [lia|]. exists leaf. rewrite A, B. split; auto. now apply places_in.
    + intros [[_ H]|[[_ H]|[(mid & -> & Hm) _]]]; try discriminate. apply up_in in Hm as (leaf & El & Hl); [|lia]. rewrite A in El. rewrite B in Hl.
      cbn [bind]. rewrite El. cbn [bind]. now apply places_in.
Qed.
Lemma class_codes c cp : scalar cp -> class_of cp = c <-> In cp (codes (class_no c)).
Proof.
  intros Hs. rewrite <- codes_ok, (class_of_ok cp Hs). split; [intros ->; auto|]. intros H. injection H as H. now apply class_no_inj.
Qed.

(** The same as a list of ranges. *)
Definition in_ranges (rs : list (N * N)) (cp : N) : bool := existsb (fun r => (fst r <=? cp) && (cp <=? snd r)) rs.
Fixpoint upto (n : nat) (a : N) : list N := match n with O => [] | S n' => a :: upto n' (N.succ a) end.
Lemma upto_in n : forall a x, In x (upto n a) <-> a <= x < a + N.of_nat n.
Proof.
  induction n as [|n IH]; intros a x; cbn [upto In]; [lia|]. rewrite IH. lia.
Qed.
Definition range (r : N * N) : list N := upto (N.to_nat (snd r + 1 - fst r)) (fst r).
Lemma range_in r cp : In cp (range r) <-> fst r <= cp <= snd r.
Proof. unfold range. rewrite upto_in. lia. Qed.
Definition holds_exactly (v : N) (rs : list (N * N)) : bool :=
  let cs := codes v in
  forallb (in_ranges rs) cs && forallb (fun r => forallb (fun cp => existsb (N.eqb cp) cs) (range r)) rs.
Lemma holds_ok c rs : holds_exactly (class_no c) rs = true -> forall cp, scalar cp -> (class_of cp = c <-> in_ranges rs cp = true).
Proof.
  unfold holds_exactly. rewrite andb_true_iff, !forallb_forall. intros [H1 H2] cp Hs. rewrite class_codes by auto. split; [apply H1|].
  intros H. apply existsb_exists in H as (r & Hr & Hc). specialize (H2 r Hr). rewrite forallb_forall in H2.
  specialize (H2 cp). rewrite range_in in H2. specialize (H2 ltac:(lia)). apply existsb_exists in H2 as (y & Hy & E). apply N.eqb_eq in E. now subst.
Qed.
Lemma listed_checked : Forall (fun p => holds_exactly (class_no (fst p)) (snd p) = true) listed.
Proof. unfold listed. repeat (apply Forall_cons; [cbn [fst snd class_no]; vm_compute; reflexivity|]). apply Forall_nil. Qed.
Lemma listed_ok c rs cp : scalar cp -> In (c, rs) listed -> (class_of cp = c <-> within rs cp).
Proof.
  intros Hs Hin. pose proof listed_checked as G. rewrite Forall_forall in G. specialize (G _ Hin). cbn [fst snd] in G. rewrite (holds_ok c rs G cp Hs). unfold in_ranges, within. rewrite existsb_exists. split.
  - intros ([a b] & Hr & H). exists a, b. cbn [fst snd] in H. split; [exact Hr|lia].
  - intros (a & b & Hr & H). exists (a, b). cbn [fst snd]. split; [exact Hr|lia].
Qed.

(** Sets of numbers, to look up many. *)
Definition key (x : N) : positive := N.succ_pos x.
Fixpoint set_of (l : list N) : PositiveMap.t unit :=
  match l with [] => PositiveMap.empty unit | x :: l' => PositiveMap.add (key x) tt (set_of l') end.
Definition has (m : PositiveMap.t unit) (x : N) : bool := match PositiveMap.find (key x) m with Some _ => true | None => false end.
Lemma has_in l x : has (set_of l) x = true -> In x l.
Proof.
  unfold has. induction l as [|y l IH]; cbn [set_of]; [rewrite PositiveMap.gempty; discriminate|].
  destruct (N.eq_dec x y) as [->|Hn]; [left; auto|]. rewrite PositiveMap.gso; [right; auto|]. unfold key. intros E. apply Hn. apply (f_equal N.pos) in E. rewrite !N.succ_pos_spec in E. lia.
Qed.
Definition syllable (cp : N) : bool := (0xAC00 <=? cp) && (cp <=? 0xD7A3).
Definition hangul_check (h2 h3 : list N) : bool :=
  let m2 := set_of h2 in let m3 := set_of h3 in
  forallb (fun cp => syllable cp && ((cp - 0xAC00) mod 28 =? 0)) h2 && forallb (fun cp => syllable cp && negb ((cp - 0xAC00) mod 28 =? 0)) h3
  && forallb (fun cp => if (cp - 0xAC00) mod 28 =? 0 then has m2 cp else has m3 cp) (range (0xAC00, 0xD7A3)).
Lemma hangul_checked : hangul_check (codes (class_no H2)) (codes (class_no H3)) = true.
Proof. change (class_no H2) with 31. change (class_no H3) with 32. vm_compute. reflexivity. Qed.
Lemma hangul_spec (h2 h3 : list N) : hangul_check h2 h3 = true -> forall cp, (In cp h2 <-> hangul_lv cp) /\ (In cp h3 <-> hangul_lvt cp).
Proof.
  intros G cp. unfold hangul_check in G. cbv zeta in G. rewrite !andb_true_iff in G. destruct G as ((G1 & G2) & G3). rewrite forallb_forall in G1, G2, G3. specialize (G1 cp). specialize (G2 cp). specialize (G3 cp).
  rewrite range_in in G3. cbn [fst snd] in G3. unfold hangul_lv, hangul_lvt. split; split; intros H.
  - specialize (G1 H). unfold syllable in G1. rewrite !andb_true_iff in G1. destruct G1 as ((A & B) & C). apply N.eqb_eq in C. apply N.leb_le in A, B. auto.
  - apply has_in. destruct H as [A B]. specialize (G3 A). apply N.eqb_eq in B. rewrite B in G3. exact G3.
  - specialize (G2 H). unfold syllable in G2. rewrite !andb_true_iff in G2. destruct G2 as ((A & B) & C). apply negb_true_iff, N.eqb_neq in C. apply N.leb_le in A, B. auto.
  - apply has_in. destruct H as [A B]. specialize (G3 A). apply N.eqb_neq in B. rewrite B in G3. exact G3.
Qed.
Lemma hangul_ok cp : scalar cp -> (class_of cp = H2 <-> hangul_lv cp) /\ (class_of cp = H3 <-> hangul_lvt cp).
Proof.
  intros Hs. rewrite !class_codes by auto. exact (hangul_spec _ _ hangul_checked cp).
Qed.
