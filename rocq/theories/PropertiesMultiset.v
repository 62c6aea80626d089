(** C01-C03: subsets of a string.

    A subset is read through [flat], the list of its counts, one per character.
    [canonical] is the representation invariant every subset has: it is established by
    [C01_new] and [C01_builder] and preserved by every operation below. *)
From Coq Require Import List Arith Bool Lia.
From Verif Require Import Base ListLib MultisetModel MultisetSpec MultisetProofs SpreadFacts.
Import ListNotations.

(** Add the ranges [(b, e, count)] in order, then pad to [n]. *)
Fixpoint add_ranges (rs : list (nat * nat * nat)) (sb : builder) : option builder :=
  match rs with
  | [] => Some sb
  | (b, e, c) :: rs' => let? sb' := add_range sb b e c in add_ranges rs' sb'
  end.
Definition built (rs : list (nat * nat * nat)) (n : nat) : option subset :=
  let? sb := add_ranges rs builder_new in let? sb' := pad_to_len sb n in Some (build sb').
Fixpoint sorted_ranges (pos : nat) (rs : list (nat * nat * nat)) (n : nat) : Prop :=
  match rs with
  | [] => pos <= n
  | (b, e, _) :: rs' => pos <= b /\ b < e /\ sorted_ranges e rs' n
  end.
(** The count the ranges give position [i]. *)
Fixpoint range_count (rs : list (nat * nat * nat)) (i : nat) : nat :=
  match rs with
  | [] => 0
  | (b, e, c) :: rs' => if (b <=? i) && (i <? e) then c else range_count rs' i
  end.

(** A fresh subset is empty and as long as asked. *)
Theorem C01_new n : exists s, subset_new n = Some s /\ canonical s /\ flat s = repeat 0 n.
Proof. exact (subset_new_ok n). Qed.
Print Assumptions C01_new.

Lemma add_ranges_ok n : forall rs sb, bld_ok sb -> sorted_ranges (b_total sb) rs n ->
  exists sb', add_ranges rs sb = Some sb' /\ bld_ok sb' /\ b_total sb' <= n /\
    flat (build sb') ++ repeat 0 (n - b_total sb') =
    flat (build sb) ++ map (range_count rs) (seq (b_total sb) (n - b_total sb)).
Proof.
  induction rs as [|[[b e] c] rs IH]; intros sb Hsb Hs; cbn [add_ranges sorted_ranges] in *.
  - exists sb. repeat split; auto; try apply Hsb. f_equal. apply repeat_seq.
  - destruct Hs as (S1 & S2 & S3). destruct (add_range_ok sb b e c Hsb S1) as (sb1 & -> & B1 & B2). cbn [bind].
    destruct (Nat.leb_spec e b); [lia|].
    assert (T : b_total sb1 = e).
    { destruct B1 as [_ ->]. destruct Hsb as [_ T]. unfold build in B2. rewrite B2, !app_length, !repeat_length. lia. }
    rewrite <- T in S3. destruct (IH sb1 B1 S3) as (sb' & E & I1 & I2 & I3). rewrite T in *.
    exists sb'. split; [exact E|]. split; [auto|]. split; [auto|]. rewrite I3, B2, <- !app_assoc. f_equal.
    assert (en : e <= n).
    { clear - S3. revert e S3; induction rs as [|[[b e'] c] rs IH]; cbn; intros; [auto|].
      destruct S3 as (? & ? & S3). apply IH in S3. lia. }
    replace (n - b_total sb) with ((b - b_total sb) + ((e - b) + (n - e))) by lia.
    rewrite !seq_app, !map_app. f_equal; [|f_equal].
    + rewrite (repeat_seq 0 _ (b_total sb)).
      apply map_ext_in. intros i Hi. apply in_seq in Hi. cbn [range_count].
      destruct (Nat.leb_spec b i); [lia|]. cbn [andb].
      assert (Hlt : i < e) by lia. clear - S3 Hlt.
      revert e S3 Hlt; induction rs as [|[[b e'] c] rs IH]; intros; cbn; auto.
      destruct S3 as (? & ? & S3). destruct (Nat.leb_spec b i); [lia|]. cbn. apply (IH e'); auto; lia.
    + rewrite (repeat_seq c _ (b_total sb + (b - b_total sb))).
      symmetry. apply map_ext_in. intros i Hi. apply in_seq in Hi. cbn [range_count].
      destruct (Nat.leb_spec b i); [|lia]. destruct (Nat.ltb_spec i e); [|lia]. reflexivity.
    + replace (b_total sb + (b - b_total sb) + (e - b)) with e by lia.
      apply map_ext_in. intros i Hi. apply in_seq in Hi. cbn [range_count].
      destruct (Nat.ltb_spec i e); [lia|]. now rewrite andb_false_r.
Qed.

(** The builder gives each position the count of the range that covers it. *)
Theorem C01_builder rs n : sorted_ranges 0 rs n ->
  exists s, built rs n = Some s /\ canonical s /\ flat s = map (range_count rs) (seq 0 n).
Proof.
  intros H. unfold built. destruct (add_ranges_ok n rs builder_new bld_ok_new H) as (sb & -> & B1 & B2 & B3).
  cbn [bind]. destruct (pad_to_len_ok sb n B1) as (sb' & -> & [C1 _] & C2). cbn [bind].
  eexists; split; [reflexivity|]. split; [exact C1|]. rewrite C2. destruct B1 as [_ T]. unfold build in *.
  rewrite <- T, B3. cbn. now rewrite Nat.sub_0_r.
Qed.
Print Assumptions C01_builder.
Example C01_builder_case : sorted_ranges 0 [(1, 3, 1); (3, 4, 2)] 6 /\
  built [(1, 3, 1); (3, 4, 2)] 6 = Some [Seg 1 0; Seg 2 1; Seg 1 2; Seg 2 0].
Proof. split; [cbn; lia|reflexivity]. Qed.

(** A subset is determined by its counts. *)
Theorem C01_representation_unique a b : canonical a -> canonical b -> flat a = flat b -> a = b.
Proof. exact (flat_inj a b). Qed.
Print Assumptions C01_representation_unique.

(** Union adds counts. *)
Theorem C01_union a b : canonical a -> canonical b -> length (flat a) = length (flat b) ->
  exists r, union a b = Some r /\ canonical r /\ length (flat r) = length (flat a) /\
    forall i x y, nth_error (flat a) i = Some x -> nth_error (flat b) i = Some y ->
      nth_error (flat r) i = Some (x + y).
Proof.
  intros Ha Hb Hl. destruct (union_ok a b Ha Hb Hl) as (r & E & Hc & Hf).
  exists r. split; [auto|]. split; [auto|]. rewrite Hf. split; [now apply zipw_length|].
  intros. now apply zipw_nth.
Qed.
Print Assumptions C01_union.

(** Subtraction subtracts counts, for a contained subset. *)
Theorem C01_subtract a b : canonical a -> canonical b -> length (flat a) = length (flat b) ->
  (forall i x y, nth_error (flat a) i = Some x -> nth_error (flat b) i = Some y -> y <= x) ->
  exists r, subtract a b = Some r /\ canonical r /\ length (flat r) = length (flat a) /\
    forall i x y, nth_error (flat a) i = Some x -> nth_error (flat b) i = Some y ->
      nth_error (flat r) i = Some (x - y).
Proof.
  intros Ha Hb Hl Hd. destruct (subtract_ok a b Ha Hb Hl) as (r & E & Hc & Hf).
  - unfold dominated. revert Hl Hd. generalize (flat a) (flat b). clear.
    intros a. induction a as [|x a IH]; intros [|y b] Hl Hd; try constructor.
    + apply (Hd 0 x y); reflexivity.
    + apply IH; [cbn in Hl; lia|]. intros i. apply (Hd (S i)).
  - exists r. split; [auto|]. split; [auto|]. rewrite Hf. split; [now apply zipw_length|].
    intros. now apply zipw_nth.
Qed.
Print Assumptions C01_subtract.

(** Exclusive or combines counts bitwise. *)
Theorem C01_bitxor a b : canonical a -> canonical b -> length (flat a) = length (flat b) ->
  exists r, bitxor a b = Some r /\ canonical r /\ length (flat r) = length (flat a) /\
    forall i x y, nth_error (flat a) i = Some x -> nth_error (flat b) i = Some y ->
      nth_error (flat r) i = Some (Nat.lxor x y).
Proof.
  intros Ha Hb Hl. destruct (bitxor_ok a b Ha Hb Hl) as (r & E & Hc & Hf).
  exists r. split; [auto|]. split; [auto|]. rewrite Hf. split; [now apply zipw_length|].
  intros. now apply zipw_nth.
Qed.
Print Assumptions C01_bitxor.

(** Subsets of strings of different lengths are never combined: the program stops. *)
Theorem C01_length_mismatch a b : canonical a -> canonical b -> length (flat a) <> length (flat b) ->
  union a b = None /\ subtract a b = None /\ bitxor a b = None /\ transform_shrink a b = None.
Proof.
  intros Ha Hb Hl. unfold union, subtract, bitxor, transform_shrink.
  repeat split; apply zip_build_mismatch; auto using canonical_all_pos.
Qed.
Print Assumptions C01_length_mismatch.

(** Complement exchanges members and non-members. *)
Theorem C01_complement s : canonical s -> exists r, complement s = Some r /\ canonical r /\
  flat r = map (fun k => if k =? 0 then 1 else 0) (flat s).
Proof. exact (complement_ok s). Qed.
Print Assumptions C01_complement.

(** Counting, lengths and the emptiness test agree with the counts. *)
Theorem C01_count s : canonical s ->
  (forall m, count s m = length (filter (matchc m) (flat s))) /\
  subset_len s = length (flat s) /\
  len_after_delete s = length (filter (fun k => k =? 0) (flat s)) /\
  (is_empty s = true <-> forall k, In k (flat s) -> k = 0).
Proof.
  intros Hs. split; [apply count_ok|]. split; [apply subset_len_ok|]. split; [apply len_after_delete_ok|].
  rewrite (is_empty_ok s Hs). apply Forall_forall.
Qed.
Print Assumptions C01_count.

(** Deleting keeps exactly the characters that are not in the subset, in order. *)
Theorem C01_delete {A} s (text : list A) : length (flat s) = length text ->
  delete_from s text = Some (kept (flat s) text) /\
  length (kept (flat s) text) = len_after_delete s.
Proof.
  intros H. split; [now apply delete_from_ok|]. rewrite len_after_delete_ok.
  revert text H. generalize (flat s). clear. intros c. induction c as [|k c IH]; intros [|x t] H; cbn in *; try lia; auto.
  unfold zeros in *. cbn. destruct (k =? 0); cbn; rewrite IH; auto.
Qed.
Print Assumptions C01_delete.

(** Deleting with a union keeps what neither set contains. *)
Theorem C01_delete_union {A} a b (text : list A) : canonical a -> canonical b ->
  length (flat a) = length text -> length (flat b) = length text ->
  exists r, union a b = Some r /\ delete_from r text =
    Some (map snd (filter (fun p => (fst (fst p) =? 0) && (snd (fst p) =? 0)) (combine (combine (flat a) (flat b)) text))).
Proof.
  intros Ha Hb Hl1 Hl2. destruct (union_ok a b Ha Hb ltac:(congruence)) as (r & E & Hc & Hf).
  exists r. split; [auto|]. rewrite delete_from_ok by (rewrite Hf, zipw_length; congruence). f_equal. rewrite Hf.
  revert Hl1 Hl2. generalize (flat a) (flat b). clear. intros a. revert text.
  induction a as [|x a IH]; intros [|t text] [|y b]; cbn; intros; auto; try lia.
  unfold zipw in *. cbn [combine map fst snd kept]. replace (x + y =? 0) with ((x =? 0) && (y =? 0)) by (destruct x, y; reflexivity).
  destruct ((x =? 0) && (y =? 0)); cbn; rewrite IH by lia; reflexivity.
Qed.
Print Assumptions C01_delete_union.

Example C01_cases : let a := [Seg 1 0; Seg 2 1; Seg 3 0] in let b := [Seg 2 0; Seg 3 2; Seg 1 0] in
  canonical a /\ canonical b /\ length (flat a) = length (flat b) /\
  union a b = Some [Seg 1 0; Seg 1 1; Seg 1 3; Seg 2 2; Seg 1 0] /\
  subtract [Seg 1 0; Seg 1 1; Seg 1 3; Seg 2 2; Seg 1 0] b = Some a /\
  bitxor a b = Some [Seg 1 0; Seg 1 1; Seg 1 3; Seg 2 2; Seg 1 0] /\
  complement a = Some [Seg 1 1; Seg 2 0; Seg 3 1] /\
  delete_from a [10; 11; 12; 13; 14; 15] = Some [10; 13; 14; 15].
Proof. cbn. repeat split; auto. Qed.

(** Expanding puts zeros at the other subset's characters and keeps the rest in order. *)
Theorem C02_expand s o : canonical s -> canonical o -> length (flat s) = len_after_delete o ->
  exists r, transform_expand s o = Some r /\ canonical r /\
    flat r = spread false (flat s) (flat o) /\ kept (flat o) (flat r) = flat s /\
    length (flat r) = length (flat o) /\
    forall i k, nth_error (flat o) i = Some (S k) -> nth_error (flat r) i = Some 0.
Proof.
  intros Hs Ho Hl. rewrite len_after_delete_ok in Hl.
  destruct (transform_expand_ok s o Hs Ho Hl) as (r & E & Hc & Hf).
  exists r. split; [auto|]. split; [auto|]. split; [auto|]. rewrite Hf. split; [now apply kept_spread|].
  revert Hl. generalize (flat s) (flat o). clear. intros s o. revert s.
  induction o as [|[|k] o IH]; intros s Hl; cbn in *.
  - split; auto. intros [|i] k; discriminate.
  - destruct s as [|c s]; [discriminate|]. cbn in *.
    destruct (IH s) as [I1 I2]; [unfold zeros in *; lia|]. split; [lia|]. intros [|i] k; [discriminate|]. apply I2.
  - destruct (IH s Hl) as [I1 I2]. split; [lia|]. intros [|i] k'; [reflexivity|]. apply I2.
Qed.
Print Assumptions C02_expand.

(** Shrinking drops exactly the other subset's characters. *)
Theorem C02_shrink s o : canonical s -> canonical o -> length (flat s) = length (flat o) ->
  exists r, transform_shrink s o = Some r /\ canonical r /\ flat r = kept (flat o) (flat s).
Proof. exact (transform_shrink_ok s o). Qed.
Print Assumptions C02_shrink.

(** Shrinking undoes expanding. *)
Theorem C02_shrink_expand s o : canonical s -> canonical o -> length (flat s) = len_after_delete o ->
  exists r, transform_expand s o = Some r /\ transform_shrink r o = Some s.
Proof.
  intros Hs Ho Hl. rewrite len_after_delete_ok in Hl.
  destruct (C02_expand s o Hs Ho) as (r & E & Hc & Hf & Hk & Hlen & _); [now rewrite len_after_delete_ok|].
  exists r. split; [auto|]. destruct (transform_shrink_ok r o Hc Ho Hlen) as (r' & E' & Hc' & Hf').
  rewrite E'. f_equal. apply flat_inj; auto. now rewrite Hf'.
Qed.
Print Assumptions C02_shrink_expand.

(** [transform_union] is the union with the expansion. *)
Theorem C02_transform_union s o : canonical s -> canonical o -> length (flat s) = len_after_delete o ->
  exists e r, transform_expand s o = Some e /\ union e o = Some r /\ transform_union s o = Some r.
Proof.
  intros Hs Ho Hl.
  destruct (C02_expand s o Hs Ho Hl) as (e & E & Hc & Hf & Hk & Hlen & _).
  destruct (union_ok e o Hc Ho Hlen) as (r & E' & Hc' & Hf').
  rewrite len_after_delete_ok in Hl.
  destruct (transform_union_ok s o Hs Ho Hl) as (r' & E'' & Hc'' & Hf'').
  exists e, r. split; [auto|]. split; [auto|]. rewrite E''. f_equal. apply flat_inj; auto.
  rewrite Hf', Hf'', Hf. now apply spread_true.
Qed.
Print Assumptions C02_transform_union.

(** Deleting in two steps is deleting the transformed union in one. *)
Theorem C02_delete_commutes {A} s o (text : list A) : canonical s -> canonical o ->
  length (flat s) = len_after_delete o -> length (flat o) = length text ->
  exists t1 r, delete_from o text = Some t1 /\ transform_union s o = Some r /\
    delete_from s t1 = delete_from r text.
Proof.
  intros Hs Ho Hl Ht. destruct (C01_delete o text Ht) as [D1 D2]. rewrite <- Hl in D2.
  rewrite len_after_delete_ok in Hl.
  destruct (transform_union_ok s o Hs Ho Hl) as (r & E & Hc & Hf).
  exists (kept (flat o) text), r. split; [auto|]. split; [auto|].
  rewrite delete_from_ok by auto. rewrite delete_from_ok.
  - f_equal. rewrite Hf. symmetry. now apply kept_spread_true.
  - rewrite Hf. rewrite spread_true by auto. rewrite zipw_length.
    + destruct (C02_expand s o Hs Ho) as (e & _ & _ & Hf' & _ & Hlen & _); [now rewrite len_after_delete_ok|].
      rewrite <- Hf'. congruence.
    + destruct (C02_expand s o Hs Ho) as (e & _ & _ & Hf' & _ & Hlen & _); [now rewrite len_after_delete_ok|].
      rewrite <- Hf'. congruence.
Qed.
Print Assumptions C02_delete_commutes.

(** Expanding through a string of the wrong length stops the program. *)
Theorem C02_length_mismatch s o : canonical s -> canonical o -> length (flat s) <> len_after_delete o ->
  transform_expand s o = None /\ transform_union s o = None.
Proof.
  intros Hs Ho Hl. rewrite len_after_delete_ok in Hl.
  unfold transform_expand, transform_union.
  pose proof (transform_ok s o false Hs Ho) as H1. pose proof (transform_ok s o true Hs Ho) as H2.
  destruct (Nat.eqb_spec (length (flat s)) (zeros (flat o))); [lia|]. auto.
Qed.
Print Assumptions C02_length_mismatch.

Example C02_cases : let s := [Seg 1 0; Seg 2 1] in let o := [Seg 1 1; Seg 2 0; Seg 2 3; Seg 1 0] in
  canonical s /\ canonical o /\ length (flat s) = len_after_delete o /\
  transform_expand s o = Some [Seg 2 0; Seg 1 1; Seg 2 0; Seg 1 1] /\
  transform_union s o = Some [Seg 1 1; Seg 1 0; Seg 1 1; Seg 2 3; Seg 1 1] /\
  transform_shrink [Seg 2 0; Seg 1 1; Seg 2 0; Seg 1 1] o = Some s.
Proof. cbn. repeat split; auto. Qed.

(** Queries asked one after the other to one mapper. *)
Fixpoint query (mp : mapper) (is : list nat) : option (list nat) :=
  match is with
  | [] => Some []
  | i :: is' =>
      let? (r, mp') := doc_index_to_subset mp i in
      let? rs := query mp' is' in Some (r :: rs)
  end.
Fixpoint nondecreasing (lo : nat) (is : list nat) : Prop :=
  match is with [] => True | i :: is' => lo <= i /\ nondecreasing i is' end.

(** The mapper computes ranks for any non-decreasing sequence of queries, and stops the
    program at the first query that goes back. *)
Theorem C03_mapper s m is : nondecreasing 0 is ->
  query (mapper_of s m) is = Some (map (fun i => length (filter (matchc m) (firstn i (flat s)))) is).
Proof.
  intros H. assert (G : forall is mp, mp_inv s m (mp_last mp) mp -> nondecreasing (mp_last mp) is ->
    query mp is = Some (map (rank m (flat s)) is)).
  { clear. induction is as [|i is IH]; intros mp Hi Hn; cbn [query]; auto. destruct Hn as [Hn1 Hn2].
    destruct (doc_index_ok s m mp i Hi Hn1) as (mp' & -> & Hi' & Hl). cbn [bind].
    rewrite IH; auto. now rewrite Hl. }
  apply G; [apply mapper_of_inv|exact H].
Qed.
Print Assumptions C03_mapper.

Theorem C03_mapper_goes_forward s m i j mp r : doc_index_to_subset (mapper_of s m) i = Some (r, mp) ->
  j < i -> doc_index_to_subset mp j = None.
Proof.
  intros H Hj. destruct (doc_index_ok s m (mapper_of s m) i) as (mp' & E & _ & Hl).
  - apply mapper_of_inv.
  - cbn; lia.
  - rewrite H in E. injection E as _ <-. apply doc_index_panics. lia.
Qed.
Print Assumptions C03_mapper_goes_forward.

Example C03_case : nondecreasing 0 [0; 2; 2; 4; 9] /\
  query (mapper_of [Seg 1 0; Seg 2 1; Seg 2 0] Zero) [0; 2; 2; 4; 9] = Some [0; 1; 1; 2; 3] /\
  query (mapper_of [Seg 1 0; Seg 2 1; Seg 2 0] NonZero) [0; 2; 2; 4; 9] = Some [0; 1; 1; 2; 2].
Proof. cbn. repeat split; lia. Qed.
