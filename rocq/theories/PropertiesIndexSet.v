(** C30: index sets. *)
From Coq Require Import List Arith Lia Bool ZifyBool.
From Verif Require Import Base ListLib DeltaModel DeltaSpec DeltaProofs DeltaProofs2 IndexSetModel IndexSetProofs.
Import ListNotations.

(** The specification: a set of indices is a predicate on [nat]. *)
Inductive iop := IUnion (s e : nat) | IDelete (s e : nat) | IClear.
Definition iset_spec (o : iop) (P : nat -> Prop) : nat -> Prop :=
  match o with
  | IUnion s e => fun x => P x \/ s <= x < e
  | IDelete s e => fun x => P x /\ ~ s <= x < e
  | IClear => fun _ => False
  end.
Definition iop_ok (o : iop) : Prop := match o with IUnion s e | IDelete s e => s <= e | IClear => True end.
(** index_set.rs 45-53, [new] and [clear]. *)
Definition iset_step (rs : ranges) (o : iop) : option ranges :=
  match o with IUnion s e => Some (union_one_range rs s e) | IDelete s e => delete_range rs s e | IClear => Some [] end.
Fixpoint iset_run (rs : ranges) (os : list iop) : option ranges :=
  match os with [] => Some rs | o :: os' => let? r := iset_step rs o in iset_run r os' end.

(** What an index set stores: ranges in order that do not overlap. *)
Definition ordered (rs : ranges) : Prop :=
  (forall a b, In (a, b) rs -> a <= b) /\
  forall i j a b c d, i < j -> nth_error rs i = Some (a, b) -> nth_error rs j = Some (c, d) -> b <= c.
Definition holds (rs : ranges) (x : nat) : Prop := exists a b, In (a, b) rs /\ a <= x < b.

Lemma rok_ordered rs : rok rs -> ordered rs.
Proof.
  intros R. split; [intros a b; now apply rok_le|]. revert R.
  induction rs as [|[a b] rs IH]; intros R i j x y c d Hij Hi Hj; [destruct i; discriminate|].
  cbn [rok] in R. destruct R as (R1 & R2 & R3). destruct j; [lia|]. destruct i; cbn in Hi, Hj.
  - injection Hi as <- <-. apply nth_error_In in Hj. now apply R2 in Hj.
  - eapply (IH R3 i j); eauto. lia.
Qed.

Lemma iset_run_rok os : forall rs, rok rs -> Forall iop_ok os ->
  exists rs', iset_run rs os = Some rs' /\ rok rs' /\ forall x, mem rs' x <-> fold_left (fun P o => iset_spec o P) os (mem rs) x.
Proof.
  induction os as [|o os IH]; intros rs R H; cbn [iset_run fold_left].
  - exists rs. split; auto. split; auto. reflexivity.
  - inversion_clear H as [|? ? H1 H2].
    assert (K : exists r, iset_step rs o = Some r /\ rok r /\ forall x, mem r x <-> iset_spec o (mem rs) x).
    { destruct o as [s e|s e|]; cbn [iset_step iset_spec iop_ok] in *.
      - exists (union_one_range rs s e). split; auto. now apply union_ok.
      - now apply delete_ok.
      - exists []. split; auto. split; [exact Logic.I|]. intros x. split; [apply mem_nil|intros []]. }
    destruct K as (r & -> & R' & M). cbn [bind]. destruct (IH r R' H2) as (rs' & E & R2 & M'). exists rs'. split; auto. split; auto.
    intros x. rewrite M'.
    assert (G : forall os P Q, (forall x, P x <-> Q x) -> forall x, fold_left (fun P o => iset_spec o P) os P x <-> fold_left (fun P o => iset_spec o P) os Q x).
    { clear. induction os as [|o os IH]; intros P Q H x; cbn [fold_left]; [apply H|]. apply IH. intros y. destruct o; cbn [iset_spec]; rewrite ?H; tauto. }
    now apply G.
Qed.

(** Every sequence of operations runs without failing, keeps the ranges in order and disjoint,
    and computes the set the operations say. *)
Theorem C30_sets os : Forall iop_ok os ->
  exists rs, iset_run [] os = Some rs /\ ordered rs /\
    forall x, holds rs x <-> fold_left (fun P o => iset_spec o P) os (fun _ => False) x.
Proof.
  intros H. destruct (iset_run_rok os [] Logic.I H) as (rs & E & R & M). exists rs. split; auto. split; [now apply rok_ordered|].
  intros x. rewrite M. clear -os.
  assert (G : forall os P Q, (forall x, P x <-> Q x) -> forall x, fold_left (fun P o => iset_spec o P) os P x <-> fold_left (fun P o => iset_spec o P) os Q x).
  { clear. induction os as [|o os IH]; intros P Q H x; cbn [fold_left]; [apply H|]. apply IH. intros y. destruct o; cbn [iset_spec]; rewrite ?H; tauto. }
  apply G. intros y. split; [apply mem_nil|intros []].
Qed.
Print Assumptions C30_sets.

Example C30_sets_ex :
  let os := [IUnion 1 3; IUnion 7 9; IUnion 4 5; IUnion 3 4; IDelete 2 8; IUnion 20 30; IDelete 22 25; IUnion 12 12] in
  Forall iop_ok os /\ iset_run [] os = Some [(1, 2); (8, 9); (12, 12); (20, 22); (25, 30)].
Proof. split; [repeat constructor|reflexivity]. Qed.

(** The index sets a program can have: made by these operations and carried through edits. *)
Inductive reach : ranges -> Prop :=
| reach_new : reach []
| reach_op rs o rs' : reach rs -> iop_ok o -> iset_step rs o = Some rs' -> reach rs'
| reach_delta rs (A : Type) (d : delta A) : reach rs -> wf_delta d -> no_empty_copy (els d) -> reach (iset_apply_delta rs d).
Lemma reach_rok rs : reach rs -> rok rs.
Proof.
  induction 1 as [|rs o rs' H IH Ho E|rs A d H IH Hw Hc]; [exact Logic.I| |].
  - destruct (iset_run_rok [o] rs IH) as (r & E' & R & _); [now constructor|]. cbn in E'. rewrite E in E'. cbn in E'. now injection E' as <-.
  - now apply iset_apply_delta_ok.
Qed.

(** Every one of them is in order, and no operation on it fails. *)
Theorem C30_history rs o : reach rs -> iop_ok o ->
  ordered rs /\ exists rs', iset_step rs o = Some rs' /\ forall x, holds rs' x <-> iset_spec o (holds rs) x.
Proof.
  intros H Ho. apply reach_rok in H. split; [now apply rok_ordered|].
  destruct (iset_run_rok [o] rs H) as (r & E' & _ & M); [now constructor|]. cbn in E'. destruct (iset_step rs o) as [r'|]; [|discriminate].
  cbn in E'. injection E' as <-. now exists r'.
Qed.
Print Assumptions C30_history.

(** The complement of the set within a range, from front to back. *)
Lemma drop_length rs start : length (drop_before rs start) <= length rs.
Proof. induction rs as [|[a b] rs IH]; cbn [drop_before length]; [lia|]. destruct (b <=? start); cbn [length]; lia. Qed.
Theorem C30_complement rs start e : reach rs ->
  exists out, minus_all mi_next (length rs + 2) (minus_one_range rs start e) = Some out /\ ordered out /\
    (forall a b, In (a, b) out -> a < b) /\
    forall x, holds out x <-> start <= x < e /\ ~ holds rs x.
Proof.
  intros R. apply reach_rok in R. pose proof (drop_before_ok rs start R) as (D1 & D2 & D3).
  destruct (minus_all_ok (length rs + 2) (minus_one_range rs start e)) as (out & O1 & O2 & O3 & O4); unfold minus_one_range in *; cbn [mi_ranges mi_start mi_end] in *; auto.
  - intros a b H. apply D3 in H. lia.
  - pose proof (drop_length rs start). lia.
  - exists out. split; auto. split; [now apply rok_ordered|]. split; [intros a b Hab; rewrite Forall_forall in O3; apply (O3 _ Hab)|].
    intros x. change (holds out x) with (mem out x). rewrite (O4 x). change (holds rs x) with (mem rs x).
    split; intros [H1 H2]; (split; [auto|]); intros H3; apply H2; apply D2; auto; lia.
Qed.
Print Assumptions C30_complement.

Example C30_complement_ex :
  reach [(1, 2); (8, 9); (20, 22)] /\
  minus_all mi_next 5 (minus_one_range [(1, 2); (8, 9); (20, 22)] 0 21) = Some [(0, 1); (2, 8); (9, 20)].
Proof.
  split; [|reflexivity].
  apply (reach_op [(1, 2); (8, 9)] (IUnion 20 22)); [|cbn; lia|reflexivity].
  apply (reach_op [(1, 9)] (IDelete 2 8)); [|cbn; lia|reflexivity].
  apply (reach_op [] (IUnion 1 9)); [constructor|cbn; lia|reflexivity].
Qed.

(** From back to front, the same ranges in reverse are to be expected. That holds if every range
    of the set starts no later than the end. *)
Theorem C30_backward_partial rs start e : reach rs -> (forall a b, In (a, b) rs -> a <= e) ->
  exists out, minus_all mi_next_back (length rs + 2) (minus_one_range rs start e) = Some out /\ ordered (rev out) /\
    (forall a b, In (a, b) out -> a < b) /\
    forall x, holds out x <-> start <= x < e /\ ~ holds rs x.
Proof.
  intros R Ha. apply reach_rok in R. pose proof (drop_before_ok rs start R) as (D1 & D2 & D3).
  destruct (minus_back_ok (length rs + 2) (minus_one_range rs start e)) as (out & O1 & O2 & O3 & O4); unfold minus_one_range in *; cbn [mi_ranges mi_start mi_end] in *; auto.
  - assert (G : forall r, In r (drop_before rs start) -> In r rs).
    { clear. induction rs as [|[a b] rs IH]; cbn [drop_before]; auto. intros r. destruct (b <=? start); [right|]; auto. }
    intros a b H. apply (Ha a b). auto.
  - pose proof (drop_length rs start). lia.
  - exists out. split; auto. split; [now apply rok_ordered|]. split; [intros a b Hab; rewrite Forall_forall in O3; apply (O3 _ Hab)|].
    intros x. change (holds out x) with (mem out x). rewrite (O4 x). change (holds rs x) with (mem rs x).
    split; intros [H1 H2]; (split; [auto|]); intros H3; apply H2; apply D2; auto; lia.
Qed.
Print Assumptions C30_backward_partial.

Example C30_backward_ex :
  minus_all mi_next_back 5 (minus_one_range [(1, 2); (8, 9); (20, 22)] 0 21) = Some [(9, 20); (2, 8); (0, 1)].
Proof. reflexivity. Qed.

(** Otherwise the iterator run backwards leaves the range asked for: [20, 30) lies behind [0, 10),
    and (0, 20) is returned. *)
Theorem C30_backward_refuted : exists rs start e out x, reach rs /\ start <= e /\
  minus_all mi_next_back (length rs + 2) (minus_one_range rs start e) = Some out /\ holds out x /\ ~ start <= x < e.
Proof.
  exists [(20, 30)], 0, 10, [(0, 20)], 15. split; [apply (reach_op [] (IUnion 20 30)); [constructor|cbn; lia|reflexivity]|].
  split; [lia|]. split; [reflexivity|]. split; [|lia]. exists 0, 20. split; [now left|lia].
Qed.
Print Assumptions C30_backward_refuted.

(** Carried through an edit, the set holds the characters it held before, at their new places,
    and lies within the new text. *)
Theorem C30_edit {A} rs (d : delta A) base r : reach rs -> wf_delta d -> no_empty_copy (els d) -> apply d base = Some r ->
  ordered (iset_apply_delta rs d) /\
  (forall a b, In (a, b) (iset_apply_delta rs d) -> a < b) /\
  (forall x j, nth_error (denote (els d)) j = Some (inl x) -> (holds (iset_apply_delta rs d) j <-> holds rs x)) /\
  (forall y, holds (iset_apply_delta rs d) y -> y < length r).
Proof.
  intros R Hw Hc E. apply reach_rok in R. destruct (iset_apply_delta_ok d rs Hw Hc R) as (I1 & I2 & I3 & I4).
  split; [now apply rok_ordered|]. split; [intros a b Hab; rewrite Forall_forall in I2; apply (I2 _ Hab)|]. split; [exact I3|].
  intros y Hy. rewrite <- (new_document_len_ok d base r E). now apply I4.
Qed.
Print Assumptions C30_edit.

Example C30_edit_ex :
  let d := Delta [Copy 0 3; Insert [7; 8]; Copy 5 10] 10 in
  wf_delta d /\ no_empty_copy (els d) /\ apply d (seq 0 10) = Some [0; 1; 2; 7; 8; 5; 6; 7; 8; 9] /\
  iset_apply_delta [(1, 4); (4, 6); (8, 9)] d = [(1, 6); (8, 9)].
Proof. split; [split; cbn; [lia|repeat constructor; discriminate]|]. split; [repeat constructor; lia|]. split; reflexivity. Qed.
