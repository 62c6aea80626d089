(** Two replicas as a lattice: point [(k, l)] is the union string that holds the first
    [k] edits of one peer and the first [l] edits of the other. *)
From Coq Require Import List Arith Bool Lia ZifyBool.
From Verif Require Import Base ListLib MultisetModel MultisetSpec MultisetProofs SpreadFacts
  DeltaModel DeltaSpec ExpandProofs SynthProofs DeltaProofs RebaseFacts EngineModel EngineSpec EngineFacts
  MergeModel MergeFacts.
Import ListNotations.

Lemma spread_false_length x m : length x = zeros m -> length (spread false x m) = length m.
Proof. apply spread_length. Qed.

Section Lat.
Context {A : Type}.

(** An edit of the union string: an insertion script and, for each character
    afterwards, whether the edit deletes it. *)
Definition op := (list (option A) * list nat)%type.
(** A union string and its deletion counts. *)
Definition st := (list A * list nat)%type.
Implicit Types (o x y : op) (s : st).

Definition act o s : st :=
  (fill (fst o) (fst s), zipw Nat.add (spread false (snd s) (marks (fst o))) (snd o)).
Definition fits o s : Prop :=
  keeps (fst o) = length (fst s) /\ length (snd s) = length (fst s) /\ length (snd o) = length (fst o).
(** [x] moved over [y]. *)
Definition mv (f : bool) x y : op :=
  let w := rebase_script f (fst x) (marks (fst y)) in
  (w, spread false (snd x) (spread false (marks (fst y)) (marks w))).

Lemma act_length o s : fits o s -> length (fst (act o s)) = length (fst o) /\
  length (snd (act o s)) = length (fst o).
Proof.
  intros (H1 & H2 & H3). unfold act. cbn [fst snd]. split; [now apply fill_length|].
  rewrite zipw_length; rewrite spread_length, marks_length; auto; rewrite zeros_marks; lia.
Qed.

Lemma mv_ok f x y s : fits x s -> fits y s ->
  let y' := mv f y x in let x' := mv (negb f) x y in
  fits y' (act x s) /\ fits x' (act y s) /\ act y' (act x s) = act x' (act y s) /\
  marks (fst x') = spread false (marks (fst x)) (marks (fst y')) /\
  marks (fst y') = spread false (marks (fst y)) (marks (fst x')) /\
  snd x' = spread false (snd x) (marks (fst y')) /\
  snd y' = spread false (snd y) (marks (fst x')).
Proof.
  intros Hx Hy. pose proof (act_length x s Hx) as [Lx1 Lx2]. pose proof (act_length y s Hy) as [Ly1 Ly2].
  destruct Hx as (X1 & X2 & X3), Hy as (Y1 & Y2 & Y3).
  destruct (diamond f (fst x) (fst y)) as (D1 & D2 & D3); [lia|].
  pose proof (diamond_counts f (fst x) (fst y) (snd s) ltac:(lia) ltac:(lia)) as D4. cbv zeta in *.
  assert (K1 : keeps (fst (mv f y x)) = length (fst x)).
  { cbn [mv fst]. rewrite keeps_rebase, marks_length; auto. rewrite zeros_marks. lia. }
  assert (K2 : keeps (fst (mv (negb f) x y)) = length (fst y)).
  { cbn [mv fst]. rewrite keeps_rebase, marks_length; auto. rewrite zeros_marks. lia. }
  assert (S1 : snd (mv (negb f) x y) = spread false (snd x) (marks (fst (mv f y x)))).
  { cbn [mv fst snd]. now rewrite <- D2. }
  assert (S2 : snd (mv f y x) = spread false (snd y) (marks (fst (mv (negb f) x y)))).
  { cbn [mv fst snd]. now rewrite <- D1. }
  change (rebase_script f (fst y) (marks (fst x))) with (fst (mv f y x)) in D1, D2, D3, D4.
  change (rebase_script (negb f) (fst x) (marks (fst y))) with (fst (mv (negb f) x y)) in D1, D2, D3, D4.
  generalize dependent (mv f y x). generalize dependent (mv (negb f) x y). intros x' K2 y' D1 D2 D3 D4 K1 S1' S2.
  assert (E1 : length (fst x') = length (fst y')).
  { rewrite <- (marks_length (fst x')), D1, spread_length, marks_length; auto. rewrite zeros_marks, marks_length. lia. }
  split; [|split; [|split; [|auto]]].
  - split; [lia|]. split; [lia|]. rewrite S2, spread_length, marks_length; auto. rewrite zeros_marks; lia.
  - split; [lia|]. split; [lia|]. rewrite S1', spread_length, marks_length; [lia|]. rewrite zeros_marks; lia.
  - unfold act at 1 3. f_equal.
    + unfold act. cbn [fst]. apply D3. lia.
    + unfold act. cbn [snd]. rewrite !spread_false_add.
      * rewrite D4, <- !zipw_add_assoc. f_equal. rewrite <- S1', <- S2. apply zipw_add_comm.
      * rewrite spread_length, marks_length; auto; rewrite zeros_marks; lia.
      * rewrite zeros_marks. lia.
      * rewrite spread_length, marks_length; auto; rewrite zeros_marks; lia.
      * rewrite zeros_marks. lia.
Qed.

(** [ea k l] is the [k]-th edit of the first peer as an edit of point [(k - 1, l)], and
    [eb k l] the [l]-th of the second as one of [(k, l - 1)].  [ca k] is how many edits
    of the second peer the [k]-th of the first one knew of. *)
Record lat := Lat {
  na : nat; nb : nat; ca : nat -> nat; cb : nat -> nat;
  ida : nat -> rev_id; idb : nat -> rev_id; pa : nat -> full_priority; pb : nat -> full_priority;
  ga : nat -> nat; gb : nat -> nat;
  ea : nat -> nat -> op; eb : nat -> nat -> op; pt : nat -> nat -> st }.
Implicit Type L : lat.

Definition swap L : lat :=
  Lat (nb L) (na L) (cb L) (ca L) (idb L) (ida L) (pb L) (pa L) (gb L) (ga L)
    (fun k l => eb L l k) (fun k l => ea L l k) (fun k l => pt L l k).

Definition valid L (k l : nat) : Prop := k <= na L /\ l <= nb L /\ ca L k <= l /\ cb L l <= k.

Record lat_ok L : Prop := {
  l_ca : forall k k', k <= k' -> k' <= na L -> ca L k <= ca L k';
  l_cb : forall k k', k <= k' -> k' <= nb L -> cb L k <= cb L k';
  l_00 : valid L 0 0;
  l_st : forall k l, valid L k l -> length (snd (pt L k l)) = length (fst (pt L k l));
  l_ea : forall k l, valid L k l -> valid L (S k) l ->
    fits (ea L (S k) l) (pt L k l) /\ pt L (S k) l = act (ea L (S k) l) (pt L k l);
  l_eb : forall k l, valid L k l -> valid L k (S l) ->
    fits (eb L k (S l)) (pt L k l) /\ pt L k (S l) = act (eb L k (S l)) (pt L k l);
  l_cell : forall k l, valid L k l -> valid L (S k) l -> valid L k (S l) ->
    ea L (S k) (S l) = mv (priority_leb (pb L (S l)) (pa L (S k))) (ea L (S k) l) (eb L k (S l)) /\
    eb L (S k) (S l) = mv (priority_leb (pa L (S k)) (pb L (S l))) (eb L k (S l)) (ea L (S k) l);
  l_prio : forall k l, 1 <= k <= na L -> 1 <= l <= nb L ->
    priority_leb (pa L k) (pb L l) = negb (priority_leb (pb L l) (pa L k)) }.

Lemma valid_swap L k l : valid (swap L) k l <-> valid L l k.
Proof. unfold valid. cbn. tauto. Qed.

Lemma swap_ok L : lat_ok L -> lat_ok (swap L).
Proof.
  intros H. constructor; cbn [swap na nb ca cb ida idb pa pb ga gb ea eb pt]; intros; rewrite ?valid_swap in *; try apply H; auto.
  - destruct (l_cell L H l k) as [E1 E2]; auto.
  - rewrite (l_prio L H l k) by auto. now rewrite negb_involutive.
Qed.

Lemma valid_corner L k l : valid L (S k) l -> valid L k (S l) -> valid L (S k) (S l).
Proof. unfold valid. lia. Qed.

(** All cells are diamonds. *)
Lemma cell L : lat_ok L -> forall k l, valid L k l -> valid L (S k) l -> valid L k (S l) ->
  marks (fst (ea L (S k) (S l))) = spread false (marks (fst (ea L (S k) l))) (marks (fst (eb L (S k) (S l)))) /\
  marks (fst (eb L (S k) (S l))) = spread false (marks (fst (eb L k (S l)))) (marks (fst (ea L (S k) (S l)))) /\
  snd (ea L (S k) (S l)) = spread false (snd (ea L (S k) l)) (marks (fst (eb L (S k) (S l)))) /\
  snd (eb L (S k) (S l)) = spread false (snd (eb L k (S l))) (marks (fst (ea L (S k) (S l)))).
Proof.
  intros HL k l V0 V1 V2. destruct (l_cell L HL k l V0 V1 V2) as [E1 E2].
  destruct (l_ea L HL k l V0 V1) as [F1 _]. destruct (l_eb L HL k l V0 V2) as [F2 _].
  rewrite (l_prio L HL) in E2 by (unfold valid in *; lia).
  destruct (mv_ok (negb (priority_leb (pb L (S l)) (pa L (S k)))) _ _ _ F1 F2) as (_ & _ & _ & H).
  rewrite negb_involutive in H. rewrite <- E1, <- E2 in H. tauto.
Qed.

End Lat.
