(** The state machine and the rules: what each state knows of the characters before. *)
From Coq Require Import List Arith NArith Bool Lia.
From Verif Require Import Base LineBreakTables LineBreakModel LineBreakSpec.
Import ListNotations.

(** ** Classes and contexts *)
Lemma classes_all c : In c classes.
Proof. destruct c; cbn; tauto. Qed.
Lemma class_no_inj a b : class_no a = class_no b -> a = b.
Proof.
  assert (E : forall c, nth (N.to_nat (class_no c)) classes XX = c) by (intros []; reflexivity).
  intros H. rewrite <- (E a), <- (E b). now rewrite H.
Qed.
Lemma cls_eqb_eq a b : cls_eqb a b = true <-> a = b.
Proof. unfold cls_eqb. rewrite N.eqb_eq. split; [apply class_no_inj|congruence]. Qed.
Lemma class_no_lt c : (class_no c < 43)%N.
Proof. destruct c; cbn; lia. Qed.

Definition ocls_eqb (a b : option cls) : bool :=
  match a, b with Some a, Some b => cls_eqb a b | None, None => true | _, _ => false end.
Lemma ocls_eqb_eq a b : ocls_eqb a b = true -> a = b.
Proof. destruct a, b; cbn; try discriminate; auto. intros H. apply cls_eqb_eq in H. congruence. Qed.
Definition look_eqb (a b : look) : bool :=
  ocls_eqb (k_before a) (k_before b) && ocls_eqb (k_base a) (k_base b) && eqb (k_zwj a) (k_zwj b) && eqb (k_hl a) (k_hl b) && eqb (k_ri a) (k_ri b).
Lemma look_eqb_eq a b : look_eqb a b = true -> a = b.
Proof.
  destruct a as [a1 a2 a3 a4 a5], b as [b1 b2 b3 b4 b5]. unfold look_eqb. cbn. rewrite !andb_true_iff, !eqb_true_iff.
  intros ((((H1 & H2) & ->) & ->) & ->). apply ocls_eqb_eq in H1, H2. congruence.
Qed.
Definition odd_eqb (a b : odd) : bool :=
  ocls_eqb (o_core a) (o_core b) && eqb (o_first a) (o_first b) && eqb (o_two a) (o_two b) && eqb (o_spaced a) (o_spaced b) && eqb (o_hl a) (o_hl b) && eqb (o_ri a) (o_ri b).
Lemma odd_eqb_eq a b : odd_eqb a b = true -> a = b.
Proof.
  destruct a as [a1 a2 a3 a4 a5 a6], b as [b1 b2 b3 b4 b5 b6]. unfold odd_eqb. cbn. rewrite !andb_true_iff, !eqb_true_iff.
  intros (((((H & ->) & ->) & ->) & ->) & ->). apply ocls_eqb_eq in H. congruence.
Qed.
Definition decision_eqb (a b : decision) : bool := match a, b with No, No | May, May | Must, Must => true | _, _ => false end.
Lemma decision_eqb_eq a b : decision_eqb a b = true <-> a = b.
Proof. destruct a, b; cbn; split; congruence. Qed.

(** ** What is looked at, one character further on *)
Definition k_joins (k : look) : bool := match k_before k with Some b => negb (among [BK; CR; LF; NL; SP; ZW] b) | None => false end.
Definition look_step (k : look) (c0 : cls) : look :=
  let c := resolve c0 in
  let z := match c0 with ZWJ => true | _ => false end in
  if mark c then
    if k_joins k then Look (k_before k) (k_base k) z (k_hl k) (k_ri k) else Look (Some AL) (Some AL) z false false
  else Look (Some c) (if cls_eqb c SP then k_base k else Some c) z (among_o [HL] (k_before k)) (cls_eqb c RI && negb (k_ri k)).
Definition odd_step (k : look) (o : odd) (c0 : cls) : odd :=
  let c := resolve c0 in
  let sp := cls_eqb c SP in
  if mark c || sp then Odd false (sp && among_o [SP] (k_before k)) (o_core o) (sp || o_spaced o) (o_hl o) (o_ri o)
  else Odd false false (Some c) false (among_o [HL] (k_before k)) (cls_eqb c RI && negb (k_ri k)).

Lemma joins_k raw : joins (joined raw) = k_joins (look_of raw).
Proof. unfold k_joins, look_of. cbn [k_before]. now destruct (joined raw). Qed.
Lemma hd_hl l : (match l with HL :: _ => true | _ => false end) = among_o [HL] (hd_error l).
Proof. destruct l as [|[] l]; reflexivity. Qed.
Lemma ri_hd c l : ri_odd (c :: l) = cls_eqb c RI && negb (ri_odd l).
Proof. destruct c; reflexivity. Qed.
Lemma nosp_hd c l : hd_error (no_spaces (c :: l)) = if cls_eqb c SP then hd_error (no_spaces l) else Some c.
Proof. destruct c; reflexivity. Qed.
Lemma look_ok raw c : look_of (c :: raw) = look_step (look_of raw) c.
Proof.
  unfold look_step. rewrite <- joins_k. unfold look_of at 1. cbn [joined]. destruct (mark (resolve c)).
  - destruct (joins (joined raw)) eqn:J; [reflexivity|]. f_equal. destruct (joined raw) as [|[] l]; try reflexivity. discriminate J.
  - rewrite hd_hl, ri_hd, nosp_hd. reflexivity.
Qed.
Lemma two_hd c l : (match c :: l with SP :: SP :: _ => true | _ => false end) = cls_eqb c SP && among_o [SP] (hd_error l).
Proof. destruct c; try reflexivity. destruct l as [|[] l]; reflexivity. Qed.
Lemma mark_sp c : mark c = true -> cls_eqb c SP = false.
Proof. destruct c; cbn; auto; discriminate. Qed.
Lemma odd_ok raw c : raw <> [] -> odd_of (c :: raw) = odd_step (look_of raw) (odd_of raw) c.
Proof.
  intros Hn. unfold odd_step, odd_of at 1. cbn [joined strip spaced]. destruct raw as [|d raw]; [congruence|]. remember (d :: raw) as w eqn:Ew.
  replace (match w with [] => true | _ => false end) with false by now rewrite Ew.
  destruct (mark (resolve c)) eqn:M.
  - cbn [orb]. rewrite (mark_sp _ M). cbn [orb andb].
    replace (match (if joins (joined w) then joined w else AL :: joined w) with SP :: SP :: _ => true | _ => false end) with false; [reflexivity|].
    destruct (joins (joined w)) eqn:J; [|reflexivity]. destruct (joined w) as [|[] l]; try reflexivity. discriminate J.
  - cbn [orb]. destruct (cls_eqb (resolve c) SP) eqn:S.
    + cbn [orb andb]. apply cls_eqb_eq in S. rewrite S. cbn [odd_of]. f_equal.
      unfold look_of. cbn [k_before]. now destruct (joined w) as [|[] l].
    + cbn [joined]. rewrite M. rewrite two_hd, S, hd_hl, ri_hd. reflexivity.
Qed.

(** ** What the states know *)
Definition know : Type := look * odd.
Definition present (rows : list (list know)) (m : N) (x : know) : bool :=
  existsb (fun y => odd_eqb (snd x) (snd y) && look_eqb (fst x) (fst y)) (nth (N.to_nat m) rows []).
Fixpoint insert (rows : list (list know)) (m : nat) (x : know) : list (list know) :=
  match rows, m with
  | [], _ => []
  | r :: rows', O => (x :: r) :: rows'
  | r :: rows', S m' => r :: insert rows' m' x
  end.
Definition know_step (x : know) (c : cls) : know := (look_step (fst x) c, odd_step (fst x) (snd x) c).
Definition starts : list (N * know) := map (fun c => (class_no c, (look_of [c], odd_of [c]))) classes.

Definition decided (b : option bool) : decision := match b with None => No | Some false => May | Some true => Must end.
Definition end_hard (m : N) : option bool := let? new := tab LINEBREAK_STATE_MACHINE (m * N_LINEBREAK_CATEGORIES) in Some (0xc0 <=? new)%N.
Definition row_ok (rows : list (list know)) (m : N) (x : know) : bool :=
  match end_hard m with Some h => eqb h (among_o [BK; CR; LF; NL] (k_before (fst x))) | None => false end &&
  forallb (fun c =>
    match machine m (class_no c) with
    | Some (b, m') =>
        present rows m' (know_step x c) &&
        (doubtful_at (fst x) (snd x) c || decision_eqb (decided b) (rules (fst x) c)) &&
        eqb (decision_eqb (decided b) Must) (decision_eqb (rules (fst x) c) Must)
    | None => false
    end) classes.
Definition all_ok (rows : list (list know)) : bool :=
  forallb (fun '(m, x) => present rows m x) starts &&
  forallb (fun m => forallb (row_ok rows (N.of_nat m)) (nth m rows [])) (seq 0 89) && (length rows =? 89)%nat.

(** The check, with the table cut into rows so that it need not be read from its start for each entry. *)
Definition effect (new : N) : option bool * N := if (0x80 <=? new)%N then (Some (0xc0 <=? new)%N, N.land new 0x3f) else (None, new).
Fixpoint chunks (n : nat) (t : list N) : list (list N) := match n with O => [] | S n' => firstn 43 t :: chunks n' (skipn 43 t) end.
Definition table_rows : list (list N) := Eval vm_compute in chunks 89 LINEBREAK_STATE_MACHINE.
Lemma table_rows_ok : table_rows = chunks 89 LINEBREAK_STATE_MACHINE.
Proof. vm_compute. reflexivity. Qed.
Lemma chunk_nth k : k < 43 -> forall n t m, m < n -> nth_error t (m * 43 + k) = nth_error (nth m (chunks n t) []) k.
Proof.
  intros Hk. induction n as [|n IH]; intros t m Hm; [lia|]. cbn [chunks]. destruct m as [|m].
  - cbn [Nat.mul Nat.add nth]. symmetry. clear - Hk. revert t k Hk. generalize 43 as w. induction w as [|w IH]; intros t k Hk; [lia|]. destruct t as [|x t]; [reflexivity|]. destruct k; [reflexivity|]. cbn [firstn nth_error]. apply IH. lia.
  - cbn [nth]. rewrite <- IH by lia. replace (S m * 43 + k) with (43 + (m * 43 + k)) by lia. generalize (m * 43 + k). generalize 43 as w. clear. intros w i. revert t. induction w as [|w IH]; intros t; [reflexivity|]. destruct t as [|x t]; [now destruct i|]. cbn [skipn Nat.add nth_error]. apply IH.
Qed.
Lemma combine_in {A B} (l : list A) : forall (r : list B) i a b, nth_error l i = Some a -> nth_error r i = Some b -> In (a, b) (combine l r).
Proof. induction l as [|x l IH]; intros r i a b Ha Hb; [destruct i; discriminate|]. destruct r as [|y r]; [destruct i; discriminate|]. destruct i as [|i]; cbn in Ha, Hb |- *; [left; congruence|]. right. now apply (IH r i). Qed.
Definition row_fast (rows : list (list know)) (m : N) (x : know) : bool :=
  let r := nth (N.to_nat m) table_rows [] in
  match r with
  | [] => false
  | r0 :: _ =>
      eqb (0xc0 <=? r0)%N (among_o [BK; CR; LF; NL] (k_before (fst x))) && (length r =? 43) &&
      forallb (fun p =>
        match effect (snd p) with
        | (b, m') =>
            present rows m' (know_step x (fst p)) &&
            match rules (fst x) (fst p) with d =>
              (decision_eqb (decided b) d || doubtful_at (fst x) (snd x) (fst p)) && eqb (decision_eqb (decided b) Must) (decision_eqb d Must)
            end
        end) (combine classes r)
  end.
Lemma row_fast_ok rows m x : row_fast rows m x = true -> row_ok rows m x = true.
Proof.
  unfold row_fast. intros H. destruct (Nat.lt_ge_cases (N.to_nat m) 89) as [Hm|Hm].
  2:{ rewrite nth_overflow in H; [discriminate|]. rewrite table_rows_ok. exact Hm. }
  assert (K : forall k, (k < 43) -> tab LINEBREAK_STATE_MACHINE (m * N_LINEBREAK_CATEGORIES + N.of_nat k)%N = nth_error (nth (N.to_nat m) table_rows []) k).
  { intros k Hk. unfold tab. replace (N.to_nat (m * N_LINEBREAK_CATEGORIES + N.of_nat k)) with (N.to_nat m * 43 + k) by (change N_LINEBREAK_CATEGORIES with 43%N; lia).
    rewrite table_rows_ok. now apply chunk_nth. }
  destruct (nth (N.to_nat m) table_rows []) as [|r0 r'] eqn:Er; [discriminate|]. apply andb_true_iff in H as [H H3]. apply andb_true_iff in H as [H1 H2]. apply Nat.eqb_eq in H2.
  unfold row_ok. apply andb_true_iff. split.
  - unfold end_hard. specialize (K 0 ltac:(lia)). change (N.of_nat 0) with 0%N in K. rewrite N.add_0_r in K. rewrite K. exact H1.
  - apply forallb_forall. intros c Hc. rewrite forallb_forall in H3. assert (Ec : nth_error classes (N.to_nat (class_no c)) = Some c) by (destruct c; reflexivity).
    assert (L : N.to_nat (class_no c) < 43) by (change 43 with (length classes); apply nth_error_Some; congruence).
    destruct (nth_error (r0 :: r') (N.to_nat (class_no c))) as [new|] eqn:En; [|apply nth_error_None in En; lia].
    specialize (K _ L). rewrite N2Nat.id in K. specialize (H3 _ (combine_in _ _ _ _ _ Ec En)). cbn [fst snd] in H3. unfold machine. rewrite K, En. cbn [bind]. unfold effect in H3.
    destruct (0x80 <=? new)%N; apply andb_true_iff in H3 as [P1 P2]; apply andb_true_iff in P2 as [P2 P3]; rewrite P1, P3, orb_comm, P2; reflexivity.
Qed.
Definition all_fast (rows : list (list know)) : bool :=
  forallb (fun '(m, x) => present rows m x) starts &&
  forallb (fun m => forallb (row_fast rows (N.of_nat m)) (nth m rows [])) (seq 0 89) && (length rows =? 89)%nat.
Lemma all_fast_ok rows : all_fast rows = true -> all_ok rows = true.
Proof.
  unfold all_fast, all_ok. rewrite !andb_true_iff. intros ((H1 & H2) & H3). split; [split; [exact H1|]|exact H3]. rewrite forallb_forall in H2 |- *. intros m Hm. specialize (H2 m Hm).
  rewrite forallb_forall in H2 |- *. intros x Hx. apply row_fast_ok. now apply H2.
Qed.
Definition nexts (m : N) (x : know) : list (N * know) :=
  map (fun p => (snd (effect (snd p)), know_step x (fst p))) (combine classes (nth (N.to_nat m) table_rows [])).
Fixpoint explore (fuel : nat) (work : list (N * know)) (rows : list (list know)) : list (list know) :=
  match fuel, work with
  | S f, (m, x) :: work' => if present rows m x then explore f work' rows else explore f (nexts m x ++ work') (insert rows (N.to_nat m) x)
  | _, _ => rows
  end.
Lemma all_checked : exists rows, all_ok rows = true.
Proof. exists (explore (100 * 1000) starts (repeat [] 89)). apply all_fast_ok. vm_compute. reflexivity. Qed.
