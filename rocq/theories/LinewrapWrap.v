(** Wrapping a line of the text: which soft breaks it gets. *)
From Coq Require Import List Arith Lia Bool ZifyBool.
From Verif Require Import Base ListLib RopeModel RopeSpec BreaksModel BreaksSpec BreaksProofs LinewrapSpec.
Import ListNotations.
Local Notation concat := List.concat.

Section Wrap.
Context {F : Type} (fzero : F) (fadd : F -> F -> F) (fge fgt : F -> F -> bool) (fis0 : F -> bool) (max : F).
Context (WL : width_laws fzero fadd fge fgt fis0).
Notation word := (@word F).
Notation row_width := (@row_width F fzero fadd).
Notation row_fits := (@row_fits F fzero fadd fgt max).
Notation row_wide := (@row_wide F fzero fadd fge fis0 max).
Notation row_full := (@row_full F fzero fadd fge fgt fis0 max).
Notation rows_ok := (@rows_ok F fzero fadd fge fgt fis0 max).

(** The end of one row, and the words left. *)
Fixpoint ol (lw : F) (pos : nat) (P : list word) : option nat * list word :=
  match P with
  | [] => (None, [])
  | (b, w, h) :: P' =>
      if negb h then
        if fis0 lw && fge w max then match P' with [] => (None, P) | _ :: _ => (Some b, P') end
        else if fgt (fadd lw w) max then (Some pos, P)
        else ol (fadd lw w) b P'
      else if negb (fis0 lw) && fgt (fadd w lw) max then (Some pos, P)
      else (Some b, P')
  end.
(** The rows of a line of the text, as calls of the builder of breaks. *)
Fixpoint gc (fuel start : nat) (P : list word) : list (bool * nat) :=
  match fuel with
  | 0 => []
  | S f =>
      match ol fzero start P with
      | (Some q, []) => [(false, q - start)]
      | (Some q, P1) => (true, q - start) :: gc f q P1
      | (None, _) => [(false, last (map wd_end P) start - start)]
      end
  end.

(** Words that rise from [lo] to [hi]. *)
Fixpoint wrise (lo hi : nat) (P : list word) : Prop :=
  match P with
  | [] => lo = hi
  | w :: P' => lo < wd_end w <= hi /\ wrise (wd_end w) hi P'
  end.
Definition lasth (P : list word) : bool := match rev P with w :: _ => wd_hard w | [] => false end.

Lemma wrise_le lo hi P : wrise lo hi P -> lo <= hi.
Proof. revert lo. induction P as [|w P IH]; intros lo; cbn; [lia|]. intros (A & B). lia. Qed.
Lemma last_cons {A} (x d : A) l : last (x :: l) d = last l x.
Proof. revert x d. induction l as [|y l IH]; intros x d; [reflexivity|]. change (last (x :: y :: l) d) with (last (y :: l) d). rewrite IH. symmetry. apply IH. Qed.
Lemma wrise_last lo hi P : wrise lo hi P -> last (map wd_end P) lo = hi.
Proof. revert lo. induction P as [|w P IH]; intros lo; cbn [wrise map]; auto. intros (A & B). rewrite last_cons. auto. Qed.
Lemma wrise_app lo hi P Q : wrise lo hi (P ++ Q) <-> exists mid, wrise lo mid P /\ wrise mid hi Q.
Proof.
  revert lo. induction P as [|w P IH]; intros lo; cbn [app wrise].
  - split; [intros H; exists lo; auto|intros (m & <- & H); auto].
  - rewrite IH. split.
    + intros (A & m & B & C). exists m. split; auto. split; auto. pose proof (wrise_le _ _ _ B). lia.
    + intros (m & (A & B) & C). pose proof (wrise_le _ _ _ C). split; [lia|]. eauto.
Qed.
Lemma lasth_cons w P : P <> [] -> lasth (w :: P) = lasth P.
Proof. intros Hp. unfold lasth. cbn [rev]. destruct (rev P) eqn:E; auto. apply (f_equal (@rev _)) in E. rewrite rev_involutive in E. contradiction. Qed.

(** Later lines do not matter. *)
Lemma ol_app P Q : (lasth P = true \/ Q = []) -> P <> [] -> forall lw pos,
  ol lw pos (P ++ Q) = let '(r, P1) := ol lw pos P in (r, P1 ++ Q).
Proof.
  induction P as [|[[b w] h] P IH]; intros HQ Hp lw pos; [contradiction|]. cbn [app ol].
  destruct h; cbn [negb].
  - destruct (negb (fis0 lw) && fgt (fadd w lw) max); reflexivity.
  - destruct P as [|w2 P].
    + destruct HQ as [HQ|HQ]; [discriminate|]. subst Q. cbn [app]. destruct (fis0 lw && fge w max); auto. destruct (fgt (fadd lw w) max); auto.
    + destruct (fis0 lw && fge w max); [reflexivity|]. destruct (fgt (fadd lw w) max); [reflexivity|]. apply IH; [|discriminate].
      destruct HQ as [HQ|HQ]; auto. left. now rewrite lasth_cons in HQ by discriminate.
Qed.

Definition wshift (k : nat) (w : word) : word := (k + wd_end w, wd_width w, wd_hard w).
Lemma ol_shift k P : forall lw pos, ol lw (k + pos) (map (wshift k) P) =
  let '(r, P1) := ol lw pos P in (option_map (fun x => k + x) r, map (wshift k) P1).
Proof.
  induction P as [|[[b w] h] P IH]; intros lw pos; [reflexivity|]. cbn [map]. change (wshift k (b, w, h)) with ((k + b, w, h) : word). cbn [ol].
  destruct h; cbn [negb].
  - destruct (negb (fis0 lw) && fgt (fadd w lw) max); reflexivity.
  - destruct (fis0 lw && fge w max); [destruct P; reflexivity|]. destruct (fgt (fadd lw w) max); [reflexivity|]. apply IH.
Qed.
Lemma gc_shift k fuel : forall start P, gc fuel (k + start) (map (wshift k) P) = gc fuel start P.
Proof.
  induction fuel as [|f IH]; intros start P; [reflexivity|]. cbn [gc]. rewrite ol_shift. destruct (ol fzero start P) as [[q|] P1]; cbn [option_map].
  - replace (k + q - (k + start)) with (q - start) by lia. destruct P1 as [|w P1]; [reflexivity|]. cbn [map]. f_equal. apply (IH q (w :: P1)).
  - do 2 f_equal. assert (E : last (map wd_end (map (wshift k) P)) (k + start) = k + last (map wd_end P) start).
    { clear. revert start. induction P as [|w P IHP]; intros start; [reflexivity|]. cbn [map last]. specialize (IHP start). destruct P; [reflexivity|]. exact IHP. }
    lia.
Qed.

(** One row: what it holds, and why it ends. *)
Definition good_row (r : list word) : Prop :=
  row_fits r \/ row_wide r \/ exists z x, r = z ++ [x] /\ wd_hard x = true /\ fis0 (row_width z) = true.
Lemma row_width_snoc z w : row_width (z ++ [w]) = fadd (row_width z) (wd_width w).
Proof. unfold LinewrapSpec.row_width. now rewrite map_app, fold_left_app. Qed.

Lemma ol_row P : forall acc pos hi r P1, (acc = [] \/ row_fits acc) -> wrise pos hi P -> P <> [] -> ol (row_width acc) pos P = (r, P1) ->
  match r with
  | Some q => exists pre, P = pre ++ P1 /\ wrise pos q pre /\ (acc ++ pre <> []) /\ good_row (acc ++ pre) /\
      match P1 with w :: _ => row_full (acc ++ pre) w | [] => True end
  | None => good_row (acc ++ P) /\ (lasth P = false)
  end.
Proof.
  induction P as [|[[b w] h] P IH]; intros acc pos hi r P1 Ha Hr Hp E; [contradiction|]. cbn [ol] in E. cbn [wrise wd_end fst snd] in Hr. destruct Hr as (Hr1 & Hr2).
  pose proof (row_width_snoc acc (b, w, h)) as Es. change (wd_width (b, w, h)) with w in Es.
  destruct h; cbn [negb] in E.
  - destruct (negb (fis0 (row_width acc)) && fgt (fadd w (row_width acc)) max) eqn:C.
    + injection E as <- <-. exists []. rewrite app_nil_r. split; auto. split; [reflexivity|].
      assert (Na : acc <> []). { intros ->. unfold LinewrapSpec.row_width in C. cbn in C. rewrite (wl_zero _ _ _ _ _ WL) in C. discriminate. }
      split; auto. split; [left; destruct Ha; [contradiction|auto]|]. right. right. unfold LinewrapSpec.row_fits. rewrite Es, (wl_comm _ _ _ _ _ WL). apply andb_prop in C as [_ C]. rewrite C. discriminate.
    + injection E as <- <-. exists [(b, w, true)]. split; auto. split; [cbn; lia|]. split; [intros Hn; now apply app_eq_nil in Hn as [_ Hn]|]. split.
      * destruct (fis0 (row_width acc)) eqn:Z.
        -- right. right. exists acc, (b, w, true). auto.
        -- left.
           unfold LinewrapSpec.row_fits. refine (eq_trans (f_equal (fun x => fgt x max) Es) _). rewrite (wl_comm _ _ _ _ _ WL). exact C.
      * destruct P as [|w2 P]; auto. left. exists acc, (b, w, true). auto.
  - destruct (fis0 (row_width acc) && fge w max) eqn:C.
    + apply andb_prop in C as [C1 C2].
      assert (Wd : row_wide (acc ++ [(b, w, false)])) by (exists acc, (b, w, false); auto).
      destruct P as [|w2 P]; injection E as <- <-.
      * split; [right; now left|reflexivity].
      * exists [(b, w, false)]. split; auto. split; [cbn; lia|]. split; [intros Hn; now apply app_eq_nil in Hn as [_ Hn]|]. split; [right; now left|]. right. now left.
    + destruct (fgt (fadd (row_width acc) w) max) eqn:G.
      * injection E as <- <-. exists []. rewrite app_nil_r. split; auto. split; [reflexivity|].
        assert (Na : acc <> []). { intros ->. unfold LinewrapSpec.row_width in C, G. cbn in C, G. rewrite (wl_zero _ _ _ _ _ WL) in C. cbn in C. rewrite (wl_fit _ _ _ _ _ WL) in G by auto. discriminate. }
        split; auto. split; [left; destruct Ha; [contradiction|auto]|]. right. right. unfold LinewrapSpec.row_fits. rewrite Es, G. discriminate.
      * assert (Fs : row_fits (acc ++ [(b, w, false)])) by (unfold LinewrapSpec.row_fits; exact (eq_trans (f_equal (fun x => fgt x max) Es) G)).
        rewrite <- Es in E. destruct P as [|w2 P].
        -- cbn [ol] in E. injection E as <- <-. split; [left; auto|reflexivity].
        -- specialize (IH (acc ++ [(b, w, false)]) b hi r P1 (or_intror Fs) Hr2 ltac:(discriminate) E). destruct r as [q|].
           ++ destruct IH as (pre & Ep & A1 & A2 & A3 & A4). exists ((b, w, false) :: pre). rewrite <- app_assoc in *. cbn [app] in *. split; [now rewrite Ep|].
              split; [|auto]. cbn [wrise wd_end fst]. pose proof (wrise_le _ _ _ A1). split; auto. lia.
           ++ rewrite <- app_assoc in IH. destruct IH as [A1 A2]. split; [exact A1|]. now rewrite lasth_cons by discriminate.
Qed.

(** A fresh row takes a word at least. *)
Lemma ol_fresh pos hi P r P1 : wrise pos hi P -> P <> [] -> ol fzero pos P = (r, P1) ->
  match r with
  | Some q => exists pre, P = pre ++ P1 /\ wrise pos q pre /\ pre <> [] /\ pos < q <= hi /\ wrise q hi P1 /\ length P1 < length P /\ good_row pre /\
      match P1 with w :: _ => row_full pre w | [] => True end
  | None => good_row P /\ lasth P = false
  end.
Proof.
  intros Hr Hp E. pose proof (ol_row P [] pos hi r P1 (or_introl eq_refl) Hr Hp E) as H. destruct r as [q|]; [|exact H].
  destruct H as (pre & Ep & A1 & A2 & A3 & A4). cbn [app] in *. exists pre. split; auto. split; auto. split; auto.
  rewrite Ep in Hr. apply wrise_app in Hr as (mid & B1 & B2). assert (mid = q) by (rewrite <- (wrise_last _ _ _ A1); symmetry; now apply wrise_last). subst mid.
  pose proof (wrise_le _ _ _ B2). destruct pre as [|w0 pre]; [contradiction|]. pose proof A1 as (C1 & C2). pose proof (wrise_le _ _ _ C2). split; [lia|].
  split; auto. rewrite Ep, app_length. cbn [length]. split; [lia|]. auto.
Qed.

Lemma gc_fuel f1 : forall f2 start hi P, wrise start hi P -> P <> [] -> length P < f1 -> length P < f2 -> gc f1 start P = gc f2 start P.
Proof.
  induction f1 as [|f1 IH]; intros [|f2] start hi P Hr Hp H1 H2; try lia. cbn [gc]. destruct (ol fzero start P) as [[q|] P1] eqn:E; auto.
  pose proof (ol_fresh _ _ _ _ _ Hr Hp E) as (pre & A1 & A2 & A3 & A4 & A5 & A6 & _). destruct P1 as [|w P1]; auto. f_equal. apply (IH f2 q hi); auto; try discriminate; lia.
Qed.
Definition calls (start : nat) (P : list word) : list (bool * nat) := gc (S (length P)) start P.
Lemma calls_step start hi P : wrise start hi P -> P <> [] -> calls start P =
  match ol fzero start P with
  | (Some q, []) => [(false, hi - start)]
  | (Some q, P1) => (true, q - start) :: calls q P1
  | (None, _) => [(false, hi - start)]
  end.
Proof.
  intros Hr Hp. unfold calls at 1. cbn [gc]. destruct (ol fzero start P) as [[q|] P1] eqn:E.
  - pose proof (ol_fresh _ _ _ _ _ Hr Hp E) as (pre & A1 & A2 & A3 & A4 & A5 & A6 & _). destruct P1 as [|w P1]; [cbn [wrise] in A5; now rewrite A5|]. f_equal.
    unfold calls. apply (gc_fuel _ _ q hi); auto; try discriminate; lia.
  - now rewrite (wrise_last _ _ _ Hr).
Qed.

(** The soft breaks of a line: rows that are right, and breaks where they end. *)
Definition cbits (cs : list (bool * nat)) : list bool := flat_map call_bits cs.
Lemma call_bits_len c : (fst c = true -> 0 < snd c) -> length (call_bits c) = snd c.
Proof. destruct c as [[|] k]; cbn [fst snd]; intros Hk; unfold call_bits; [specialize (Hk eq_refl); rewrite app_length, repeat_length; cbn; lia|apply repeat_length]. Qed.
Lemma at_break_call c o : (fst c = true -> 0 < snd c) -> (at_break (call_bits c) o <-> fst c = true /\ o = snd c).
Proof.
  destruct c as [[|] k]; cbn [fst snd]; intros Hk; unfold call_bits, at_break.
  - specialize (Hk eq_refl). split.
    + intros (Ho & E). split; auto. destruct (Nat.lt_ge_cases (o - 1) (k - 1)).
      * rewrite nth_error_app1, nth_error_repeat in E by (rewrite ?repeat_length; lia). discriminate.
      * rewrite nth_error_app2, repeat_length in E by (rewrite ?repeat_length; lia). destruct (o - 1 - (k - 1)) as [|j] eqn:Ej; [lia|]. destruct j; discriminate.
    + intros (_ & ->). split; auto. rewrite nth_error_app2, repeat_length, Nat.sub_diag by (rewrite repeat_length; lia). reflexivity.
  - split; [|intros (Hx & _); discriminate]. intros (Ho & E). destruct (Nat.lt_ge_cases (o - 1) k).
    + rewrite nth_error_repeat in E by lia. discriminate.
    + assert (nth_error (repeat false k) (o - 1) = None) by (apply nth_error_None; rewrite repeat_length; lia). congruence.
Qed.

Lemma row_end_pre start q (pre : list word) : wrise start q pre -> pre <> [] -> match rev pre with w :: _ => wd_end w | [] => 0 end = q.
Proof.
  intros Hr Hp. destruct (exists_last Hp) as (z & x & ->). rewrite rev_app_distr. cbn. apply wrise_app in Hr as (m & _ & (H1 & H2)). exact H2.
Qed.
Theorem calls_rows k : forall start hi P, length P <= k -> wrise start hi P -> P <> [] -> exists rows, concat rows = P /\ rows <> [] /\ rows_ok rows /\
  length (cbits (calls start P)) = hi - start /\ (forall o, at_break (cbits (calls start P)) o <-> 0 < o /\ In (start + o) (row_ends rows)).
Proof.
  induction k as [|k IH]; intros start hi P Hk Hr Hp; [destruct P; [contradiction|cbn in Hk; lia]|].
  rewrite (calls_step _ _ _ Hr Hp). pose proof (wrise_le _ _ _ Hr) as Hle.
  assert (Last : forall r : list word, good_row r -> r = P -> exists rows, concat rows = P /\ rows <> [] /\ rows_ok rows /\
    length (cbits [(false, hi - start)]) = hi - start /\ (forall o, at_break (cbits [(false, hi - start)]) o <-> 0 < o /\ In (start + o) (row_ends rows))).
  { intros r Hg ->. exists [P]. cbn [concat]. rewrite app_nil_r. split; auto. split; [discriminate|]. split; [cbn; auto|].
    unfold cbits. cbn [flat_map]. rewrite app_nil_r, call_bits_len by (cbn; discriminate). split; auto. intros o. rewrite at_break_call by (cbn; discriminate).
    cbn. split; [intros (Hx & _); discriminate|tauto]. }
  destruct (ol fzero start P) as [[q|] P1] eqn:E.
  - pose proof (ol_fresh _ _ _ _ _ Hr Hp E) as (pre & A1 & A2 & A3 & A4 & A5 & A6 & A7 & A8). destruct P1 as [|w P1].
    { apply (Last pre); auto. rewrite A1, app_nil_r. reflexivity. }
    destruct (IH q hi (w :: P1) ltac:(lia) A5 ltac:(discriminate)) as (rows & B1 & B2 & B3 & B4 & B5). exists (pre :: rows). cbn [concat]. rewrite B1. split; auto. split; [discriminate|].
    split. { destruct rows as [|r rows]; [contradiction|]. cbn [LinewrapSpec.rows_ok]. split; auto. split; auto. split; auto. destruct r as [|w1 r]; [destruct B3; contradiction|]. cbn [concat app] in B1. injection B1 as <- B1. exact A8. }
    assert (Hc : fst (true, q - start) = true -> 0 < snd (true, q - start)) by (cbn; lia).
    unfold cbits in *. cbn [flat_map]. rewrite app_length, call_bits_len, B4 by auto. cbn [snd]. split; [lia|].
    intros o. rewrite at_break_app, call_bits_len, at_break_call, B5 by auto. cbn [fst snd].
    assert (Er : row_ends (pre :: rows) = q :: row_ends rows).
    { unfold row_ends. destruct rows as [|r rows]; [contradiction|]. change (removelast (pre :: r :: rows)) with (pre :: removelast (r :: rows)). cbn [map]. f_equal. apply (row_end_pre start); auto. }
    rewrite Er. cbn [In]. split.
    + intros [(_ & ->)|(H1 & H2 & H3)]; [split; [lia|]; left; lia|]. split; [lia|]. right. replace (start + o) with (q + (o - (q - start))) by lia. exact H3.
    + intros (H1 & [H2|H2]); [left; split; auto; lia|]. destruct (Nat.le_gt_cases (start + o) q) as [Hle2|Hgt].
      * exfalso. assert (Hm : forall x, In x (row_ends rows) -> q < x).
        { clear -B1 B2 B3 A5. intros x Hx. unfold row_ends in Hx. destruct rows as [|r0 rows0]; [contradiction|]. apply in_map_iff in Hx as (r & <- & Hi).
          assert (Hi2 : In r (r0 :: rows0)). { clear -Hi. revert r0 Hi. induction rows0 as [|r1 rows IH]; intros r0 Hi; [destruct Hi|]. change (removelast (r0 :: r1 :: rows)) with (r0 :: removelast (r1 :: rows)) in Hi. destruct Hi as [->|Hi]; [now left|]. right. now apply IH. }
          assert (Nr : r <> []). { clear -B3 Hi2. revert B3 Hi2. generalize (r0 :: rows0). intros l. induction l as [|y l IH]; [intros _ []|]. intros B3 [->|Hi]; destruct B3 as (H1 & _ & _ & H2); auto. }
          destruct (exists_last Nr) as (z & y & ->). rewrite rev_app_distr. cbn [rev app].
          assert (Hin : In y (w :: P1)). { rewrite <- B1. apply in_concat. exists (z ++ [y]). split; auto. apply in_or_app. right. now left. }
          clear -Hin A5. revert A5 Hin. generalize (w :: P1). intros l. revert q. induction l as [|v l IH]; [intros q _ []|]. intros q A5 [->|Hin]; destruct A5 as (H1 & H2); [lia|]. specialize (IH _ H2 Hin). lia. }
        specialize (Hm _ H2). lia.
      * right. split; [lia|]. split; [lia|]. now replace (q + (o - (q - start))) with (start + o) by lia.
  - pose proof (ol_fresh _ _ _ _ _ Hr Hp E) as (A1 & _). now apply (Last P).
Qed.
End Wrap.
