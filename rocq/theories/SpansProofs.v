(** Proofs about spans. A sequence of spans is a sequence of units, each with the value over it,
    if any, and whether a span starts there. *)
From Coq Require Import List Arith Lia Bool ZifyBool.
From Verif Require Import Base ListLib TreeModel TreeSpec TreeProofs MetricProofs CursorModel CursorProofs DeltaModel DeltaSpec SpansModel SpansSpec.
Import ListNotations.

Section Spans.
Context {T : Type}.
Notation span := (nat * nat * T)%type.
Notation leaf := (sleaf T).
Implicit Types (l : list span).

(** ** Values *)
Fixpoint val1 l (i : nat) : option (T * bool) :=
  match l with [] => None | (s, e, d) :: l' => if (s <=? i) && (i <? e) then Some (d, i =? s) else val1 l' i end.
Lemma val1_value l i : option_map fst (val1 l i) = value l i.
Proof. induction l as [|[[s e] d] l IH]; cbn [val1 value]; auto. destruct (_ && _); auto. Qed.
Definition cells l (n : nat) : list (option (T * bool)) := map (val1 l) (seq 0 n).
Definition unmark (s : list (option (T * bool))) : list (option T) := map (option_map fst) s.
Lemma unmark_cells l n : unmark (cells l n) = values l n.
Proof. unfold unmark, cells, values. rewrite map_map. apply map_ext. intros i. apply val1_value. Qed.
Lemma seq_tab_nth {X} (g : nat -> X) n i : nth_error (map g (seq 0 n)) i = if i <? n then Some (g i) else None.
Proof.
  destruct (i <? n) eqn:E.
  - rewrite (map_nth_error _ _ _ (d := i)); auto. rewrite (nth_error_nth' _ 0) by (rewrite seq_length; lia). rewrite seq_nth by lia. reflexivity.
  - apply nth_error_None. rewrite map_length, seq_length. lia.
Qed.
Lemma cells_len l n : length (cells l n) = n. Proof. unfold cells. now rewrite map_length, seq_length. Qed.
Lemma values_len l n : length (values l n) = n. Proof. unfold values. now rewrite map_length, seq_length. Qed.
Lemma cells_nth l n i : nth_error (cells l n) i = if i <? n then Some (val1 l i) else None. Proof. apply seq_tab_nth. Qed.
Lemma values_nth l n i : nth_error (values l n) i = if i <? n then Some (value l i) else None. Proof. apply seq_tab_nth. Qed.
Lemma nth_slice {X} (s : list X) i j k : nth_error (slice s i j) k = if k <? j - i then nth_error s (i + k) else None.
Proof. unfold slice. rewrite nth_error_firstn. destruct (k <? j - i); auto. apply nth_error_skipn. Qed.

(** ** Ordered spans *)
Lemma ord_le lo l n : ordered lo l n -> lo <= n.
Proof. revert lo. induction l as [|[[s e] d] l IH]; cbn; intros lo H; auto. destruct H as (H1 & H2 & H3). specialize (IH _ H3). lia. Qed.
Lemma ord_widen lo lo' l n n' : ordered lo l n -> lo' <= lo -> n <= n' -> ordered lo' l n'.
Proof. revert lo lo'. induction l as [|[[s e] d] l IH]; cbn; intros lo lo' H H1 H2; [lia|]. destruct H as (A & B & C). repeat split; auto; [lia|]. eapply IH; eauto. Qed.
Lemma ord_app lo (a b : list span) m n : ordered lo a m -> ordered m b n -> ordered lo (a ++ b) n.
Proof.
  revert lo. induction a as [|[[s e] d] a IH]; cbn [app ordered]; intros lo Ha Hb; [eapply ord_widen; eauto|]. destruct Ha as (A & B & C). repeat split; auto.
Qed.
Lemma ord_split lo (a b : list span) n : ordered lo (a ++ b) n -> exists m, ordered lo a m /\ ordered m b n /\ m <= n.
Proof.
  revert lo. induction a as [|[[s e] d] a IH]; cbn [app ordered]; intros lo H; [exists lo; repeat split; auto; eapply ord_le; eauto|]. destruct H as (A & B & C).
  destruct (IH _ C) as (m & H1 & H2 & H3). exists m. auto.
Qed.
Lemma ord_map g lo lo' n n' l : ordered lo l n -> lo' <= g lo -> g n <= n' -> (forall x y, lo <= x -> x < y -> y <= n -> g x < g y) ->
  ordered lo' (map (fun '(s, e, d) => (g s, g e, d)) l) n'.
Proof.
  revert lo lo'. induction l as [|[[s e] d] l IH]; cbn [ordered map]; intros lo lo' H H1 H2 Hg.
  - destruct (Nat.eq_dec lo n) as [->|]; [lia|]. specialize (Hg lo n). lia.
  - destruct H as (A & B & C). pose proof (ord_le _ _ _ C). pose proof (Hg s e ltac:(lia) B ltac:(lia)). split; [|split; auto].
    + destruct (Nat.eq_dec lo s) as [->|]; auto. specialize (Hg lo s). lia.
    + apply (IH e); auto. intros x y Hx. apply Hg. lia.
Qed.
Lemma ord_out lo l n i : ordered lo l n -> i < lo \/ n <= i -> val1 l i = None.
Proof.
  revert lo. induction l as [|[[s e] d] l IH]; cbn [ordered val1]; intros lo H Hi; auto. destruct H as (A & B & C). pose proof (ord_le _ _ _ C).
  replace ((s <=? i) && (i <? e)) with false by lia. apply (IH e); auto. lia.
Qed.
Lemma val1_app (a b : list span) i : val1 (a ++ b) i = match val1 a i with Some x => Some x | None => val1 b i end.
Proof. induction a as [|[[s e] d] a IH]; cbn [app val1]; auto. destruct (_ && _); auto. Qed.
Lemma val1_shift k l i : val1 (shift k l) i = if k <=? i then val1 l (i - k) else None.
Proof.
  induction l as [|[[s e] d] l IH]; cbn [shift map val1]; [destruct (k <=? i); auto|]. change (map _ l) with (shift k l). rewrite IH. destruct (k <=? i) eqn:E.
  - replace ((s + k <=? i) && (i <? e + k)) with ((s <=? i - k) && (i - k <? e)) by lia. destruct (_ && _); auto. do 2 f_equal. lia.
  - replace ((s + k <=? i) && (i <? e + k)) with false by lia. auto.
Qed.
Lemma cells_app (a b : list span) n m : ordered 0 a n -> cells (a ++ shift n b) (n + m) = cells a n ++ cells b m.
Proof.
  intros H. apply nth_error_ext. intros i. rewrite cells_nth, val1_app, val1_shift. destruct (Nat.lt_ge_cases i n) as [Hi|Hi].
  - rewrite nth_error_app1 by (rewrite cells_len; auto). rewrite cells_nth. replace (i <? n + m) with true by lia. replace (i <? n) with true by lia. replace (n <=? i) with false by lia. now destruct (val1 a i).
  - rewrite nth_error_app2 by (rewrite cells_len; auto). rewrite cells_len, cells_nth. rewrite (ord_out _ _ _ _ H) by lia. replace (n <=? i) with true by lia. replace (i <? n + m) with (i - n <? m) by lia. reflexivity.
Qed.
Lemma ord_shift lo l n k : ordered lo l n -> ordered (lo + k) (shift k l) (n + k).
Proof. intros H. unfold shift. apply (ord_map (fun x => x + k) lo _ n); auto; lia. Qed.

(** ** Different spans have different units *)
Lemma ord_start lo l n i : ordered lo l n -> val1 l i <> None -> lo <= i < n.
Proof. intros H Hv. destruct (Nat.lt_ge_cases i lo), (Nat.lt_ge_cases i n); try lia; exfalso; apply Hv, (ord_out _ _ _ _ H); lia. Qed.
Lemma ord_mark lo l n i d : ordered lo l n -> val1 l i = Some (d, false) -> lo < i.
Proof.
  revert lo. induction l as [|[[s e] x] l IH]; cbn [ordered val1]; intros lo H E; [discriminate|]. destruct H as (A & B & C). destruct ((s <=? i) && (i <? e)) eqn:Eb.
  - injection E as <- E. lia.
  - specialize (IH _ C E). lia.
Qed.
Lemma cells_inj (a : list span) : forall (b : list span) lo n, ordered lo a n -> ordered lo b n -> (forall i, i < n -> val1 a i = val1 b i) -> a = b.
Proof.
  induction a as [|[[s e] d] a IH]; intros [|[[s' e'] d'] b] lo n Ha Hb E; auto.
  - exfalso. destruct Hb as (A & B & C). pose proof (ord_le _ _ _ C). specialize (E s' ltac:(lia)). cbn [val1] in E. replace ((s' <=? s') && (s' <? e')) with true in E by lia. discriminate.
  - exfalso. destruct Ha as (A & B & C). pose proof (ord_le _ _ _ C). specialize (E s ltac:(lia)). cbn [val1] in E. replace ((s <=? s) && (s <? e)) with true in E by lia. discriminate.
  - pose proof Ha as (A & B & C). pose proof Hb as (A' & B' & C'). pose proof (ord_le _ _ _ C). pose proof (ord_le _ _ _ C').
    assert (s = s') as <-.
    { destruct (Nat.lt_trichotomy s s') as [L|[L|L]]; auto; exfalso.
      - specialize (E s ltac:(lia)). cbn [val1] in E. replace ((s <=? s) && (s <? e)) with true in E by lia. replace ((s' <=? s) && (s <? e')) with false in E by lia. rewrite (ord_out _ _ _ s C') in E by lia. discriminate.
      - specialize (E s' ltac:(lia)). cbn [val1] in E. replace ((s' <=? s') && (s' <? e')) with true in E by lia. replace ((s <=? s') && (s' <? e)) with false in E by lia. rewrite (ord_out _ _ _ s' C) in E by lia. discriminate. }
    assert (d = d') as <-. { specialize (E s ltac:(lia)). cbn [val1] in E. replace ((s <=? s) && (s <? e)) with true in E by lia. replace ((s <=? s) && (s <? e')) with true in E by lia. congruence. }
    assert (e = e') as <-.
    { destruct (Nat.lt_trichotomy e e') as [L|[L|L]]; auto; exfalso.
      - specialize (E e ltac:(lia)). cbn [val1] in E. replace ((s <=? e) && (e <? e)) with false in E by lia. replace ((s <=? e) && (e <? e')) with true in E by lia. replace (e =? s) with false in E by lia. apply (ord_mark _ _ _ _ _ C) in E. lia.
      - specialize (E e' ltac:(lia)). cbn [val1] in E. replace ((s <=? e') && (e' <? e')) with false in E by lia. replace ((s <=? e') && (e' <? e)) with true in E by lia. replace (e' =? s) with false in E by lia. symmetry in E. apply (ord_mark _ _ _ _ _ C') in E. lia. }
    f_equal. apply (IH b e n); auto. intros i Hi. destruct (Nat.lt_ge_cases i e) as [L|L]; [rewrite !(ord_out e _ n) by (auto; lia); auto|].
    specialize (E i Hi). cbn [val1] in E. replace ((s <=? i) && (i <? e)) with false in E by lia. exact E.
Qed.

(** ** Leaves *)
Definition slc (l : leaf) : list (option (T * bool)) := cells (sl_spans l) (sl_len l).
Definition sV (l : leaf) : Prop := ordered 0 (sl_spans l) (sl_len l) /\ length (sl_spans l) <= 64.
Lemma clip_val i j at_ : i <= j -> forall l k, k < j - i ->
  option_map fst (val1 (clip l i j at_) (at_ + k)) = option_map fst (val1 l (i + k)) /\
  (0 < k \/ (forall d, val1 l i <> Some (d, false)) -> val1 (clip l i j at_) (at_ + k) = val1 l (i + k)).
Proof.
  intros Hij. induction l as [|[[s e] d] l IH]; intros k Hk; cbn [clip val1]; auto. unfold intersect. cbv zeta. destruct (IH k Hk) as [IH1 IH2]. destruct (_ <=? _) eqn:Eb.
  - replace ((s <=? i + k) && (i + k <? e)) with false by lia. split; auto. intros [H|H]; auto. apply IH2. right. intros d'. specialize (H d').
    destruct ((s <=? i) && (i <? e)) eqn:Ei; auto. lia.
  - cbn [val1]. replace ((Nat.max s i - i + at_ <=? at_ + k) && (at_ + k <? Nat.max (Nat.max s i) (Nat.min e j) - i + at_)) with ((s <=? i + k) && (i + k <? e)) by lia.
    destruct ((s <=? i + k) && (i + k <? e)) eqn:Ek; cbn [option_map fst].
    + split; auto. intros H. do 2 f_equal. assert (s < i -> k = 0 -> False).
      { intros H1 H2. destruct H as [H|H]; [lia|]. specialize (H d). replace ((s <=? i) && (i <? e)) with true in H by lia. apply H. do 2 f_equal. lia. }
      destruct (Nat.eq_dec k 0); lia.
    + split; auto. intros [H|H]; auto. apply IH2. destruct (Nat.eq_dec k 0); [|lia]. right. intros d'. specialize (H d').
      destruct ((s <=? i) && (i <? e)) eqn:Ei; auto. lia.
Qed.
Lemma clip_ord i j at_ : i <= j -> forall l lo n, ordered lo l n -> lo <= j -> ordered (Nat.max lo i - i + at_) (clip l i j at_) (j - i + at_).
Proof.
  intros Hij. induction l as [|[[s e] d] l IH]; intros lo n H Hlo; cbn [clip ordered] in *; [lia|]. destruct H as (A & B & C). unfold intersect. cbv zeta.
  destruct (Nat.le_gt_cases e j) as [He|He].
  - specialize (IH e n C He). destruct (_ <=? _) eqn:Eb; [eapply ord_widen; eauto; lia|]. cbn [ordered]. split; [lia|]. split; [lia|]. eapply ord_widen; eauto; lia.
  - assert (Z : clip l i j at_ = []).
    { clear -C He. revert e C He. induction l as [|[[s e'] d] l IH]; intros e C He; cbn [clip ordered] in *; auto. destruct C as (A & B & C). unfold intersect. cbv zeta.
      replace (_ <=? _) with true by lia. apply (IH e'); auto. lia. }
    rewrite Z. destruct (_ <=? _) eqn:Eb; cbn [ordered]; lia.
Qed.
Lemma clip_len i j at_ l : length (clip l i j at_) <= length l.
Proof. induction l as [|[[s e] d] l IH]; cbn [clip length]; auto. unfold intersect. cbv zeta. destruct (_ <=? _); cbn [length]; lia. Qed.
Lemma clip_all at_ n : forall l lo, ordered lo l n -> clip l 0 n at_ = shift at_ l.
Proof.
  induction l as [|[[s e] d] l IH]; intros lo H; cbn [clip shift map ordered] in *; auto. destruct H as (A & B & C). pose proof (ord_le _ _ _ C). unfold intersect. cbv zeta.
  replace (Nat.max s 0) with s by lia. replace (Nat.min e n) with e by lia. replace (Nat.max s e) with e by lia. rewrite !Nat.sub_0_r. replace (e + at_ <=? s + at_) with false by lia. f_equal. eauto.
Qed.
Lemma shift_back_ok l : forall k n, ordered k l n -> exists r, shift_back l k = Some r /\ shift k r = l /\ ordered 0 r (n - k) /\ length r = length l.
Proof.
  intros k n H. assert (G : forall lo, k <= lo -> ordered lo l n -> exists r, shift_back l k = Some r /\ shift k r = l /\ ordered (lo - k) r (n - k) /\ length r = length l).
  { clear H. induction l as [|[[s e] d] l IH]; intros lo Hk H; cbn [shift_back ordered] in *; [exists []; repeat split; auto; cbn; lia|]. destruct H as (A & B & C).
    destruct (IH e ltac:(lia) C) as (r & -> & H1 & H2 & H3). unfold check. replace ((k <=? s) && (k <=? e)) with true by lia. cbn [bind]. eexists. split; [reflexivity|].
    cbn [shift map length ordered]. change (map _ r) with (shift k r). rewrite H1, H3. split; [repeat f_equal; lia|]. split; auto. split; [lia|]. split; [lia|auto]. }
  destruct (G k (le_n k) H) as (r & H1 & H2 & H3 & H4). exists r. rewrite Nat.sub_diag in H3. auto.
Qed.
Lemma sl_push_ok (a b : leaf) i j : sV a -> sV b -> i <= j -> j <= sl_len b -> (length (sl_spans a) < 32 \/ length (sl_spans b) < 32) ->
  exists a' r, sl_push a b i j = Some (a', r) /\ sV a' /\
    (exists s, sl_spans a ++ clip (sl_spans b) i j (sl_len a) = s /\ ordered 0 s (sl_len a + (j - i)) /\
     match r with
     | None => slc a' = cells s (sl_len a + (j - i)) /\ sl_spans a' = s
     | Some b' => sV b' /\ slc a' ++ slc b' = cells s (sl_len a + (j - i)) /\ 32 <= length (sl_spans a') /\ 32 <= length (sl_spans b')
     end).
Proof.
  intros [Oa La] [Ob Lb] Hij Hj Hsz. unfold sl_push, check. replace (i <=? j) with true by lia. set (s := sl_spans a ++ _).
  assert (Os : ordered 0 s (sl_len a + (j - i))). { apply ord_app with (sl_len a); auto. eapply ord_widen; [apply (clip_ord i j (sl_len a) Hij _ 0 _ Ob); lia| |]; lia. }
  assert (Ls : length s <= length (sl_spans a) + length (sl_spans b)) by (unfold s; rewrite app_length; pose proof (clip_len i j (sl_len a) (sl_spans b)); lia).
  destruct (length s <=? SP_MAX) eqn:El; unfold SP_MAX in El.
  { eexists _, None. split; [reflexivity|]. split; [split; cbn; auto; lia|]. exists s. auto. }
  pose proof (Nat.div_mod_eq (length s) 2) as Hd. pose proof (Nat.mod_upper_bound (length s) 2 ltac:(lia)) as Hm. set (k := length s / 2) in *.
  destruct (nth_error s k) as [[[u v] d]|] eqn:Eu; [|apply nth_error_None in Eu; lia]. cbn [bind].
  pose proof Os as Os'. rewrite <- (firstn_skipn k s) in Os'. destruct (ord_split _ _ _ _ Os') as (m & O1 & O2 & Hmn).
  assert (Esk : exists tl, skipn k s = (u, v, d) :: tl). { destruct (skipn k s) as [|x tl] eqn:Ek. 1: apply (f_equal (@length _)) in Ek; rewrite skipn_length in Ek; cbn [length] in Ek. 1: exfalso; clear -El Ek Hd Hm; clearbody k; lia.
    exists tl. f_equal. rewrite <- (Nat.add_0_r k), <- nth_error_skipn, Ek in Eu. cbn in Eu. congruence. }
  destruct Esk as (tl & Esk). assert (O2' : ordered u (skipn k s) (sl_len a + (j - i)) /\ m <= u) by (rewrite Esk in *; cbn [ordered] in *; destruct O2 as (H1 & H2 & H3); auto).
  destruct O2' as [O2' Hmu]. destruct (shift_back_ok _ _ _ O2') as (r & -> & Er & Or & Lr). cbn [bind]. pose proof (ord_le _ _ _ O2') as Hu. replace (u <=? sl_len a + (j - i)) with true by lia.
  assert (O1' : ordered 0 (firstn k s) u) by (eapply ord_widen; eauto).
  eexists _, (Some _). split; [reflexivity|]. split; [split; cbn [sl_spans sl_len]; auto; rewrite firstn_length; lia|]. exists s. split; auto. split; auto. split; [split; cbn [sl_spans sl_len]; auto; rewrite Lr, skipn_length; lia|].
  unfold slc. cbn [sl_spans sl_len]. rewrite <- (cells_app _ _ _ _ O1'), Er, firstn_skipn. split; [f_equal; lia|]. rewrite Lr, firstn_length, skipn_length. lia.
Qed.

Notation sops := (@sp_ops T).
(** Any cut, if only the values are looked at. *)
Definition uc (l : leaf) : list (option T) := unmark (slc l).
Definition vcut (_ : list (option T)) (_ : nat) : Prop := True.
(** Not inside a span otherwise. *)
Definition mcut (s : list (option (T * bool))) (i : nat) : Prop := i = 0 \/ length s <= i \/ forall d, nth_error s i <> Some (Some (d, false)).
Lemma unmark_app (a b : list (option (T * bool))) : unmark (a ++ b) = unmark a ++ unmark b. Proof. apply map_app. Qed.
Lemma unmark_len s : length (unmark s) = length s. Proof. apply map_length. Qed.
Lemma push_cells (a b : leaf) : sV a -> sV b -> cells (sl_spans a ++ clip (sl_spans b) 0 (sl_len b) (sl_len a)) (sl_len a + sl_len b) = slc a ++ slc b.
Proof. intros [Oa _] [Ob _]. rewrite (clip_all _ _ _ 0 Ob). now apply cells_app. Qed.
Lemma sub_push (l : leaf) i j : sV l -> i <= j -> j <= sl_len l -> exists l' : leaf, sl_push (SLeaf 0 []) l i j = Some (l', None) /\ sV l' /\ slc l' = cells (clip (sl_spans l) i j 0) (j - i).
Proof.
  intros Vl Hij Hj. destruct (sl_push_ok (SLeaf 0 []) l i j) as (a' & r & E & Va' & s & Es & Os & Hr); auto; try (cbn; lia). { split; cbn; lia. }
  cbn [sl_spans sl_len app Nat.add] in *. destruct r as [b'|]; [|exists a'; rewrite Es; tauto].
  exfalso. unfold sl_push, check in E. cbn [sl_spans sl_len app] in E. replace (i <=? j) with true in E by lia. pose proof (clip_len i j 0 (sl_spans l)). destruct Vl as [_ Ll].
  replace (_ <=? SP_MAX) with true in E by (unfold SP_MAX; lia). discriminate.
Qed.
Lemma leaf_push (a b : leaf) : sV a -> sV b -> (SP_MIN <=? length (sl_spans a)) && (SP_MIN <=? length (sl_spans b)) = false ->
  exists a' r, sl_push a b 0 (sl_len b) = Some (a', r) /\ sV a' /\
    match r with
    | None => slc a' = slc a ++ slc b /\ ((SP_MIN <=? length (sl_spans a)) || (SP_MIN <=? length (sl_spans b)) = true -> (SP_MIN <=? length (sl_spans a')) = true)
    | Some b' => sV b' /\ slc a' ++ slc b' = slc a ++ slc b /\ (SP_MIN <=? length (sl_spans a')) = true /\ (SP_MIN <=? length (sl_spans b')) = true
    end.
Proof.
  intros Va Vb Hok. unfold SP_MIN in *. destruct (sl_push_ok a b 0 (sl_len b) Va Vb) as (a' & r & E & Va' & s & Es & Os & Hr); try lia.
  exists a', r. split; auto. split; auto. rewrite Nat.sub_0_r in *. subst s. rewrite (push_cells a b Va Vb) in Hr. destruct r as [b'|].
  - destruct Hr as (H1 & H2 & H3 & H4). split; [auto|]. split; [auto|]. lia.
  - destruct Hr as (H1 & H2). split; auto. rewrite H2, app_length, (clip_all _ _ _ 0 (proj1 Vb)). unfold shift. rewrite map_length. lia.
Qed.
Lemma sp_leaf_spec : leaf_spec sops slc sV mcut (fun _ => tt).
Proof.
  constructor; cbn [sp_ops l_len l_ok l_push l_default i_acc i_of]; auto.
  - intros l _. unfold slc. now rewrite cells_len.
  - split; [split; cbn; lia|reflexivity].
  - intros a b Va Vb Hok. unfold slc at 1. rewrite cells_len. now apply leaf_push.
  - intros l i j Vl Hij Hj Hi _. unfold slc in Hj. rewrite cells_len in Hj. destruct (sub_push l i j Vl Hij Hj) as (l' & E & Vl' & Ec). exists l'. split; auto. split; auto. rewrite Ec.
    apply nth_error_ext. intros k. rewrite nth_slice, cells_nth. destruct (k <? j - i) eqn:Ek; auto. unfold slc. rewrite cells_nth. replace (i + k <? sl_len l) with true by lia. f_equal.
    destruct (clip_val i j 0 Hij (sl_spans l) k ltac:(lia)) as [_ Hc]. apply Hc. destruct (Nat.eq_dec k 0) as [->|]; [|lia]. right. intros d Ed.
    destruct Hi as [->|[Hi|Hi]].
    + apply (ord_mark _ _ _ _ _ (proj1 Vl)) in Ed. lia.
    + unfold slc in Hi. rewrite cells_len in Hi. lia.
    + apply (Hi d). unfold slc. rewrite cells_nth. replace (i <? sl_len l) with true by lia. now rewrite Ed.
  - intros s. unfold mcut. auto.
  - intros a b c i H Hi. unfold mcut in *. destruct (Nat.eq_dec i 0); auto. destruct (Nat.le_gt_cases (length b) i); auto. right. right. intros d E. rewrite !app_length in H.
    destruct H as [H|[H|H]]; [lia|lia|]. apply (H d). rewrite nth_error_app2 by lia. replace (length a + i - length a) with i by lia. rewrite nth_error_app1; auto.
Qed.
Lemma sp_value_spec : leaf_spec sops uc sV vcut (fun _ => tt).
Proof.
  constructor; cbn [sp_ops l_len l_ok l_push l_default i_acc i_of]; auto.
  - intros l _. unfold uc, slc. now rewrite unmark_len, cells_len.
  - split; [split; cbn; lia|reflexivity].
  - intros a b Va Vb Hok. unfold uc. unfold slc at 1. rewrite unmark_len, cells_len. destruct (leaf_push a b Va Vb Hok) as (a' & r & E & Va' & Hr). exists a', r. split; auto. split; auto.
    rewrite <- unmark_app. destruct r as [b'|]; [rewrite <- unmark_app; destruct Hr as (H1 & H2 & H3); rewrite H2; auto|]. destruct Hr as [H1 H2]. rewrite H1. auto.
  - intros l i j Vl Hij Hj _ _. unfold uc, slc in Hj. rewrite unmark_len, cells_len in Hj. destruct (sub_push l i j Vl Hij Hj) as (l' & E & Vl' & Ec). exists l'. split; auto. split; auto. unfold uc. rewrite Ec. unfold slc.
    rewrite !unmark_cells. apply nth_error_ext. intros k. rewrite nth_slice, !values_nth. destruct (k <? j - i) eqn:Ek; auto. replace (i + k <? sl_len l) with true by lia. f_equal.
    rewrite <- !val1_value. apply (clip_val i j 0 Hij (sl_spans l) k). lia.
  - now unfold vcut.
Qed.
Definition anyT (_ : list (option T)) : Prop := True.
Lemma ord_count lo l n : ordered lo l n -> lo + length l <= n.
Proof. revert lo. induction l as [|[[s e] d] l IH]; cbn [ordered length]; intros lo H; [lia|]. destruct H as (A & B & C). specialize (IH _ C). lia. Qed.
Lemma sp_text_spec : text_spec sops uc sV vcut anyT.
Proof.
  constructor; try (now (unfold anyT, vcut; intros; auto)).
  intros l [O _] Hok E. cbn [sp_ops l_ok] in Hok. unfold SP_MIN in Hok. apply ord_count in O. apply (f_equal (@length _)) in E. unfold uc, slc in E. rewrite unmark_len, cells_len in E. cbn [length] in E. lia.
Qed.

(** ** Trees *)
Notation tree := (node leaf unit).
Notation wfm := (wf sops slc sV (fun _ => tt)).
Notation wfv := (wf sops uc sV (fun _ => tt)).
Lemma content_uc : forall n : tree, content uc n = unmark (content slc n).
Proof.
  fix IH 1. intros [k i l|hh k i cs]; cbn [content]; [reflexivity|]. induction cs as [|c cs IHc]; [reflexivity|]. cbn [flat_map]. rewrite unmark_app, <- IHc. f_equal. apply IH.
Qed.
Lemma wf_both h : forall n : tree, wfm h n <-> wfv h n.
Proof.
  induction h as [|h IH]; intros [k i l|hh k i cs]; cbn [wf]; try tauto.
  - unfold uc. rewrite unmark_len. reflexivity.
  - assert (E : length (flat_map (content uc) cs) = length (flat_map (content slc) cs)).
    { clear. induction cs as [|c cs IHc]; [reflexivity|]. cbn [flat_map]. rewrite !app_length, IHc, content_uc, unmark_len. reflexivity. }
    rewrite E. assert (F : Forall (wfm h) cs <-> Forall (wfv h) cs) by (split; apply Forall_impl; intros c; apply IH). tauto.
Qed.

(** All the spans of some leaves, the first at [k]. *)
Fixpoint spread (k : nat) (ls : list leaf) : list span :=
  match ls with [] => [] | l :: ls' => shift k (sl_spans l) ++ spread (k + sl_len l) ls' end.
Definition spans_of (t : tree) : list span := spread 0 (leaves t).
Definition total (ls : list leaf) : nat := fold_right (fun (l : leaf) n => sl_len l + n) 0 ls.
Lemma shift_shift i j l : shift i (shift j l) = shift (j + i) l.
Proof. unfold shift. rewrite map_map. apply map_ext. intros [[s e] d]. now rewrite <- !Nat.add_assoc. Qed.
Lemma shift_0 l : shift 0 l = l.
Proof. unfold shift. rewrite <- (map_id l) at 2. apply map_ext. intros [[s e] d]. now rewrite !Nat.add_0_r. Qed.
Lemma shift_app k (a b : list span) : shift k (a ++ b) = shift k a ++ shift k b. Proof. apply map_app. Qed.
Lemma spread_shift ls : forall i k, spread (k + i) ls = shift i (spread k ls).
Proof. induction ls as [|l ls IH]; intros i k; cbn [spread]; auto. rewrite shift_app, shift_shift, <- IH. do 2 f_equal. lia. Qed.
Lemma spread_app k (a b : list leaf) : spread k (a ++ b) = spread k a ++ spread (k + total a) b.
Proof. revert k. induction a as [|l a IH]; intros k; cbn [spread app total fold_right]; [now rewrite Nat.add_0_r|]. rewrite IH, <- app_assoc. fold (total a). do 3 f_equal. lia. Qed.
Lemma spread_ok ls : Forall sV ls -> ordered 0 (spread 0 ls) (total ls) /\ cells (spread 0 ls) (total ls) = flat_map slc ls.
Proof.
  induction ls as [|l ls IH]; intros F; [split; [cbn; lia|reflexivity]|]. inversion F as [|x y [Ol Ll] Fl]; subst. destruct (IH Fl) as [O C]. cbn [spread total fold_right flat_map]. fold (total ls).
  rewrite shift_0, spread_shift. split; [|rewrite cells_app, C; auto]. eapply ord_app; eauto. eapply ord_widen; [apply (ord_shift _ _ _ (sl_len l) O)| |]; lia.
Qed.
Lemma llen_total ls : llen uc ls = total ls.
Proof. induction ls as [|l ls IH]; [reflexivity|]. change (l :: ls) with ([l] ++ ls). rewrite llen_app, IH, llen_one. unfold uc, slc. rewrite unmark_len, cells_len. reflexivity. Qed.
Lemma spans_of_ok h t : wfv h t -> ordered 0 (spans_of t) (n_len t) /\ content slc t = cells (spans_of t) (n_len t) /\ content uc t = values (spans_of t) (n_len t).
Proof.
  intros W. pose proof (leaves_V sops uc sV (fun _ => tt) h t W) as F. destruct (spread_ok _ F) as [O C].
  assert (E : n_len t = total (leaves t)). { rewrite (wf_len _ _ _ _ h t W), (content_leaves sops uc sV (fun _ => tt) h t W). apply llen_total. }
  rewrite E. split; auto. apply wf_both in W. rewrite content_uc, (content_leaves sops slc sV (fun _ => tt) h t W), <- C. split; auto. apply unmark_cells.
Qed.
(** A tree is known by its units. *)
Lemma spans_of_cells h t l : wfv h t -> ordered 0 l (n_len t) -> content slc t = cells l (n_len t) -> spans_of t = l.
Proof.
  intros W O E. destruct (spans_of_ok h t W) as (O' & E' & _). apply (cells_inj _ _ 0 (n_len t)); auto. intros i Hi. rewrite E' in E. apply (f_equal (fun s => nth_error s i)) in E.
  rewrite !cells_nth in E. replace (i <? n_len t) with true in E by lia. congruence.
Qed.

(** ** The iterator *)
Lemma iter_loop_ok h t fuel : wfv h t -> forall c (l : leaf) pre post, at_leaf uc t c l pre post -> c_pos c = c_off c -> length post < fuel -> (sl_spans l = [] -> post = []) -> Forall (fun x => sl_spans x <> []) post ->
  iter_loop fuel t c = Some (spread (total pre) (l :: post)).
Proof.
  intros W. induction fuel as [|fuel IH]; intros c l pre post Hat Hp Hf Hl Hpost; [lia|]. pose proof Hat as (p & Rt & El & Eo & Ec). cbn [iter_loop]. unfold c_get_leaf. rewrite El.
  replace (c_pos c <? c_off c) with false by lia. cbn [bind]. destruct (sl_spans l) as [|x xs] eqn:Es.
  { rewrite Hl by auto. cbn [spread]. now rewrite Es. }
  rewrite <- Es in *. replace (c_pos c - c_off c) with 0 by lia. unfold check. cbn [Nat.leb]. rewrite Nat.sub_0_r, Hp, Eo, llen_total.
  pose proof (next_leaf_ok sops uc sV vcut (fun _ => tt) anyT sp_value_spec sp_text_spec t h W c l pre post Hat) as NL. destruct post as [|l2 post'].
  - destruct NL as (c' & -> & En & _ & _). cbn [bind]. assert (Ei : iter_loop fuel t c' = Some []) by (destruct fuel; cbn [iter_loop]; unfold c_get_leaf; rewrite En; reflexivity).
    rewrite Ei. reflexivity.
  - destruct NL as (c' & -> & Hat' & Hp'). cbn [bind]. inversion Hpost as [|y z Hl2 Hpost']; subst. rewrite (IH c' l2 (pre ++ [l]) post'); auto; [|cbn [length] in *; lia|tauto].
    replace (total (pre ++ [l])) with (total pre + sl_len l) by (clear; induction pre as [|q pre IHp]; cbn [app total fold_right] in *; [lia|]; fold (total (pre ++ [l])); fold (total pre); lia). reflexivity.
Qed.
Lemma leaves_spans h : forall t : tree, wfv h t -> 0 < h \/ n_ok sops t = true -> Forall (fun x => sl_spans x <> []) (leaves t).
Proof.
  induction h as [|h IH]; intros [k i l|hh k i cs] W Hok; try (now destruct W).
  - cbn [leaves]. constructor; auto. destruct Hok as [Hok|Hok]; [lia|]. cbn in Hok. unfold SP_MIN in Hok. intros E. rewrite E in Hok. discriminate.
  - cbn [leaves]. destruct W as (_ & _ & _ & F & Fo & _). apply Forall_flat_map. rewrite Forall_forall in *. intros c Hc. apply IH; auto.
Qed.
Lemma iter_ok h t : wfv h t -> iter t = Some (spans_of t).
Proof.
  intros W. unfold iter. destruct (new_ok sops uc sV (fun _ => tt) t h W 0 ltac:(lia)) as (c & l & pre & post & -> & Hp & Hv). cbn [bind].
  destruct Hv as (Hat & Ho & Hin). pose proof Hat as (p & Rt & _ & Eo & _). pose proof (route_leaves _ _ _ _ _ Rt) as El. rewrite llen_total in Eo.
  pose proof (leaves_V sops uc sV (fun _ => tt) h t W) as FV. destruct h as [|h].
  - destruct t as [k i l0|]; [|now destruct W]. cbn [leaves] in El. destruct pre as [|? [|? ?]]; [|discriminate|discriminate]. injection El as -> Epost. subst post.
    rewrite (iter_loop_ok 0 _ _ W c l [] []); auto; cbn [length]; lia.
  - pose proof (leaves_spans (S h) t W ltac:(lia)) as FS. assert (pre = []) as ->.
    { destruct pre as [|q pre]; auto. exfalso. rewrite El in FS, FV. inversion FS; inversion FV; subst. destruct H5 as [Oq _]. apply ord_count in Oq. cbn [total fold_right] in Eo. destruct (sl_spans q); [tauto|]. cbn [length] in Oq. lia. }
    rewrite (iter_loop_ok (S h) t _ W c l [] post); auto.
    + unfold spans_of. rewrite El. reflexivity.
    + cbn in Eo. lia.
    + rewrite (wf_len _ _ _ _ _ _ W), (content_leaves sops uc sV (fun _ => tt) _ t W). fold (llen uc (leaves t)). rewrite llen_total, El. cbn [app] in *. rewrite El in FS, FV. clear -FS FV. inversion FS; inversion FV; subst.
      assert (G : forall post, Forall (fun x => sl_spans x <> []) post -> Forall sV post -> length post <= total post).
      { clear. induction post as [|q post IH]; intros F1 F2; [cbn; lia|]. inversion F1; inversion F2; subst. specialize (IH H2 H6). destruct H5 as [Oq _]. apply ord_count in Oq. cbn [total fold_right length]. fold (total post). destruct (sl_spans q); [tauto|]. cbn [length] in Oq. lia. }
      specialize (G post H2 H6). cbn [total fold_right]. fold (total post). lia.
    + rewrite El in FS. inversion FS; subst. tauto.
    + rewrite El in FS. now inversion FS.
Qed.

(** ** The builder *)
Lemma ord_unshift k l n : k <= n -> forall lo, ordered lo (shift k l) n -> ordered (lo - k) l (n - k).
Proof.
  intros Hk. induction l as [|[[s e] d] l IH]; intros lo H; cbn [shift map ordered] in *; [lia|]. destruct H as (A & B & C). split; [lia|]. split; [lia|]. specialize (IH _ C). now replace (e + k - k) with e in IH by lia.
Qed.
(** The builder has been given the spans [out]. *)
Definition given (sb : sbuilder T) (out : list span) : Prop :=
  exists done, stack_ok sops slc sV (fun _ => tt) 0 (sb_b sb) /\ ordered 0 done (sb_len sb) /\ b_content slc (sb_b sb) = cells done (sb_len sb) /\ out = done ++ shift (sb_len sb) (sb_leaf sb) /\
    length (sb_leaf sb) <= 64 /\ (sb_leaf sb = [] -> sb_len sb = 0).
Lemma given_new n : given (sb_new n) [].
Proof. exists []. cbn. repeat split; auto; lia. Qed.
Lemma given_len sb out n : given sb out -> ordered 0 out n -> sb_len sb <= n /\ ordered 0 (sb_leaf sb) (n - sb_len sb).
Proof.
  intros (done & _ & Od & _ & -> & _ & He) O. destruct (ord_split _ _ _ _ O) as (m & O1 & O2 & Hm). assert (Hle : sb_len sb <= n).
  { destruct (sb_leaf sb) as [|[[s e] d] l]; [specialize (He eq_refl); lia|]. cbn [shift map ordered] in O2. destruct O2 as (A & B & C). apply ord_le in C. lia. }
  split; auto. apply (ord_unshift _ _ _ Hle m) in O2. eapply ord_widen; eauto; lia.
Qed.
Lemma flush sb out n : given sb out -> ordered 0 out n ->
  exists b, b_push sops (sb_b sb) (from_leaf sops (SLeaf (n - sb_len sb) (sb_leaf sb))) = Some b /\ stack_ok sops slc sV (fun _ => tt) 0 b /\ b_content slc b = cells out n.
Proof.
  intros G O. destruct (given_len _ _ _ G O) as [Hle Ol]. destruct G as (done & St & Od & Ec & -> & Hl & He).
  destruct (from_leaf_wf sops slc sV mcut (fun _ => tt) sp_leaf_spec (SLeaf (n - sb_len sb) (sb_leaf sb))) as [Wl Cl]; [split; auto|].
  destruct (b_push_ok sops slc sV mcut (fun _ => tt) sp_leaf_spec _ 0 0 _ St Wl) as (b & E & Sb & Cb). exists b. split; auto. split; auto. rewrite Cb, Ec, Cl. unfold slc. cbn [sl_spans sl_len].
  rewrite <- cells_app by auto. f_equal. lia.
Qed.
Lemma add_span_ok sb out s e d : given sb out -> ordered 0 out s -> s < e -> exists sb', add_span sb s e d = Some sb' /\ given sb' (out ++ [(s, e, d)]) /\ sb_total sb' = sb_total sb.
Proof.
  intros G O Hse. destruct (given_len _ _ _ G O) as [Hle Ol]. unfold add_span, SP_MAX. destruct (length (sb_leaf sb) =? 64) eqn:El.
  - unfold check. replace (sb_len sb <=? s) with true by lia. destruct (flush _ _ _ G O) as (b & -> & Sb & Cb). cbn [bind sb_len sb_b sb_leaf sb_total]. replace ((s <=? s) && (s <=? e)) with true by lia. eexists. split; [reflexivity|]. split; auto.
    exists out. cbn [sb_b sb_len sb_leaf app]. split; auto. split; auto. split; auto. split; [|split; [cbn; lia|discriminate]]. cbn [shift map]. do 3 f_equal. f_equal; lia.
  - cbn [bind]. unfold check. replace ((sb_len sb <=? s) && (sb_len sb <=? e)) with true by lia. eexists. split; [reflexivity|]. split; auto.
    destruct G as (done & St & Od & Ec & -> & Hl & He). exists done. cbn [sb_b sb_len sb_leaf]. split; auto. split; auto. split; auto. split; [|split; [rewrite app_length; cbn; lia|intros E; now destruct (sb_leaf sb)]].
    rewrite shift_app, app_assoc. cbn [shift map]. do 3 f_equal. f_equal; lia.
Qed.
Lemma sb_build_ok sb out : given sb out -> ordered 0 out (sb_total sb) -> exists t h, sb_build sb = Some t /\ wfv h t /\ n_len t = sb_total sb /\ spans_of t = out.
Proof.
  intros G O. destruct (given_len _ _ _ G O) as [Hle Ol]. unfold sb_build, check. replace (sb_len sb <=? sb_total sb) with true by lia. destruct (flush _ _ _ G O) as (b & -> & Sb & Cb). cbn [bind].
  destruct (build_ok sops slc sV mcut (fun _ => tt) sp_leaf_spec b 0 Sb) as (t & h & -> & W & C). exists t, h. split; auto. rewrite Cb in C. pose proof (wf_len _ _ _ _ h t W) as Hn. rewrite C, cells_len in Hn.
  apply wf_both in W. split; auto. split; auto. apply (spans_of_cells h); auto; rewrite Hn; auto.
Qed.
Lemma add_spans_ok l : forall sb out lo n, given sb out -> ordered 0 out lo -> ordered lo l n -> exists sb', add_spans sb l = Some sb' /\ given sb' (out ++ l) /\ sb_total sb' = sb_total sb.
Proof.
  induction l as [|[[s e] d] l IH]; intros sb out lo n G O Ol; cbn [add_spans].
  - exists sb. now rewrite app_nil_r.
  - destruct Ol as (A & B & C). assert (O1 : ordered 0 out s) by (eapply ord_widen; eauto). destruct (add_span_ok sb out s e d G O1 B) as (sb1 & -> & G1 & T1). cbn [bind].
    destruct (IH sb1 (out ++ [(s, e, d)]) e n G1) as (sb2 & -> & G2 & T2); auto. { eapply ord_app; eauto. cbn. lia. }
    exists sb2. rewrite <- app_assoc in G2. split; auto. split; auto. congruence.
Qed.
Theorem builder_ok l n : ordered 0 l n -> exists sb t h, add_spans (sb_new n) l = Some sb /\ sb_build sb = Some t /\ wfv h t /\ n_len t = n /\ spans_of t = l.
Proof.
  intros O. destruct (add_spans_ok l (sb_new n) [] 0 n) as (sb & E & G & Et); auto; [apply given_new|cbn; lia|]. cbn [app sb_new sb_total] in *. destruct (sb_build_ok sb l G) as (t & h & Eb & W & Hn & Hs); [congruence|].
  exists sb, t, h. rewrite Et in Hn. auto 6.
Qed.

(** ** Deleting *)
Fixpoint before l (s e : nat) : list span :=
  match l with [] => [] | (a, b, d) :: l' => if (Nat.max a s <? Nat.min b e) then [] else (a, b, d) :: before l' s e end.
Lemma disjoint_iff a b s e : disjoint a b s e = negb (Nat.max a s <? Nat.min b e).
Proof. unfold disjoint, intersect. cbv zeta. lia. Qed.
Lemma before_prefix l s e : exists k, before l s e = firstn k l /\ (forall x, nth_error l k = Some x -> let '(a, b, d) := x in Nat.max a s < Nat.min b e) /\
  Forall (fun '(a, b, d) => Nat.min b e <= Nat.max a s) (firstn k l).
Proof.
  induction l as [|[[a b] d] l (k & E & Hk & F)]; cbn [before]; [exists 0; split; [reflexivity|]; split; [discriminate|constructor]|]. destruct (_ <? _) eqn:Eb.
  - exists 0. split; auto. split; [|constructor]. intros x Hx. cbn in Hx. injection Hx as <-. lia.
  - exists (S k). cbn [firstn nth_error]. split; [now f_equal|]. split; auto. constructor; auto. lia.
Qed.
Lemma before_ord l s e lo n : ordered lo l n -> ordered lo (before l s e) n.
Proof. revert lo. induction l as [|[[a b] d] l IH]; cbn [before ordered]; intros lo H; auto. destruct H as (A & B & C). pose proof (ord_le _ _ _ C). destruct (_ <? _); cbn [ordered]; auto. lia. Qed.
Lemma delete_loop_ok l s e : forall sb, delete_loop l s e sb = add_spans sb (before l s e).
Proof.
  induction l as [|[[a b] d] l IH]; intros sb; cbn [delete_loop before]; auto. rewrite disjoint_iff. destruct (_ <? _); cbn [negb add_spans]; auto.
  destruct (add_span sb a b d); cbn [bind]; auto.
Qed.
Lemma delete_after_ok h t s e : wfv h t -> exists t' h', delete_after t s e = Some t' /\ wfv h' t' /\ n_len t' = n_len t /\ spans_of t' = before (spans_of t) s e.
Proof.
  intros W. unfold delete_after. rewrite (iter_ok h t W). cbn [bind]. rewrite delete_loop_ok. destruct (spans_of_ok h t W) as (O & _).
  destruct (builder_ok _ _ (before_ord _ s e _ _ O)) as (sb & t' & h' & -> & E & W' & Hn & Hs). cbn [bind]. exists t', h'. auto.
Qed.

(** ** Following a delta *)
Definition blanked {A} (l : list (element A)) : list (element (option T)) := map (fun x => match x with Copy b e => Copy b e | Insert s => Insert (repeat None (length s)) end) l.
Lemma values_nil n : values ([] : list span) n = repeat None n.
Proof. unfold values. generalize 0. induction n as [|n IH]; intros i; cbn; auto. now rewrite IH. Qed.
Lemma shape_loop_ok {A} h t (l : list (element A)) : wfv h t -> forall b pos, stack_ok sops uc sV (fun _ => tt) 0 b -> sorted_copies pos l (n_len t) ->
  exists b' r, shape_loop t l b = Some b' /\ stack_ok sops uc sV (fun _ => tt) 0 b' /\ apply_els (blanked l) (content uc t) = Some r /\ b_content uc b' = b_content uc b ++ r.
Proof.
  intros W. induction l as [|[x y|s] l IH]; intros b pos Sb H; cbn [shape_loop blanked map apply_els sorted_copies] in *.
  - exists b, []. rewrite app_nil_r. auto.
  - destruct H as (H1 & H2 & H3). assert (Hy : y <= n_len t). { clear -H3. revert y H3. induction l as [|[p q|s] l IH]; cbn; intros y H; auto. destruct H as (A1 & A2 & A3). specialize (IH _ A3). lia. }
    rewrite (wf_len _ _ _ _ h t W) in Hy. unfold check. replace (x <=? y) with true by lia. replace ((true) && _) with true by (cbn [andb]; lia).
    destruct (subseq_ok sops uc sV vcut (fun _ => tt) sp_value_spec h t x y W H2 Hy Logic.I Logic.I) as (n' & h' & -> & W' & C'). cbn [bind].
    destruct (b_push_ok sops uc sV vcut (fun _ => tt) sp_value_spec b 0 h' n' Sb W') as (b1 & -> & S1 & C1). cbn [bind]. apply stack0 in S1.
    destruct (IH b1 y S1 H3) as (b2 & r & -> & S2 & E2 & C2). fold (@blanked A l). rewrite E2. cbn [bind]. exists b2, (slice (content uc t) x y ++ r). repeat split; auto. rewrite C2, C1, C', app_assoc. reflexivity.
  - destruct (sb_build_ok (sb_new (length s)) []) as (n' & h' & -> & W' & Hn & Hs); [apply given_new|cbn; lia|]. cbn [bind].
    destruct (b_push_ok sops uc sV vcut (fun _ => tt) sp_value_spec b 0 h' n' Sb W') as (b1 & -> & S1 & C1). cbn [bind]. apply stack0 in S1.
    destruct (IH b1 pos S1 H) as (b2 & r & -> & S2 & E2 & C2). fold (@blanked A l). rewrite E2. cbn [bind]. exists b2, (repeat None (length s) ++ r). repeat split; auto.
    destruct (spans_of_ok h' n' W') as (_ & _ & Ev). rewrite C2, C1, Ev, Hs, Hn, values_nil, <- app_assoc. reflexivity.
Qed.
Lemma apply_shape_ok {A} h t (d : delta A) : wfv h t -> sorted_copies 0 (els d) (n_len t) ->
  exists t' h', apply_shape t d = Some t' /\ wfv h' t' /\ apply_els (blanked (els d)) (content uc t) = Some (content uc t').
Proof.
  intros W H. unfold apply_shape. destruct (shape_loop_ok h t (els d) W b_new 0 Logic.I H) as (b & r & -> & Sb & E & C). cbn [bind].
  destruct (build_ok sops uc sV vcut (fun _ => tt) sp_value_spec b 0 Sb) as (t' & h' & -> & W' & C'). exists t', h'. split; auto. split; auto. rewrite E, C', C. reflexivity.
Qed.

(** ** Moving *)
Fixpoint moved (g : nat -> nat) l : list span :=
  match l with [] => [] | (s, e, d) :: l' => if g s <? g e then (g s, g e, d) :: moved g l' else moved g l' end.
Lemma moved_ord g l : (forall x y, x <= y -> g x <= g y) -> forall lo n, ordered lo l n -> ordered (g lo) (moved g l) (g n).
Proof.
  intros Hg. induction l as [|[[s e] d] l IH]; intros lo n H; cbn [moved ordered] in *; [now apply Hg|]. destruct H as (A & B & C). specialize (IH _ _ C).
  pose proof (Hg lo s A). pose proof (Hg s e ltac:(lia)). destruct (g s <? g e) eqn:E; cbn [ordered]; [repeat split; auto; lia|]. eapply ord_widen; eauto; lia.
Qed.
Lemma moved_value g l i j : (forall x, x <= i -> g x <= j) -> (forall x, i < x -> j < g x) -> value (moved g l) j = value l i.
Proof.
  intros H1 H2. induction l as [|[[s e] d] l IH]; cbn [moved value]; auto. pose proof (H1 s). pose proof (H2 s). pose proof (H1 e). pose proof (H2 e).
  destruct (g s <? g e) eqn:E; cbn [value]; rewrite IH.
  - replace ((g s <=? j) && (j <? g e)) with ((s <=? i) && (i <? e)) by lia. reflexivity.
  - replace ((s <=? i) && (i <? e)) with false by lia. reflexivity.
Qed.
Lemma transform_loop_ok {A} (d : delta A) bs ns l : (forall x, ns <= transform_ix d (x + bs) false) -> forall sb,
  transform_loop d l bs ns sb = add_spans sb (moved (fun x => transform_ix d (x + bs) false - ns) l).
Proof.
  intros H. induction l as [|[[s e] v] l IH]; intros sb; cbn [transform_loop moved]; auto. unfold check. pose proof (H s). pose proof (H e).
  replace ((ns <=? _) && _) with true by lia. destruct (_ <? _); cbn [add_spans]; [|cbn [bind]; apply IH]. destruct (add_span _ _ _ _); cbn [bind]; auto.
Qed.
Definition mono {A} (d : delta A) : Prop := forall i j a a', i < j \/ (i = j /\ (a' = true \/ a = a')) -> transform_ix d i a <= transform_ix d j a'.
Lemma transform_ok {A} h t (d : delta A) bs : wfv h t -> mono d ->
  let ns := transform_ix d bs false in let ne := transform_ix d (bs + n_len t) true in
  exists t' h', transform t bs (bs + n_len t) d = Some t' /\ wfv h' t' /\ n_len t' = ne - ns /\ spans_of t' = moved (fun x => transform_ix d (x + bs) false - ns) (spans_of t).
Proof.
  intros W M ns ne. unfold transform. fold ns ne. assert (Hne : forall x, x <= n_len t -> transform_ix d (x + bs) false <= ne) by (intros x Hx; apply M; lia). assert (Hns : forall x, ns <= transform_ix d (x + bs) false) by (intros x; apply M; destruct x; auto; left; lia).
  specialize (Hne 0 ltac:(lia)) as H0. specialize (Hns 0) as H0'. unfold check. replace (ns <=? ne) with true by lia. rewrite (iter_ok h t W). cbn [bind]. rewrite (transform_loop_ok d bs ns _ Hns).
  destruct (spans_of_ok h t W) as (O & _). set (g := fun x => transform_ix d (x + bs) false - ns). assert (Hg : forall x y, x <= y -> g x <= g y).
  { intros x y Hxy. unfold g. assert (transform_ix d (x + bs) false <= transform_ix d (y + bs) false) by (apply M; lia). lia. }
  destruct (builder_ok (moved g (spans_of t)) (ne - ns)) as (sb & t' & h' & -> & E & W' & Hn & Hs).
  { eapply ord_widen; [apply (moved_ord g _ Hg _ _ O)|lia|]. unfold g. specialize (Hne (n_len t) (le_n _)). lia. }
  cbn [bind]. exists t', h'. auto.
Qed.
End Spans.

(** ** Merging *)
Section Merge.
Context {T O : Type} (f : T -> option T -> O).
Definition both (a b : option T) : option O :=
  match a, b with Some a, _ => Some (f a b) | None, Some b => Some (f b None) | None, None => None end.
Definition alone (l : list (nat * nat * T)) : list (nat * nat * O) := map (fun '(s, e, v) => (s, e, f v None)) l.
Lemma alone_ord l : forall lo n, ordered lo l n -> ordered lo (alone l) n.
Proof. induction l as [|[[s e] v] l IH]; cbn [alone map ordered]; intros lo n H; auto. fold (alone l). destruct H as (A & B & C). auto. Qed.
Lemma alone_value l i : value (alone l) i = option_map (fun v => f v None) (value l i).
Proof. induction l as [|[[s e] v] l IH]; cbn [alone map value]; auto. fold (alone l). destruct (_ && _); auto. Qed.
Lemma add_rest_ok l : forall sb, add_rest f l sb = add_spans sb (alone l).
Proof. induction l as [|[[s e] v] l IH]; intros sb; cbn [add_rest alone map add_spans]; auto. fold (alone l). destruct (add_span _ _ _ _); cbn [bind]; auto. Qed.
Lemma out_val {U} lo (l : list (nat * nat * U)) n i : ordered lo l n -> i < lo -> value l i = None.
Proof. intros H Hi. rewrite <- val1_value, (ord_out lo l n) by auto. reflexivity. Qed.
Lemma value_app {U} (a b : list (nat * nat * U)) i : value (a ++ b) i = match value a i with Some x => Some x | None => value b i end.
Proof. induction a as [|[[s e] d] a IH]; cbn [app value]; auto. destruct (_ && _); auto. Qed.

(** Adding one span and going on. *)
Lemma step_ok (sb : sbuilder O) out lo s e d n (K : sbuilder O -> option (sbuilder O)) (G : nat -> option O) :
  given sb out -> ordered 0 out lo -> lo <= s -> s < e ->
  (forall sb1, given sb1 (out ++ [(s, e, d)]) -> sb_total sb1 = sb_total sb -> ordered 0 (out ++ [(s, e, d)]) e ->
     exists sb' more, K sb1 = Some sb' /\ given sb' ((out ++ [(s, e, d)]) ++ more) /\ sb_total sb' = sb_total sb /\ ordered e more n /\
       forall i, e <= i -> value more i = G i) ->
  (forall i, i < s -> G i = None) -> (forall i, s <= i -> i < e -> G i = Some d) ->
  exists sb' more, bind (add_span sb s e d) K = Some sb' /\ given sb' (out ++ more) /\ sb_total sb' = sb_total sb /\ ordered lo more n /\ forall i, value more i = G i.
Proof.
  intros Gi Oo H1 H2 HK Hlow Hin. destruct (add_span_ok sb out s e d Gi) as (sb1 & -> & G1 & T1); auto. { eapply ord_widen; eauto. }
  cbn [bind]. destruct (HK sb1 G1 T1) as (sb' & more & -> & G2 & T2 & Om & Hv). { apply ord_app with s; [eapply ord_widen; eauto|]. cbn. lia. }
  exists sb', ((s, e, d) :: more). rewrite <- app_assoc in G2. split; auto. split; auto. split; auto. split; [cbn [ordered]; auto|]. intros i. cbn [value].
  destruct (Nat.lt_ge_cases i s); [replace ((s <=? i) && (i <? e)) with false by lia; rewrite Hlow by auto; apply (out_val e _ n); auto; lia|].
  destruct (Nat.lt_ge_cases i e); [replace ((s <=? i) && (i <? e)) with true by lia; now rewrite Hin by auto|]. replace ((s <=? i) && (i <? e)) with false by lia. auto.
Qed.

Definition merges n (sb : sbuilder O) (out : list (nat * nat * O)) lo (red blue : list (nat * nat * T)) (r : option (sbuilder O)) : Prop :=
  exists sb' more, r = Some sb' /\ given sb' (out ++ more) /\ sb_total sb' = sb_total sb /\ ordered lo more n /\ forall i, value more i = both (value red i) (value blue i).
Definition good n k : Prop := forall red blue sb out lo, length red + length blue <= k -> ordered lo red n -> ordered lo blue n -> given sb out -> ordered 0 out lo ->
  merges n sb out lo red blue (merge_loop f k red blue sb).
Lemma bind_bind {X Y Z} (x : option X) (g : X -> option Y) (k : Y -> option Z) : bind (bind x g) k = bind x (fun y => bind (g y) k).
Proof. now destruct x. Qed.
Lemma merge_loop_ok n k : good n k.
Proof.
  induction k as [|k IH]; intros red blue sb out lo Hk Or Ob Gi Oo.
  { destruct red, blue; cbn [length] in Hk; try lia. exists sb, []. rewrite app_nil_r. cbn [merge_loop ordered value both]. split; [reflexivity|]. split; [exact Gi|]. split; [reflexivity|]. split; [eapply ord_le; eauto|reflexivity]. }
  cbn [merge_loop].
  assert (Rest : forall red', ordered lo red' n -> exists sb' more, add_rest f red' sb = Some sb' /\ given sb' (out ++ more) /\ sb_total sb' = sb_total sb /\ ordered lo more n /\ forall i, value more i = option_map (fun v => f v None) (value red' i)).
  { intros red' Or'. rewrite add_rest_ok. destruct (add_spans_ok (alone red') sb out lo n Gi Oo (alone_ord _ _ _ Or')) as (sb' & E & G' & T'). exists sb', (alone red'). split; auto. split; auto. split; auto. split; [now apply alone_ord|]. intros i. apply alone_value. }
  destruct red as [|[[rs re] rv] red]; destruct blue as [|[[bs be] bv] blue].
  { exists sb, []. rewrite app_nil_r. cbn [merge_loop ordered value both]. split; [reflexivity|]. split; [exact Gi|]. split; [reflexivity|]. split; [eapply ord_le; eauto|reflexivity]. }
  { destruct (Rest _ Ob) as (sb' & more & E & G' & T' & Om & Hv). exists sb', more. split; [exact E|]. split; [exact G'|]. split; [exact T'|]. split; [exact Om|]. intros i. rewrite Hv. cbn [value both]. destruct (_ && _); cbn [option_map]; auto; now destruct (value _ i). }
  { destruct (Rest _ Or) as (sb' & more & E & G' & T' & Om & Hv). exists sb', more. split; [exact E|]. split; [exact G'|]. split; [exact T'|]. split; [exact Om|]. intros i. rewrite Hv. cbn [value both]. destruct (_ && _); cbn [option_map]; auto; now destruct (value _ i). }
  clear Rest. rewrite disjoint_iff. cbn [length] in Hk. pose proof Or as (R1 & R2 & R3). pose proof Ob as (B1 & B2 & B3). destruct (negb _) eqn:Ed.
  - destruct (re <=? bs) eqn:Eb.
    + apply step_ok; auto.
      * intros sb1 G1 T1 O1. destruct (IH red ((bs, be, bv) :: blue) sb1 (out ++ [(rs, re, f rv None)]) re) as (sb' & more & E & G' & T' & Om & Hv); auto; [cbn [length]; lia|cbn [ordered]; repeat split; auto; lia|].
        exists sb', more. rewrite E. split; auto. split; auto. split; [congruence|]. split; auto. intros i Hi. rewrite Hv. cbn [value]. now replace ((rs <=? i) && (i <? re)) with false by lia.
      * intros i Hi. rewrite (out_val rs ((rs, re, rv) :: red) n i), (out_val bs ((bs, be, bv) :: blue) n i); auto; try lia; cbn [ordered]; auto.
      * intros i Hi Hi'. rewrite (out_val bs ((bs, be, bv) :: blue) n i); [|cbn [ordered]; auto|lia]. cbn [value]. now replace ((rs <=? i) && (i <? re)) with true by lia.
    + apply step_ok; auto.
      * intros sb1 G1 T1 O1. destruct (IH ((rs, re, rv) :: red) blue sb1 (out ++ [(bs, be, f bv None)]) be) as (sb' & more & E & G' & T' & Om & Hv); auto; [cbn [length]; lia|cbn [ordered]; repeat split; auto; lia|].
        exists sb', more. rewrite E. split; auto. split; auto. split; [congruence|]. split; auto. intros i Hi. rewrite Hv. cbn [value]. now replace ((bs <=? i) && (i <? be)) with false by lia.
      * intros i Hi. rewrite (out_val rs ((rs, re, rv) :: red) n i), (out_val bs ((bs, be, bv) :: blue) n i); auto; try lia; cbn [ordered]; auto.
      * intros i Hi Hi'. rewrite (out_val rs ((rs, re, rv) :: red) n i); [|cbn [ordered]; auto|lia]. cbn [value]. now replace ((bs <=? i) && (i <? be)) with true by lia.
  - assert (Inner : forall sb out lo m, lo <= m -> m < re -> m < be -> given sb out -> ordered 0 out lo -> merges n sb out lo ((m, re, rv) :: red) ((m, be, bv) :: blue)
      (check (m =? m) (let (a, b) := intersect m re m be in
       check (negb (b <=? a))
         (let? sb2 := add_span sb a b (f rv (Some bv)) in
          let (rs2, re2) := suffix m re a b in
          let (bs2, be2) := suffix m be a b in
          check ((re2 <=? rs2) || (be2 <=? bs2))
            (merge_loop f k (if re2 <=? rs2 then red else (rs2, re2, rv) :: red)
               (if be2 <=? bs2 then blue else (bs2, be2, bv) :: blue) sb2))))).
    { clear sb out lo Or Ob Gi Oo R1 B1. intros sb out lo m Hm Hre Hbe Gi Oo. unfold intersect, check. cbv zeta. rewrite Nat.eqb_refl, Nat.max_id. replace (Nat.max m (Nat.min re be)) with (Nat.min re be) by lia. set (q := Nat.min re be).
      replace (negb (q <=? m)) with true by lia. apply step_ok; auto; [lia| | |].
      - intros sb1 G1 T1 O1. unfold suffix. replace (Nat.max m q) with q by lia. replace (Nat.max re q) with re by lia. replace (Nat.max be q) with be by lia. replace ((re <=? q) || (be <=? q)) with true by lia.
        set (red1 := if re <=? q then red else (q, re, rv) :: red). set (blue1 := if be <=? q then blue else (q, be, bv) :: blue).
        assert (Or1 : ordered q red1 n) by (unfold red1; destruct (re <=? q) eqn:E; [eapply ord_widen; eauto; lia|cbn [ordered]; repeat split; auto; lia]).
        assert (Ob1 : ordered q blue1 n) by (unfold blue1; destruct (be <=? q) eqn:E; [eapply ord_widen; eauto; lia|cbn [ordered]; repeat split; auto; lia]).
        assert (Hk1 : length red1 + length blue1 <= k) by (unfold red1, blue1; destruct (re <=? q) eqn:E1, (be <=? q) eqn:E2; cbn [length]; lia).
        destruct (IH red1 blue1 sb1 _ q Hk1 Or1 Ob1 G1 O1) as (sb' & more & E & G' & T' & Om & Hv). exists sb', more. rewrite E. split; auto. split; auto. split; [congruence|]. split; auto. intros i Hi. rewrite Hv. f_equal.
        + unfold red1. cbn [value]. destruct (re <=? q) eqn:E1; cbn [value]; [now replace ((m <=? i) && (i <? re)) with false by lia|]. now replace ((m <=? i) && (i <? re)) with ((q <=? i) && (i <? re)) by lia.
        + unfold blue1. cbn [value]. destruct (be <=? q) eqn:E1; cbn [value]; [now replace ((m <=? i) && (i <? be)) with false by lia|]. now replace ((m <=? i) && (i <? be)) with ((q <=? i) && (i <? be)) by lia.
      - intros i Hi. rewrite (out_val m ((m, re, rv) :: red) n i), (out_val m ((m, be, bv) :: blue) n i); auto; cbn [ordered]; auto.
      - intros i Hi Hi'. cbn [value]. replace ((m <=? i) && (i <? re)) with true by lia. now replace ((m <=? i) && (i <? be)) with true by lia. }
    destruct (Nat.compare_spec rs bs) as [E|E|E].
    + subst bs. cbn [bind]. apply Inner; auto.
    + unfold prefix, suffix. cbn [bind]. replace (Nat.min rs bs) with rs by lia. replace (Nat.min re bs) with bs by lia.
      replace (Nat.max rs bs) with bs by lia. replace (Nat.max re bs) with re by lia.
      rewrite bind_bind. apply step_ok; auto.
      * intros sb1 G1 T1 O1. cbn [bind]. destruct (Inner sb1 _ bs bs (le_n _) ltac:(lia) ltac:(lia) G1 O1) as (sb' & more & E1 & G' & T' & Om & Hv). exists sb', more. split; [exact E1|]. split; auto. split; [congruence|]. split; auto.
        intros i Hi. rewrite Hv. cbn [value]. now replace ((rs <=? i) && (i <? re)) with ((bs <=? i) && (i <? re)) by lia.
      * intros i Hi. rewrite (out_val rs ((rs, re, rv) :: red) n i), (out_val bs ((bs, be, bv) :: blue) n i); auto; try lia; cbn [ordered]; auto.
      * intros i Hi Hi'. rewrite (out_val bs ((bs, be, bv) :: blue) n i); [|cbn [ordered]; auto|lia]. cbn [value]. now replace ((rs <=? i) && (i <? re)) with true by lia.
    + unfold prefix, suffix. cbn [bind]. replace (Nat.min bs rs) with bs by lia. replace (Nat.min be rs) with rs by lia.
      replace (Nat.max bs rs) with rs by lia. replace (Nat.max be rs) with be by lia.
      rewrite bind_bind. apply step_ok; auto.
      * intros sb1 G1 T1 O1. cbn [bind]. destruct (Inner sb1 _ rs rs (le_n _) ltac:(lia) ltac:(lia) G1 O1) as (sb' & more & E1 & G' & T' & Om & Hv). exists sb', more. split; [exact E1|]. split; auto. split; [congruence|]. split; auto.
        intros i Hi. rewrite Hv. cbn [value]. now replace ((bs <=? i) && (i <? be)) with ((rs <=? i) && (i <? be)) by lia.
      * intros i Hi. rewrite (out_val rs ((rs, re, rv) :: red) n i), (out_val bs ((bs, be, bv) :: blue) n i); auto; try lia; cbn [ordered]; auto.
      * intros i Hi Hi'. rewrite (out_val rs ((rs, re, rv) :: red) n i); [|cbn [ordered]; auto|lia]. cbn [value]. now replace ((bs <=? i) && (i <? be)) with true by lia.
Qed.
Notation wfs U := (wf (@sp_ops U) uc sV (fun _ => tt)).
Lemma merge_ok h1 h2 a b : wfs T h1 a -> wfs T h2 b -> n_len a = n_len b ->
  exists t h, merge f a b = Some t /\ wfs O h t /\ n_len t = n_len a /\ forall i, value (spans_of t) i = both (value (spans_of a) i) (value (spans_of b) i).
Proof.
  intros Wa Wb E. unfold merge, check. rewrite E, Nat.eqb_refl, (iter_ok h1 a Wa), (iter_ok h2 b Wb). cbn [bind]. destruct (spans_of_ok h1 a Wa) as (Oa & _). destruct (spans_of_ok h2 b Wb) as (Ob & _). rewrite E in Oa.
  destruct (merge_loop_ok (n_len b) _ (spans_of a) (spans_of b) (sb_new (n_len b)) [] 0 (le_n _) Oa Ob) as (sb & out & -> & G & Et & Oo & Hv); [apply given_new|cbn; lia|]. cbn [bind app sb_new sb_total] in *.
  destruct (sb_build_ok sb out G) as (t & h & -> & W & Hn & Hs); [congruence|]. exists t, h. split; auto. split; auto. split; [congruence|]. now rewrite Hs.
Qed.
End Merge.
