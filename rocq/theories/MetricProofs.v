(** Conversion between metrics in a tree, for any metrics that obey the laws. *)
From Coq Require Import List Arith Lia Bool ZifyBool.
From Verif Require Import Base ListLib TreeModel TreeSpec TreeProofs.
Import ListNotations.

Section Metric.
Context {L I X : Type} (ops : leafops L I).
Context (lc : L -> list X) (V : L -> Prop) (cut : list X -> nat -> Prop) (cinfo : list X -> I).
(** [T s]: the sequence is one a leaf may hold, but for its length. *)
Context (T : list X -> Prop).
Notation nd := (node L I).
Notation wf := (wf ops lc V cinfo).
Notation content := (content lc).
Notation ok := (n_ok ops).
Implicit Types (n : nd) (cs : list nd) (s : list X).

(** [sel mc s m o]: [o] is the first place of [s] before which there are [m] units. *)
Definition sel (mc : list X -> nat) s m o : Prop :=
  o <= length s /\ cut s o /\ m <= mc (firstn o s) /\
  forall o', o' < o -> cut s o' -> mc (firstn o' s) < m.

(** The laws of a metric that measures by [mc]; [dom s m]: [m] is a legal measure. *)
Record metric_spec (M : metric (L:=L) (I:=I)) (mc : list X -> nat) (dom : list X -> nat -> Prop) : Prop := {
  ms_app : forall a b, T a -> T b -> mc (a ++ b) = mc a + mc b;
  ms_measure : forall s, T s -> m_measure M (cinfo s) (length s) = mc s;
  ms_from : forall l o, V l -> cut (lc l) o -> o <= length (lc l) -> m_from_base M l o = Some (mc (firstn o (lc l)));
  ms_to : forall l m, V l -> m <= mc (lc l) -> dom (lc l) m ->
    exists o, m_to_base M l m = Some o /\ sel mc (lc l) m o;
  ms_dom0 : forall s, dom s 0;
  ms_dom : forall a b c m, T a -> T b -> T c -> dom (a ++ b ++ c) (mc a + m) -> m <= mc b -> dom b m;
  ms_strict : forall s o, T s -> m_can_fragment M = false -> cut s o -> o < length s -> mc (firstn o s) < mc s }.

(** What is required of the sequences. *)
Record text_spec : Prop := {
  t_nil : T [];
  t_app : forall a b, T a -> T b -> T (a ++ b);
  t_leaf : forall l, V l -> T (lc l);
  t_cut : forall s o, T s -> cut s o -> T (firstn o s) /\ T (skipn o s);
  t_ok : forall l, V l -> l_ok ops l = true -> lc l <> [];
  t_cut0 : forall s, cut s 0 /\ cut s (length s);
  t_cut_sub : forall a b c i, cut (a ++ b ++ c) (length a + i) -> i <= length b -> cut b i;
  t_cut_sup : forall a b c i, T a -> T b -> T c -> cut b i -> i <= length b -> cut (a ++ b ++ c) (length a + i) }.
Context (TS : text_spec).

Lemma wf_T h : forall n, wf h n -> T (content n).
Proof.
  induction h as [|h IH]; intros [k i l|hh k i cs] W; try (now destruct W).
  - destruct W as (Vl & _). now apply (t_leaf TS).
  - destruct W as (_ & _ & _ & F & _). cbn [TreeSpec.content]. clear -F IH TS.
    induction F; cbn; [apply (t_nil TS)|]. apply (t_app TS); auto.
Qed.
Lemma T_flat h cs : Forall (wf h) cs -> T (flat_map content cs).
Proof. induction 1; cbn; [apply (t_nil TS)|]. apply (t_app TS); auto. eapply wf_T; eauto. Qed.

Lemma ok_nonempty h : forall n, wf h n -> ok n = true -> content n <> [].
Proof.
  induction h as [|h IH]; intros [k i l|hh k i cs] W; try (now destruct W); cbn [n_ok TreeSpec.content].
  - destruct W as (Vl & _). now apply (t_ok TS).
  - destruct W as (_ & H2 & _ & F & O & _). intros _. destruct cs as [|c cs]; [cbn in H2; lia|].
    inversion F; inversion O; subst. cbn. intros E. apply app_eq_nil in E as [E _]. revert E. now apply IH.
Qed.

Context (ma mb : metric (L:=L) (I:=I)) (mca mcb : list X -> nat) (doma domb : list X -> nat -> Prop).
Context (MA : metric_spec ma mca doma) (MB : metric_spec mb mcb domb).

Lemma measure_a h n : wf h n -> measure ma n = mca (content n).
Proof.
  intros W. unfold measure. rewrite (wf_len ops lc V cinfo h n W), (wf_info ops lc V cinfo h n W). apply (ms_measure _ _ _ MA). eapply wf_T; eauto.
Qed.
Lemma measure_b h n : wf h n -> measure mb n = mcb (content n).
Proof.
  intros W. unfold measure. rewrite (wf_len ops lc V cinfo h n W), (wf_info ops lc V cinfo h n W). apply (ms_measure _ _ _ MB). eapply wf_T; eauto.
Qed.

Lemma firstn_pre {A} (a b : list A) k : firstn (length a + k) (a ++ b) = a ++ firstn k b.
Proof. rewrite firstn_app. rewrite firstn_all2 by lia. f_equal. f_equal. lia. Qed.

Lemma mono_a s o : T s -> cut s o -> mca (firstn o s) <= mca s.
Proof.
  intros HT Hc. rewrite <- (firstn_skipn o s) at 2. destruct (t_cut TS s o HT Hc). rewrite (ms_app _ _ _ MA); auto. lia.
Qed.

(** A place found in a part is found in the whole. *)
Lemma sel_sub a b c m o : T a -> T b -> T c -> m <= mca b -> (m = 0 -> m_can_fragment ma = false \/ a = []) ->
  sel mca b m o -> sel mca (a ++ b ++ c) (mca a + m) (length a + o).
Proof.
  intros Ta Tb Tc Hm Hz (Ho & Hc & Hge & Hlt). split; [rewrite !app_length; lia|]. split; [now apply (t_cut_sup TS)|].
  assert (Hf : firstn (length a + o) (a ++ b ++ c) = a ++ firstn o b).
  { rewrite firstn_pre. f_equal. rewrite firstn_app. replace (o - length b) with 0 by lia. cbn. now rewrite app_nil_r. }
  rewrite Hf. split.
  { rewrite (ms_app _ _ _ MA); auto; [lia|]. now apply (t_cut TS). }
  intros o' Ho' Hc'. destruct (Nat.le_gt_cases (length a) o') as [G|G].
  - assert (Hcb : cut b (o' - length a)).
    { apply (t_cut_sub TS a b c); [|lia]. now replace (length a + (o' - length a)) with o' by lia. }
    specialize (Hlt (o' - length a) ltac:(lia) Hcb).
    replace (firstn o' (a ++ b ++ c)) with (a ++ firstn (o' - length a) b).
    2: { replace o' with (length a + (o' - length a)) at 2 by lia. rewrite firstn_pre. f_equal. rewrite firstn_app.
         replace (o' - length a - length b) with 0 by lia. cbn. now rewrite app_nil_r. }
    rewrite (ms_app _ _ _ MA); auto; [lia|]. now apply (t_cut TS).
  - assert (Hca : cut a o'). { apply (t_cut_sub TS [] a (b ++ c)); cbn; auto. lia. }
    replace (firstn o' (a ++ b ++ c)) with (firstn o' a).
    2: { rewrite firstn_app. replace (o' - length a) with 0 by lia. cbn. now rewrite app_nil_r. }
    destruct (Nat.eq_dec m 0) as [->|].
    + destruct Hz as [Hz|Hz]; auto; [|subst; cbn in G; lia]. pose proof (ms_strict _ _ _ MA a o' Ta Hz Hca G). lia.
    + pose proof (mono_a a o' Ta Hca). lia.
Qed.

Definition fudge := if m_can_fragment ma then 1 else 0.

(** One scan over the children. *)
Lemma cm_find_ok h : forall cs m1 m2, Forall (wf h) cs -> m1 <= mca (flat_map content cs) ->
  match cm_find ma mb cs m1 m2 with
  | (Some c, m1', m2') => exists cs1 cs2, cs = cs1 ++ c :: cs2 /\ m1 = mca (flat_map content cs1) + m1' /\
      m2' = m2 + mcb (flat_map content cs1) /\ m1' < mca (content c) + fudge /\ (cs1 <> [] -> m_can_fragment ma = true -> 0 < m1')
  | (None, m1', m2') => m1' = 0 /\ m1 = mca (flat_map content cs) /\ m2' = m2 + mcb (flat_map content cs) /\ (cs <> [] -> fudge = 0)
  end.
Proof.
  assert (A0 : mca [] = 0).
  { pose proof (ms_app _ _ _ MA [] [] (t_nil TS) (t_nil TS)) as E. cbn in E. lia. }
  assert (B0 : mcb [] = 0).
  { pose proof (ms_app _ _ _ MB [] [] (t_nil TS) (t_nil TS)) as E. cbn in E. lia. }
  induction cs as [|c cs IH]; intros m1 m2 F Hm; cbn [cm_find flat_map] in *.
  - rewrite A0, B0 in *. repeat split; try lia. congruence.
  - inversion F as [|? ? Wc Fc]; subst. pose proof (wf_T h c Wc) as Tc. pose proof (T_flat h cs Fc) as Tcs.
    rewrite (measure_a h c Wc). fold fudge. destruct (m1 <? mca (content c) + fudge) eqn:E.
    + exists [], cs. cbn. rewrite A0, B0. repeat split; auto; try lia. congruence.
    + rewrite (ms_app _ _ _ MA) in Hm; auto. specialize (IH (m1 - mca (content c)) (m2 + measure mb c) Fc ltac:(lia)).
      rewrite (measure_b h c Wc) in *. destruct (cm_find ma mb cs _ _) as [[[c'|] m1'] m2'].
      * destruct IH as (cs1 & cs2 & -> & E1 & E2 & E3 & E4). exists (c :: cs1), cs2. split; auto.
        apply Forall_app in Fc as [F1 F2]. pose proof (T_flat h cs1 F1). cbn [flat_map].
        rewrite (ms_app _ _ _ MA), (ms_app _ _ _ MB); auto. repeat split; try lia.
        intros _ Hf. destruct cs1; [|apply E4; auto; discriminate]. cbn in E1. rewrite A0 in E1. unfold fudge in E. rewrite Hf in E. lia.
      * destruct IH as (E1 & E2 & E3 & E4). rewrite (ms_app _ _ _ MA), (ms_app _ _ _ MB); auto. repeat split; try lia.
        intros _. destruct cs; [|apply E4; discriminate]. cbn in E2. rewrite A0 in E2. lia.
Qed.

(** The descent, once a node that covers the measure is reached. *)
Lemma cm_loop_ok h : forall n m1 m2 fuel, wf h n -> m1 <= mca (content n) ->
  (m1 = mca (content n) -> fudge = 1 \/ h = 0) -> doma (content n) m1 -> h < fuel ->
  exists o, sel mca (content n) m1 o /\ cm_loop fuel ma mb n m1 m2 = Some (m2 + mcb (firstn o (content n))).
Proof.
  induction h as [|h IH]; intros n m1 m2 fuel W Hm Hs Hd Hf; (destruct fuel as [|fuel]; [lia|]).
  - destruct n as [k i l|]; [|destruct W]. cbn [cm_loop]. destruct W as (Vl & _). cbn [TreeSpec.content] in *.
    destruct (ms_to _ _ _ MA l m1 Vl Hm Hd) as (o & -> & Hsel). cbn [bind]. exists o. split; auto.
    pose proof Hsel as (Ho & Hc & _). rewrite (ms_from _ _ _ MB l o Vl Hc Ho). reflexivity.
  - destruct n as [|hh k i cs]; [destruct W|]. cbn [cm_loop]. destruct W as (_ & H2 & _ & F & O & _). cbn [TreeSpec.content] in *.
    pose proof (cm_find_ok h cs m1 m2 F Hm) as H. destruct (cm_find ma mb cs m1 m2) as [[[c|] m1'] m2'].
    + destruct H as (cs1 & cs2 & -> & E1 & -> & E3 & E4). apply Forall_app in F as [F1 F2]. inversion F2 as [|? ? Wc F2']; subst.
      pose proof (T_flat h cs1 F1) as T1. pose proof (T_flat h cs2 F2') as T2. pose proof (wf_T h c Wc) as Tc.
      rewrite flat_map_app in *. cbn [flat_map] in *. unfold fudge in *.
      destruct (IH c m1' (m2 + mcb (flat_map content cs1)) fuel Wc) as (o & So & Eo).
      { destruct (m_can_fragment ma); lia. }
      { intros Eq. destruct (m_can_fragment ma); [auto|lia]. }
      { apply (ms_dom _ _ _ MA (flat_map content cs1) _ (flat_map content cs2)); auto. destruct (m_can_fragment ma); lia. }
      { lia. }
      exists (length (flat_map content cs1) + o). split.
      * apply sel_sub; auto; [destruct (m_can_fragment ma); lia|]. intros ->.
        destruct (m_can_fragment ma); auto. right. destruct cs1; auto. assert (0 < 0); [|lia]. apply E4; auto. discriminate.
      * rewrite Eo. f_equal. rewrite firstn_pre, firstn_app. destruct So as (Ho & Hc & _).
        replace (o - length (content c)) with 0 by lia. cbn. rewrite app_nil_r.
        rewrite (ms_app _ _ _ MB); auto; [lia|]. now apply (t_cut TS).
    + destruct H as (_ & H & _ & H'). exfalso. destruct Hs as [Hs|Hs]; try lia. destruct cs; [cbn in H2; lia|].
      specialize (H' ltac:(discriminate)). lia.
Qed.

Theorem convert_ok h n m fuel : wf h n -> m <= mca (content n) -> doma (content n) m -> h + 1 < fuel ->
  exists o, sel mca (content n) m o /\ convert_metrics fuel ma mb n m = Some (mcb (firstn o (content n))).
Proof.
  intros W Hm Hd Hf. pose proof (wf_T h n W) as Tn. pose proof (t_cut0 TS (content n)) as [C0 C1].
  assert (B0 : mcb [] = 0).
  { pose proof (ms_app _ _ _ MB [] [] (t_nil TS) (t_nil TS)) as E. cbn in E. lia. }
  unfold convert_metrics. destruct (Nat.eqb_spec m 0) as [->|Hz].
  { exists 0. cbn [firstn]. rewrite B0. split; auto. split; [lia|]. split; auto. cbn. split; lia. }
  destruct (Nat.eq_dec m (mca (content n))) as [Em|Em].
  2: { destruct (cm_loop_ok h n m 0 fuel W Hm) as (o & S & E); auto; try lia. exists o. auto. }
  destruct (m_can_fragment ma) eqn:Ef.
  { destruct (cm_loop_ok h n m 0 fuel W Hm) as (o & S & E); auto; try lia. { unfold fudge. rewrite Ef. auto. } exists o. auto. }
  destruct h as [|h].
  { destruct (cm_loop_ok 0 n m 0 fuel W Hm) as (o & S & E); auto; try lia. exists o. auto. }
  (* the whole: the loop wraps around once *)
  exists (length (content n)). split.
  { split; [lia|]. split; auto. rewrite firstn_all. split; [lia|]. intros o' Ho' Hc'. rewrite Em. now apply (ms_strict _ _ _ MA). }
  destruct n as [|hh k i cs]; [destruct W|]. rewrite firstn_all. destruct fuel as [|fuel]; [lia|]. cbn [cm_loop].
  pose proof W as (_ & H2 & _ & F & O & _). cbn [TreeSpec.content] in *.
  pose proof (cm_find_ok h cs m 0 F Hm) as H. destruct (cm_find ma mb cs m 0) as [[[c|] m1'] m2'].
  - destruct H as (cs1 & cs2 & -> & E1 & -> & E3 & E4). exfalso. unfold fudge in E3. rewrite Ef in E3.
    apply Forall_app in F as [F1 F2]. assert (Wc := Forall_inv F2). assert (F2' := Forall_inv_tail F2).
    pose proof (T_flat h cs1 F1). pose proof (T_flat h cs2 F2'). pose proof (wf_T h c Wc).
    rewrite flat_map_app in Em. cbn [flat_map] in Em. rewrite !(ms_app _ _ _ MA) in Em; auto; [lia|]. now apply (t_app TS).
  - destruct H as (-> & _ & -> & _).
    assert (P : 0 < mca (flat_map content cs)).
    { pose proof (ms_strict _ _ _ MA _ 0 Tn Ef C0). assert (0 < length (flat_map content cs)); [|lia].
      destruct cs as [|c cs]; [cbn in H2; lia|]. inversion F; inversion O; subst.
      pose proof (ok_nonempty h c ltac:(auto) ltac:(auto)) as N. cbn [flat_map]. rewrite app_length. destruct (content c); [congruence|cbn; lia]. }
    destruct (cm_loop_ok (S h) (NInt hh k i cs) 0 (0 + mcb (flat_map content cs)) fuel W) as (o & S & E); cbn [TreeSpec.content]; try lia.
    { apply (ms_dom0 _ _ _ MA). }
    rewrite E. f_equal. assert (o = 0); [|subst; cbn [firstn]; lia].
    destruct S as (_ & _ & _ & S). cbn [TreeSpec.content] in S. destruct o; auto. specialize (S 0 ltac:(lia) C0). lia.
Qed.
End Metric.
