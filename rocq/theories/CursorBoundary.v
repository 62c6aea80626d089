(** Cursors find the nearest boundary, for any metric that obeys the laws. *)
From Coq Require Import List Arith Lia Bool ZifyBool.
From Verif Require Import Base ListLib TreeModel TreeSpec TreeProofs MetricProofs CursorModel CursorProofs.
Import ListNotations.

Section Boundary.
Context {L I X : Type} (ops : leafops L I).
Context (lc : L -> list X) (V : L -> Prop) (cut : list X -> nat -> Prop) (cinfo : list X -> I) (T : list X -> Prop).
Notation nd := (node L I).
Notation wf := (wf ops lc V cinfo).
Notation content := (content lc).
Notation llen := (llen lc).

(** The laws of the boundaries [bnd] of a metric that measures by [mc]. *)
Record bound_spec (M : metric (L:=L) (I:=I)) (mc : list X -> nat) (bnd : list X -> nat -> Prop) : Prop := {
  bs_app : forall a b, T a -> T b -> mc (a ++ b) = mc a + mc b;
  bs_measure : forall s, T s -> m_measure M (cinfo s) (length s) = mc s;
  bs_is : forall l o, V l -> o <= length (lc l) ->
    exists b, m_is_boundary M l o = Some b /\ (b = true <-> bnd (lc l) o);
  bs_next : forall l o, V l -> o <= length (lc l) -> m_can_fragment M = true \/ cut (lc l) o ->
    exists r, m_next M l o = Some r /\
      match r with
      | Some o' => o < o' <= length (lc l) /\ bnd (lc l) o' /\ forall x, o < x < o' -> ~ bnd (lc l) x
      | None => forall x, o < x <= length (lc l) -> ~ bnd (lc l) x
      end;
  bs_prev : forall l o, V l -> 0 < o <= length (lc l) ->
    exists r, m_prev M l o = Some r /\
      match r with
      | Some o' => o' < o /\ bnd (lc l) o' /\ forall x, o' < x < o -> ~ bnd (lc l) x
      | None => forall x, x < o -> ~ bnd (lc l) x
      end;
  bs_local : forall a b c o, T a -> T b -> T c -> 0 < o <= length b ->
    (bnd (a ++ b ++ c) (length a + o) <-> bnd b o);
  bs_zero : forall s, T s -> (bnd s 0 <-> m_can_fragment M = false);
  bs_end : forall s, T s -> m_can_fragment M = false -> bnd s (length s);
  bs_count : forall s, T s -> m_can_fragment M = true ->
    (mc s = 0 <-> forall x, 0 < x <= length s -> ~ bnd s x) }.

Context (LS : leaf_spec ops lc V cut cinfo) (TS : text_spec ops lc V cut T).
Context (M : metric (L:=L) (I:=I)) (mc : list X -> nat) (bnd : list X -> nat -> Prop) (BS : bound_spec M mc bnd).
Context (root : nd) (H : nat) (Wr : wf H root).
Notation cursor := (cursor (L:=L) (I:=I)).
Notation s := (content root).
Notation route := (@route L I).
Notation at_leaf := (at_leaf lc root).
Notation valid := (valid lc root).
Notation ls := (leaves root).
Implicit Types l : L.

Lemma Ts : T s.
Proof. eapply wf_T; eauto. Qed.
Lemma T_ls xs : Forall V xs -> T (flat_map lc xs).
Proof. induction 1; cbn; [apply (t_nil _ _ _ _ _ TS)|]. apply (t_app _ _ _ _ _ TS); auto. now apply (t_leaf _ _ _ _ _ TS). Qed.
Lemma V_ls : Forall V ls.
Proof. eapply leaves_V; eauto. Qed.

(** The leaves by index: where leaf [k] starts, and the measure before it. *)
Definition lk (k : nat) : nat := llen (firstn k ls).
Definition mk (k : nat) : nat := mc (flat_map lc (firstn k ls)).

Lemma F_sub k : Forall V (firstn k ls) /\ Forall V (skipn k ls).
Proof. apply Forall_app. rewrite firstn_skipn. apply V_ls. Qed.
Lemma mc_nil : mc [] = 0.
Proof. pose proof (bs_app _ _ _ BS [] [] (t_nil _ _ _ _ _ TS) (t_nil _ _ _ _ _ TS)) as E. cbn in E. lia. Qed.

Lemma split_ls k j : k <= j -> firstn j ls = firstn k ls ++ slice ls k j.
Proof.
  intros Hk. unfold slice. rewrite <- (firstn_skipn k ls) at 1. rewrite firstn_app.
  destruct (Nat.le_gt_cases k (length ls)).
  - rewrite firstn_length_le by auto. f_equal. apply firstn_all2. rewrite firstn_length. lia.
  - rewrite !(skipn_all2 ls) by lia. rewrite !firstn_nil, !app_nil_r. apply firstn_all2. rewrite firstn_length. lia.
Qed.
Lemma slice_V k j : Forall V (slice ls k j).
Proof. unfold slice. pose proof (F_sub k) as [_ F]. now apply (firstn_in_Forall V (j - k)). Qed.
Lemma lk_mono k j : k <= j -> lk k <= lk j.
Proof. intros Hk. unfold lk. rewrite (split_ls k j Hk), llen_app. lia. Qed.
Lemma mk_split k j : k <= j -> mk j = mk k + mc (flat_map lc (slice ls k j)).
Proof.
  intros Hk. unfold mk. rewrite (split_ls k j Hk), flat_map_app, (bs_app _ _ _ BS); auto; apply T_ls; [apply F_sub|apply slice_V].
Qed.
Lemma mk_mono k j : k <= j -> mk k <= mk j.
Proof. intros Hk. rewrite (mk_split k j Hk). lia. Qed.

(** No boundary in [(i, j]]. *)
Definition nobnd (i j : nat) : Prop := forall x, i < x <= j -> ~ bnd s x.

Lemma s_split k j : k <= j -> s = flat_map lc (firstn k ls) ++ flat_map lc (slice ls k j) ++ flat_map lc (skipn j ls).
Proof.
  intros Hk. rewrite (content_root ops lc V cinfo root H Wr). rewrite <- (firstn_skipn j ls) at 1.
  rewrite flat_map_app, (split_ls k j Hk), flat_map_app, <- app_assoc. reflexivity.
Qed.
Lemma nobnd_between k j : m_can_fragment M = true -> k <= j -> mk j <= mk k -> nobnd (lk k) (lk j).
Proof.
  intros Hf Hk Hm x Hx. rewrite (s_split k j Hk). rewrite (mk_split k j Hk) in Hm.
  assert (El : lk j = lk k + llen (slice ls k j)) by (unfold lk; rewrite (split_ls k j Hk), llen_app; auto).
  replace x with (length (flat_map lc (firstn k ls)) + (x - lk k)) by (unfold lk, CursorProofs.llen in *; lia).
  rewrite (bs_local _ _ _ BS).
  - apply (bs_count _ _ _ BS); auto; [apply T_ls, slice_V|lia|]. unfold CursorProofs.llen in El. lia.
  - apply T_ls, F_sub.
  - apply T_ls, slice_V.
  - apply T_ls, F_sub.
  - unfold CursorProofs.llen in El. lia.
Qed.

(** A leaf of the text. *)
Lemma leaf_bnd pre l post x : ls = pre ++ l :: post -> 0 < x <= length (lc l) -> (bnd s (llen pre + x) <-> bnd (lc l) x).
Proof.
  intros E Hx. rewrite (content_root ops lc V cinfo root H Wr), E, flat_map_app. cbn [flat_map].
  pose proof V_ls as F. rewrite E in F. apply Forall_app in F as [F1 F2]. inversion F2; subst.
  apply (bs_local _ _ _ BS); auto; try now apply T_ls. now apply (t_leaf _ _ _ _ _ TS).
Qed.
(** Where a leaf starts there is a boundary, unless the metric fragments. *)
Lemma start_bnd pre l post : ls = pre ++ l :: post -> m_can_fragment M = false -> bnd s (llen pre).
Proof.
  intros E Hf. destruct pre as [|a pre].
  - unfold CursorProofs.llen. cbn. apply (bs_zero _ _ _ BS); [apply Ts|auto].
  - rewrite (content_root ops lc V cinfo root H Wr), E, flat_map_app.
    pose proof V_ls as F. rewrite E in F. apply Forall_app in F as [F1 F2].
    set (A := flat_map lc (a :: pre)). assert (TA : T A) by now apply T_ls.
    destruct (Nat.eq_dec (length A) 0) as [Z|Z].
    + unfold CursorProofs.llen. fold A. rewrite Z. apply (bs_zero _ _ _ BS); auto. apply (t_app _ _ _ _ _ TS); auto. now apply T_ls.
    + unfold CursorProofs.llen. fold A. apply (bs_local _ _ _ BS [] A (flat_map lc (l :: post)) (length A)); auto; try lia.
      * apply (t_nil _ _ _ _ _ TS).
      * now apply T_ls.
      * now apply (bs_end _ _ _ BS).
Qed.

Lemma idx pre l post : ls = pre ++ l :: post -> firstn (length pre) ls = pre /\ firstn (S (length pre)) ls = pre ++ [l] /\ length pre < length ls /\
  skipn (S (length pre)) ls = post.
Proof.
  intros ->. split; [now apply firstn_app_exact|]. split; [|split].
  - rewrite firstn_app, firstn_all2 by lia. replace (S (length pre) - length pre) with 1 by lia. reflexivity.
  - rewrite app_length. cbn. lia.
  - rewrite skipn_app, skipn_all2 by lia. replace (S (length pre) - length pre) with 1 by lia. reflexivity.
Qed.
Lemma lk_pre pre l post : ls = pre ++ l :: post -> lk (length pre) = llen pre /\ lk (S (length pre)) = llen pre + length (lc l).
Proof. intros E. destruct (idx _ _ _ E) as (E1 & E2 & _). unfold lk. rewrite E1, E2, llen_app, llen_one. auto. Qed.
Lemma leaf_V pre l post : ls = pre ++ l :: post -> V l.
Proof. intros E. pose proof V_ls as F. rewrite E in F. apply Forall_app in F as [_ F]. now inversion F. Qed.
Lemma leaf_total pre l post : ls = pre ++ l :: post -> length s = llen pre + length (lc l) + llen post.
Proof.
  intros E. rewrite (content_root ops lc V cinfo root H Wr), E. change (l :: post) with ([l] ++ post).
  rewrite <- (llen_one lc l). change (llen (pre ++ [l] ++ post) = llen pre + llen [l] + llen post). rewrite !llen_app. lia.
Qed.
(** The measure before and after a leaf. *)
Lemma mk_leaf pre l post : ls = pre ++ l :: post -> mk (S (length pre)) = mk (length pre) + mc (lc l).
Proof.
  intros E. destruct (idx _ _ _ E) as (E1 & E2 & _). unfold mk. rewrite E1, E2, flat_map_app. cbn. rewrite app_nil_r.
  pose proof (F_sub (length pre)) as [F _]. rewrite E1 in F. apply (bs_app _ _ _ BS); [now apply T_ls|]. apply (t_leaf _ _ _ _ _ TS). eapply leaf_V; eauto.
Qed.

(** ** Measuring descents *)
Lemma measure_node h n : wf h n -> measure M n = mc (content n).
Proof.
  intros W. unfold measure. rewrite (wf_len ops lc V cinfo h n W), (wf_info ops lc V cinfo h n W). apply (bs_measure _ _ _ BS).
  eapply wf_T; eauto.
Qed.
Lemma mc_flat h cs1 cs2 : Forall (wf h) cs1 -> Forall (wf h) cs2 ->
  mc (flat_map content (cs1 ++ cs2)) = mc (flat_map content cs1) + mc (flat_map content cs2).
Proof. intros F1 F2. rewrite flat_map_app. apply (bs_app _ _ _ BS); eapply T_flat; eauto. Qed.
Lemma flat_leaves h cs : Forall (wf h) cs -> flat_map content cs = flat_map lc (flat_map leaves cs).
Proof. induction 1; auto. cbn. rewrite flat_map_app, IHForall. f_equal. eapply content_leaves; eauto. Qed.

Lemma ml_find_ok h : forall cs pos m, Forall (wf h) cs -> pos < length (flat_map content cs) ->
  exists j c, ml_find M cs pos m = Some (c, pos - length (flat_map content (firstn j cs)), m + mc (flat_map content (firstn j cs))) /\
    nth_error cs j = Some c /\ length (flat_map content (firstn j cs)) <= pos < length (flat_map content (firstn j cs)) + length (content c).
Proof.
  induction cs as [|c cs IH]; intros pos m F Hp; [cbn in Hp; lia|]. inversion F as [|? ? Wc Fc]; subst. cbn [ml_find].
  rewrite (wf_len ops lc V cinfo h c Wc). destruct (pos <? length (content c)) eqn:E.
  - exists 0, c. cbn. rewrite mc_nil, Nat.sub_0_r, Nat.add_0_r. repeat split; auto; lia.
  - cbn [flat_map] in Hp. rewrite app_length in Hp.
    destruct (IH (pos - length (content c)) (m + measure M c) Fc ltac:(lia)) as (j & c' & -> & Nj & H1).
    exists (S j), c'. cbn [firstn flat_map nth_error]. rewrite app_length, (measure_node h c Wc).
    rewrite (bs_app _ _ _ BS); [|eapply wf_T; eauto|apply (T_flat ops lc V cut cinfo T TS h); apply Forall_firstn; auto].
    split; [f_equal; f_equal; [f_equal; lia|lia]|]. split; auto. lia.
Qed.

Lemma measure_leaf_f_ok h : forall n pos m fuel, wf h n -> pos < length (content n) -> h <= fuel ->
  exists p l pre post, route n p l pre post /\ llen pre <= pos < llen pre + length (lc l) /\
    measure_leaf_f M fuel n pos m = Some (m + mc (flat_map lc pre)).
Proof.
  induction h as [|h IH]; intros n pos m fuel W Hp Hf.
  - destruct n as [k i l|]; [|destruct W]. exists [], l, [], []. split; [constructor|]. unfold CursorProofs.llen. cbn in *.
    split; [lia|]. rewrite mc_nil, Nat.add_0_r. destruct fuel; auto.
  - destruct n as [|hh k i cs]; [destruct W|]. destruct fuel as [|fuel]; [lia|]. cbn [measure_leaf_f]. pose proof W as (_ & _ & _ & F & _).
    cbn [TreeSpec.content] in Hp. destruct (ml_find_ok h cs pos m F Hp) as (j & c & -> & Nj & H1). cbn [bind].
    assert (Wc : wf h c). { rewrite Forall_forall in F. apply F. eapply nth_error_In; eauto. }
    assert (Fj : Forall (wf h) (firstn j cs)) by (apply Forall_firstn; auto).
    rewrite (len_leaves ops lc V cinfo h _ Fj) in *. rewrite (flat_leaves h _ Fj).
    destruct (IH c (pos - llen (flat_map leaves (firstn j cs))) (m + mc (flat_map lc (flat_map leaves (firstn j cs)))) fuel Wc ltac:(lia) ltac:(lia))
      as (p & l & pre & post & R & Hr & ->).
    exists (p ++ [(NInt hh k i cs, j)]), l, (flat_map leaves (firstn j cs) ++ pre), (post ++ flat_map leaves (skipn (S j) cs)).
    split; [econstructor; eauto|]. rewrite llen_app. split; [lia|]. f_equal. rewrite flat_map_app, (bs_app _ _ _ BS); [lia| |].
    + rewrite <- (flat_leaves h _ Fj). eapply T_flat; eauto.
    + pose proof (leaves_V ops lc V cinfo h c Wc) as FV. rewrite (route_leaves _ _ _ _ _ R) in FV. apply Forall_app in FV as [FV _]. now apply T_ls.
Qed.

Lemma measure_leaf_ok pre l post : ls = pre ++ l :: post -> 0 < length (lc l) -> measure_leaf root M (llen pre) = Some (mk (length pre)).
Proof.
  intros E Hl. unfold measure_leaf. rewrite (height_root ops lc V cinfo root H Wr).
  destruct (measure_leaf_f_ok H root (llen pre) 0 H Wr) as (p & l' & pre' & post' & R & Hr & ->); auto.
  { pose proof (leaf_total _ _ _ E). lia. }
  destruct (leaves_unique lc (llen pre) pre' pre l' l post' post) as (-> & -> & ->).
  { rewrite <- (route_leaves _ _ _ _ _ R), E. reflexivity. }
  { lia. }
  { lia. }
  cbn. unfold mk. now destruct (idx _ _ _ E) as (-> & _).
Qed.

Lemma pick_metric_ok h : forall cs offset m i, Forall (wf h) cs -> cs <> [] -> 0 < m ->
  exists j c, pick_metric M cs offset m i = Some (i + j, offset + length (flat_map content (firstn j cs)), m - mc (flat_map content (firstn j cs)), c) /\
    nth_error cs j = Some c /\ mc (flat_map content (firstn j cs)) < m /\
    (m <= mc (flat_map content (firstn j cs)) + mc (content c) \/ S j = length cs).
Proof.
  induction cs as [|c cs IH]; intros offset m i F Hne Hm; [congruence|]. inversion F as [|? ? Wc Fc]; subst.
  destruct cs as [|c2 cs].
  - exists 0, c. cbn. rewrite mc_nil, !Nat.add_0_r, Nat.sub_0_r. auto.
  - change (pick_metric M (c :: c2 :: cs) offset m i) with
      (if m <=? measure M c then Some (i, offset, m, c) else pick_metric M (c2 :: cs) (offset + n_len c) (m - measure M c) (S i)).
    rewrite (measure_node h c Wc). destruct (m <=? mc (content c)) eqn:E.
    + exists 0, c. cbn. rewrite mc_nil, !Nat.add_0_r, Nat.sub_0_r. repeat split; auto. left. lia.
    + rewrite (wf_len ops lc V cinfo h c Wc).
      destruct (IH (offset + length (content c)) (m - mc (content c)) (S i) Fc ltac:(discriminate) ltac:(lia)) as (j & c' & -> & Nj & H1 & H2).
      assert (Tj : T (flat_map content (firstn j (c2 :: cs)))) by (apply (T_flat ops lc V cut cinfo T TS h); apply Forall_firstn; auto).
      exists (S j), c'. replace (i + S j) with (S i + j) by lia. cbn [flat_map]. rewrite firstn_cons. cbn [flat_map].
      rewrite app_length, (bs_app _ _ _ BS); auto; [|eapply wf_T; eauto].
      split; [f_equal; f_equal; f_equal; [f_equal; lia|lia]|]. split; auto. split; [lia|]. destruct H2 as [H2|H2]; [left; lia|right; cbn [length] in *; lia].
Qed.

Lemma descend_metric_f_ok h : forall n offset m cache fuel, wf h n -> 0 < m -> h <= fuel -> length cache = CACHE_SIZE ->
  exists p l pre post, route n p l pre post /\
    descend_metric_f M fuel n offset m cache = Some (l, offset + llen pre, overlay p cache) /\
    mc (flat_map lc pre) < m /\ (m <= mc (flat_map lc pre) + mc (lc l) \/ post = []).
Proof.
  induction h as [|h IH]; intros n offset m cache fuel W Hm Hf HL.
  - destruct n as [k i l|]; [|destruct W]. exists [], l, [], []. split; [constructor|].
    unfold overlay. cbn [map app length skipn]. rewrite firstn_all2 by (rewrite HL; auto). unfold CursorProofs.llen. cbn. rewrite mc_nil, Nat.add_0_r. destruct fuel; auto.
  - destruct n as [|hh k i cs]; [destruct W|]. destruct fuel as [|fuel]; [lia|]. cbn [descend_metric_f].
    pose proof W as (-> & H2 & _ & F & _).
    destruct (pick_metric_ok h cs offset m 0 F) as (j & c & -> & Nj & H3 & H4); [intros ->; cbn in H2; lia|auto|]. cbn [bind Nat.add].
    assert (Wc : wf h c). { rewrite Forall_forall in F. apply F. eapply nth_error_In; eauto. }
    assert (Fj : Forall (wf h) (firstn j cs)) by (apply Forall_firstn; auto). rewrite (len_leaves ops lc V cinfo h _ Fj).
    rewrite (flat_leaves h _ Fj) in *. set (A := flat_map leaves (firstn j cs)) in *.
    assert (TA : T (flat_map lc A)) by (unfold A; rewrite <- (flat_leaves h _ Fj); eapply T_flat; eauto).
    destruct (IH c (offset + llen A) (m - mc (flat_map lc A)) (set_cache cache (S h) (Some (NInt (S h) k i cs, j))) fuel Wc ltac:(lia) ltac:(lia))
      as (p & l & pre & post & R & E & G1 & G2).
    { unfold set_cache. destruct (S h - 1 <? CACHE_SIZE) eqn:El; auto. rewrite upd_split by lia.
      rewrite app_length, firstn_length_le by lia. cbn [length]. rewrite skipn_length. lia. }
    destruct (overlay_set p (S h) (NInt (S h) k i cs, j) cache HL) as [Eo _].
    { f_equal. symmetry. eapply (route_height ops lc V cinfo); eauto. }
    assert (Tp : T (flat_map lc pre)).
    { pose proof (leaves_V ops lc V cinfo h c Wc) as FV. rewrite (route_leaves _ _ _ _ _ R) in FV. apply Forall_app in FV as [FV _]. now apply T_ls. }
    assert (Tl : T (lc l)).
    { pose proof (leaves_V ops lc V cinfo h c Wc) as FV. rewrite (route_leaves _ _ _ _ _ R) in FV. apply Forall_app in FV as [_ FV]. inversion FV. now apply (t_leaf _ _ _ _ _ TS). }
    exists (p ++ [(NInt (S h) k i cs, j)]), l, (A ++ pre), (post ++ flat_map leaves (skipn (S j) cs)).
    split; [econstructor; eauto|]. rewrite E, Eo, llen_app. split; [f_equal; f_equal; f_equal; lia|].
    rewrite flat_map_app, (bs_app _ _ _ BS) by auto. split; [lia|].
    destruct G2 as [G2|G2]; [left; lia|]. destruct H4 as [H4|H4].
    + left. rewrite (content_leaves ops lc V cinfo h c Wc), (route_leaves _ _ _ _ _ R) in H4. subst post. rewrite flat_map_app in H4. cbn in H4.
      rewrite app_nil_r, (bs_app _ _ _ BS) in H4 by auto. lia.
    + right. subst post. now rewrite skipn_last.
Qed.

Lemma descend_metric_ok c m : cache_ok root c -> 0 < m ->
  exists c' l pre post, descend_metric root M c m = Some c' /\ at_leaf c' l pre post /\ c_pos c' = c_off c' /\
    mk (length pre) < m /\ (m <= mk (S (length pre)) \/ post = []).
Proof.
  intros (p0 & l0 & pre0 & post0 & R0 & Ec) Hm. unfold descend_metric. rewrite (height_root ops lc V cinfo root H Wr).
  destruct (descend_metric_f_ok H root 0 m (c_cache c) H Wr Hm) as (p & l & pre & post & R & -> & G1 & G2); auto.
  { rewrite Ec. apply cache_len. }
  cbn [bind Nat.add]. pose proof (route_leaves _ _ _ _ _ R) as El. eexists _, l, pre, post. split; [reflexivity|]. cbn [c_pos c_off]. split.
  { exists p. split; auto. cbn. repeat split; auto. rewrite Ec. apply overlay_same.
    now rewrite (route_height ops lc V cinfo _ _ _ _ _ R0 H Wr), (route_height ops lc V cinfo _ _ _ _ _ R H Wr). }
  split; auto. rewrite (mk_leaf _ _ _ El). unfold mk. destruct (idx _ _ _ El) as (-> & _). auto.
Qed.

Lemma at_leaves c l pre post : at_leaf c l pre post -> ls = pre ++ l :: post.
Proof. intros (p & R & _). eapply route_leaves; eauto. Qed.
Lemma at_cache c l pre post : at_leaf c l pre post -> cache_ok root c.
Proof. intros (p & R & _ & _ & E). exists p, l, pre, post. auto. Qed.
Lemma multi_pos pre l post : ls = pre ++ l :: post -> pre <> [] \/ post <> [] -> Forall (fun x => 0 < length (lc x)) ls.
Proof.
  intros E Hn. apply (leaves_pos ops lc V cut cinfo T TS H root Wr). left. destruct H; [|lia]. exfalso.
  destruct root as [k i x|]; [|destruct Wr]. cbn in E. destruct pre as [|a [|b r]]; cbn in E; try discriminate. injection E as _ <-. tauto.
Qed.

(** ** Inside a leaf *)
Lemma next_inside_ok c l pre post : valid c l pre post -> m_can_fragment M = true \/ cut s (c_pos c) ->
  exists r c', next_inside_leaf ops root M c = Some (r, c') /\
    match r with
    | Some x => c_pos c' = x /\ c_pos c < x <= length s /\ bnd s x /\ nobnd (c_pos c) (x - 1) /\ exists l' pre' post', valid c' l' pre' post'
    | None => c' = c /\ nobnd (c_pos c) (llen pre + length (lc l))
    end.
Proof.
  intros (Ha & Hp & Hp2) Hst. pose proof (at_leaves _ _ _ _ Ha) as E. pose proof Ha as (p & R & El & Eo & Ec).
  pose proof (leaf_V _ _ _ E) as Vl. unfold next_inside_leaf. rewrite El. cbn [bind]. rewrite Eo in *.
  replace (c_pos c <? llen pre) with false by lia.
  assert (Hst' : m_can_fragment M = true \/ cut (lc l) (c_pos c - llen pre)).
  { destruct Hst as [Hst|Hst]; auto. right. rewrite (route_content ops lc V cinfo root H Wr _ _ _ _ R) in Hst.
    apply (t_cut_sub _ _ _ _ _ TS (flat_map lc pre) _ (flat_map lc post)); [|lia].
    change (length (flat_map lc pre)) with (llen pre). now replace (llen pre + (c_pos c - llen pre)) with (c_pos c) by lia. }
  destruct (bs_next _ _ _ BS l (c_pos c - llen pre) Vl ltac:(lia) Hst') as (r & -> & Hr). cbn [bind].
  pose proof (leaf_total _ _ _ E) as Et. destruct r as [o|].
  - destruct Hr as (H1 & H2 & H3). rewrite (s_len _ _ _ _ _ LS l Vl), (len_root ops lc V cinfo root H Wr).
    assert (Hn : nobnd (c_pos c) (llen pre + o - 1)).
    { intros x Hx. replace x with (llen pre + (x - llen pre)) by lia. rewrite (leaf_bnd _ _ _ _ E) by lia. apply H3. lia. }
    assert (Hb : bnd s (llen pre + o)) by (apply (leaf_bnd _ _ _ _ E); auto; lia).
    destruct ((o =? length (lc l)) && negb (llen pre + o =? length s)) eqn:B.
    + assert (o = length (lc l)) by lia. subst o. destruct post as [|l2 post'].
      { exfalso. unfold CursorProofs.llen in Et at 2. cbn in Et. lia. }
      destruct (next_leaf_ok ops lc V cut cinfo T LS TS root H Wr c l pre (l2 :: post') Ha) as (c' & -> & Ha' & Ep'). cbn [bind].
      pose proof Ha' as (p' & R' & El' & Eo' & Ec'). rewrite llen_app, llen_one in Eo'.
      eexists _, c'. split; [reflexivity|]. split; auto. rewrite Ep', Eo'. repeat (split; auto; try lia).
      exists l2, (pre ++ [l]), post'. split; auto. rewrite Ep'. split; auto. left.
      pose proof (multi_pos _ _ _ E ltac:(right; discriminate)) as FP. rewrite E in FP. apply Forall_app in FP as [_ FP]. inversion FP as [|? ? _ FP2]. inversion FP2. lia.
    + eexists _, _. split; [reflexivity|]. cbn [c_pos]. repeat (split; auto; try lia).
      exists l, pre, post. split; [exists p; cbn; auto|]. cbn [c_off c_pos]. rewrite ?Eo. split; [lia|].
      destruct (Nat.eq_dec o (length (lc l))) as [->|]; [|left; lia]. right. split; auto. destruct post; auto. exfalso.
      assert (llen (l0 :: post) = 0) by lia. pose proof (multi_pos _ _ _ E ltac:(right; discriminate)) as FP. rewrite E in FP. apply Forall_app in FP as [_ FP]. inversion FP as [|? ? _ FP2].
      pose proof (llen_pos lc _ FP2 ltac:(discriminate)). lia.
  - eexists _, c. split; [reflexivity|]. split; auto. intros x Hx. replace x with (llen pre + (x - llen pre)) by lia.
    rewrite (leaf_bnd _ _ _ _ E) by lia. apply Hr. lia.
Qed.

Lemma last_inside_ok c l pre post orig : at_leaf c l pre post -> 0 < length (lc l) -> llen pre + length (lc l) <= orig <= length s ->
  exists r c', last_inside_leaf ops root M c orig = Some (r, c') /\
    match r with
    | Some x => c_pos c' = x /\ llen pre <= x < orig /\ bnd s x /\ (forall y, x < y <= llen pre + length (lc l) -> y < orig -> ~ bnd s y) /\
        exists l' pre' post', valid c' l' pre' post'
    | None => c' = c /\ (forall y, llen pre < y <= llen pre + length (lc l) -> y < orig -> ~ bnd s y) /\ m_can_fragment M = true
    end.
Proof.
  intros Ha Hl Ho. pose proof (at_leaves _ _ _ _ Ha) as E. pose proof Ha as (p & R & El & Eo & Ec).
  pose proof (leaf_V _ _ _ E) as Vl. unfold last_inside_leaf. rewrite El. cbn [bind]. rewrite Eo, (s_len _ _ _ _ _ LS l Vl).
  pose proof (leaf_total _ _ _ E) as Et.
  assert (exists b, (if llen pre + length (lc l) <? orig then m_is_boundary M l (length (lc l)) else Some false) = Some b /\
    (b = true -> llen pre + length (lc l) < orig /\ bnd s (llen pre + length (lc l))) /\
    (b = false -> llen pre + length (lc l) < orig -> ~ bnd s (llen pre + length (lc l)))) as (b & -> & B1 & B2).
  { destruct (llen pre + length (lc l) <? orig) eqn:Eq.
    - destruct (bs_is _ _ _ BS l (length (lc l)) Vl ltac:(lia)) as (b & -> & Hb). exists b. split; auto.
      pose proof (leaf_bnd _ _ _ (length (lc l)) E ltac:(lia)) as Hlb. split.
      + intros ->. split; [lia|]. apply Hlb, Hb. reflexivity.
      + intros -> _ Hx. apply Hlb, Hb in Hx. discriminate.
    - exists false. split; auto. split; [discriminate|]. lia. }
  cbn [bind]. destruct b.
  - destruct (B1 eq_refl) as [B3 B4]. destruct post as [|l2 post'].
    { exfalso. unfold CursorProofs.llen in Et at 2. cbn in Et. lia. }
    destruct (next_leaf_ok ops lc V cut cinfo T LS TS root H Wr c l pre (l2 :: post') Ha) as (c' & -> & Ha' & Ep'). cbn [bind].
    pose proof Ha' as (p' & R' & El' & Eo' & Ec'). rewrite llen_app, llen_one in Eo'.
    eexists _, c'. split; [reflexivity|]. split; auto. rewrite Ep', Eo'. split; [lia|]. split; auto. split; [lia|].
    exists l2, (pre ++ [l]), post'. split; auto. rewrite Ep'. split; auto. left.
    pose proof (multi_pos _ _ _ E ltac:(right; discriminate)) as FP. rewrite E in FP. apply Forall_app in FP as [_ FP]. inversion FP as [|? ? _ FP2]. inversion FP2. lia.
  - specialize (B2 eq_refl). destruct (bs_prev _ _ _ BS l (length (lc l)) Vl ltac:(lia)) as (r & -> & Hr). cbn [bind]. destruct r as [o|].
    + destruct Hr as (H1 & H2 & H3). eexists _, _. split; [reflexivity|]. cbn [c_pos]. split; auto. split; [lia|]. split; [|split].
      * destruct (Nat.eq_dec o 0) as [->|].
        -- rewrite Nat.add_0_r. eapply start_bnd; eauto. apply (bs_zero _ _ _ BS (lc l)); auto. now apply (t_leaf _ _ _ _ _ TS).
        -- apply (leaf_bnd _ _ _ _ E); auto. lia.
      * intros y Hy Hyo. destruct (Nat.eq_dec y (llen pre + length (lc l))) as [->|]; [now apply B2|].
        replace y with (llen pre + (y - llen pre)) by lia. rewrite (leaf_bnd _ _ _ _ E) by lia. apply H3. lia.
      * exists l, pre, post. split; [exists p; cbn; auto|]. cbn. rewrite ?Eo. split; [lia|left; lia].
    + eexists _, c. split; [reflexivity|]. split; auto. split.
      * intros y Hy Hyo. destruct (Nat.eq_dec y (llen pre + length (lc l))) as [->|]; [now apply B2|].
        replace y with (llen pre + (y - llen pre)) by lia. rewrite (leaf_bnd _ _ _ _ E) by lia. apply Hr. lia.
      * destruct (m_can_fragment M) eqn:Ef; auto. exfalso. apply (Hr 0); [lia|]. apply (bs_zero _ _ _ BS); auto. now apply (t_leaf _ _ _ _ _ TS).
Qed.

(** ** The operations *)
Definition is_valid c : Prop := exists l pre post, valid c l pre post.

Theorem next_ok c : is_valid c -> m_can_fragment M = true \/ cut s (c_pos c) ->
  exists r c', c_next ops root M c = Some (r, c') /\
    match r with
    | Some x => c_pos c' = x /\ c_pos c < x <= length s /\ bnd s x /\ nobnd (c_pos c) (x - 1) /\ is_valid c'
    | None => c_leaf c' = None /\ cache_ok root c' /\ nobnd (c_pos c) (length s)
    end.
Proof.
  intros (l & pre & post & Hv) Hst. pose proof Hv as (Ha & Hp1 & Hp2). pose proof (at_leaves _ _ _ _ Ha) as E. pose proof Ha as (p & R & El & Eo & Ec).
  unfold c_next. rewrite El, (len_root ops lc V cinfo root H Wr). pose proof (leaf_total _ _ _ E) as Et.
  destruct (Nat.leb_spec (length s) (c_pos c)) as [Hle|Hlt].
  { eexists None, _. split; [reflexivity|]. split; auto. split; [exact (at_cache _ _ _ _ Ha)|]. intros x Hx. lia. }
  destruct (next_inside_ok c l pre post Hv Hst) as (r & c1 & -> & Hr). cbn [bind]. destruct r as [x|].
  { eexists _, _. split; [reflexivity|]. exact Hr. }
  destruct Hr as (-> & N1).
  (* the leaf has no boundary after the position: so the metric fragments, or the leaf is the last *)
  pose proof (next_leaf_ok ops lc V cut cinfo T LS TS root H Wr c l pre post Ha) as Hnl. destruct post as [|l2 post'].
  { destruct Hnl as (c' & -> & E1 & E2 & E3). cbn [bind negb]. eexists None, _. split; [reflexivity|]. split; auto.
    split. { destruct (at_cache _ _ _ _ Ha) as (q & ? & ? & ? & ? & Eq). unfold cache_ok. rewrite E3. eauto 8. }
    unfold CursorProofs.llen in Et at 2. cbn in Et. intros x Hx. apply N1. lia. }
  destruct Hnl as (c2 & -> & Ha2 & Ep2). cbn [bind negb].
  pose proof (multi_pos _ _ _ E ltac:(right; discriminate)) as FP. rewrite E in FP. apply Forall_app in FP as [_ FP].
  pose proof (Forall_inv_tail FP) as FP2. pose proof (Forall_inv FP2) as P2. pose proof (Forall_inv FP) as P1. cbv beta in P1, P2.
  assert (Hf : m_can_fragment M = true).
  { destruct (m_can_fragment M) eqn:Ef; auto. exfalso. destruct Hp2 as [Hp2|[_ Hp2]]; [|discriminate Hp2]. apply (N1 (llen pre + length (lc l))); [lia|].
    apply (leaf_bnd _ _ _ _ E); [lia|]. apply (bs_end _ _ _ BS); auto. apply (t_leaf _ _ _ _ _ TS). eapply leaf_V; eauto. }
  assert (Hv2 : valid c2 l2 (pre ++ [l]) post') by (split; auto; split; [lia|left; lia]).
  pose proof (at_leaves _ _ _ _ Ha2) as E2. pose proof Ha2 as (p2 & R2 & El2 & Eo2 & Ec2). rewrite llen_app, llen_one in Eo2.
  destruct (next_inside_ok c2 _ _ _ Hv2 (or_introl Hf)) as (r & c3 & -> & Hr). cbn [bind]. destruct r as [x|].
  { destruct Hr as (H1 & H2 & H3 & H4 & H5). eexists _, _. split; [reflexivity|]. repeat (split; auto; try lia).
    intros y Hy. destruct (Nat.le_gt_cases y (llen pre + length (lc l))); [apply N1; lia|apply H4; lia]. }
  destruct Hr as (-> & N2). rewrite llen_app, llen_one in N2.
  rewrite Ep2. replace (c_off c2) with (llen (pre ++ [l])) by (rewrite llen_app, llen_one; auto). rewrite (measure_leaf_ok _ _ _ E2 P2). cbn [bind].
  set (k2 := length (pre ++ [l])) in *.
  destruct (descend_metric_ok c2 (mk k2 + 1) (at_cache _ _ _ _ Ha2) ltac:(lia)) as (c4 & l4 & pre4 & post4 & -> & Ha4 & Ep4 & G1 & G2). cbn [bind].
  pose proof (at_leaves _ _ _ _ Ha4) as E4. set (k4 := length pre4) in *.
  destruct (idx _ _ _ E2) as (_ & _ & K2 & _). fold k2 in K2. destruct (idx _ _ _ E4) as (_ & _ & K4 & K4s). fold k4 in K4, K4s.
  assert (M2 : mk (S k2) = mk k2).
  { unfold k2. rewrite (mk_leaf _ _ _ E2). assert (mc (lc l2) = 0); [|lia]. apply (bs_count _ _ _ BS); auto.
    { apply (t_leaf _ _ _ _ _ TS). eapply leaf_V; eauto. }
    intros x Hx Hb. apply (leaf_bnd _ _ _ _ E2) in Hb; auto. rewrite llen_app, llen_one in Hb. revert Hb. apply N2. lia. }
  assert (K24 : k2 <= k4).
  { destruct (Nat.le_gt_cases k2 k4); auto. exfalso. pose proof (mk_mono (S k4) (S k2) ltac:(lia)).
    destruct G2 as [G2|G2]; [lia|]. subst post4. apply (f_equal (@length _)) in K4s. rewrite skipn_length in K4s. cbn in K4s. lia. }
  assert (NB : nobnd (c_pos c) (llen pre4)).
  { intros y Hy. destruct (Nat.le_gt_cases y (llen pre + length (lc l))); [apply N1; lia|].
    pose proof (nobnd_between k2 k4 Hf K24 ltac:(lia)) as NB. destruct (lk_pre _ _ _ E2) as [L2 _]. fold k2 in L2. destruct (lk_pre _ _ _ E4) as [L4 _]. fold k4 in L4.
    rewrite llen_app, llen_one in L2. apply NB. lia. }
  pose proof Ha4 as (p4 & R4 & El4 & Eo4 & Ec4).
  assert (P4 : 0 < length (lc l4)).
  { pose proof (multi_pos _ _ _ E ltac:(right; discriminate)) as FP4. rewrite E4 in FP4. apply Forall_app in FP4 as [_ FP4]. now inversion FP4. }
  assert (C24 : c_pos c2 <= llen pre4).
  { destruct (lk_pre _ _ _ E2) as [L2 _]. fold k2 in L2. destruct (lk_pre _ _ _ E4) as [L4 _]. fold k4 in L4. rewrite <- L4.
    rewrite Ep2, Eo2. rewrite llen_app, llen_one in L2. rewrite <- L2. apply lk_mono. lia. }
  assert (Hv4 : valid c4 l4 pre4 post4) by (split; auto; split; [lia|left; lia]).
  destruct (next_inside_ok c4 _ _ _ Hv4 (or_introl Hf)) as (r & c5 & -> & Hr). cbn [bind]. destruct r as [x|].
  - destruct Hr as (H1 & H2 & H3 & H4 & H5). eexists _, _. split; [reflexivity|]. repeat (split; auto; try lia).
    intros y Hy. destruct (Nat.le_gt_cases y (llen pre4)); [apply NB; lia|apply H4; lia].
  - destruct Hr as (-> & N4). eexists None, _. split; [reflexivity|]. split; auto. split; [exact (at_cache _ _ _ _ Ha4)|].
    (* no boundary in that leaf: it is the last *)
    destruct G2 as [G2|G2].
    { exfalso. unfold k4 in G2. rewrite (mk_leaf _ _ _ E4) in G2. fold k4 in G2.
      assert (mc (lc l4) = 0).
      { apply (bs_count _ _ _ BS); auto. { apply (t_leaf _ _ _ _ _ TS). eapply leaf_V; eauto. }
        intros x Hx Hb. apply (leaf_bnd _ _ _ _ E4) in Hb; auto. revert Hb. apply N4. lia. }
      lia. }
    subst post4. pose proof (leaf_total _ _ _ E4) as Et4. unfold CursorProofs.llen in Et4 at 2. cbn in Et4.
    intros y Hy. destruct (Nat.le_gt_cases y (llen pre4)); [apply NB; lia|apply N4; lia].
Qed.

Theorem prev_ok c : is_valid c ->
  exists r c', c_prev ops root M c = Some (r, c') /\
    match r with
    | Some x => c_pos c' = x /\ x < c_pos c /\ bnd s x /\ nobnd x (c_pos c - 1) /\ is_valid c'
    | None => c_leaf c' = None /\ cache_ok root c' /\ forall x, x < c_pos c -> ~ bnd s x
    end.
Proof.
  intros (l & pre & post & Hv). pose proof Hv as (Ha & Hp1 & Hp2). pose proof (at_leaves _ _ _ _ Ha) as E. pose proof Ha as (p & R & El & Eo & Ec).
  pose proof (leaf_V _ _ _ E) as Vl. unfold c_prev. rewrite El. pose proof (leaf_total _ _ _ E) as Et.
  destruct (Nat.eqb_spec (c_pos c) 0) as [Hz|Hz].
  { eexists None, _. split; [reflexivity|]. split; auto. split; [exact (at_cache _ _ _ _ Ha)|]. intros x Hx. lia. }
  rewrite Eo in *. replace (c_pos c <? llen pre) with false by lia.
  assert (exists r, (if 0 <? c_pos c - llen pre then m_prev M l (c_pos c - llen pre) else Some None) = Some r /\
    match r with
    | Some o => llen pre + o < c_pos c /\ bnd s (llen pre + o) /\ nobnd (llen pre + o) (c_pos c - 1)
    | None => (forall x, llen pre < x < c_pos c -> ~ bnd s x) /\ (llen pre < c_pos c -> m_can_fragment M = true)
    end) as (r & -> & Hr).
  { destruct (0 <? c_pos c - llen pre) eqn:Eq.
    - destruct (bs_prev _ _ _ BS l (c_pos c - llen pre) Vl ltac:(lia)) as (r & -> & Hr). exists r. split; auto. destruct r as [o|].
      + destruct Hr as (H1 & H2 & H3). split; [lia|]. split.
        * destruct (Nat.eq_dec o 0) as [->|].
          -- rewrite Nat.add_0_r. eapply start_bnd; eauto. apply (bs_zero _ _ _ BS (lc l)); auto. now apply (t_leaf _ _ _ _ _ TS).
          -- apply (leaf_bnd _ _ _ _ E); auto. lia.
        * intros y Hy. replace y with (llen pre + (y - llen pre)) by lia. rewrite (leaf_bnd _ _ _ _ E) by lia. apply H3. lia.
      + split.
        * intros y Hy. replace y with (llen pre + (y - llen pre)) by lia. rewrite (leaf_bnd _ _ _ _ E) by lia. apply Hr. lia.
        * intros _. destruct (m_can_fragment M) eqn:Ef; auto. exfalso. apply (Hr 0); [lia|]. apply (bs_zero _ _ _ BS); auto. now apply (t_leaf _ _ _ _ _ TS).
    - exists None. split; auto. split; intros; lia. }
  cbn [bind]. destruct r as [o|].
  { destruct Hr as (H1 & H2 & H3). eexists _, _. split; [reflexivity|]. cbn [c_pos]. repeat (split; auto).
    exists l, pre, post. split; [exists p; cbn; auto|]. cbn. rewrite ?Eo. split; [lia|left; lia]. }
  destruct Hr as [N1 Hf1]. pose proof (prev_leaf_ok ops lc V cut cinfo T LS TS root H Wr c l pre post Ha) as Hpl.
  destruct (rev pre) as [|l0 rpre] eqn:Er.
  { assert (pre = []) by (rewrite <- (rev_involutive pre), Er; reflexivity). subst pre. unfold CursorProofs.llen in *. cbn in *.
    destruct Hpl as (c' & -> & E1 & E2 & E3). cbn [bind negb]. eexists None, _. split; [reflexivity|]. split; auto.
    split. { destruct (at_cache _ _ _ _ Ha) as (q & ? & ? & ? & ? & Eq). unfold cache_ok. rewrite E3. eauto 8. }
    intros x Hx. destruct (Nat.eq_dec x 0) as [->|]; [|apply N1; lia].
    rewrite (bs_zero _ _ _ BS) by apply Ts. rewrite (Hf1 ltac:(lia)). discriminate. }
  assert (Epre : pre = rev rpre ++ [l0]) by (rewrite <- (rev_involutive pre), Er; reflexivity).
  destruct Hpl as (c1 & -> & Ha1 & Ep1). cbn [bind negb]. set (pre1 := rev rpre) in *. clearbody pre1. clear Er.
  pose proof (at_leaves _ _ _ _ Ha1) as E1. pose proof Ha1 as (p1 & R1 & El1 & Eo1 & Ec1).
  assert (Epl : llen pre = llen pre1 + length (lc l0)) by (rewrite Epre, llen_app, llen_one; reflexivity).
  pose proof (multi_pos _ _ _ E1 ltac:(right; discriminate)) as FP.
  assert (P0 : 0 < length (lc l0)).
  { rewrite E1 in FP. apply Forall_app in FP as [_ FP]. now inversion FP. }
  destruct (last_inside_ok c1 l0 pre1 (l :: post) (c_pos c) Ha1 P0 ltac:(lia)) as (r & c2 & -> & Hr). cbn [bind]. destruct r as [x|].
  { destruct Hr as (H1 & H2 & H3 & H4 & H5). eexists _, _. split; [reflexivity|]. split; auto. split; [lia|]. split; auto. split; auto.
    intros y Hy. destruct (Nat.le_gt_cases y (llen pre)); [apply H4; lia|apply N1; lia]. }
  destruct Hr as (-> & N0 & Hf).
  assert (N01 : forall y, llen pre1 < y < c_pos c -> ~ bnd s y).
  { intros y Hy. destruct (Nat.le_gt_cases y (llen pre)); [apply N0; lia|apply N1; lia]. }
  rewrite Ep1, Eo1, (measure_leaf_ok _ _ _ E1 P0). cbn [bind]. set (k1 := length pre1) in *.
  destruct (lk_pre _ _ _ E1) as [L1 _]. fold k1 in L1. destruct (idx _ _ _ E1) as (_ & _ & K1 & _). fold k1 in K1.
  destruct (Nat.eqb_spec (mk k1) 0) as [Mz|Mz].
  { eexists None, _. split; [reflexivity|]. split; auto. split; [exact (at_cache _ _ _ _ Ha1)|]. intros y Hy. destruct (Nat.le_gt_cases y (llen pre1)); [|apply N01; lia].
    destruct (Nat.eq_dec y 0) as [->|].
    - rewrite (bs_zero _ _ _ BS) by apply Ts. rewrite Hf. discriminate.
    - apply (nobnd_between 0 k1 Hf); [lia|lia|]. unfold lk at 1, CursorProofs.llen at 1. cbn. lia. }
  destruct (descend_metric_ok c1 (mk k1) (at_cache _ _ _ _ Ha1) ltac:(lia)) as (c3 & l3 & pre3 & post3 & -> & Ha3 & Ep3 & G1 & G2). cbn [bind].
  pose proof (at_leaves _ _ _ _ Ha3) as E3. set (k3 := length pre3) in *. destruct (lk_pre _ _ _ E3) as [L3 L3']. fold k3 in L3, L3'.
  destruct (idx _ _ _ E3) as (_ & _ & K3 & K3s). fold k3 in K3, K3s.
  assert (K31 : k3 < k1) by (destruct (Nat.lt_ge_cases k3 k1); auto; pose proof (mk_mono k1 k3 ltac:(lia)); lia).
  destruct G2 as [G2|G2].
  2: { exfalso. subst post3. apply (f_equal (@length _)) in K3s. rewrite skipn_length in K3s. cbn in K3s. lia. }
  pose proof (lk_mono (S k3) k1 ltac:(lia)) as Lm.
  assert (P3 : 0 < length (lc l3)).
  { rewrite E3 in FP. apply Forall_app in FP as [_ FP]. now inversion FP. }
  pose proof (nobnd_between (S k3) k1 Hf ltac:(lia) ltac:(lia)) as NB.
  destruct (last_inside_ok c3 l3 pre3 post3 (c_pos c) Ha3 P3 ltac:(lia)) as (r & c4 & -> & Hr). eexists r, c4. split; [reflexivity|]. destruct r as [x|].
  - destruct Hr as (H1 & H2 & H3 & H4 & H5). split; auto. split; [lia|]. split; auto. split; auto.
    intros y Hy. destruct (Nat.le_gt_cases y (llen pre3 + length (lc l3))); [apply H4; lia|].
    destruct (Nat.le_gt_cases y (llen pre1)); [apply NB; lia|apply N01; lia].
  - exfalso. destruct Hr as (_ & N3 & _). unfold k3 in G2. rewrite (mk_leaf _ _ _ E3) in G2. fold k3 in G2.
    assert (mc (lc l3) = 0); [|lia]. apply (bs_count _ _ _ BS); auto. { apply (t_leaf _ _ _ _ _ TS). eapply leaf_V; eauto. }
    intros y Hy Hb. apply (leaf_bnd _ _ _ _ E3) in Hb; auto. revert Hb. apply N3; lia.
Qed.

Theorem is_boundary_ok c : is_valid c ->
  exists b c', c_is_boundary ops root M c = Some (b, c') /\ (b = true <-> bnd s (c_pos c)) /\ c_pos c' = c_pos c /\ is_valid c'.
Proof.
  intros (l & pre & post & Hv). pose proof Hv as (Ha & Hp1 & Hp2). pose proof (at_leaves _ _ _ _ Ha) as E. pose proof Ha as (p & R & El & Eo & Ec).
  pose proof (leaf_V _ _ _ E) as Vl. unfold c_is_boundary. rewrite El. rewrite Eo in *.
  assert (Hvc : is_valid c) by (exists l, pre, post; exact Hv).
  destruct ((c_pos c =? llen pre) && negb (m_can_fragment M)) eqn:B.
  { exists true, c. split; auto. split; auto. split; auto. intros _. replace (c_pos c) with (llen pre) by lia. eapply start_bnd; eauto.
    destruct (m_can_fragment M); auto. cbn in B. lia. }
  destruct ((c_pos c =? 0) || (llen pre <? c_pos c)) eqn:B2.
  - replace (c_pos c <? llen pre) with false by lia. destruct (bs_is _ _ _ BS l (c_pos c - llen pre) Vl ltac:(lia)) as (b & -> & Hb).
    exists b, c. split; auto. split; auto. rewrite Hb. destruct (Nat.eq_dec (c_pos c) (llen pre)) as [Ez|Ez].
    + assert (c_pos c = 0) by lia. rewrite Ez, Nat.sub_diag. rewrite <- Ez, H0. rewrite !(bs_zero _ _ _ BS); [reflexivity|apply Ts|].
      now apply (t_leaf _ _ _ _ _ TS).
    + rewrite <- (leaf_bnd _ _ _ _ E) by lia. now replace (llen pre + (c_pos c - llen pre)) with (c_pos c) by lia.
  - pose proof (prev_leaf_ok ops lc V cut cinfo T LS TS root H Wr c l pre post Ha) as Hpl.
    destruct (rev pre) as [|l0 rpre] eqn:Er.
    { assert (pre = []) by (rewrite <- (rev_involutive pre), Er; reflexivity). subst pre. change (llen []) with 0 in *. lia. }
    assert (Epre : pre = rev rpre ++ [l0]) by (rewrite <- (rev_involutive pre), Er; reflexivity).
    destruct Hpl as (c1 & -> & Ha1 & Ep1). cbn [bind]. set (pre1 := rev rpre) in *. clearbody pre1. clear Er.
    pose proof (at_leaves _ _ _ _ Ha1) as E1. pose proof Ha1 as (p1 & R1 & El1 & Eo1 & Ec1). rewrite El1. cbn [bind].
    assert (Epl : llen pre = llen pre1 + length (lc l0)) by (rewrite Epre, llen_app, llen_one; reflexivity).
    pose proof (leaf_V _ _ _ E1) as V0. rewrite (s_len _ _ _ _ _ LS l0 V0).
    destruct (bs_is _ _ _ BS l0 (length (lc l0)) V0 ltac:(lia)) as (b & -> & Hb). cbn [bind].
    destruct (next_leaf_ok ops lc V cut cinfo T LS TS root H Wr c1 l0 pre1 (l :: post) Ha1) as (c2 & -> & Ha2 & Ep2). cbn [bind].
    exists b, c2. split; auto. pose proof Ha2 as (p2 & R2 & El2 & Eo2 & Ec2). rewrite <- Epre in Eo2.
    pose proof (multi_pos _ _ _ E1 ltac:(right; discriminate)) as FP.
    assert (P0 : 0 < length (lc l0)). { rewrite E1 in FP. apply Forall_app in FP as [_ FP]. now inversion FP. }
    assert (Ez : c_pos c = llen pre) by lia. split.
    + rewrite Hb, <- (leaf_bnd _ _ _ _ E1) by lia. now rewrite Ez, Epl.
    + split; [lia|]. exists l, (pre1 ++ [l0]), post. split; auto. split; [lia|]. left. rewrite Ep2.
      pose proof FP as FP'. rewrite E in FP'. apply Forall_app in FP' as [_ FP']. inversion FP'. lia.
Qed.

Theorem at_or_next_ok c : is_valid c -> m_can_fragment M = true \/ cut s (c_pos c) ->
  exists r c', c_at_or_next ops root M c = Some (r, c') /\
    match r with
    | Some x => c_pos c' = x /\ c_pos c <= x <= length s /\ bnd s x /\ (forall y, c_pos c <= y < x -> ~ bnd s y) /\ is_valid c'
    | None => c_leaf c' = None /\ cache_ok root c' /\ forall y, c_pos c <= y <= length s -> ~ bnd s y
    end.
Proof.
  intros Hv Hst. unfold c_at_or_next. destruct (is_boundary_ok c Hv) as (b & c1 & -> & Hb & Ep & Hv1). cbn [bind]. destruct b.
  - eexists _, _. split; [reflexivity|]. cbn iota. rewrite Ep. split; auto. split.
    + destruct Hv as (l & pre & post & Ha & H1 & H2). pose proof (leaf_total _ _ _ (at_leaves _ _ _ _ Ha)) as Et. destruct Ha as (p & _ & _ & Eo & _). rewrite Eo in *. lia.
    + split; [now apply Hb|]. split; auto. intros y Hy. lia.
  - destruct (next_ok c1 Hv1) as (r & c' & E & Hr); [now rewrite Ep|]. exists r, c'. split; auto. rewrite Ep in Hr.
    assert (N : ~ bnd s (c_pos c)) by (intros Hn; apply Hb in Hn; discriminate). destruct r as [x|].
    + destruct Hr as (H1 & H2 & H3 & H4 & H5). split; auto. split; [lia|]. split; auto. split; auto.
      intros y Hy. destruct (Nat.eq_dec y (c_pos c)) as [->|]; auto. apply H4. lia.
    + destruct Hr as (H1 & H2 & H3). split; auto. split; auto. intros y Hy. destruct (Nat.eq_dec y (c_pos c)) as [->|]; auto. apply H3. lia.
Qed.

Theorem at_or_prev_ok c : is_valid c ->
  exists r c', c_at_or_prev ops root M c = Some (r, c') /\
    match r with
    | Some x => c_pos c' = x /\ x <= c_pos c /\ bnd s x /\ (forall y, x < y <= c_pos c -> ~ bnd s y) /\ is_valid c'
    | None => c_leaf c' = None /\ cache_ok root c' /\ forall y, y <= c_pos c -> ~ bnd s y
    end.
Proof.
  intros Hv. unfold c_at_or_prev. destruct (is_boundary_ok c Hv) as (b & c1 & -> & Hb & Ep & Hv1). cbn [bind]. destruct b.
  - eexists _, _. split; [reflexivity|]. cbn iota. rewrite Ep. split; auto. split; auto. split; [now apply Hb|]. split; auto. intros y Hy. lia.
  - destruct (prev_ok c1 Hv1) as (r & c' & E & Hr). exists r, c'. split; auto. rewrite Ep in Hr.
    assert (N : ~ bnd s (c_pos c)) by (intros Hn; apply Hb in Hn; discriminate). destruct r as [x|].
    + destruct Hr as (H1 & H2 & H3 & H4 & H5). split; auto. split; [lia|]. split; auto. split; auto.
      intros y Hy. destruct (Nat.eq_dec y (c_pos c)) as [->|]; auto. apply H4. lia.
    + destruct Hr as (H1 & H2 & H3). split; auto. split; auto. intros y Hy. destruct (Nat.eq_dec y (c_pos c)) as [->|]; auto. apply H3. lia.
Qed.
End Boundary.
