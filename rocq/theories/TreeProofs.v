(** The tree operations keep trees well formed and compute on the sequences. *)
From Coq Require Import List Arith Bool Lia ZifyBool.
From Verif Require Import Base ListLib TreeModel TreeSpec.
Import ListNotations.

Section Proofs.
Context {L I X : Type} (ops : leafops L I).
Context (lc : L -> list X) (V : L -> Prop) (cut : list X -> nat -> Prop) (cinfo : list X -> I).
Context (LS : leaf_spec ops lc V cut cinfo).
Notation content := (content (I := I) lc).
Notation wf := (wf ops lc V cinfo).
Notation ok := (n_ok ops).
Notation nd := (node L I).
Implicit Types (n : nd) (cs : list nd).

Lemma wf_height h n : wf h n -> n_height n = h.
Proof. destruct h, n; cbn; tauto. Qed.
Lemma wf_len h n : wf h n -> n_len n = length (content n).
Proof. destruct h, n; cbn; tauto. Qed.
Lemma wf_info h n : wf h n -> n_info n = cinfo (content n).
Proof. destruct h, n; cbn; tauto. Qed.

Lemma from_leaf_wf l : V l -> wf 0 (from_leaf ops l) /\ content (from_leaf ops l) = lc l.
Proof.
  intros H. cbn. rewrite (s_len _ _ _ _ _ LS), (s_info _ _ _ _ _ LS); auto.
Qed.

Lemma from_nodes_ok h cs : Forall (wf h) cs -> Forall (fun c => ok c = true) cs -> 2 <= length cs -> length cs <= 8 ->
  exists n, from_nodes ops cs = Some n /\ wf (S h) n /\ content n = flat_map content cs /\
    get_children n = Some cs.
Proof.
  intros HW HO H1 H2. destruct cs as [|c rest]; [cbn in H1; lia|]. unfold from_nodes.
  inversion HW as [|? ? Hc Hr]; subst. inversion HO as [|? ? Oc Or]; subst.
  rewrite (wf_height h c Hc), Oc.
  assert (F : forallb (fun x => (n_height x + 1 =? h + 1) && ok x) rest = true).
  { apply forallb_forall. intros x Hx. rewrite Forall_forall in Hr, Or. rewrite (wf_height h x), Or by auto. lia. }
  rewrite F. replace (1 <? length (c :: rest)) with true by lia.
  replace (length (c :: rest) <=? MAX_CHILDREN) with true by (unfold MAX_CHILDREN; lia). cbn [andb].
  eexists. split; [reflexivity|]. split; [|auto]. cbn [TreeSpec.wf]. split; [lia|]. split; auto. split; auto. split; auto. split; auto.
  clear F HW HO H1 H2 Or Oc.
  assert (G : forall r p, Forall (wf h) r -> 
     fold_left (fun k x => k + n_len x) r (length p) = length (p ++ flat_map content r) /\
     fold_left (fun i x => i_acc ops i (n_info x)) r (cinfo p) = cinfo (p ++ flat_map content r)).
  { induction r as [|x r IH]; intros p Hp; cbn [fold_left flat_map].
    - now rewrite app_nil_r.
    - inversion Hp; subst. rewrite (wf_len h x), (wf_info h x) by auto.
      rewrite <- app_length, <- (s_acc _ _ _ _ _ LS), app_assoc. now apply IH. }
  rewrite (wf_len h c Hc), (wf_info h c Hc). cbn [flat_map]. apply G. auto.
Qed.

Lemma ok_int h n cs : wf (S h) n -> get_children n = Some cs -> ok n = (4 <=? length cs).
Proof. destruct n; cbn; [tauto|]. intros _ [= <-]. reflexivity. Qed.

Lemma wf_children h n : wf (S h) n -> exists cs, get_children n = Some cs /\ Forall (wf h) cs /\
  Forall (fun c => ok c = true) cs /\ 2 <= length cs /\ length cs <= 8 /\ content n = flat_map content cs.
Proof. destruct n; cbn; [tauto|]. intros (_ & H). exists cs. unfold MAX_CHILDREN in H. tauto. Qed.

Lemma Forall_firstn {T} (P : T -> Prop) k l : Forall P l -> Forall P (firstn k l).
Proof. rewrite !Forall_forall. intros H x Hx. apply H. rewrite <- (firstn_skipn k l). apply in_or_app. auto. Qed.
Lemma Forall_skipn {T} (P : T -> Prop) k l : Forall P l -> Forall P (skipn k l).
Proof. rewrite !Forall_forall. intros H x Hx. apply H. rewrite <- (firstn_skipn k l). apply in_or_app. auto. Qed.

(** Splitting more than eight children in two. *)
Lemma split_ok h cs : Forall (wf h) cs -> Forall (fun c => ok c = true) cs -> 8 < length cs -> length cs <= 16 ->
  let k := Nat.min MAX_CHILDREN (length cs - MIN_CHILDREN) in
  exists a b, from_nodes ops (firstn k cs) = Some a /\ from_nodes ops (skipn k cs) = Some b /\
    wf (S h) a /\ wf (S h) b /\ ok a = true /\ ok b = true /\ content a ++ content b = flat_map content cs.
Proof.
  intros HW HO H1 H2 k. subst k. unfold MAX_CHILDREN, MIN_CHILDREN. set (k := Nat.min 8 (length cs - 4)).
  assert (Hk : 5 <= k /\ k <= 8 /\ 4 <= length cs - k /\ length cs - k <= 8) by lia.
  assert (L1 : length (firstn k cs) = k) by (rewrite firstn_length; lia).
  assert (L2 : length (skipn k cs) = length cs - k) by apply skipn_length.
  destruct (from_nodes_ok h (firstn k cs)) as (a & Ea & Wa & Ca & Ga); try apply Forall_firstn; auto; try lia.
  destruct (from_nodes_ok h (skipn k cs)) as (b & Eb & Wb & Cb & Gb); try apply Forall_skipn; auto; try lia.
  exists a, b. rewrite (ok_int h a _ Wa Ga), (ok_int h b _ Wb Gb), L1, L2, Ca, Cb, <- flat_map_app, firstn_skipn.
  repeat (split; auto); lia.
Qed.

Lemma merge_nodes_ok h (c1 c2 : list nd) : Forall (wf h) (c1 ++ c2) -> Forall (fun c => ok c = true) (c1 ++ c2) ->
  2 <= length c1 + length c2 -> length c1 + length c2 <= 16 ->
  exists n k, merge_nodes ops c1 c2 = Some n /\ wf k n /\ content n = flat_map content (c1 ++ c2) /\
    (k = S h /\ (4 <= length c1 + length c2 -> ok n = true) \/ k = S (S h)).
Proof.
  intros HW HO H1 H2. unfold merge_nodes. rewrite <- app_length in *. destruct (length (c1 ++ c2) <=? MAX_CHILDREN) eqn:E.
  - unfold MAX_CHILDREN in E. destruct (from_nodes_ok h (c1 ++ c2)) as (n & En & Wn & Cn & Gn); auto; try lia.
    exists n, (S h). split; auto. split; auto. split; auto. left. split; auto. intros H. rewrite (ok_int h n _ Wn Gn). lia.
  - unfold MAX_CHILDREN in E. destruct (split_ok h (c1 ++ c2)) as (a & b & -> & -> & Wa & Wb & Oa & Ob & C); auto; try lia.
    cbn [bind]. destruct (from_nodes_ok (S h) [a; b]) as (n & En & Wn & Cn & Gn); cbn [length]; auto; try lia.
    exists n, (S (S h)). split; auto. split; auto. split; [|now right]. rewrite Cn. cbn. rewrite app_nil_r. exact C.
Qed.

Lemma merge_leaves_ok a b : wf 0 a -> wf 0 b -> ok a && ok b = false ->
  exists n h, merge_leaves ops a b = Some n /\ wf h n /\ content n = content a ++ content b /\
    (h = 0 /\ (ok a || ok b = true -> ok n = true) \/ h = 1).
Proof.
  destruct a as [ka ia la|], b as [kb ib lb|]; cbn [TreeSpec.wf]; try tauto. intros (Va & -> & ->) (Vb & -> & ->) O.
  cbn [n_ok] in O. unfold merge_leaves. cbn [get_leaf bind]. rewrite O, (s_len _ _ _ _ _ LS) by auto.
  destruct (s_push _ _ _ _ _ LS la lb Va Vb O) as (a' & r & -> & Va' & H). cbn [bind]. destruct r as [b'|].
  - destruct H as (Vb' & C & Oa & Ob).
    destruct (from_leaf_wf a' Va') as [W1 C1]. destruct (from_leaf_wf b' Vb') as [W2 C2].
    destruct (from_nodes_ok 0 [from_leaf ops a'; from_leaf ops b']) as (n & En & Wn & Cn & _); cbn [length]; auto; try lia.
    exists n, 1. split; auto. split; auto. split; [|now right]. rewrite Cn. cbn. now rewrite app_nil_r.
  - destruct H as (C & Oa). destruct (from_leaf_wf a' Va') as [W1 C1]. exists (from_leaf ops a'), 0.
    split; auto.
Qed.

Lemma concat_f_ok f : forall h1 h2 n1 n2, h1 + h2 < f -> wf h1 n1 -> wf h2 n2 ->
  exists n h, concat_f ops f n1 n2 = Some n /\ wf h n /\ content n = content n1 ++ content n2 /\
    (h = Nat.max h1 h2 /\ (h1 = h /\ ok n1 = true \/ h2 = h /\ ok n2 = true -> ok n = true) \/ h = S (Nat.max h1 h2)).
Proof.
  induction f as [|f IH]; intros h1 h2 n1 n2 Hf W1 W2; [lia|]. cbn [concat_f].
  rewrite (wf_height h1 n1 W1), (wf_height h2 n2 W2).
  destruct (Nat.compare_spec h1 h2) as [E|E|E].
  - subst h2. destruct (ok n1 && ok n2) eqn:O.
    + apply andb_prop in O as [O1 O2]. destruct (from_nodes_ok h1 [n1; n2]) as (n & En & Wn & Cn & _); cbn [length]; auto; try lia.
      exists n, (S h1). split; auto. split; auto. split; [|right; lia]. rewrite Cn. cbn. now rewrite app_nil_r.
    + destruct (h1 =? 0) eqn:E0.
      * apply Nat.eqb_eq in E0. subst. destruct (merge_leaves_ok n1 n2 W1 W2 O) as (n & h & En & Wn & Cn & H).
        exists n, h. split; auto. split; auto. split; auto. destruct H as [[-> H]| ->]; [left|now right].
        split; auto. intros [[_ H']|[_ H']]; apply H; rewrite H'; auto. apply orb_true_r.
      * destruct h1 as [|h]; [discriminate|].
        destruct (wf_children h n1 W1) as (c1 & G1 & F1 & O1 & L1 & U1 & C1).
        destruct (wf_children h n2 W2) as (c2 & G2 & F2 & O2 & L2 & U2 & C2).
        rewrite G1, G2. cbn [bind].
        destruct (merge_nodes_ok h c1 c2) as (n & k & En & Wn & Cn & H); try lia.
        { apply Forall_app; auto. }
        { apply Forall_app; auto. }
        exists n, k. split; auto. split; auto. split; [rewrite Cn, flat_map_app; congruence|].
        destruct H as [[-> H]| ->]; [left|right]; [|lia]. split; [lia|]. intros _. apply H. lia.
  - destruct h2 as [|h]; [lia|]. destruct (wf_children h n2 W2) as (c2 & G2 & F2 & O2 & L2 & U2 & C2).
    rewrite G2. cbn [bind]. replace (S h - 1) with h by lia. destruct ((h1 =? h) && ok n1) eqn:B.
    + apply andb_prop in B as [B1 B2]. apply Nat.eqb_eq in B1. subst h1.
      destruct (merge_nodes_ok h [n1] c2) as (n & k & En & Wn & Cn & H); cbn [length]; try lia; try (constructor; auto).
      exists n, k. split; auto. split; auto. split; [rewrite Cn; cbn; congruence|].
      cbn [length] in H. destruct H as [[-> H]| ->]; [left|right; lia]. split; [lia|].
      intros [[? _]|[_ H']]; [lia|]. rewrite (ok_int h n2 c2 W2 G2) in H'. apply H. lia.
    + destruct c2 as [|c rest]; [cbn in L2; lia|]. inversion F2 as [|? ? Fc Fr]; subst. inversion O2 as [|? ? Oc Or]; subst.
      destruct (IH h1 h n1 c ltac:(lia) W1 Fc) as (nr & hr & Er & Wr & Cr & Hr). rewrite Er. cbn [bind].
      rewrite (wf_height hr nr Wr). rewrite Nat.max_r in Hr by lia. cbn [length flat_map] in *.
      destruct Hr as [[-> Hr]| ->].
      * rewrite Nat.eqb_refl.
        destruct (merge_nodes_ok h [nr] rest) as (n & k & En & Wn & Cn & H); cbn [length]; try lia; try (constructor; auto).
        exists n, k. split; auto. split; auto. split; [rewrite Cn, C2; cbn; rewrite Cr; now rewrite app_assoc|].
        cbn [length] in H. destruct H as [[-> H]| ->]; [left|right; lia]. split; [lia|].
        intros [[? _]|[_ H']]; [lia|]. rewrite (ok_int h n2 _ W2 G2) in H'. cbn [length] in H'. apply H. lia.
      * replace (S h =? h) with false by lia.
        destruct (wf_children h nr Wr) as (c1 & G1 & F1 & O1 & L1 & U1 & C1). rewrite G1. cbn [bind].
        destruct (merge_nodes_ok h c1 rest) as (n & k & En & Wn & Cn & H); try lia; try (apply Forall_app; auto).
        exists n, k. split; auto. split; auto. split; [rewrite Cn, C2, flat_map_app, <- C1, Cr; now rewrite app_assoc|].
        destruct H as [[-> H]| ->]; [left|right; lia]. split; [lia|].
        intros [[? _]|[_ H']]; [lia|]. rewrite (ok_int h n2 _ W2 G2) in H'. cbn [length] in H'. apply H. lia.
  - destruct h1 as [|h]; [lia|]. destruct (wf_children h n1 W1) as (c1 & G1 & F1 & O1 & L1 & U1 & C1).
    rewrite G1. cbn [bind]. replace (S h - 1) with h by lia. destruct ((h2 =? h) && ok n2) eqn:B.
    + apply andb_prop in B as [B1 B2]. apply Nat.eqb_eq in B1. subst h2.
      destruct (merge_nodes_ok h c1 [n2]) as (n & k & En & Wn & Cn & H); cbn [length]; try lia; try (apply Forall_app; auto).
      exists n, k. split; auto. split; auto. split; [rewrite Cn, flat_map_app; cbn; rewrite app_nil_r; congruence|].
      cbn [length] in H. destruct H as [[-> H]| ->]; [left|right; lia]. split; [lia|].
      intros [[_ H']|[? _]]; [|lia]. rewrite (ok_int h n1 c1 W1 G1) in H'. apply H. lia.
    + destruct (rev c1) as [|c ri] eqn:Rv.
      { apply (f_equal (@length _)) in Rv. rewrite rev_length in Rv. cbn in Rv. lia. }
      assert (Ec : c1 = rev ri ++ [c]) by (rewrite <- (rev_involutive c1), Rv; reflexivity).
      subst c1. apply Forall_app in F1 as [Fr Fc]. apply Forall_app in O1 as [Or Oc]. inversion Fc; subst. inversion Oc; subst.
      destruct (IH h h2 c n2 ltac:(lia)) as (nr & hr & Er & Wr & Cr & Hr); auto. rewrite Er. cbn [bind].
      rewrite (wf_height hr nr Wr). rewrite Nat.max_l in Hr by lia. rewrite app_length in *. cbn [length] in *.
      rewrite flat_map_app in C1. cbn [flat_map] in C1. rewrite app_nil_r in C1.
      destruct Hr as [[-> Hr]| ->].
      * rewrite Nat.eqb_refl.
        destruct (merge_nodes_ok h (rev ri) [nr]) as (n & k & En & Wn & Cn & H); cbn [length]; try lia.
        { apply Forall_app; auto. }
        { apply Forall_app; split; auto. }
        exists n, k. split; auto. split; auto.
        split; [rewrite Cn, C1, flat_map_app; cbn; rewrite Cr, app_nil_r; now rewrite app_assoc|].
        cbn [length] in H. destruct H as [[-> H]| ->]; [left|right; lia]. split; [lia|].
        intros [[_ H']|[? _]]; [|lia]. rewrite (ok_int h n1 _ W1 G1), app_length in H'. cbn [length] in H'. apply H. lia.
      * replace (S h =? h) with false by lia.
        destruct (wf_children h nr Wr) as (c2 & G2 & F2 & O2 & L2 & U2 & C2). rewrite G2. cbn [bind].
        destruct (merge_nodes_ok h (rev ri) c2) as (n & k & En & Wn & Cn & H); try lia; try (apply Forall_app; auto).
        exists n, k. split; auto. split; auto. split; [rewrite Cn, C1, flat_map_app, <- C2, Cr; now rewrite app_assoc|].
        destruct H as [[-> H]| ->]; [left|right; lia]. split; [lia|].
        intros [[_ H']|[? _]]; [|lia]. rewrite (ok_int h n1 _ W1 G1), app_length in H'. cbn [length] in H'. apply H. lia.
Qed.

Lemma concat_ok h1 h2 n1 n2 : wf h1 n1 -> wf h2 n2 ->
  exists n h, concat ops n1 n2 = Some n /\ wf h n /\ content n = content n1 ++ content n2 /\
    Nat.max h1 h2 <= h /\ h <= S (Nat.max h1 h2).
Proof.
  intros W1 W2. destruct (concat_f_ok (S (n_height n1 + n_height n2)) h1 h2 n1 n2) as (n & h & E & W & C & H); auto.
  { rewrite (wf_height h1 n1), (wf_height h2 n2) by auto. lia. }
  exists n, h. split; auto. split; auto. split; auto. lia.
Qed.

(** ** The builder
    [vec h v]: a vector of the stack that holds trees of height [h]. *)
Definition vec (h : nat) (v : list nd) : Prop :=
  v <> [] /\ length v < 8 /\ Forall (wf h) v /\ (2 <= length v -> Forall (fun c => ok c = true) v).
(** Heights increase towards the bottom of the stack. *)
Fixpoint stack_ok (lo : nat) (b : builder) : Prop :=
  match b with
  | [] => True
  | v :: b' => exists h, lo <= h /\ vec h v /\ stack_ok (S h) b'
  end.
Definition b_content (b : builder) : list X := flat_map (flat_map content) (rev b).

Lemma stack_le lo lo' b : lo' <= lo -> stack_ok lo b -> stack_ok lo' b.
Proof. destruct b; cbn; auto. intros H (h & H1 & H2). exists h. split; [lia|auto]. Qed.

Lemma stack0 lo b : stack_ok lo b -> stack_ok 0 b.
Proof. apply stack_le. lia. Qed.

Lemma b_content_cons v b : b_content (v :: b) = b_content b ++ flat_map content v.
Proof. unfold b_content. cbn [rev]. rewrite flat_map_app. cbn. now rewrite app_nil_r. Qed.

Lemma pop_vec_ok h v : v <> [] -> length v <= 8 -> Forall (wf h) v ->
  (2 <= length v -> Forall (fun c => ok c = true) v) ->
  exists n k, pop_vec ops v = Some n /\ wf k n /\ content n = flat_map content v /\
    (length v = 1 /\ k = h \/ 2 <= length v /\ k = S h).
Proof.
  intros Hv Hl HW HO. destruct v as [|x [|y r]]; [congruence| |].
  - inversion HW; subst. exists x, h. cbn. rewrite app_nil_r. auto 6.
  - destruct (from_nodes_ok h (x :: y :: r) HW) as (n & En & Wn & Cn & _); cbn [length] in *; try lia.
    { apply HO. lia. }
    exists n, (S h). unfold pop_vec. rewrite En. repeat (split; auto). right. split; auto. lia.
Qed.

Lemma push_equal_ok h v n : vec h v -> wf h n ->
  exists v', push_equal ops v n = Some v' /\ v' <> [] /\ length v' <= 8 /\ Forall (wf h) v' /\
    (2 <= length v' -> Forall (fun c => ok c = true) v') /\
    flat_map content v' = flat_map content v ++ content n.
Proof.
  intros (Hv & Hl & HW & HO) Wn. unfold push_equal. destruct (rev v) as [|last ri] eqn:Rv.
  { exfalso. apply Hv. rewrite <- (rev_involutive v), Rv. reflexivity. }
  assert (Ev : v = rev ri ++ [last]) by (rewrite <- (rev_involutive v), Rv; reflexivity).
  set (init := rev ri) in *. clearbody init. subst v. clear Rv Hv.
  apply Forall_app in HW as [HI HL]. inversion HL as [|? ? Wl _]; subst. rewrite app_length in *. cbn [length] in *.
  assert (HO' : 1 <= length init -> Forall (fun c => ok c = true) init /\ ok last = true).
  { intros H. specialize (HO ltac:(lia)). apply Forall_app in HO as [O1 O2]. inversion O2; auto. }
  destruct (ok last && ok n) eqn:B.
  - apply andb_prop in B as [B1 B2]. eexists. split; [reflexivity|]. rewrite !app_length. cbn [length].
    split; [destruct init; discriminate|]. split; [lia|]. split.
    { repeat (apply Forall_app; split; auto). }
    split.
    { intros _. apply Forall_app; split; auto. apply Forall_app; split; auto. destruct init; [constructor|]. apply HO'. cbn. lia. }
    rewrite !flat_map_app. cbn. now rewrite !app_nil_r.
  - rewrite (wf_height h n Wn). destruct (h =? 0) eqn:E0.
    + apply Nat.eqb_eq in E0. subst h. destruct last as [kl il l|]; [|destruct Wl]. destruct n as [kn i_n ln|]; [|destruct Wn].
      cbn [TreeSpec.wf] in Wl, Wn. destruct Wl as (Vl & -> & ->). destruct Wn as (Vn & -> & ->). cbn [get_leaf bind n_len n_ok] in *.
      destruct (s_push _ _ _ _ _ LS l ln Vl Vn B) as (a' & r & -> & Va' & H). cbn [bind].
      destruct (from_leaf_wf a' Va') as [W1 C1]. eexists. split; [reflexivity|].
      split; [destruct init; discriminate|]. rewrite !app_length. cbn [length].
      destruct r as [b'|].
      * destruct H as (Vb' & C & Oa & Ob). destruct (from_leaf_wf b' Vb') as [W2 C2]. cbn [length].
        split; [lia|]. split; [repeat (apply Forall_app; split; auto)|]. split.
        { intros _. apply Forall_app; split; [destruct init; [constructor|apply HO'; cbn; lia]|]. apply Forall_app; split; auto. }
        rewrite !flat_map_app. cbn [flat_map]. rewrite !app_nil_r, C1, C2, C. cbn. now rewrite app_assoc.
      * destruct H as (C & Oa). cbn [length]. split; [lia|]. split; [repeat (apply Forall_app; split; auto)|]. split.
        { intros H2. destruct HO' as [O1 O2]; [lia|]. apply Forall_app; split; auto. apply Forall_app; split; auto.
          constructor; auto. cbn [from_leaf n_ok]. apply Oa. rewrite O2. reflexivity. }
        rewrite !flat_map_app. cbn [flat_map]. rewrite !app_nil_r, C1, C. cbn. now rewrite app_assoc.
    + destruct h as [|h]; [discriminate|].
      destruct (wf_children h last Wl) as (c1 & G1 & F1 & O1 & L1 & U1 & C1).
      destruct (wf_children h n Wn) as (c2 & G2 & F2 & O2 & L2 & U2 & C2). rewrite G1, G2. cbn [bind].
      assert (F12 : Forall (wf h) (c1 ++ c2)) by (apply Forall_app; auto).
      assert (O12 : Forall (fun c => ok c = true) (c1 ++ c2)) by (apply Forall_app; auto).
      rewrite <- app_length. destruct (length (c1 ++ c2) <=? MAX_CHILDREN) eqn:Em; unfold MAX_CHILDREN in Em.
      * destruct (from_nodes_ok h (c1 ++ c2) F12 O12) as (x & -> & Wx & Cx & Gx); try lia.
        { rewrite app_length. lia. }
        cbn [bind]. eexists. split; [reflexivity|]. split; [destruct init; discriminate|]. rewrite app_length. cbn [length].
        split; [lia|]. split; [apply Forall_app; auto|]. split.
        { intros H2. destruct HO' as [OI OL]; [lia|]. apply Forall_app; split; auto. constructor; auto.
          rewrite (ok_int h x _ Wx Gx). rewrite (ok_int h last _ Wl G1) in OL. rewrite app_length. lia. }
        rewrite !flat_map_app. cbn [flat_map]. rewrite !app_nil_r, Cx, flat_map_app, <- C1, <- C2. now rewrite app_assoc.
      * destruct (split_ok h (c1 ++ c2) F12 O12) as (x & y & -> & -> & Wx & Wy & Ox & Oy & C); try lia.
        { rewrite app_length. lia. }
        cbn [bind]. eexists. split; [reflexivity|]. split; [destruct init; discriminate|]. rewrite app_length. cbn [length].
        split; [lia|]. split; [apply Forall_app; auto|]. split.
        { intros H2. apply Forall_app; split; auto. destruct init; [constructor|apply HO'; cbn; lia]. }
        rewrite !flat_map_app. cbn [flat_map]. rewrite !app_nil_r, C, flat_map_app, <- C1, <- C2. now rewrite app_assoc.
Qed.

Lemma b_push_ok b : forall lo h n, stack_ok lo b -> wf h n ->
  exists b', b_push ops b n = Some b' /\ stack_ok (Nat.min lo h) b' /\ b_content b' = b_content b ++ content n.
Proof.
  induction b as [|v b IH]; intros lo h n HS Wn; cbn [b_push].
  - eexists. split; [reflexivity|]. split.
    + exists h. split; [lia|]. split; [|exact Logic.I]. repeat split; auto; try discriminate; cbn; try lia. 
    + unfold b_content. cbn. now rewrite !app_nil_r.
  - cbn [stack_ok] in HS. destruct HS as (hv & Hlo & Hv & HS). pose proof Hv as (Hne & Hlen & HW & HO).
    destruct v as [|c v]; [congruence|]. inversion HW as [|? ? Wc Wv]; subst.
    rewrite (wf_height hv c Wc), (wf_height h n Wn). destruct (Nat.compare_spec hv h) as [E|E|E].
    + subst h. destruct (push_equal_ok hv (c :: v) n Hv Wn) as (v' & -> & Hne' & Hl' & HW' & HO' & C'). cbn [bind].
      unfold MAX_CHILDREN. destruct (length v' <? 8) eqn:El.
      * eexists. split; [reflexivity|]. split.
        { exists hv. split; [lia|]. split; [|auto]. split; auto. split; auto. lia. }
        rewrite !b_content_cons, C', app_assoc. reflexivity.
      * destruct (pop_vec_ok hv v' Hne' Hl' HW' HO') as (x & k & -> & Wx & Cx & Hk). cbn [bind].
        destruct (IH (S hv) k x HS Wx) as (b' & -> & S' & Cb). exists b'. split; auto. split.
        { eapply stack_le; [|exact S']. lia. }
        rewrite Cb, Cx, C', b_content_cons, app_assoc. reflexivity.
    + destruct (pop_vec_ok hv (c :: v) Hne ltac:(lia) HW HO) as (x & k & -> & Wx & Cx & Hk). cbn [bind].
      destruct (concat_ok k h x n Wx Wn) as (y & k' & -> & Wy & Cy & K1 & K2). cbn [bind].
      destruct (IH (S hv) k' y HS Wy) as (b' & -> & S' & Cb). exists b'. split; auto. split.
      { eapply stack_le; [|exact S']. lia. }
      rewrite Cb, Cy, Cx, b_content_cons, !app_assoc. reflexivity.
    + eexists. split; [reflexivity|]. split.
      * exists h. split; [lia|]. split.
        { repeat split; auto; try discriminate; cbn; try lia. }
        exists hv. split; [lia|]. auto.
      * rewrite (b_content_cons [n]). cbn. now rewrite app_nil_r.
Qed.

Lemma build_loop_ok b : forall lo h n, stack_ok lo b -> wf h n ->
  exists n' h', build_loop ops b n = Some n' /\ wf h' n' /\ content n' = b_content b ++ content n.
Proof.
  induction b as [|v b IH]; intros lo h n HS Wn; cbn [build_loop].
  - exists n, h. auto.
  - destruct HS as (hv & Hlo & (Hne & Hlen & HW & HO) & HS).
    destruct (pop_vec_ok hv v Hne ltac:(lia) HW HO) as (x & k & -> & Wx & Cx & Hk). cbn [bind].
    destruct (concat_ok k h x n Wx Wn) as (y & k' & -> & Wy & Cy & _). cbn [bind].
    destruct (IH _ k' y HS Wy) as (n' & h' & -> & W' & C'). exists n', h'. split; auto. split; auto.
    rewrite C', Cy, Cx, b_content_cons, !app_assoc. reflexivity.
Qed.

Lemma build_ok b lo : stack_ok lo b -> exists n h, build ops b = Some n /\ wf h n /\ content n = b_content b.
Proof.
  intros HS. destruct b as [|v b]; cbn [build].
  - destruct (s_def _ _ _ _ _ LS) as [Vd Cd]. destruct (from_leaf_wf _ Vd) as [W C].
    exists (from_leaf ops (l_default ops)), 0. rewrite C, Cd. auto.
  - destruct HS as (hv & Hlo & (Hne & Hlen & HW & HO) & HS).
    destruct (pop_vec_ok hv v Hne ltac:(lia) HW HO) as (x & k & -> & Wx & Cx & Hk). cbn [bind].
    destruct (build_loop_ok b _ k x HS Wx) as (n & h & -> & W & C). exists n, h. split; auto. split; auto.
    now rewrite C, Cx, b_content_cons.
Qed.

Lemma slice_app {T} (a b : list T) i j : i <= j -> slice (a ++ b) i j = slice a i j ++ slice b (i - length a) (j - length a).
Proof.
  intros H. unfold slice. rewrite skipn_app, firstn_app, skipn_length. f_equal. f_equal. lia.
Qed.
Lemma slice_empty {T} (l : list T) i j : j <= i -> slice l i j = [].
Proof. intros H. unfold slice. now replace (j - i) with 0 by lia. Qed.
Lemma slice_all {T} (l : list T) j : length l <= j -> slice l 0 j = l.
Proof. intros H. unfold slice. cbn. rewrite Nat.sub_0_r. now apply firstn_all2. Qed.
Lemma slice_over {T} (l : list T) i j : slice l i j = slice l i (Nat.min j (length l)).
Proof.
  unfold slice. destruct (Nat.le_gt_cases j (length l)); [now rewrite Nat.min_l by lia|].
  rewrite Nat.min_r by lia. rewrite !firstn_all2; auto; rewrite skipn_length; lia.
Qed.

(** An interval clipped to a tree. *)
Lemma push_subseq_ok h : forall n b lo i j, wf h n -> stack_ok lo b ->
  j <= length (content n) -> (i < j -> cut (content n) i /\ cut (content n) j) ->
  exists b', push_subseq ops n b i j = Some b' /\ stack_ok 0 b' /\
    b_content b' = b_content b ++ slice (content n) i j.
Proof.
  induction h as [|h IH]; intros n b lo i j Wn HS Hj Hc.
  - destruct n as [k inf l|]; [|destruct Wn]. cbn [push_subseq]. destruct (Nat.leb_spec j i).
    { exists b. split; auto. split; [eapply stack0; eauto|]. rewrite slice_empty, app_nil_r; auto. }
    destruct ((i =? 0) && (j =? n_len (NLeaf k inf l))) eqn:B.
    + destruct (b_push_ok b lo 0 _ HS Wn) as (b' & -> & S' & C'). exists b'. split; auto. split; [eapply stack0; eauto|].
      rewrite C'. f_equal. apply andb_prop in B as [B1 B2]. apply Nat.eqb_eq in B1, B2. subst i.
      rewrite slice_all; auto. rewrite (wf_len 0 _ Wn) in B2. lia.
    + unfold push_leaf_slice, leaf_subseq. cbn [TreeSpec.wf] in Wn. destruct Wn as (Vl & -> & ->). cbn [TreeSpec.content] in *.
      destruct (Hc ltac:(lia)) as [H1 H2].
      destruct (s_sub _ _ _ _ _ LS l i j Vl ltac:(lia) Hj H1 H2) as (l' & -> & V' & C'). cbn [bind].
      destruct (from_leaf_wf l' V') as [W1 C1].
      destruct (b_push_ok b lo 0 _ HS W1) as (b' & -> & S' & C''). exists b'. split; auto. split; [eapply stack0; eauto|].
      rewrite C''. f_equal. now rewrite C1.
  - destruct n as [|hh k inf cs]; [destruct Wn|]. cbn [push_subseq]. destruct (Nat.leb_spec j i).
    { exists b. split; auto. split; [eapply stack0; eauto|]. rewrite slice_empty, app_nil_r; auto. }
    destruct ((i =? 0) && (j =? n_len (NInt hh k inf cs))) eqn:B.
    + destruct (b_push_ok b lo (S h) _ HS Wn) as (b' & -> & S' & C'). exists b'. split; auto. split; [eapply stack0; eauto|].
      rewrite C'. f_equal. apply andb_prop in B as [B1 B2]. apply Nat.eqb_eq in B1, B2. subst i.
      rewrite slice_all; auto. rewrite (wf_len _ _ Wn) in B2. lia.
    + destruct (Hc ltac:(lia)) as [H1 H2]. cbn [TreeSpec.wf] in Wn. destruct Wn as (_ & _ & _ & FW & _). cbn [TreeSpec.content] in *.
      clear B Hc k inf hh. rename H into Hij.
      match goal with |- exists b', ?g cs 0 b = _ /\ _ => set (go := g) end.
      assert (G : forall cs2 cs1 b lo, cs = cs1 ++ cs2 -> stack_ok lo b ->
        exists b', go cs2 (length (flat_map content cs1)) b = Some b' /\ stack_ok 0 b' /\
          b_content b' = b_content b ++ slice (flat_map content cs2) (i - length (flat_map content cs1)) (j - length (flat_map content cs1))).
      2: { specialize (G cs [] b lo eq_refl HS). cbn [flat_map length] in G. now rewrite !Nat.sub_0_r in G. }
      induction cs2 as [|c cs2 IHc]; intros cs1 b0 lo0 E S0; unfold go; fold go.
      { exists b0. split; auto. split; [eapply stack0; eauto|]. unfold slice. cbn. now rewrite skipn_nil, firstn_nil, app_nil_r. }
      set (off := length (flat_map content cs1)) in *. destruct (Nat.leb_spec j off).
      { exists b0. split; auto. split; [eapply stack0; eauto|]. rewrite slice_empty, app_nil_r; auto. lia. }
      assert (Wc : wf h c). { rewrite E in FW. apply Forall_app in FW as [_ FW]. now inversion FW. }
      rewrite (wf_len h c Wc). set (lc' := length (content c)).
      set (i' := Nat.max i off - off). set (j' := Nat.max (Nat.max i off) (Nat.min j (off + lc')) - off).
      assert (Ej : j' = Nat.max i' (Nat.min (j - off) lc')) by lia. assert (Ei : i' = i - off) by lia.
      destruct (Nat.le_gt_cases j' i') as [Hle|Hgt].
      * (* nothing of this child *)
        assert (Ps : push_subseq ops c b0 i' j' = Some b0) by (destruct c; cbn [push_subseq]; now replace (j' <=? i') with true by lia).
        rewrite Ps. cbn [bind]. destruct (IHc (cs1 ++ [c]) b0 lo0) as (b' & E' & S' & C').
        { now rewrite <- app_assoc. }
        { auto. }
        rewrite flat_map_app, app_length in E', C'. cbn [flat_map] in E', C'. rewrite app_nil_r in E', C'. fold off lc' in E', C'.
        exists b'. split; auto. split; auto. rewrite C'. f_equal. cbn [flat_map]. rewrite slice_app by lia. fold lc'.
        replace (slice (content c) (i - off) (j - off)) with (@nil X).
        { cbn [app]. f_equal; lia. }
        rewrite slice_over. fold lc'. rewrite slice_empty; auto. lia.
      * assert (Ej2 : j' = Nat.min (j - off) lc') by lia.
        destruct (IH c b0 lo0 i' j' Wc S0) as (b1 & -> & S1 & C1).
        { fold lc'. lia. }
        { intros _. rewrite E, flat_map_app in H1, H2. cbn [flat_map] in H1, H2. split.
          - destruct (Nat.le_gt_cases off i).
            + apply (s_cut _ _ _ _ _ LS (flat_map content cs1) _ (flat_map content cs2)); fold lc'; [|lia].
              fold off. replace (off + i') with i by lia. exact H1.
            + replace i' with 0 by lia. apply (s_cut0 _ _ _ _ _ LS).
          - destruct (Nat.le_gt_cases j (off + lc')).
            + apply (s_cut _ _ _ _ _ LS (flat_map content cs1) _ (flat_map content cs2)); fold lc'; [|lia].
              fold off. replace (off + j') with j by lia. exact H2.
            + replace j' with lc' by lia. apply (s_cut0 _ _ _ _ _ LS). }
        cbn [bind]. destruct (IHc (cs1 ++ [c]) b1 0) as (b' & E' & S' & C').
        { now rewrite <- app_assoc. }
        { auto. }
        rewrite flat_map_app, app_length in E', C'. cbn [flat_map] in E', C'. rewrite app_nil_r in E', C'. fold off lc' in E', C'.
        exists b'. split; auto. split; auto. rewrite C', C1, <- app_assoc. f_equal. cbn [flat_map]. rewrite slice_app by lia. fold lc'.
        f_equal; [|f_equal; lia]. rewrite (slice_over _ (i - off)). fold lc'. f_equal; lia.
Qed.

Theorem subseq_ok h n i j : wf h n -> i <= j -> j <= length (content n) -> cut (content n) i -> cut (content n) j ->
  exists n' h', subseq ops n i j = Some n' /\ wf h' n' /\ content n' = slice (content n) i j.
Proof.
  intros W H1 H2 H3 H4. destruct (push_subseq_ok h n [] 0 i j W Logic.I H2 ltac:(auto)) as (b & E & S & C).
  unfold subseq, b_new. rewrite E. cbn [bind]. destruct (build_ok b 0 S) as (n' & h' & -> & W' & C').
  exists n', h'. split; auto. split; auto. now rewrite C', C.
Qed.

Theorem edit_tree_ok h n i j hn new : wf h n -> wf hn new -> i <= j -> j <= length (content n) ->
  cut (content n) i -> cut (content n) j ->
  exists n' h', edit ops n i j new = Some n' /\ wf h' n' /\
    content n' = firstn i (content n) ++ content new ++ skipn j (content n).
Proof.
  intros W Wn H1 H2 H3 H4. pose proof (s_cut0 _ _ _ _ _ LS (content n)) as [C0 C1]. unfold edit, b_new.
  rewrite (wf_len h n W), Nat.min_r, Nat.max_l by lia.
  destruct (push_subseq_ok h n [] 0 0 i W Logic.I) as (b1 & -> & S1 & B1); try lia; auto. cbn [bind].
  destruct (b_push_ok b1 0 hn new S1 Wn) as (b2 & -> & S2 & B2). cbn [bind].
  destruct (push_subseq_ok h n b2 _ j (length (content n)) W S2) as (b3 & -> & S3 & B3); try lia; auto. cbn [bind].
  destruct (build_ok b3 0 S3) as (n' & h' & -> & W' & C'). exists n', h'. split; auto. split; auto.
  rewrite C', B3, B2, B1. cbn. rewrite <- app_assoc. f_equal; [|f_equal].
  - unfold slice. cbn. now rewrite Nat.sub_0_r.
  - unfold slice. apply firstn_all2. rewrite skipn_length. lia.
Qed.

Lemma push_leaves_ok ls : forall b lo, stack_ok lo b -> Forall V ls ->
  exists b', push_leaves ops b ls = Some b' /\ stack_ok 0 b' /\ b_content b' = b_content b ++ flat_map lc ls.
Proof.
  induction ls as [|l ls IH]; intros b lo S F; cbn [push_leaves flat_map].
  - exists b. rewrite app_nil_r. split; auto. split; auto. eapply stack0; eauto.
  - inversion F; subst. unfold push_leaf. destruct (from_leaf_wf l) as [W C]; auto.
    destruct (b_push_ok b lo 0 _ S W) as (b1 & -> & S1 & C1). cbn [bind].
    destruct (IH b1 _ S1) as (b2 & -> & S2 & C2); auto. exists b2. split; auto. split; auto.
    rewrite C2, C1, C, app_assoc. reflexivity.
Qed.
End Proofs.
