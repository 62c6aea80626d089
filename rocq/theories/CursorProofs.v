(** Cursors: the position in the tree, and the next and previous boundary. *)
From Coq Require Import List Arith Lia Bool ZifyBool.
From Verif Require Import Base ListLib TreeModel TreeSpec TreeProofs MetricProofs CursorModel.
Import ListNotations.

Section Cursor.
Context {L I X : Type} (ops : leafops L I).
Context (lc : L -> list X) (V : L -> Prop) (cut : list X -> nat -> Prop) (cinfo : list X -> I) (T : list X -> Prop).
Notation nd := (node L I).
Notation wf := (wf ops lc V cinfo).
Notation content := (content lc).
Notation ok := (n_ok ops).
Context (LS : leaf_spec ops lc V cut cinfo) (TS : text_spec ops lc V cut T).
Implicit Types (n : nd) (cs : list nd) (s : list X) (l : L) (p : list (nd * nat)).

Notation path := (list (nd * nat)).
Definition llen (ls : list L) : nat := length (flat_map lc ls).
Lemma llen_app a b : llen (a ++ b) = llen a + llen b.
Proof. unfold llen. now rewrite flat_map_app, app_length. Qed.
Lemma llen_one l : llen [l] = length (lc l).
Proof. unfold llen. cbn. now rewrite app_nil_r. Qed.

Lemma content_leaves h : forall n, wf h n -> content n = flat_map lc (leaves n).
Proof.
  induction h as [|h IH]; intros [k i l|hh k i cs] W; try (now destruct W); cbn [TreeSpec.content leaves].
  - cbn. now rewrite app_nil_r.
  - destruct W as (_ & _ & _ & F & _). clear -F IH. induction F; cbn; auto. rewrite flat_map_app. f_equal; auto.
Qed.
Lemma len_leaves h cs : Forall (wf h) cs -> length (flat_map content cs) = llen (flat_map leaves cs).
Proof.
  induction 1; auto. cbn [flat_map]. rewrite app_length, llen_app, IHForall. f_equal. unfold llen. f_equal. eapply content_leaves; eauto.
Qed.
Lemma leaves_V h : forall n, wf h n -> Forall V (leaves n).
Proof.
  induction h as [|h IH]; intros [k i l|hh k i cs] W; try (now destruct W); cbn [leaves].
  - destruct W. auto.
  - destruct W as (_ & _ & _ & F & _). clear -F IH. induction F; cbn; auto. apply Forall_app. auto.
Qed.
(** Below an internal node every leaf holds something. *)
Lemma leaves_pos h : forall n, wf h n -> (0 < h \/ ok n = true) -> Forall (fun l => 0 < length (lc l)) (leaves n).
Proof.
  induction h as [|h IH]; intros [k i l|hh k i cs] W Ho; try (now destruct W); cbn [leaves].
  - destruct W as (Vl & _). constructor; auto. destruct Ho as [Ho|Ho]; [lia|]. cbn [n_ok] in Ho.
    pose proof (t_ok _ _ _ _ _ TS l Vl Ho). destruct (lc l); [congruence|cbn; lia].
  - destruct W as (_ & _ & _ & F & O & _). clear -F O IH. revert O. induction F; intros O; cbn; auto. inversion O; subst. apply Forall_app. auto.
Qed.
Lemma leaves_ne h : forall n, wf h n -> leaves n <> [].
Proof.
  induction h as [|h IH]; intros [k i l|hh k i cs] W; try (now destruct W); cbn [leaves]; try discriminate.
  destruct W as (_ & H2 & _ & F & _). destruct cs as [|c cs]; [cbn in H2; lia|]. inversion F; subst. cbn.
  intros E. apply app_eq_nil in E as [E _]. now apply (IH c).
Qed.

(** ** Routes from the root to a leaf
    The path, bottom first; the leaf; the leaves before it and after it. *)
Inductive route : nd -> path -> L -> list L -> list L -> Prop :=
| r_leaf k i l : route (NLeaf k i l) [] l [] []
| r_int hh k i cs j c p l pre post : nth_error cs j = Some c -> route c p l pre post ->
    route (NInt hh k i cs) (p ++ [(NInt hh k i cs, j)]) l
      (flat_map leaves (firstn j cs) ++ pre) (post ++ flat_map leaves (skipn (S j) cs)).

Lemma nth_split_cs cs j c : nth_error cs j = Some c -> cs = firstn j cs ++ c :: skipn (S j) cs.
Proof. revert j. induction cs; intros [|j] H; cbn in *; try discriminate; [congruence|]. f_equal. auto. Qed.

Lemma route_leaves n p l pre post : route n p l pre post -> leaves n = pre ++ l :: post.
Proof.
  induction 1; auto. cbn [leaves]. rewrite (nth_split_cs _ _ _ H) at 1. rewrite flat_map_app. cbn [flat_map].
  rewrite IHroute, <- !app_assoc. reflexivity.
Qed.
Lemma route_height n p l pre post : route n p l pre post -> forall h, wf h n -> length p = h.
Proof.
  induction 1; intros h W.
  - destruct h; auto. destruct W.
  - destruct h as [|h]; [destruct W|]. rewrite app_length. cbn. rewrite (IHroute h); [lia|].
    destruct W as (_ & _ & _ & F & _). rewrite Forall_forall in F. apply F. eapply nth_error_In; eauto.
Qed.

Lemma leaves_unique (pos : nat) : forall pre1 pre2 (l1 l2 : L) post1 post2,
  pre1 ++ l1 :: post1 = pre2 ++ l2 :: post2 ->
  llen pre1 <= pos < llen pre1 + length (lc l1) -> llen pre2 <= pos < llen pre2 + length (lc l2) ->
  pre1 = pre2 /\ l1 = l2 /\ post1 = post2.
Proof.
  revert pos. enough (G : forall pre1 pre2 pos (l1 l2 : L) post1 post2,
  pre1 ++ l1 :: post1 = pre2 ++ l2 :: post2 ->
  llen pre1 <= pos < llen pre1 + length (lc l1) -> llen pre2 <= pos < llen pre2 + length (lc l2) ->
  pre1 = pre2 /\ l1 = l2 /\ post1 = post2) by (intros; eapply G; eauto).
  induction pre1 as [|a pre1 IH]; intros [|b pre2] pos l1 l2 post1 post2 E H1 H2; cbn [app] in E; injection E as E1 E2; auto.
  - exfalso. change (b :: pre2) with ([b] ++ pre2) in H2. rewrite llen_app, llen_one, <- E1 in H2. unfold llen in H1. cbn in H1. lia.
  - exfalso. change (a :: pre1) with ([a] ++ pre1) in H1. rewrite llen_app, llen_one, E1 in H1. unfold llen in H2. cbn in H2. lia.
  - subst b. change (a :: pre1) with ([a] ++ pre1) in H1. change (a :: pre2) with ([a] ++ pre2) in H2. rewrite llen_app, llen_one in H1, H2.
    destruct (IH pre2 (pos - length (lc a)) l1 l2 post1 post2 E2) as (-> & -> & ->); auto; lia.
Qed.

(** ** The cache *)
Notation entry := (option (nd * nat)).
Definition overlay (p : path) (cache : list entry) : list entry :=
  firstn CACHE_SIZE (map Some p ++ skipn (length p) cache).
Definition cache_of (p : path) : list entry := overlay p (repeat None CACHE_SIZE).

Lemma upd_split (cache : list entry) i x : i < length cache -> upd cache i x = firstn i cache ++ x :: skipn (S i) cache.
Proof. revert i. induction cache as [|y r IH]; intros [|i] H; cbn in *; try lia; auto. f_equal. apply IH. lia. Qed.

Lemma overlay_set p h x (cache : list entry) : length cache = CACHE_SIZE -> h = S (length p) ->
  overlay p (set_cache cache h (Some x)) = overlay (p ++ [x]) cache /\ length (set_cache cache h (Some x)) = CACHE_SIZE.
Proof.
  intros HL ->. unfold set_cache. replace (S (length p) - 1) with (length p) by lia.
  unfold overlay. rewrite map_app, app_length. cbn [length map].
  destruct (length p <? CACHE_SIZE) eqn:E.
  - rewrite upd_split by (rewrite HL; lia). split.
    + f_equal. rewrite <- app_assoc. f_equal. rewrite skipn_app, skipn_all2 by (rewrite firstn_length; lia).
      rewrite firstn_length_le by lia. rewrite Nat.sub_diag. now rewrite Nat.add_1_r.
    + rewrite app_length, firstn_length_le by lia. cbn [length]. rewrite skipn_length. lia.
  - split; auto. rewrite !firstn_app, !app_length, map_length. cbn [length].
    replace (CACHE_SIZE - length p) with 0 by lia. replace (CACHE_SIZE - (length p + 1)) with 0 by lia. cbn. now rewrite !app_nil_r.
Qed.

Lemma pick_ok h : forall cs offset pos i, Forall (wf h) cs -> cs <> [] -> offset <= pos ->
  exists j c, pick cs offset pos i = Some (i + j, offset + length (flat_map content (firstn j cs)), c) /\ nth_error cs j = Some c /\
    offset + length (flat_map content (firstn j cs)) <= pos /\
    (pos < offset + length (flat_map content (firstn j cs)) + length (content c) \/ S j = length cs).
Proof.
  induction cs as [|c cs IH]; intros offset pos i F Hne Hp; [congruence|]. inversion F as [|? ? Wc Fc]; subst.
  destruct cs as [|c2 cs].
  - exists 0, c. cbn. rewrite !Nat.add_0_r. auto.
  - cbn [pick]. rewrite (wf_len ops lc V cinfo h c Wc). destruct (pos <? offset + length (content c)) eqn:E.
    + exists 0, c. cbn. rewrite !Nat.add_0_r. repeat split; auto. left. lia.
    + destruct (IH (offset + length (content c)) pos (S i) Fc ltac:(discriminate) ltac:(lia)) as (j & c' & Ej & Nj & H1 & H2).
      exists (S j), c'. replace (i + S j) with (S i + j) by lia. cbn [firstn flat_map]. rewrite app_length, Nat.add_assoc.
      split; auto. split; auto. split; auto. destruct H2 as [H2|H2]; auto. right. cbn [length] in *. lia.
Qed.

Lemma skipn_last {A} (l : list A) j : S j = length l -> skipn (S j) l = [].
Proof. intros ->. apply skipn_all. Qed.

Lemma descend_f_ok h : forall n offset pos cache fuel, wf h n -> offset <= pos -> h <= fuel -> length cache = CACHE_SIZE ->
  exists p l pre post, route n p l pre post /\
    descend_f fuel n offset pos cache = Some (l, offset + llen pre, overlay p cache) /\
    offset + llen pre <= pos /\ (pos < offset + llen pre + length (lc l) \/ post = []).
Proof.
  induction h as [|h IH]; intros n offset pos cache fuel W Hp Hf HL.
  - destruct n as [k i l|]; [|destruct W]. exists [], l, [], []. split; [constructor|].
    unfold overlay. cbn [map app length skipn]. rewrite firstn_all2 by (rewrite HL; auto). unfold llen. cbn. rewrite Nat.add_0_r. destruct fuel; auto.
  - destruct n as [|hh k i cs]; [destruct W|]. destruct fuel as [|fuel]; [lia|]. cbn [descend_f].
    pose proof W as (-> & H2 & _ & F & _).
    destruct (pick_ok h cs offset pos 0 F) as (j & c & -> & Nj & H3 & H4); [intros ->; cbn in H2; lia|auto|]. cbn [bind Nat.add].
    assert (Wc : wf h c). { rewrite Forall_forall in F. apply F. eapply nth_error_In; eauto. }
    assert (Fj : Forall (wf h) (firstn j cs)) by (apply Forall_firstn; auto). rewrite (len_leaves h _ Fj) in *.
    set (o := offset + llen (flat_map leaves (firstn j cs))) in *.
    destruct (IH c o pos (set_cache cache (S h) (Some (NInt (S h) k i cs, j))) fuel Wc H3 ltac:(lia)) as (p & l & pre & post & R & E & G1 & G2).
    { unfold set_cache. destruct (S h - 1 <? CACHE_SIZE) eqn:El; auto. rewrite upd_split by lia.
      rewrite app_length, firstn_length_le by lia. cbn [length]. rewrite skipn_length. lia. }
    destruct (overlay_set p (S h) (NInt (S h) k i cs, j) cache HL) as [Eo _].
    { f_equal. symmetry. eapply route_height; eauto. }
    exists (p ++ [(NInt (S h) k i cs, j)]), l, (flat_map leaves (firstn j cs) ++ pre), (post ++ flat_map leaves (skipn (S j) cs)).
    split; [econstructor; eauto|]. rewrite E, Eo, llen_app. split; [f_equal; f_equal; f_equal; lia|]. split; [lia|].
    destruct G2 as [G2|G2]; [left; lia|]. destruct H4 as [H4|H4].
    + left. rewrite (content_leaves h c Wc), (route_leaves _ _ _ _ _ R) in H4. subst post.
      change (length (flat_map lc (pre ++ [l]))) with (llen (pre ++ [l])) in H4. rewrite llen_app, llen_one in H4. lia.
    + right. subst post. now rewrite skipn_last.
Qed.

(** ** Valid cursors *)
Context (root : nd) (H : nat) (Wr : wf H root).
Notation cursor := (cursor (L:=L) (I:=I)).
Notation s := (content root).

(** The cursor is at leaf [l], with [pre] before and [post] after. *)
Definition at_leaf (c : cursor) (l : L) (pre post : list L) : Prop :=
  exists p, route root p l pre post /\ c_leaf c = Some l /\ c_off c = llen pre /\ c_cache c = cache_of p.
(** The position is in that leaf, at its end only at the end of the text. *)
Definition valid (c : cursor) (l : L) (pre post : list L) : Prop :=
  at_leaf c l pre post /\ c_off c <= c_pos c /\
  (c_pos c < c_off c + length (lc l) \/ c_pos c = c_off c + length (lc l) /\ post = []).
(** All that is known of an invalid cursor. *)
Definition cache_ok (c : cursor) : Prop := exists p l pre post, route root p l pre post /\ c_cache c = cache_of p.

Lemma cache_len p : length (cache_of p) = CACHE_SIZE.
Proof.
  unfold cache_of, overlay. rewrite firstn_length, app_length, map_length, skipn_length, repeat_length. lia.
Qed.
Lemma overlay_same p p' : length p = length p' -> overlay p' (cache_of p) = cache_of p'.
Proof.
  intros E. unfold cache_of, overlay. f_equal. f_equal. rewrite firstn_app, skipn_app. rewrite map_length.
  rewrite skipn_all2 by (rewrite firstn_length, map_length; lia). cbn [app].
  rewrite firstn_length, map_length, E, !skipn_repeat, firstn_repeat, skipn_repeat. f_equal. lia.
Qed.

Lemma content_root : s = flat_map lc (leaves root).
Proof. eapply content_leaves; eauto. Qed.
Lemma height_root : n_height root = H.
Proof. eapply wf_height; eauto. Qed.
Lemma len_root : n_len root = length s.
Proof. eapply wf_len; eauto. Qed.
Lemma route_V p l pre post : route root p l pre post -> V l.
Proof.
  intros R. pose proof (leaves_V H root Wr) as F. rewrite (route_leaves _ _ _ _ _ R) in F. apply Forall_app in F as [_ F]. now inversion F.
Qed.
Lemma route_total p l pre post : route root p l pre post -> length s = llen pre + length (lc l) + llen post.
Proof.
  intros R. rewrite content_root, (route_leaves _ _ _ _ _ R). change (l :: post) with ([l] ++ post).
  rewrite <- (llen_one l). change (llen (pre ++ [l] ++ post) = llen pre + llen [l] + llen post). rewrite !llen_app. lia.
Qed.
Lemma route_content p l pre post : route root p l pre post -> s = flat_map lc pre ++ lc l ++ flat_map lc post.
Proof. intros R. rewrite content_root, (route_leaves _ _ _ _ _ R), flat_map_app. reflexivity. Qed.

Lemma descend_ok c : cache_ok c \/ c_cache c = repeat None CACHE_SIZE -> c_pos c <= length s ->
  exists c' l pre post, descend root c = Some c' /\ c_pos c' = c_pos c /\ valid c' l pre post.
Proof.
  intros Hc Hp. unfold descend. rewrite height_root.
  destruct (descend_f_ok H root 0 (c_pos c) (c_cache c) H Wr) as (p & l & pre & post & R & -> & G1 & G2); try lia.
  { destruct Hc as [(p & l & pre & post & R & ->)| ->]; [apply cache_len|apply repeat_length]. }
  cbn [bind Nat.add] in *. eexists _, l, pre, post. split; [reflexivity|]. cbn [c_pos]. split; auto. split.
  - exists p. split; auto. cbn. repeat split; auto. destruct Hc as [(p' & l' & pre' & post' & R' & ->)| ->]; auto.
    apply overlay_same. now rewrite (route_height _ _ _ _ _ R' H Wr), (route_height _ _ _ _ _ R H Wr).
  - cbn. split; auto. pose proof (route_total _ _ _ _ R). destruct G2 as [G2|G2]; [left; lia|]. subst post. unfold llen in H0 at 2. cbn in H0.
    destruct (Nat.eq_dec (c_pos c) (llen pre + length (lc l))); [right; auto|left; lia].
Qed.

Theorem new_ok pos : pos <= length s -> exists c l pre post, c_new root pos = Some c /\ c_pos c = pos /\ valid c l pre post.
Proof. intros Hp. apply (descend_ok (Cursor pos (repeat None CACHE_SIZE) None 0)); auto. Qed.

Lemma valid_cache c l pre post : valid c l pre post -> cache_ok c.
Proof. intros ((p & R & _ & _ & E) & _). exists p, l, pre, post. auto. Qed.

(** ** The neighbouring leaves *)
Definition last_entry (e : nd * nat) : Prop := forall cs, get_children (fst e) = Some cs -> S (snd e) = length cs.
Definition first_entry (e : nd * nat) : Prop := snd e = 0.

Lemma go_left_ok h : forall n acc, wf h n -> exists p l post, go_left h n acc = Some (map Some p ++ acc, l) /\ route n p l [] post.
Proof.
  induction h as [|h IH]; intros n acc W; cbn [go_left].
  - destruct n as [k i l|]; [|destruct W]. exists [], l, []. split; [reflexivity|constructor].
  - destruct n as [|hh k i cs]; [destruct W|]. cbn [get_children bind]. pose proof W as (_ & H2 & _ & F & _).
    destruct cs as [|c cs]; [cbn in H2; lia|]. cbn [nth_error bind]. inversion F as [|? ? Wc Fc]; subst.
    destruct (IH c (Some (NInt hh k i (c :: cs), 0) :: acc) Wc) as (p & l & post & -> & R).
    exists (p ++ [(NInt hh k i (c :: cs), 0)]), l, (post ++ flat_map leaves cs). split; [now rewrite map_app, <- app_assoc|].
    exact (r_int hh k i (c :: cs) 0 c p l [] post eq_refl R).
Qed.
Lemma go_right_ok h : forall n acc, wf h n -> exists p l pre, go_right h n acc = Some (map Some p ++ acc, l) /\ route n p l pre [].
Proof.
  induction h as [|h IH]; intros n acc W; cbn [go_right].
  - destruct n as [k i l|]; [|destruct W]. exists [], l, []. split; [reflexivity|constructor].
  - destruct n as [|hh k i cs]; [destruct W|]. cbn [get_children bind]. pose proof W as (_ & H2 & _ & F & _).
    destruct (nth_error cs (length cs - 1)) as [c|] eqn:E; [|apply nth_error_None in E; lia]. cbn [bind].
    assert (Wc : wf h c). { rewrite Forall_forall in F. apply F. eapply nth_error_In; eauto. }
    destruct (IH c (Some (NInt hh k i cs, length cs - 1) :: acc) Wc) as (p & l & pre & -> & R).
    exists (p ++ [(NInt hh k i cs, length cs - 1)]), l, (flat_map leaves (firstn (length cs - 1) cs) ++ pre).
    split; [now rewrite map_app, <- app_assoc|].
    pose proof (r_int hh k i cs (length cs - 1) c p l pre [] E R) as R'. rewrite skipn_last in R' by lia. exact R'.
Qed.

Lemma route_first_last n p l pre post : route n p l pre post -> forall h, wf h n ->
  (post = [] -> Forall last_entry p) /\ (pre = [] -> Forall first_entry p).
Proof.
  induction 1 as [|hh k i cs j c p l pre post Nj R IH]; intros h W; [split; constructor|].
  destruct h as [|h]; [destruct W|]. pose proof W as (_ & _ & _ & F & _).
  assert (Wc : wf h c). { rewrite Forall_forall in F. apply F. eapply nth_error_In; eauto. }
  destruct (IH h Wc) as [I1 I2]. pose proof (nth_split_cs _ _ _ Nj) as Es. split; intros E.
  - apply app_eq_nil in E as [E1 E2]. apply Forall_app. split; auto. constructor; auto.
    intros cs' Ec. cbn [fst snd get_children] in *. injection Ec as <-. destruct (skipn (S j) cs) as [|c2 r] eqn:Ek.
    + apply (f_equal (@length _)) in Ek. rewrite skipn_length in Ek. cbn [length] in Ek.
      assert (j < length cs) by (apply nth_error_Some; congruence). lia.
    + exfalso. cbn in E2. apply app_eq_nil in E2 as [E2 _]. apply (leaves_ne h c2); auto.
      rewrite Forall_forall in F. apply F. rewrite Es. apply in_or_app. right. right. now left.
  - apply app_eq_nil in E as [E1 E2]. apply Forall_app. split; auto. constructor; auto. unfold first_entry. cbn.
    destruct j; auto. exfalso. destruct cs as [|c0 cs]; [discriminate|]. cbn in E1. apply app_eq_nil in E1 as [E1 _].
    apply (leaves_ne h c0); auto. now inversion F.
Qed.

(** Stepping to the next leaf changes one entry and all below it. *)
Lemma route_next n p l pre post : route n p l pre post -> forall h l2 post', wf h n -> post = l2 :: post' ->
  exists q node cs j t c p2,
    p = q ++ (node, j) :: t /\ Forall last_entry q /\ get_children node = Some cs /\ S j < length cs /\
    nth_error cs (S j) = Some c /\ (forall acc, go_left (length q) c acc = Some (map Some p2 ++ acc, l2)) /\
    length p2 = length q /\ route n (p2 ++ (node, S j) :: t) l2 (pre ++ [l]) post'.
Proof.
  induction 1 as [|hh k i cs j c p l pre post Nj R IH]; intros h l2 post' W E; [discriminate|].
  destruct h as [|h]; [destruct W|]. pose proof W as (_ & _ & _ & F & _).
  assert (Wc : wf h c). { rewrite Forall_forall in F. apply F. eapply nth_error_In; eauto. }
  pose proof (nth_split_cs _ _ _ Nj) as Es.
  destruct post as [|x post].
  - cbn [app] in E. destruct (skipn (S j) cs) as [|c2 r] eqn:Ek; [discriminate|].
    assert (N2 : nth_error cs (S j) = Some c2). { pose proof (nth_error_skipn cs (S j) 0) as N. rewrite Ek, Nat.add_0_r in N. now rewrite <- N. }
    assert (W2 : wf h c2). { rewrite Forall_forall in F. apply F. eapply nth_error_In; eauto. }
    destruct (go_left_ok h c2 [] W2) as (p2 & l2' & post2 & Eg & R2).
    assert (G : forall acc, go_left h c2 acc = Some (map Some p2 ++ acc, l2')).
    { intros acc. destruct (go_left_ok h c2 acc W2) as (p3 & l3 & post3 & Eg3 & R3).
      pose proof (route_leaves _ _ _ _ _ R2) as X2. pose proof (route_leaves _ _ _ _ _ R3) as X3. rewrite X3 in X2. injection X2 as -> _.
      rewrite Eg3. clear -Eg Eg3. assert (G : forall i n a b x y, go_left i n a = Some (x ++ a, y) -> go_left (L:=L) (I:=I) i n b = Some (x ++ b, y)).
      { clear. induction i as [|i IHi]; intros n a b x y; cbn [go_left].
        - destruct (get_leaf n); cbn; [|discriminate]. intros [= E ->]. destruct x; [reflexivity|]. exfalso.
          apply (f_equal (@length _)) in E. cbn in E. rewrite app_length in E. lia.
        - destruct (get_children n) as [cs|]; cbn [bind]; [|discriminate]. destruct (nth_error cs 0) as [c|]; cbn [bind]; [|discriminate].
          intros E. assert (exists x', x = x' ++ [Some (n, 0)]) as (x' & ->).
          { assert (G2 : forall i n a z y, go_left (L:=L) (I:=I) i n a = Some (z, y) -> exists x', z = x' ++ a).
            { clear. induction i as [|i IHi]; intros n a z y; cbn [go_left].
              - destruct (get_leaf n); cbn; [|discriminate]. intros [= <- _]. now exists [].
              - destruct (get_children n) as [cs|]; cbn [bind]; [|discriminate]. destruct (nth_error cs 0); cbn [bind]; [|discriminate].
                intros E. apply IHi in E as (x' & ->). exists (x' ++ [Some (n, 0)]). now rewrite <- app_assoc. }
            apply G2 in E as (x' & E). exists x'. change (x ++ a = x' ++ [Some (n, 0)] ++ a) in E. rewrite app_assoc in E. now apply app_inv_tail in E. }
          rewrite <- app_assoc in E. apply IHi with (b := Some (n, 0) :: b) in E. rewrite E. now rewrite <- app_assoc. }
      specialize (G _ _ _ acc _ _ Eg). congruence. }
    cbn [flat_map] in E. rewrite (route_leaves _ _ _ _ _ R2) in E. cbn [app] in E. injection E as -> E.
    exists p, (NInt hh k i cs), cs, j, [], c2, p2. split; auto. split; [eapply route_first_last; eauto|]. split; auto.
    split; [apply nth_error_Some; congruence|]. split; auto.
    assert (Lp : length p = h) by (eapply route_height; eauto).
    assert (Lp2 : length p2 = h) by (eapply route_height; eauto). rewrite Lp. split; auto. split; auto.
    pose proof (r_int hh k i cs (S j) c2 p2 l2 [] post2 N2 R2) as R'.
    replace (flat_map leaves (firstn (S j) cs) ++ []) with ((flat_map leaves (firstn j cs) ++ pre) ++ [l]) in R'.
    2: { rewrite app_nil_r. replace (firstn (S j) cs) with (firstn j cs ++ [c]).
         - rewrite flat_map_app. cbn. rewrite app_nil_r, (route_leaves _ _ _ _ _ R), <- app_assoc. reflexivity.
         - rewrite Es at 2. rewrite firstn_app. rewrite firstn_firstn. rewrite Nat.min_r by lia.
           rewrite firstn_length_le by (apply Nat.lt_le_incl, nth_error_Some; congruence). replace (S j - j) with 1 by lia. reflexivity. }
    replace (post2 ++ flat_map leaves (skipn (S (S j)) cs)) with post' in R'; auto.
    rewrite <- E. f_equal. f_equal. replace (S (S j)) with (S j + 1) by lia. rewrite <- (skipn_skipn 1 (S j)), Ek. reflexivity.
  - cbn [app] in E. injection E as -> <-.
    destruct (IH h l2 post Wc eq_refl) as (q & node & cs' & j' & t & c' & p2 & -> & Q1 & Q2 & Q3 & Q4 & Q5 & Q6 & Q7).
    exists q, node, cs', j', (t ++ [(NInt hh k i cs, j)]), c', p2. split; [now rewrite <- app_assoc|].
    repeat (split; auto). pose proof (r_int hh k i cs j c _ l2 (pre ++ [l]) post Nj Q7) as R'.
    rewrite <- (app_assoc p2) in R'. rewrite (app_assoc (flat_map leaves (firstn j cs)) pre [l]) in R'. exact R'.
Qed.

Lemma route_prev n p l pre post : route n p l pre post -> forall h l0 pre', wf h n -> pre = pre' ++ [l0] ->
  exists q node cs j t c p2,
    p = q ++ (node, S j) :: t /\ Forall first_entry q /\ Forall (fun e => get_children (fst e) <> None) q /\ get_children node = Some cs /\
    nth_error cs j = Some c /\ (forall acc, go_right (length q) c acc = Some (map Some p2 ++ acc, l0)) /\
    length p2 = length q /\ route n (p2 ++ (node, j) :: t) l0 pre' (l :: post).
Proof.
  induction 1 as [|hh k i cs j c p l pre post Nj R IH]; intros h l0 pre' W E; [now destruct pre'|].
  destruct h as [|h]; [destruct W|]. pose proof W as (_ & _ & _ & F & _).
  assert (Wc : wf h c). { rewrite Forall_forall in F. apply F. eapply nth_error_In; eauto. }
  pose proof (nth_split_cs _ _ _ Nj) as Es.
  destruct (rev pre) as [|x rp] eqn:Er.
  - assert (pre = []) by (rewrite <- (rev_involutive pre), Er; reflexivity). subst pre. rewrite app_nil_r in E.
    destruct j as [|j]; [now destruct pre'|].
    destruct (nth_error cs j) as [c2|] eqn:N2.
    2: { apply nth_error_None in N2. assert (S j < length cs) by (apply nth_error_Some; congruence). lia. }
    assert (W2 : wf h c2). { rewrite Forall_forall in F. apply F. eapply nth_error_In; eauto. }
    destruct (go_right_ok h c2 [] W2) as (p2 & l2' & pre2 & Eg & R2).
    assert (G : forall acc, go_right h c2 acc = Some (map Some p2 ++ acc, l2')).
    { intros acc. destruct (go_right_ok h c2 acc W2) as (p3 & l3 & post3 & Eg3 & R3).
      pose proof (route_leaves _ _ _ _ _ R2) as X2. pose proof (route_leaves _ _ _ _ _ R3) as X3. rewrite X3 in X2.
      apply app_inj_tail in X2 as [_ ->].
      rewrite Eg3. clear -Eg Eg3. assert (G : forall i n a b x y, go_right i n a = Some (x ++ a, y) -> go_right (L:=L) (I:=I) i n b = Some (x ++ b, y)).
      { clear. induction i as [|i IHi]; intros n a b x y; cbn [go_right].
        - destruct (get_leaf n); cbn; [|discriminate]. intros [= E ->]. destruct x; [reflexivity|]. exfalso.
          apply (f_equal (@length _)) in E. cbn in E. rewrite app_length in E. lia.
        - destruct (get_children n) as [cs|]; cbn [bind]; [|discriminate]. destruct (nth_error cs (length cs - 1)) as [c|]; cbn [bind]; [|discriminate].
          intros E. assert (exists x', x = x' ++ [Some (n, length cs - 1)]) as (x' & ->).
          { assert (G2 : forall i n a z y, go_right (L:=L) (I:=I) i n a = Some (z, y) -> exists x', z = x' ++ a).
            { clear. induction i as [|i IHi]; intros n a z y; cbn [go_right].
              - destruct (get_leaf n); cbn; [|discriminate]. intros [= <- _]. now exists [].
              - destruct (get_children n) as [cs|]; cbn [bind]; [|discriminate]. destruct (nth_error cs (length cs - 1)); cbn [bind]; [|discriminate].
                intros E. apply IHi in E as (x' & ->). exists (x' ++ [Some (n, length cs - 1)]). now rewrite <- app_assoc. }
            apply G2 in E as (x' & E). exists x'. change (x ++ a = x' ++ [Some (n, length cs - 1)] ++ a) in E. rewrite app_assoc in E. now apply app_inv_tail in E. }
          rewrite <- app_assoc in E. apply IHi with (b := Some (n, length cs - 1) :: b) in E. rewrite E. now rewrite <- app_assoc. }
      specialize (G _ _ _ acc _ _ Eg). congruence. }
    assert (Ef : firstn (S j) cs = firstn j cs ++ [c2]).
    { pose proof (nth_split_cs _ _ _ N2) as Es2. rewrite Es2 at 1. rewrite firstn_app, firstn_firstn, Nat.min_r by lia.
      rewrite firstn_length_le by (apply Nat.lt_le_incl, nth_error_Some; congruence). replace (S j - j) with 1 by lia. reflexivity. }
    rewrite Ef, flat_map_app in E. cbn [flat_map] in E. rewrite app_nil_r, (route_leaves _ _ _ _ _ R2) in E.
    rewrite app_assoc in E. apply app_inj_tail in E as [<- <-].
    exists p, (NInt hh k i cs), cs, j, [], c2, p2. split; auto. split; [eapply route_first_last; eauto|]. split.
    { clear -R. induction R; [constructor|]. apply Forall_app. split; auto. constructor; auto. cbn. discriminate. }
    split; auto. split; auto.
    assert (Lp : length p = h) by (eapply route_height; eauto).
    assert (Lp2 : length p2 = h) by (eapply route_height; eauto). rewrite Lp. split; auto. split; auto.
    pose proof (r_int hh k i cs j c2 p2 l2' pre2 [] N2 R2) as R'. cbn [app] in R'.
    replace (flat_map leaves (skipn (S j) cs)) with (l :: post ++ flat_map leaves (skipn (S (S j)) cs)) in R'; auto.
    replace (skipn (S j) cs) with (c :: skipn (S (S j)) cs).
    + cbn [flat_map]. rewrite (route_leaves _ _ _ _ _ R). reflexivity.
    + rewrite Es at 2. rewrite skipn_app_exact; auto. apply firstn_length_le. apply Nat.lt_le_incl, nth_error_Some; congruence.
  - assert (Ep : pre = rev rp ++ [x]) by (rewrite <- (rev_involutive pre), Er; reflexivity). rewrite Ep, app_assoc in E.
    apply app_inj_tail in E as [<- ->].
    destruct (IH h l0 (rev rp) Wc Ep) as (q & node & cs' & j' & t & c' & p2 & -> & Q1 & Q1' & Q2 & Q4 & Q5 & Q6 & Q7).
    exists q, node, cs', j', (t ++ [(NInt hh k i cs, j)]), c', p2. split; [now rewrite <- app_assoc|].
    repeat (split; auto). pose proof (r_int hh k i cs j c _ l0 (rev rp) (l :: post) Nj Q7) as R'.
    rewrite <- (app_assoc p2) in R'. exact R'.
Qed.

Lemma route_children n p l pre post : route n p l pre post -> Forall (fun e => get_children (fst e) <> None) p.
Proof. induction 1; [constructor|]. apply Forall_app. split; auto. constructor; auto. cbn. discriminate. Qed.

Lemma scan_next_skip q : Forall last_entry q -> Forall (fun e : nd * nat => get_children (fst e) <> None) q ->
  forall i rest, scan_next i (map Some q ++ rest) = scan_next (i + length q) rest.
Proof.
  induction 1 as [|[node j] q Hl Hq IH]; intros G i rest; cbn [map app length].
  - now rewrite Nat.add_0_r.
  - inversion G as [|? ? G1 G2]; subst. cbn [scan_next]. cbn [fst] in G1. destruct (get_children node) as [cs|] eqn:E; [|congruence]. cbn [bind].
    specialize (Hl cs E). cbn in Hl. replace (j + 1 <? length cs) with false by lia. rewrite IH; auto. f_equal. lia.
Qed.
Lemma scan_prev_skip q : Forall first_entry q -> Forall (fun e : nd * nat => get_children (fst e) <> None) q ->
  forall i rest, scan_prev i (map Some q ++ rest) = scan_prev (i + length q) rest.
Proof.
  induction 1 as [|[node j] q Hl Hq IH]; intros G i rest; cbn [map app length].
  - now rewrite Nat.add_0_r.
  - inversion G as [|? ? G1 G2]; subst. cbn [scan_prev]. cbn [fst] in G1. destruct (get_children node) as [cs|] eqn:E; [|congruence]. cbn [bind].
    unfold first_entry in Hl. cbn in Hl. subst j. cbn [Nat.ltb Nat.leb]. rewrite IH; auto. f_equal. lia.
Qed.

Lemma cache_of_app q e t : length q < CACHE_SIZE ->
  exists rest, cache_of (q ++ e :: t) = map Some q ++ Some e :: rest /\
    forall q' e', length q' = length q -> cache_of (q' ++ e' :: t) = map Some q' ++ Some e' :: rest.
Proof.
  intros Hq. unfold cache_of, overlay.
  exists (firstn (CACHE_SIZE - length q - 1) (map Some t ++ skipn (length (q ++ e :: t)) (repeat None CACHE_SIZE))).
  assert (G : forall q' e', length q' = length q ->
    firstn CACHE_SIZE (map Some (q' ++ e' :: t) ++ skipn (length (q' ++ e' :: t)) (repeat None CACHE_SIZE)) =
    map Some q' ++ Some e' :: firstn (CACHE_SIZE - length q - 1) (map Some t ++ skipn (length (q ++ e :: t)) (repeat None CACHE_SIZE))).
  { intros q' e' El. rewrite map_app, <- app_assoc. rewrite firstn_app, map_length, El. rewrite firstn_all2 by (rewrite map_length; lia).
    f_equal. cbn [map app]. destruct (CACHE_SIZE - length q) as [|m] eqn:Em; [lia|]. cbn [firstn]. f_equal.
    replace (S m - 1) with m by lia. rewrite !app_length, El. reflexivity. }
  split; [now apply G|exact G].
Qed.

Lemma cache_of_long p : CACHE_SIZE <= length p -> cache_of p = map Some (firstn CACHE_SIZE p).
Proof.
  intros Hp. unfold cache_of, overlay. rewrite firstn_app, map_length. replace (CACHE_SIZE - length p) with 0 by lia. cbn [firstn].
  now rewrite app_nil_r, firstn_map.
Qed.
Lemma cache_of_short p : length p < CACHE_SIZE -> exists rest, cache_of p = map Some p ++ None :: rest.
Proof.
  intros Hp. unfold cache_of, overlay. exists (repeat None (CACHE_SIZE - length p - 1)).
  rewrite firstn_app, map_length. rewrite firstn_all2 by (rewrite map_length; lia). f_equal.
  rewrite skipn_repeat, firstn_repeat, Nat.min_id. destruct (CACHE_SIZE - length p) eqn:E; [lia|]. cbn. f_equal. f_equal. lia.
Qed.

Lemma H_pos p l pre post : route root p l pre post -> pre <> [] \/ post <> [] -> 0 < H.
Proof. intros R Hne. rewrite <- (route_height _ _ _ _ _ R H Wr). destruct R; cbn; [tauto|]. rewrite app_length. cbn. lia. Qed.

Lemma llen_pos ls : Forall (fun l => 0 < length (lc l)) ls -> ls <> [] -> 0 < llen ls.
Proof. destruct 1; [congruence|]. intros _. change (x :: l) with ([x] ++ l). rewrite llen_app, llen_one. lia. Qed.

Lemma firstn_in_Forall {A} (P : A -> Prop) k (xs : list A) : Forall P xs -> Forall P (firstn k xs).
Proof. intros F. rewrite Forall_forall in *. intros x Hx. apply F. rewrite <- (firstn_skipn k xs). apply in_or_app. now left. Qed.

Theorem next_leaf_ok c l pre post : at_leaf c l pre post ->
  match post with
  | [] => exists c', next_leaf ops root c = Some (false, c') /\ c_leaf c' = None /\ c_pos c' = length s /\ c_cache c' = c_cache c
  | l2 :: post' => exists c', next_leaf ops root c = Some (true, c') /\ at_leaf c' l2 (pre ++ [l]) post' /\ c_pos c' = c_off c'
  end.
Proof.
  intros (p & R & El & Eo & Ec). unfold next_leaf. rewrite El. pose proof (route_V _ _ _ _ R) as Vl.
  rewrite (s_len _ _ _ _ _ LS l Vl), Eo, Ec, len_root. pose proof (route_total _ _ _ _ R) as Et.
  pose proof (route_height _ _ _ _ _ R H Wr) as Hp. pose proof (route_children _ _ _ _ _ R) as Gp.
  destruct post as [|l2 post'].
  - destruct (route_first_last _ _ _ _ _ R H Wr) as [Fl _]. specialize (Fl eq_refl). unfold llen in Et at 2. cbn in Et. rewrite Nat.add_0_r in Et.
    destruct (Nat.lt_ge_cases (length p) CACHE_SIZE) as [Hs|Hs].
    + destruct (cache_of_short p Hs) as (rest & ->). rewrite scan_next_skip by auto. cbn [scan_next bind].
      eexists. split; [reflexivity|]. cbn. auto.
    + rewrite cache_of_long by auto. rewrite <- (app_nil_r (map Some _)), scan_next_skip; auto using firstn_in_Forall. cbn [scan_next bind].
      rewrite <- Et, Nat.eqb_refl. eexists. split; [reflexivity|]. cbn. auto.
  - destruct (route_next _ _ _ _ _ R H l2 post' Wr eq_refl) as (q & node & cs & j & t & c2 & p2 & -> & Q1 & Q2 & Q3 & Q4 & Q5 & Q6 & Q7).
    apply Forall_app in Gp as [Gq _].
    destruct (Nat.lt_ge_cases (length q) CACHE_SIZE) as [Hs|Hs].
    + destruct (cache_of_app q (node, j) t Hs) as (rest & -> & Er). rewrite scan_next_skip by auto. cbn [scan_next]. rewrite Q2. cbn [bind].
      replace (j + 1) with (S j) by lia. replace (S j <? length cs) with true by lia. rewrite Q4. cbn [bind]. rewrite Q5. cbn [bind].
      eexists. split; [reflexivity|]. cbn [c_pos c_off]. split; auto. exists (p2 ++ (node, S j) :: t). split; auto. cbn. split; auto. split.
      * rewrite llen_app, llen_one. lia.
      * rewrite app_nil_r. symmetry. now apply Er.
    + assert (Hlong : CACHE_SIZE <= length (q ++ (node, j) :: t)) by (rewrite app_length; lia).
      assert (Esc : scan_next 0 (cache_of (q ++ (node, j) :: t)) = Some Exhausted).
      { rewrite cache_of_long by auto. rewrite firstn_app. replace (CACHE_SIZE - length q) with 0 by lia. cbn [firstn]. rewrite app_nil_r.
        rewrite <- (app_nil_r (map Some _)), scan_next_skip; auto using firstn_in_Forall. }
      rewrite Esc. cbn [bind].
      pose proof (H_pos _ _ _ _ R ltac:(right; discriminate)) as HH. pose proof (leaves_pos H root Wr ltac:(auto)) as FP.
      rewrite (route_leaves _ _ _ _ _ R) in FP. apply Forall_app in FP as [_ FP]. apply Forall_inv_tail in FP. pose proof (Forall_inv FP) as P2. cbv beta in P2.
      change (l2 :: post') with ([l2] ++ post') in Et. rewrite llen_app, llen_one in Et.
      replace (llen pre + length (lc l) =? length s) with false by lia.
      destruct (descend_ok (Cursor (llen pre + length (lc l)) (cache_of (q ++ (node, j) :: t)) (Some l) (llen pre))) as (c' & l3 & pre3 & post3 & Ed & Ep & Hv).
      { left. exists (q ++ (node, j) :: t), l, pre, (l2 :: post'). auto. }
      { cbn. lia. }
      rewrite Ed. cbn [bind]. eexists. split; [reflexivity|]. cbn in Ep.
      destruct Hv as ((p3 & R3 & L3 & O3 & C3) & B1 & B2).
      destruct (leaves_unique (llen pre + length (lc l)) pre3 (pre ++ [l]) l3 l2 post3 post') as (-> & -> & ->).
      { rewrite <- (route_leaves _ _ _ _ _ R3), (route_leaves _ _ _ _ _ R), <- app_assoc. reflexivity. }
      { destruct B2 as [B2|[B2 ->]]; [lia|]. exfalso. pose proof (route_total _ _ _ _ R3). unfold llen in H0 at 2. cbn in H0. lia. }
      { rewrite llen_app, llen_one. lia. }
      split; [exists p3; auto|]. rewrite Ep, O3, llen_app, llen_one. reflexivity.
Qed.

Theorem prev_leaf_ok c l pre post : at_leaf c l pre post ->
  match rev pre with
  | [] => exists c', prev_leaf ops root c = Some (false, c') /\ c_leaf c' = None /\ c_pos c' = 0 /\ c_cache c' = c_cache c
  | l0 :: rpre => exists c', prev_leaf ops root c = Some (true, c') /\ at_leaf c' l0 (rev rpre) (l :: post) /\ c_pos c' = c_off c'
  end.
Proof.
  intros (p & R & El & Eo & Ec). unfold prev_leaf. rewrite Eo, Ec. destruct (rev pre) as [|l0 rpre] eqn:Er.
  - assert (pre = []) by (rewrite <- (rev_involutive pre), Er; reflexivity). subst pre. unfold llen. cbn. eexists. split; [reflexivity|]. cbn. auto.
  - assert (Ep : pre = rev rpre ++ [l0]) by (rewrite <- (rev_involutive pre), Er; reflexivity).
    pose proof (H_pos _ _ _ _ R ltac:(left; subst pre; destruct (rev rpre); discriminate)) as HH. pose proof (leaves_pos H root Wr ltac:(auto)) as FP.
    rewrite (route_leaves _ _ _ _ _ R), Ep in FP. apply Forall_app in FP as [FP _]. apply Forall_app in FP as [_ FP]. apply Forall_inv in FP. cbv beta in FP.
    assert (V0 : V l0).
    { pose proof (leaves_V H root Wr) as FV. rewrite (route_leaves _ _ _ _ _ R), Ep in FV. apply Forall_app in FV as [FV _]. apply Forall_app in FV as [_ FV]. now inversion FV. }
    assert (Epl : llen pre = llen (rev rpre) + length (lc l0)) by (rewrite Ep, llen_app, llen_one; reflexivity).
    replace (llen pre =? 0) with false by lia.
    destruct (route_prev _ _ _ _ _ R H l0 (rev rpre) Wr Ep) as (q & node & cs & j & t & c2 & p2 & -> & Q1 & Q1' & Q2 & Q4 & Q5 & Q6 & Q7).
    destruct (Nat.lt_ge_cases (length q) CACHE_SIZE) as [Hs|Hs].
    + destruct (cache_of_app q (node, S j) t Hs) as (rest & -> & Erst). rewrite scan_prev_skip by auto. cbn [scan_prev]. rewrite Q2. cbn [bind].
      replace (0 <? S j) with true by lia. replace (S j - 1) with j by lia. rewrite Q4. cbn [bind Nat.add]. rewrite Q5. cbn [bind].
      rewrite (s_len _ _ _ _ _ LS l0 V0). replace (llen pre <? length (lc l0)) with false by lia.
      eexists. split; [reflexivity|]. cbn [c_pos c_off]. split; auto. exists (p2 ++ (node, j) :: t). split; auto. cbn. split; auto. split.
      * lia.
      * rewrite app_nil_r. symmetry. now apply Erst.
    + assert (Hlong : CACHE_SIZE <= length (q ++ (node, S j) :: t)) by (rewrite app_length; lia).
      assert (Esc : scan_prev 0 (cache_of (q ++ (node, S j) :: t)) = Some Exhausted).
      { rewrite cache_of_long by auto. rewrite firstn_app. replace (CACHE_SIZE - length q) with 0 by lia. cbn [firstn]. rewrite app_nil_r.
        rewrite <- (app_nil_r (map Some _)), scan_prev_skip; auto using firstn_in_Forall. }
      rewrite Esc. cbn [bind].
      pose proof (route_total _ _ _ _ R) as Et.
      destruct (descend_ok (Cursor (llen pre - 1) (cache_of (q ++ (node, S j) :: t)) (Some l) (llen pre))) as (c' & l3 & pre3 & post3 & Ed & Epos & Hv).
      { left. exists (q ++ (node, S j) :: t), l, pre, post. auto. }
      { cbn. lia. }
      rewrite El. rewrite Ed. cbn [bind]. eexists. split; [reflexivity|]. cbn in Epos.
      destruct Hv as ((p3 & R3 & L3 & O3 & C3) & B1 & B2).
      destruct (leaves_unique (llen pre - 1) pre3 (rev rpre) l3 l0 post3 (l :: post)) as (-> & -> & ->).
      { rewrite <- (route_leaves _ _ _ _ _ R3), (route_leaves _ _ _ _ _ R), Ep, <- app_assoc. reflexivity. }
      { destruct B2 as [B2|[B2 ->]]; [lia|]. exfalso. pose proof (route_total _ _ _ _ R3). unfold llen in H0 at 2. cbn in H0. lia. }
      { lia. }
      cbn. split; auto. exists p3. auto.
Qed.

Theorem set_ok c pos : (exists l pre post, at_leaf c l pre post) \/ c_leaf c = None /\ cache_ok c -> pos <= length s ->
  exists c' l pre post, c_set ops root c pos = Some c' /\ c_pos c' = pos /\ valid c' l pre post.
Proof.
  intros Hc Hp. unfold c_set. destruct Hc as [(l & pre & post & Ha)|[-> Hc]].
  - pose proof Ha as (p & R & El & Eo & Ec). rewrite El. rewrite (s_len _ _ _ _ _ LS l) by (eapply route_V; eauto).
    destruct ((c_off c <=? pos) && (pos <? c_off c + length (lc l))) eqn:E.
    + eexists _, l, pre, post. split; [reflexivity|]. split; auto. split; [exists p; cbn; auto|]. cbn. split; [lia|]. left. lia.
    + apply (descend_ok (Cursor pos (c_cache c) (Some l) (c_off c))); auto. left. exists p, l, pre, post. auto.
  - apply (descend_ok (Cursor pos (c_cache c) None (c_off c))); auto.
Qed.
End Cursor.
