(** Proofs about hovers. *)
From Coq Require Import List Arith Lia Bool ZifyBool.
From Verif Require Import Base HoverModel HoverSpec.
Import ListNotations.

Lemma run_app h : forall s h', hover_run s (h ++ h') = let? s' := hover_run s h in hover_run s' h'.
Proof. induction h as [|e h IH]; intros s h'; [reflexivity|]. cbn [app hover_run]. destruct (hover_step s e); cbn [bind]; auto. Qed.
Lemma requests_app h h' : requests (h ++ h') = requests h ++ requests h'.
Proof. induction h as [|[v rid []|id r| |v] h IH]; cbn; auto. now rewrite IH. Qed.
Lemma asked_app h h' id c : asked h id c -> asked (h ++ h') id c.
Proof. intros [H1 H2]. split; auto. rewrite requests_app, nth_error_app1; auto. apply nth_error_Some. congruence. Qed.
Lemma take_some id p c r : take id p = Some (c, r) -> exists p1 p2, p = p1 ++ (id, c) :: p2 /\ r = p1 ++ p2 /\ ~ In id (map fst p1).
Proof.
  revert c r. induction p as [|[i x] p IH]; intros c r; cbn [take]; [discriminate|]. destruct (Nat.eqb_spec i id) as [->|N]; [intros [= <- <-]; exists [], p; auto|]. destruct (take id p) as [[c' r']|] eqn:E; [|discriminate]. cbn [bind]. intros [= <- <-].
  destruct (IH _ _ eq_refl) as (p1 & p2 & -> & -> & H). exists ((i, x) :: p1), p2. split; auto. split; auto. cbn. now intros [|].
Qed.
Lemma take_none id p : take id p = None -> ~ In id (map fst p).
Proof.
  induction p as [|[i x] p IH]; cbn [take]; intros H; [easy|]. destruct (Nat.eqb_spec i id) as [->|N]; [discriminate|]. destruct (take id p) as [[c' r']|] eqn:E; [discriminate|]. cbn. intros [|]; auto. now apply IH.
Qed.
Definition waiting (s : hover_state) : list (nat * nat * option nat) := map (fun '(v, (rid, r)) => (v, rid, r)) (combine (idle_queue s) (results s)).
Record inv (vs : list nat) (h : list event) (s : hover_state) : Prop := {
  i_next : next_id s = 1 + length (requests h);
  i_pending : forall id c, In (id, c) (pending s) <-> asked h id c /\ forall r, ~ In (Answer id r) h;
  i_nodup : NoDup (map fst (pending s));
  i_same : length (idle_queue s) = length (results s);
  i_answers : answers h (shown s ++ waiting s);
  i_views : views s = vs;
  i_idle : Forall (fun v => In v vs) (idle_queue s);
  i_asked : Forall (fun c => In (fst c) vs) (requests h) }.
Lemma waiting_snoc {A B} (q : list A) (rs : list B) v x : length q = length rs -> combine (q ++ [v]) (rs ++ [x]) = combine q rs ++ [(v, x)].
Proof. revert rs. induction q as [|w q IH]; intros [|y rs] H; cbn in *; try lia; auto. now rewrite IH by lia. Qed.
Lemma open_in s v : is_open s v = true <-> In v (views s).
Proof. unfold is_open. rewrite existsb_exists. split; [intros (x & I & E); apply Nat.eqb_eq in E; now subst|intros I; exists v; split; auto; apply Nat.eqb_refl]. Qed.
Lemma not_answered h id e : (forall r, e <> Answer id r) -> (forall r, ~ In (Answer id r) (h ++ [e])) <-> (forall r, ~ In (Answer id r) h).
Proof. intros N. split; intros H r I; apply (H r); [apply in_app_iff; now left|]. apply in_app_iff in I. destruct I as [I|[I|[]]]; auto. now destruct (N r). Qed.
Lemma pending_same h s e : requests [e] = [] -> (forall id r, e <> Answer id r) -> (forall id c, In (id, c) (pending s) <-> asked h id c /\ forall r, ~ In (Answer id r) h) ->
  forall id c, In (id, c) (pending s) <-> asked (h ++ [e]) id c /\ forall r, ~ In (Answer id r) (h ++ [e]).
Proof. intros R N H id c. rewrite H, not_answered by auto. unfold asked. now rewrite requests_app, R, app_nil_r. Qed.
Lemma answered_bound h l : answers h l -> forall id r, In (Answer id r) h -> id <= length (requests h).
Proof.
  induction 1 as [|h l v rid X IH|h l v rid X IH|h l id r v rid X IH [K1 K2]|h l X IH]; intros id' r' I; [easy|..]; rewrite requests_app, app_length; apply in_app_iff in I; destruct I as [I|[I|[]]]; try discriminate; try (apply IH in I; lia).
  injection I as <- <-. assert (id - 1 < length (requests h)) by (apply nth_error_Some; congruence). lia.
Qed.
Lemma inv_step vs h s e s' : inv vs h s -> all_open vs [e] -> hover_step s e = Some s' -> inv vs (h ++ [e]) s'.
Proof.
  intros I A S. destruct I as [I1 I2 I3 I4 I5 I6 I7 I8]. inversion A as [|? ? Ae _]; subst. destruct e as [v rid found|id r| |v]; cbn [hover_step] in S.
  - injection S as <-. unfold get_hover. replace (is_open s v) with true by (symmetry; now apply open_in). destruct found.
    + assert (R : requests (h ++ [Hover v rid true]) = requests h ++ [(v, rid)]) by now rewrite requests_app.
      assert (New : forall c, asked (h ++ [Hover v rid true]) (next_id s) c <-> c = (v, rid)).
      { intros c. unfold asked. rewrite R, I1, nth_error_app2 by lia. replace (1 + length (requests h) - 1 - length (requests h)) with 0 by lia. cbn. split; [intros [_ [= ->]]; auto|intros ->; split; [lia|auto]]. }
      assert (Old : forall id c, id <> next_id s -> asked (h ++ [Hover v rid true]) id c <-> asked h id c).
      { intros id c N. split; [|apply asked_app]. intros [H1 H2]. split; auto. rewrite R in H2. destruct (Nat.lt_ge_cases (id - 1) (length (requests h))); [now rewrite nth_error_app1 in H2 by auto|]. rewrite nth_error_app2 in H2 by auto. destruct (id - 1 - length (requests h)) as [|[|]] eqn:E; try discriminate. lia. }
      assert (Ans : answers h (shown s ++ waiting s) -> forall r, ~ In (Answer (next_id s) r) h).
      { intros X r I. apply (answered_bound _ _ X) in I. lia. }
      constructor; cbn; auto.
      * rewrite R, app_length, I1. cbn. lia.
      * intros id c. rewrite not_answered by discriminate. split.
        -- intros [E|E]; [injection E as <- <-; split; [now apply New|now apply Ans]|]. apply I2 in E. destruct E as [E1 E2]. split; auto. now apply asked_app.
        -- intros [E1 E2]. destruct (Nat.eq_dec id (next_id s)) as [->|N]; [left; apply New in E1; now subst|right]. apply I2. split; auto. now apply Old in E1.
      * constructor; auto. intros X. apply in_map_iff in X. destruct X as ([i c] & E & X). cbn in E. subst i. apply I2 in X. destruct X as [[X1 X2] _]. assert (next_id s - 1 < length (requests h)) by (apply nth_error_Some; congruence). lia.
      * now apply an_sent.
      * rewrite R. apply Forall_app. split; auto.
    + constructor; cbn; auto.
      * now rewrite requests_app, app_nil_r.
      * apply (pending_same h s (Hover v rid false)); auto; discriminate.
      * rewrite !app_length. cbn. lia.
      * unfold waiting. cbn. rewrite waiting_snoc, map_app, app_assoc by auto. now apply an_error.
      * apply Forall_app. split; auto.
      * now rewrite requests_app, app_nil_r.
  - unfold handle_response in S. destruct (take id (pending s)) as [[[v rid] p]|] eqn:T; [|discriminate]. cbn [bind fst snd] in S. injection S as <-. destruct (take_some _ _ _ _ T) as (p1 & p2 & E & -> & N1).
    assert (K : asked h id (v, rid) /\ forall r, ~ In (Answer id r) h) by (apply I2; rewrite E; apply in_app_iff; right; now left). destruct K as [K1 K2]. rewrite E, map_app in I3. cbn [map fst] in I3. pose proof (NoDup_remove_2 _ _ _ I3) as Nd. apply NoDup_remove_1 in I3. rewrite <- map_app in I3, Nd.
    constructor; cbn; auto.
    + now rewrite requests_app, app_nil_r.
    + intros i c. assert (X : In (i, c) (p1 ++ p2) <-> In (i, c) (pending s) /\ i <> id).
      { rewrite E, !in_app_iff. cbn. split; [|intros [[X|[X|X]] Y]; auto; congruence]. intros X. split; [tauto|]. intros ->. apply Nd. apply in_map_iff. exists (id, c). split; auto. now apply in_app_iff. }
      rewrite X, I2. unfold asked at 2. rewrite requests_app, app_nil_r. change (1 <= i /\ nth_error (requests h) (i - 1) = Some c) with (asked h i c). split.
      * intros [[Y1 Y2] Y3]. split; auto. intros r' Z. apply in_app_iff in Z. destruct Z as [Z|[Z|[]]]; [now apply (Y2 r')|congruence].
      * intros [Y1 Y2]. split; [split; auto; intros r' Z; apply (Y2 r'); apply in_app_iff; now left|]. intros ->. apply (Y2 r). apply in_app_iff. right. now left.
    + rewrite !app_length. cbn. lia.
    + unfold waiting. cbn. rewrite waiting_snoc, map_app, app_assoc by auto. now apply an_answer.
    + apply Forall_app. split; auto. constructor; auto. destruct K1 as [_ K1]. apply nth_error_In in K1. rewrite Forall_forall in I8. exact (I8 _ K1).
    + now rewrite requests_app, app_nil_r.
  - injection S as <-. unfold do_idle. destruct (idle_queue s) as [|v q] eqn:Q.
    + constructor; rewrite ?Q; auto; [now rewrite requests_app, app_nil_r|apply (pending_same h s Idle); auto; discriminate|now apply an_idle|now rewrite requests_app, app_nil_r].
    + inversion I7 as [|? ? V7 F7]; subst. replace (is_open s v) with true by (symmetry; now apply open_in). destruct (results s) as [|[rid r] rs] eqn:Rs; [discriminate|]. constructor; cbn; auto.
      * now rewrite requests_app, app_nil_r.
      * apply (pending_same h s Idle); auto; discriminate.
      * apply an_idle. unfold waiting in *. rewrite Q, Rs in I5. cbn in *. now rewrite <- app_assoc.
      * now rewrite requests_app, app_nil_r.
  - easy.
Qed.
Lemma inv_new vs : inv vs [] (hs_new vs).
Proof. constructor; cbn; auto using NoDup_nil, an_nil. intros id c. split; [easy|]. intros [[_ H] _]. now destruct (id - 1). Qed.
Lemma inv_run vs h : forall s, all_open vs h -> hover_run (hs_new vs) h = Some s -> inv vs h s.
Proof.
  induction h as [|e h IH] using rev_ind; intros s A H; [injection H as <-; apply inv_new|]. apply Forall_app in A. destruct A as [A1 A2]. rewrite run_app in H. destruct (hover_run (hs_new vs) h) as [s0|]; [|discriminate]. cbn [bind hover_run] in H. destruct (hover_step s0 e) as [s1|] eqn:E; [|discriminate]. injection H as <-. exact (inv_step vs h s0 e s1 (IH s0 A1 eq_refl) A2 E).
Qed.
Lemma answers_unique h l : answers h l -> forall l', answers h l' -> l' = l.
Proof.
  intros H. induction H as [|h l v rid H IH|h l v rid H IH|h l id r v rid H IH K|h l H IH]; intros l' H'; inversion H' as [E|h' l1 v' rid' X E|h' l1 v' rid' X E|h' l1 id' r' v' rid' X K' E|h' l1 X E]; try (now destruct h); try (now destruct h'); try (apply app_inj_tail in E; destruct E as [-> E]; try discriminate); auto.
  - injection E as -> ->. now rewrite (IH _ X).
  - injection E as -> ->. rewrite (IH _ X). destruct K as [_ K]. destruct K' as [_ K']. rewrite K in K'. now injection K' as -> ->.
Qed.
Lemma idle_all vs h : forall n s, inv vs h s -> n = length (results s) -> exists s', hover_run s (repeat Idle n) = Some s' /\ shown s' = shown s ++ waiting s /\ results s' = [].
Proof.
  intros n. revert h. induction n as [|n IH]; intros h s I E.
  - exists s. split; auto. unfold waiting. destruct (results s); [|discriminate]. split; auto. destruct (idle_queue s); cbn; now rewrite app_nil_r.
  - cbn [repeat hover_run hover_step bind]. pose proof (inv_step vs h s Idle (do_idle s) I ltac:(repeat constructor) eq_refl) as I'. pose proof (i_same _ _ _ I) as Sm. pose proof (i_idle _ _ _ I) as Op. pose proof (i_views _ _ _ I) as Vs.
    unfold do_idle, waiting in *. destruct (idle_queue s) as [|v q] eqn:Q; [cbn in Sm; lia|]. inversion Op as [|? ? O1 O2]; subst. assert (O : is_open s v = true) by now apply open_in. rewrite O in *. destruct (results s) as [|[rid r] rs] eqn:R; [discriminate|].
    cbn in E. destruct (IH _ _ I') as (s' & H1 & H2 & H3); [cbn; lia|]. exists s'. split; [exact H1|]. split; auto. rewrite H2. cbn. now rewrite <- app_assoc.
Qed.
