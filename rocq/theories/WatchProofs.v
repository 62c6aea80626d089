From Coq Require Import List Arith Bool Lia ZifyBool.
From Verif Require Import WatchModel WatchSpec.
Import ListNotations.

Lemma path_eqb_ok a : forall b, path_eqb a b = true <-> a = b.
Proof.
  induction a as [|x a IH]; intros [|y b]; cbn; split; intros H; try discriminate; auto.
  - apply andb_true_iff in H as [H1 H2]. apply Nat.eqb_eq in H1. apply IH in H2. congruence.
  - inversion H; subst. rewrite Nat.eqb_refl. now apply IH.
Qed.
Lemma path_eqb_refl a : path_eqb a a = true. Proof. now apply path_eqb_ok. Qed.
Lemma path_eqb_no a b : path_eqb a b = false <-> a <> b.
Proof. split; [intros H E; apply path_eqb_ok in E; congruence|]. intros H. destruct (path_eqb a b) eqn:E; auto. apply path_eqb_ok in E. contradiction. Qed.
Lemma starts_ok a : forall b, starts_with a b = true <-> exists r, a = b ++ r.
Proof.
  induction a as [|x a IH]; intros [|y b]; cbn; split; intros H; eauto; try discriminate.
  - destruct H as [r H]. discriminate.
  - apply andb_true_iff in H as [H1 H2]. apply Nat.eqb_eq in H1. apply IH in H2 as [r ->]. exists r. congruence.
  - destruct H as [r H]. inversion H; subst. rewrite Nat.eqb_refl. apply IH. eauto.
Qed.
Lemma parent_ok p q : (match parent p with Some r => path_eqb r q | None => false end) = true <-> exists c, p = q ++ [c].
Proof.
  split.
  - destruct p as [|x p]; [discriminate|]. cbn [parent]. intros H. apply path_eqb_ok in H. destruct (exists_last (l := x :: p)) as (a & c & E); [discriminate|]. rewrite E in *. rewrite removelast_last in H. subst. eauto.
  - intros [c ->]. unfold parent. destruct (q ++ [c]) as [|x p] eqn:E; [destruct q; discriminate|]. rewrite <- E, removelast_last. apply path_eqb_refl.
Qed.
Lemma applies_ok w p : applies_to_path w p = true <-> concerns w p.
Proof.
  unfold applies_to_path, concerns.
  assert (G : (if starts_with p (w_path w) then (w_recursive w || path_eqb (w_path w) p) || match parent p with Some q => path_eqb q (w_path w) | None => false end else false) = true <->
    (p = w_path w \/ (exists c, p = w_path w ++ [c]) \/ w_recursive w = true /\ exists rest, p = w_path w ++ rest)).
  { split.
    - destruct (starts_with p (w_path w)) eqn:S; [|discriminate]. apply starts_ok in S. intros H. apply orb_true_iff in H as [H|H]; [apply orb_true_iff in H as [H|H]|].
      + right. right. auto.
      + left. apply path_eqb_ok in H. auto.
      + right. left. now apply parent_ok.
    - intros H. assert (S : starts_with p (w_path w) = true).
      { apply starts_ok. destruct H as [->|[[c ->]|[_ H]]]; [exists []; now rewrite app_nil_r|eauto|auto]. }
      rewrite S. destruct H as [->|[H|[H _]]].
      + now rewrite path_eqb_refl, orb_true_r.
      + apply parent_ok in H. rewrite H. apply orb_true_r.
      + now rewrite H. }
  destruct (w_filter w) as [f|].
  - rewrite andb_true_iff, G. split; intros [H1 H2]; (split; [exact H1|]); [intros g E; congruence|now apply H2].
  - rewrite G. split; [intros H; split; auto; discriminate|tauto].
Qed.
Lemma wants_ok w e : wants_event w e = true <-> concerned w e.
Proof.
  unfold wants_event, concerned. destruct e as [k ps]. cbn [e_kind e_paths].
  assert (One : (match ps with [p] => applies_to_path w p | _ => false end) = true <-> exists p, ps = [p] /\ concerns w p).
  { destruct ps as [|p [|q ps]]; [split; [discriminate|intros (p & ? & _); discriminate]| |split; [discriminate|intros (x & ? & _); discriminate]].
    rewrite applies_ok. split; [eauto|intros (x & E & H); inversion E; subst; auto]. }
  destruct k; cbn [In]; try (rewrite One; split; [intros H; left; split; [tauto|exact H]|intros [[_ H]|[H _]]; [exact H|discriminate H]]).
  - split.
    + destruct ps as [|p [|q [|x ps]]]; try discriminate. rewrite orb_true_iff, !applies_ok. intros H. right. split; auto. eauto.
    + intros [[H _]|[_ (p & q & -> & H)]]; [repeat destruct H as [H|H]; discriminate H || destruct H|]. rewrite orb_true_iff, !applies_ok. exact H.
  - split; [discriminate|]. intros [[H _]|[H _]]; [repeat destruct H as [H|H]; discriminate H || destruct H|discriminate H].
Qed.

(** ** Histories *)
Lemma run_app h1 : forall h2 s tk, run (h1 ++ h2) s tk = let (s1, t1) := run h1 s tk in run h2 s1 t1.
Proof. induction h1 as [|[g c r t f|p t| |e] h1 IH]; intros h2 s tk; [reflexivity| | | |]; cbn [app run]; try apply IH. Qed.
Lemma after_snoc h o : after (h ++ [o]) = match o with Watch _ c r t f => watch_impl c r t f (after h) | Unwatch p t => unwatch p t (after h) | Take => snd (take_events (after h)) | Receive e => receive e (after h) end.
Proof. unfold after. rewrite run_app. destruct (run h fresh []) as [s tk]. now destruct o. Qed.
Lemma handed_snoc h o : handed_out (h ++ [o]) = handed_out h ++ match o with Take => s_events (after h) | _ => [] end.
Proof. unfold handed_out, after. rewrite run_app. destruct (run h fresh []) as [s tk]. destruct o; cbn; now rewrite ?app_nil_r. Qed.
Lemma of_ok t p w : ((w_token w =? t) && path_eqb (w_path w) p) = true <-> of t p w.
Proof. rewrite andb_true_iff, Nat.eqb_eq, path_eqb_ok. reflexivity. Qed.
Lemma take_out_some f l w l' : take_out f l = Some (w, l') -> exists l1 l2, l = l1 ++ w :: l2 /\ l' = l1 ++ l2 /\ f w = true /\ Forall (fun x => f x = false) l1.
Proof.
  revert l'. induction l as [|x l IH]; intros l' H; [discriminate|]. cbn in H. destruct (f x) eqn:E.
  - inversion H; subst. exists [], l'. auto.
  - destruct (take_out f l) as [[r l'']|]; [|discriminate]. inversion H; subst. destruct (IH l'' eq_refl) as (l1 & l2 & -> & -> & Hf & F). exists (x :: l1), l2. repeat split; auto.
Qed.
Lemma take_out_none f l : take_out f l = None -> Forall (fun x => f x = false) l.
Proof. induction l as [|x l IH]; intros H; [constructor|]. cbn in H. destruct (f x) eqn:E; [discriminate|]. destruct (take_out f l) as [[? ?]|]; [discriminate|]. auto. Qed.
Lemma take_out_split f l1 w l2 : f w = true -> Forall (fun x => f x = false) l1 -> take_out f (l1 ++ w :: l2) = Some (w, l1 ++ l2).
Proof. intros Hw. induction 1 as [|x l1 Hx F IH]; cbn; [now rewrite Hw|]. now rewrite Hx, IH. Qed.
Lemma take_out_all f l : Forall (fun x => f x = false) l -> take_out f l = None.
Proof. induction 1 as [|x l Hx F IH]; cbn; auto. now rewrite Hx, IH. Qed.
Lemma not_of t p l : Forall (fun x => ~ of t p x) l <-> Forall (fun x => (w_token x =? t) && path_eqb (w_path x) p = false) l.
Proof. rewrite !Forall_forall. split; intros H x Hx; specialize (H x Hx); rewrite <- of_ok in *; [now apply not_true_is_false|congruence]. Qed.
Lemma unwatch_list p t s : s_watchees (unwatch p t s) = match take_out (fun w => (w_token w =? t) && path_eqb (w_path w) p) (s_watchees s) with Some (_, ws) => ws | None => s_watchees s end.
Proof. unfold unwatch. destruct (take_out _ _) as [[r ws]|]; reflexivity. Qed.
Lemma registered_ok h l : registered h l -> s_watchees (after h) = l.
Proof.
  induction 1 as [|h l g p r t f R IH|h l g r t f R IH|h l1 w l2 p t R IH Hw F|h l p t R IH F|h l R IH|h l e R IH]; [reflexivity| | | | | |]; rewrite after_snoc.
  - cbn. now rewrite IH.
  - exact IH.
  - rewrite unwatch_list, IH. apply of_ok in Hw. apply not_of in F. now rewrite (take_out_split _ l1 w l2 Hw F).
  - rewrite unwatch_list, IH. apply not_of in F. now rewrite (take_out_all _ l F).
  - exact IH.
  - unfold receive. destruct (s_alive (after h)); [destruct e|]; exact IH.
Qed.
Lemma registered_some h : exists l, registered h l.
Proof.
  induction h as [|o h [l R]] using rev_ind; [exists []; constructor|]. destruct o as [g [p|] r t f|p t| |e].
  - eexists. apply reg_watch, R.
  - eexists. apply reg_no_path, R.
  - destruct (take_out (fun w => (w_token w =? t) && path_eqb (w_path w) p) l) as [[w l']|] eqn:E.
    + apply take_out_some in E as (l1 & l2 & -> & -> & Hw & F). apply of_ok in Hw. apply not_of in F. eexists. exact (reg_unwatch _ _ _ _ _ _ R Hw F).
    + apply take_out_none in E. apply not_of in E. eexists. exact (reg_not_watched _ _ _ _ R E).
  - eexists. apply reg_take, R.
  - eexists. apply reg_receive, R.
Qed.
Lemma registered_after h : registered h (s_watchees (after h)).
Proof. destruct (registered_some h) as [l R]. now rewrite (registered_ok h l R). Qed.
Lemma alive_ok h : no_error h -> s_alive (after h) = true.
Proof.
  induction h as [|o h IH] using rev_ind; intros N; [reflexivity|]. assert (N' : no_error h) by (intros H; apply N, in_or_app; auto). specialize (IH N'). rewrite after_snoc. destruct o as [g [p|] r t f|p t| |e]; cbn; auto.
  - unfold unwatch. destruct (take_out _ _) as [[r ws]|]; auto.
  - unfold receive. rewrite IH. destruct e; auto. exfalso. apply N, in_or_app. right. now left.
Qed.
Lemma unwatch_events p t s : s_events (unwatch p t s) = s_events s.
Proof. unfold unwatch. destruct (take_out _ _) as [[r ws]|]; reflexivity. Qed.
Lemma told_snoc h o : told (h ++ [o]) = told h ++ match o with
  | Receive (Some e) => if s_alive (after h) then map (fun w => (w_token w, e)) (filter (fun w => wants_event w e) (s_watchees (after h))) else []
  | _ => [] end.
Proof.
  unfold told. rewrite handed_snoc, after_snoc. destruct o as [g [p|] r t f|p t| |[e|]]; cbn -[unwatch]; rewrite ?unwatch_events, ?app_nil_r; auto.
  - unfold receive. destruct (s_alive (after h)); cbn; now rewrite ?app_assoc, ?app_nil_r.
  - unfold receive. destruct (s_alive (after h)); reflexivity.
Qed.

(** ** What the notify crate watches *)
Lemma b_watch_in q m p m' b : In (q, m) (b_watch p m' b) <-> (q = p /\ m = m') \/ (q <> p /\ In (q, m) b).
Proof.
  unfold b_watch. cbn [In]. rewrite filter_In. cbn [fst]. rewrite negb_true_iff, path_eqb_no. split; [intros [E|[H1 H2]]; [inversion E; auto|auto]|]. intros [[-> ->]|[H1 H2]]; auto.
Qed.
Lemma b_unwatch_in q m p b : In (q, m) (b_unwatch p b) -> In (q, m) b /\ q <> p.
Proof. unfold b_unwatch. rewrite filter_In. cbn [fst]. intros [H1 H2]. apply andb_true_iff in H2 as [H2 _]. apply negb_true_iff, path_eqb_no in H2. auto. Qed.
Lemma b_unwatch_keeps q m p b : In (q, m) b -> q <> p -> (~ In (p, true) b \/ starts_with q p = false) -> In (q, m) (b_unwatch p b).
Proof.
  intros H N D. unfold b_unwatch. rewrite filter_In. cbn [fst]. split; auto. apply andb_true_iff. split; [now apply negb_true_iff, path_eqb_no|]. apply negb_true_iff. destruct D as [D| ->]; [|apply andb_false_r].
  apply andb_false_iff. left. apply not_true_is_false. intros E. apply existsb_exists in E as ([x mx] & Hx & E). cbn in E. apply andb_true_iff in E as [E1 E2]. apply path_eqb_ok in E1. subst. now apply D.
Qed.
Definition rewatch (ws : list watchee) (b : backend) : backend := fold_left (fun b w => b_watch (w_path w) (w_recursive w) b) ws b.
Lemma rewatch_in ws : forall b q m, In (q, m) (rewatch ws b) -> (exists w, In w ws /\ w_path w = q /\ w_recursive w = m) \/ (In (q, m) b /\ forall w, In w ws -> w_path w <> q).
Proof.
  induction ws as [|w ws IH]; intros b q m H; [right; split; auto; intros w []|]. cbn in H. apply IH in H as [(x & Hx & E)|[H N]].
  - left. exists x. split; [now right|auto].
  - apply b_watch_in in H as [[-> ->]|[Hn H]]; [left; exists w; split; [now left|auto]|]. right. split; auto. intros x [<-|Hx]; [congruence|auto].
Qed.
Lemma rewatch_has ws : forall b w, In w ws -> exists m, In (w_path w, m) (rewatch ws b).
Proof.
  induction ws as [|x ws IH]; intros b w H; [destruct H|]. cbn. destruct (in_dec (list_eq_dec Nat.eq_dec) (w_path w) (map w_path ws)) as [I|I].
  - apply in_map_iff in I as (y & E & Hy). destruct (IH (b_watch (w_path x) (w_recursive x) b) y Hy) as [m Hm]. rewrite E in Hm. eauto.
  - destruct H as [->|H]; [|exfalso; apply I, in_map; auto]. exists (w_recursive w). assert (K : forall ws b, ~ In (w_path w) (map w_path ws) -> In (w_path w, w_recursive w) b -> In (w_path w, w_recursive w) (rewatch ws b)).
    { clear. induction ws as [|y ws IH]; intros b N H; auto. cbn in *. apply IH; [tauto|]. apply b_watch_in. right. split; [intros E; apply N; now left|auto]. }
    apply K; auto. apply b_watch_in. auto.
Qed.
Lemma rewatch_keeps ws b q m : In (q, m) b -> (forall w, In w ws -> w_path w <> q) -> In (q, m) (rewatch ws b).
Proof. revert b. induction ws as [|y ws IH]; intros b H N; auto. cbn. apply IH; [|intros w Hw; apply N; now right]. apply b_watch_in. right. split; auto. intros E. apply (N y (or_introl eq_refl)). auto. Qed.
Record covers (ws : list watchee) (b : backend) : Prop := {
  c_all : forall w, In w ws -> exists m, In (w_path w, m) b;
  c_only : forall p m, In (p, m) b -> exists w, In w ws /\ w_path w = p /\ (m = true -> w_recursive w = true) }.
Lemma same_path_b w ws p : existsb (fun w2 => path_eqb p (w_path w2)) ws = true -> w_path w = p -> exists x, In x ws /\ w_path x = p.
Proof. intros H _. apply existsb_exists in H as (x & Hx & E). apply path_eqb_ok in E. eauto. Qed.
Lemma covers_after h : covers (s_watchees (after h)) (s_inner (after h)).
Proof.
  induction h as [|o h [A O]] using rev_ind; [split; [intros w []|intros p m []]|]. rewrite after_snoc. destruct o as [g [p|] r t f|p t| |e]; try (split; assumption).
  - cbn. destruct (existsb (fun w2 => path_eqb p (w_path w2)) (s_watchees (after h))) eqn:X.
    + split.
      * intros w Hw. apply in_app_or in Hw as [Hw|[<-|[]]]; auto. cbn. apply existsb_exists in X as (x & Hx & E). apply path_eqb_ok in E. subst p. auto.
      * intros q m H. destruct (O q m H) as (w & Hw & E). exists w. split; [apply in_or_app; auto|auto].
    + split.
      * intros w Hw. destruct (list_eq_dec Nat.eq_dec (w_path w) p) as [E|E]; [exists r; apply b_watch_in; auto|]. apply in_app_or in Hw as [Hw|[<-|[]]]; [|cbn in E; congruence].
        destruct (A w Hw) as [m Hm]. exists m. apply b_watch_in. auto.
      * intros q m H. apply b_watch_in in H as [[-> ->]|[N H]].
        -- exists (Watchee p r t f). split; [apply in_or_app; right; now left|auto].
        -- destruct (O q m H) as (w & Hw & E). exists w. split; [apply in_or_app; auto|auto].
  - unfold unwatch. destruct (take_out _ _) as [[rem ws]|] eqn:T; [|split; assumption]. cbn [s_watchees s_inner]. apply take_out_some in T as (l1 & l2 & El & -> & Hw & F). rewrite El in A, O.
    assert (In2 : forall w, In w (l1 ++ l2) -> In w (l1 ++ rem :: l2)) by (intros w Hx; apply in_app_or in Hx as [|]; apply in_or_app; [|right; right]; auto).
    assert (Old : forall w, In w (l1 ++ rem :: l2) -> w = rem \/ In w (l1 ++ l2)) by (intros w Hx; apply in_app_or in Hx as [|[|]]; auto using in_or_app).
    set (b1 := if existsb (fun w => path_eqb (w_path w) (w_path rem)) (l1 ++ l2) then s_inner (after h) else b_unwatch (w_path rem) (s_inner (after h))).
    assert (B1 : forall q m, In (q, m) b1 -> In (q, m) (s_inner (after h)) /\ (q = w_path rem -> exists w, In w (l1 ++ l2) /\ w_path w = q)).
    { intros q m H. unfold b1 in H. destruct (existsb _ _) eqn:X; [|apply b_unwatch_in in H as [H N]; split; auto; congruence]. split; auto. intros ->. apply existsb_exists in X as (x & Hx & E). apply path_eqb_ok in E. eauto. }
    destruct (w_recursive rem) eqn:Rec; fold (rewatch (filter (fun w => starts_with (w_path w) (w_path rem)) (l1 ++ l2)) b1).
    + split.
      * intros w Hx. destruct (starts_with (w_path w) (w_path rem)) eqn:S; [apply rewatch_has; apply filter_In; auto|]. destruct (A w (In2 w Hx)) as [m Hm]. exists m. apply rewatch_keeps.
        -- unfold b1. destruct (existsb _ _); auto. apply b_unwatch_keeps; auto. intros E. rewrite E in S. assert (starts_with (w_path rem) (w_path rem) = true) by (apply starts_ok; exists []; now rewrite app_nil_r). congruence.
        -- intros y Hy E. apply filter_In in Hy as [_ Hy]. rewrite E in Hy. congruence.
      * intros q m H. apply rewatch_in in H as [(w & Hx & E1 & E2)|[H N]].
        -- apply filter_In in Hx as [Hx _]. exists w. split; auto. split; auto. congruence.
        -- apply B1 in H as [H Hq]. destruct (O q m H) as (w & Hx & E1 & E2). destruct (Old w Hx) as [->|Hx']; [|eauto]. exfalso. destruct (Hq (eq_sym E1)) as (x & Hx' & Ex). apply (N x); auto. apply filter_In. split; auto. apply starts_ok. exists []. rewrite app_nil_r. congruence.
    + split.
      * intros w Hx. destruct (A w (In2 w Hx)) as [m Hm]. exists m. unfold b1. destruct (existsb _ _) eqn:X; auto. apply b_unwatch_keeps; auto.
        -- intros E. assert (existsb (fun w => path_eqb (w_path w) (w_path rem)) (l1 ++ l2) = true) by (apply existsb_exists; exists w; split; auto; now apply path_eqb_ok). congruence.
        -- left. intros Hd. destruct (O _ _ Hd) as (y & Hy & E1 & E2). destruct (Old y Hy) as [->|Hy']; [specialize (E2 eq_refl); congruence|].
           assert (existsb (fun w => path_eqb (w_path w) (w_path rem)) (l1 ++ l2) = true) by (apply existsb_exists; exists y; split; auto; now apply path_eqb_ok). congruence.
      * intros q m H. apply B1 in H as [H Hq]. destruct (O q m H) as (w & Hx & E1 & E2). destruct (Old w Hx) as [->|Hx']; [|eauto]. destruct (Hq (eq_sym E1)) as (x & Hx' & Ex). exists x. split; auto. split; auto. intros ->. specialize (E2 eq_refl). congruence.
  - unfold receive. destruct (s_alive (after h)); [destruct e|]; split; assumption.
Qed.
Definition modes_agree (modes : path -> bool) (h : list op) : Prop := forall g p r t f, In (Watch g (Some p) r t f) h -> r = modes p.
Lemma modes_after modes h : modes_agree modes h -> (forall w, In w (s_watchees (after h)) -> w_recursive w = modes (w_path w)) /\ (forall p m, In (p, m) (s_inner (after h)) -> m = modes p).
Proof.
  induction h as [|o h IH] using rev_ind; intros M; [split; [intros w []|intros p m []]|]. destruct IH as [A O]; [intros g p r t f H; apply (M g p r t f), in_or_app; auto|]. rewrite after_snoc. destruct o as [g [p|] r t f|p t| |e]; try (split; assumption).
  - assert (Er : r = modes p) by (apply (M g p r t f), in_or_app; right; now left). cbn. split.
    + intros w Hw. apply in_app_or in Hw as [Hw|[<-|[]]]; auto.
    + intros q m H. destruct (existsb _ _); auto. apply b_watch_in in H as [[-> ->]|[N H]]; auto.
  - unfold unwatch. destruct (take_out _ _) as [[rem ws]|] eqn:T; [|split; assumption]. cbn [s_watchees s_inner]. apply take_out_some in T as (l1 & l2 & El & -> & Hw & F). rewrite El in A.
    assert (A' : forall w, In w (l1 ++ l2) -> w_recursive w = modes (w_path w)) by (intros w Hx; apply A; apply in_app_or in Hx as [|]; apply in_or_app; [|right; right]; auto). split; auto.
    intros q m H. assert (B1 : In (q, m) (if existsb (fun w => path_eqb (w_path w) (w_path rem)) (l1 ++ l2) then s_inner (after h) else b_unwatch (w_path rem) (s_inner (after h))) -> m = modes q).
    { destruct (existsb _ _); auto. intros Hb. apply b_unwatch_in in Hb as [Hb _]. auto. }
    destruct (w_recursive rem); auto. apply rewatch_in in H as [(w & Hx & <- & <-)|[H _]]; auto. apply filter_In in Hx as [Hx _]. auto.
  - unfold receive. destruct (s_alive (after h)); [destruct e|]; split; assumption.
Qed.
