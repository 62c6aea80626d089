(** The list of outstanding work. *)
From Coq Require Import List Arith Lia Bool ZifyBool.
From Verif Require Import Base ListLib LinewrapModel.
Import ListNotations.

(** A place is covered by a list of tasks. *)
Definition cov (ws : list iv) (x : nat) : Prop := exists t, In t ws /\ fst t <= x < snd t.

Lemma cov_nil x : ~ cov [] x.
Proof. intros (t & [] & _). Qed.
Lemma cov_cons t ws x : cov (t :: ws) x <-> fst t <= x < snd t \/ cov ws x.
Proof.
  unfold cov. split.
  - intros (u & [->|Hu] & H); eauto.
  - intros [H|(u & Hu & H)]; [exists t|exists u]; cbn; auto.
Qed.
Lemma cov_app a b x : cov (a ++ b) x <-> cov a x \/ cov b x.
Proof. induction a as [|t a IH]; cbn [app]; [split; [auto|intros [H|]; auto; now apply cov_nil in H]|]. rewrite !cov_cons, IH. tauto. Qed.
Lemma union_eq p t : fst p < snd p -> fst t < snd t -> iv_union p t = (Nat.min (fst p) (fst t), Nat.max (snd p) (snd t)).
Proof. intros A B. unfold iv_union, iv_is_empty. replace (snd p <=? fst p) with false by lia. now replace (snd t <=? fst t) with false by lia. Qed.

(** In order, one after the other; every task is something. *)
Fixpoint in_order (lo : nat) (ws : list iv) : Prop :=
  match ws with
  | [] => True
  | t :: ws' => lo <= fst t /\ fst t < snd t /\ in_order (snd t) ws'
  end.
Lemma in_order_weaken lo lo' ws : in_order lo ws -> lo' <= lo -> in_order lo' ws.
Proof. destruct ws as [|t ws]; auto. intros (A & B & C) Hl. split; [lia|auto]. Qed.
(** Where tasks may start and end. *)
Definition ends_ok (Ps Pe : nat -> Prop) (t : iv) : Prop := fst t < snd t /\ Ps (fst t) /\ Pe (snd t).

(** ** Work that is done *)
Lemma update_ok Ps Pe ws w : Forall (ends_ok Ps Pe) ws -> fst w <= snd w ->
  (forall t, In t ws -> snd w < snd t -> Ps (snd w)) -> (forall t, In t ws -> fst t < fst w -> Pe (fst w)) ->
  Forall (ends_ok Ps Pe) (update_tasks_after_wrap ws w) /\
  (forall x, cov (update_tasks_after_wrap ws w) x <-> cov ws x /\ ~ fst w <= x < snd w).
Proof.
  intros F Hw H1 H2. induction F as [|t ws (A & B & C) F IH]; [|destruct (IH (fun t H => H1 t (or_intror H)) (fun t H => H2 t (or_intror H))) as [IH1 IH2]; specialize (H1 t (or_introl eq_refl)); specialize (H2 t (or_introl eq_refl))]; unfold update_tasks_after_wrap; cbn [flat_map].
  - split; [constructor|]. intros x. split; [intros H; now apply cov_nil in H|intros [H _]; now apply cov_nil in H].
  - fold (update_tasks_after_wrap ws w). unfold iv_is_before, iv_is_after, iv_prefix, iv_suffix.
    destruct (Nat.leb_spec (snd t) (fst w)) as [D|D]; cbn [orb].
    { split; [apply Forall_app; split; auto; constructor; auto; split; auto|]. intros x. rewrite cov_app, !cov_cons, IH2. pose proof (cov_nil x). split; [intros [[?|?]|?]; [|tauto|tauto]; split; [auto|lia]|tauto]. }
    destruct (Nat.ltb_spec (snd w) (fst t)) as [D2|D2].
    { split; [apply Forall_app; split; auto; constructor; auto; split; auto|]. intros x. rewrite cov_app, !cov_cons, IH2. pose proof (cov_nil x). split; [intros [[?|?]|?]; [|tauto|tauto]; split; [auto|lia]|tauto]. }
    replace (Nat.max (fst t) (snd w)) with (snd w) by lia. replace (Nat.min (snd t) (fst w)) with (fst w) by lia.
    rewrite <- app_assoc. destruct (Nat.ltb_spec (fst t) (fst w)) as [D3|D3], (Nat.ltb_spec (snd w) (snd t)) as [D4|D4]; cbn [app].
    + replace (Nat.min (fst t) (fst w)) with (fst t) by lia. replace (Nat.max (snd t) (snd w)) with (snd t) by lia. split.
      { constructor; [split; auto|]. constructor; auto. split; auto. }
      intros x. rewrite !cov_cons, IH2. cbn [fst snd]. split; [intros [?|[?|?]]; [split; [left|]; lia|split; [left|]; lia|tauto]|]. intros [[?|?] ?]; [|tauto].
      destruct (Nat.lt_ge_cases x (fst w)); [left; lia|right; left; lia].
    + replace (Nat.min (fst t) (fst w)) with (fst t) by lia. split; [constructor; auto; split; auto|].
      intros x. rewrite !cov_cons, IH2. cbn [fst snd]. split; [intros [?|?]; [split; [left|]; lia|tauto]|]. intros [[?|?] ?]; [|tauto]. left. lia.
    + replace (Nat.max (snd t) (snd w)) with (snd t) by lia. split; [constructor; auto; split; auto|].
      intros x. rewrite !cov_cons, IH2. cbn [fst snd]. split; [intros [?|?]; [split; [left|]; lia|tauto]|]. intros [[?|?] ?]; [|tauto]. left. lia.
    + split; auto. intros x. rewrite cov_cons, IH2. split; [tauto|]. intros [[?|?] ?]; [|tauto]. lia.
Qed.

(** ** Merging *)
Lemma merge_ok Ps Pe ts : forall prev lo, Forall (ends_ok Ps Pe) ts ->
  (match prev with Some p => ends_ok Ps Pe p /\ lo <= fst p /\ in_order (fst p) ts /\ (forall t, In t ts -> fst p <= fst t) | None => in_order lo ts end) ->
  Forall (ends_ok Ps Pe) (merge_loop prev ts) /\ in_order lo (merge_loop prev ts) /\
  forall x, (match prev with Some p => fst p <= x < snd p | None => False end) \/ cov ts x -> cov (merge_loop prev ts) x.
Proof.
  induction ts as [|t ts IH]; intros prev lo F Hp; cbn [merge_loop].
  - destruct prev as [p|].
    + destruct Hp as ((A & B & C) & L & _). split; [constructor; [split; auto|constructor]|]. split; [cbn; auto|]. intros x [H|H]; [apply cov_cons; auto|now apply cov_nil in H].
    + split; [constructor|]. split; [exact I|]. intros x [[]|H]. exact H.
  - apply Forall_cons_iff in F as [Ft F]. pose proof Ft as (T1 & T2 & T3). destruct prev as [p|].
    + destruct Hp as (Hp & L & (O1 & O2 & O3) & Hs). pose proof Hp as (P1 & P2 & P3).
      assert (Hs' : forall u, In u ts -> snd t <= fst u).
      { clear -O3. revert O3. generalize (snd t). induction ts as [|v ts IHt]; intros lo O u []; destruct O as (A & B & C); [subst; auto|]. specialize (IHt _ C u H). lia. }
      destruct (Nat.leb_spec (fst t) (snd p)) as [E|E].
      * rewrite (union_eq p t) by auto. destruct (IH (Some (Nat.min (fst p) (fst t), Nat.max (snd p) (snd t))) lo F) as (I1 & I2 & I3).
        { cbn [fst snd]. rewrite Nat.min_l by lia. split; [split; [cbn; lia|]; cbn [fst snd]; split; auto; destruct (Nat.max_dec (snd p) (snd t)) as [->| ->]; auto|].
          split; auto. split; [eapply in_order_weaken; [exact O3|lia]|]. intros u Hu. specialize (Hs' u Hu). lia. }
        split; auto. split; auto. intros x Hx. apply I3. cbn [fst snd]. rewrite cov_cons in Hx. destruct Hx as [Hx|[Hx|Hx]]; [left; lia|left; lia|auto].
      * destruct (IH (Some t) (snd p) F) as (I1 & I2 & I3).
        { split; auto. split; [lia|]. split; [eapply in_order_weaken; [exact O3|lia]|]. intros u Hu. specialize (Hs' u Hu). lia. }
        split; [constructor; auto|]. split; [cbn [in_order]; auto|]. intros x Hx. rewrite cov_cons in *. destruct Hx as [Hx|[Hx|Hx]]; auto.
    + destruct Hp as (O1 & O2 & O3). destruct (IH (Some t) lo F) as (I1 & I2 & I3).
      { split; auto. split; auto. split; [eapply in_order_weaken; [exact O3|lia]|]. intros u Hu.
        assert (Hs' : snd t <= fst u). { clear -O3 Hu. revert O3. generalize (snd t). induction ts as [|v ts IHt]; intros l2 O; destruct Hu; destruct O as (A & B & C); [subst; auto|]. specialize (IHt H _ C). lia. }
        lia. }
      split; auto. split; auto. intros x [[]|Hx]. apply I3. rewrite cov_cons in Hx. tauto.
Qed.

(** ** Moving the work along with an edit: [b, e) is replaced by [k] bytes *)
Definition keep (l : list iv) : list iv := filter (fun t => negb (iv_is_empty t)) l.
Lemma keep_cons t l : keep (t :: l) = if snd t <=? fst t then keep l else t :: keep l.
Proof. unfold keep. cbn [filter]. unfold iv_is_empty at 1. now destruct (snd t <=? fst t). Qed.
Section Patch.
Context (Os Oe Ns Ne : nat -> Prop) (b e k n n' : nat) (Hbe : b <= e) (Hen : e <= n) (En' : n' + (e - b) = n + k).
Context (S1 : forall x, x <= b -> Os x -> Ns x) (S2 : b < n' -> Ns b) (S3 : b + k < n' -> Ns (b + k)) (S4 : forall x, e < x -> Os x -> Ns (x + k - (e - b))).
Context (E1 : forall x, 0 < x -> x <= b -> Oe x -> Ne x) (E2 : 0 < b -> Ne b) (E3 : forall x, b < x -> x <= n -> Oe x -> b < Nat.max b (x + k - (e - b)) -> Ne (Nat.max b (x + k - (e - b)))).

Lemma patch_ok ws : forall lo, in_order lo ws -> Forall (ends_ok Os Oe) ws -> (forall t, In t ws -> snd t <= n) ->
  exists l, patch_loop ws (b, e) k = Some l /\
    (let l' := keep l in
     Forall (ends_ok Ns Ne) l' /\ in_order (if lo <=? b then lo else Nat.max b (lo + k - (e - b))) l' /\ (forall t, In t l' -> snd t <= n') /\
     (forall x, x < b -> cov ws x -> cov l' x) /\ (forall x, e <= x -> cov ws x -> cov l' (x + k - (e - b)))).
Proof.
  induction ws as [|t ws IH]; intros lo O F Hn; cbn [patch_loop].
  - exists []. split; auto. cbn. split; auto. split; auto. split; [intros ? []|]. split; intros x _ H; now apply cov_nil in H.
  - apply Forall_cons_iff in F as [(A1 & A2 & A3) F]. destruct O as (O1 & O2 & O3). pose proof (Hn t (or_introl eq_refl)) as Hnt.
    destruct (IH (snd t) O3 F ltac:(intros u Hu; apply Hn; now right)) as (l & El & Q1 & Q2 & Q3 & Q4 & Q5). rewrite El.
    unfold iv_is_before, iv_contains, iv_prefix, iv_suffix, iv_size, iv_translate, iv_translate_neg. cbn [fst snd].
    destruct (Nat.leb_spec (snd t) b) as [D|D].
    { cbn [bind]. eexists. split; [reflexivity|]. cbn [app]. rewrite keep_cons. replace (snd t <=? fst t) with false by lia.
      replace (lo <=? b) with true by lia. split; [constructor; auto; split; auto; split; [apply S1; auto; lia|apply E1; auto; lia]|]. split.
      { cbn [in_order]. split; auto. }
      split; [intros u [<-|Hu]; auto; lia|]. split; intros x Hx Hc; rewrite cov_cons in *; destruct Hc as [Hc|Hc]; auto. lia. }
    destruct (Nat.leb_spec (fst t) b) as [D2|D2]; cbn [andb].
    { replace (b <? snd t) with true by lia. cbn [bind]. rewrite (Nat.min_l (fst t) b), (Nat.min_r (snd t) b) by lia. eexists. split; [reflexivity|]. cbn [app]. rewrite !keep_cons. cbn [fst snd].
      set (te := Nat.max b (snd t + k - (e - b))) in *. replace (snd t <=? b) with false in Q2 by lia. fold te in Q2.
      assert (Hte : te <= n') by (unfold te; lia).
      replace (lo <=? b) with true by lia.
      assert (T : let l' := (if te <=? b then keep l else (b, te) :: keep l) in
        Forall (ends_ok Ns Ne) l' /\ in_order b l' /\ (forall t, In t l' -> snd t <= n') /\ (forall x, x < b -> cov ws x -> cov l' x) /\
        (forall x, e <= x -> cov (t :: ws) x -> cov l' (x + k - (e - b)))).
      { destruct (Nat.leb_spec te b) as [Z|Z].
        - split; auto. split; [eapply in_order_weaken; [exact Q2|unfold te; lia]|]. split; auto. split; auto. intros x Hx Hc. rewrite cov_cons in Hc. destruct Hc as [Hc|Hc]; auto. unfold te in Z. lia.
        - split; [constructor; auto; split; [cbn; lia|]; cbn [fst snd]; split; [apply S2; lia|apply E3; auto]|]. split; [cbn [in_order fst snd]; split; [lia|split; [lia|exact Q2]]|].
          split; [intros u [<-|Hu]; auto|]. split; intros x Hx Hc; rewrite cov_cons in *; [auto|]. destruct Hc as [Hc|Hc]; auto. left. cbn [fst snd]. unfold te. lia. }
      destruct T as (T1 & T2 & T3 & T4 & T5). destruct (Nat.leb_spec b (fst t)) as [Z|Z].
      - split; auto. split; [eapply in_order_weaken; [exact T2|lia]|]. split; auto. split; auto. intros x Hx Hc. rewrite cov_cons in Hc. destruct Hc as [Hc|Hc]; auto. lia.
      - split; [constructor; auto; split; [cbn; lia|]; cbn [fst snd]; split; [apply S1; auto|apply E2; lia]|]. split; [cbn [in_order fst snd]; auto|].
        split; [intros u [<-|Hu]; auto; cbn; lia|]. split; intros x Hx Hc; rewrite cov_cons; [|right; now apply T5]. rewrite cov_cons in Hc. destruct Hc as [Hc|Hc]; [left; cbn; lia|auto]. }
    replace (e - b <=? Nat.max (fst t) e + k) with true by lia. cbn [check bind]. eexists. split; [reflexivity|]. cbn [app]. rewrite keep_cons. cbn [fst snd].
    assert (Q2' : in_order (Nat.max b (snd t + k - (e - b))) (keep l)) by (replace (snd t <=? b) with false in Q2 by lia; exact Q2).
    assert (Hlo : (if lo <=? b then lo else Nat.max b (lo + k - (e - b))) <= Nat.max (fst t) e + k - (e - b)) by (destruct (lo <=? b) eqn:?; lia).
    destruct (Nat.leb_spec (Nat.max (snd t) e + k - (e - b)) (Nat.max (fst t) e + k - (e - b))) as [Z|Z].
    + split; auto. split; [eapply in_order_weaken; [exact Q2'|destruct (lo <=? b) eqn:?; lia]|]. split; auto. split; intros x Hx Hc; rewrite cov_cons in Hc; destruct Hc as [Hc|Hc]; auto; lia.
    + assert (snd t > e) by lia. rewrite (Nat.max_l (snd t) e) in * by lia. split.
      { constructor; auto. split; [cbn; lia|]. cbn [fst snd]. split.
        - destruct (Nat.le_gt_cases (fst t) e); [rewrite Nat.max_r by lia; replace (e + k - (e - b)) with (b + k) by lia; apply S3; lia|rewrite Nat.max_l by lia; apply S4; auto].
        - replace (snd t + k - (e - b)) with (Nat.max b (snd t + k - (e - b))) by lia. apply E3; auto. lia. }
      split; [cbn [in_order fst snd]; split; [lia|]; split; [lia|]; eapply in_order_weaken; [exact Q2'|lia]|].
      split; [intros u [<-|Hu]; auto; cbn; lia|]. split; intros x Hx Hc; rewrite cov_cons in *; destruct Hc as [Hc|Hc]; auto; [lia|]. left. cbn [fst snd]. lia.
Qed.
Lemma patchup_ok ws : in_order 0 ws -> Forall (ends_ok Os Oe) ws -> (forall t, In t ws -> snd t <= n) ->
  exists l, patchup_tasks ws (b, e) k = Some l /\ Forall (ends_ok Ns Ne) l /\ in_order 0 l /\
    (forall x, x < b -> cov ws x -> cov l x) /\ (forall x, e <= x -> cov ws x -> cov l (x + k - (e - b))).
Proof.
  intros O F Hn. unfold patchup_tasks. destruct (patch_ok ws 0 O F Hn) as (l & -> & Q1 & Q2 & Q3 & Q4 & Q5). cbn [bind]. fold (keep l).
  destruct (merge_ok Ns Ne _ None 0 Q1) as (M1 & M2 & M3); [cbn in Q2; exact Q2|]. eexists. split; [reflexivity|]. split; [exact M1|]. split; [exact M2|].
  split; intros x Hx Hc; apply M3; auto.
Qed.
End Patch.

(** ** Adding a task *)
Section Add.
Context (Ps Pe : nat -> Prop) (z : iv) (Hs : Ps (fst z)) (He : Pe (snd z)).
(** Ends that are not right are inside the new task. *)
Definition nearly_s (x : nat) : Prop := Ps x \/ fst z < x < snd z.
Definition nearly_e (x : nat) : Prop := Pe x \/ fst z < x < snd z.

Lemma inter_spec t u : iv_is_empty (iv_intersect t u) = false <-> Nat.max (fst t) (fst u) < Nat.min (snd t) (snd u).
Proof. unfold iv_is_empty, iv_intersect. cbn [fst snd]. lia. Qed.
Lemma after_right lo ws : snd z <= lo -> in_order lo ws -> Forall (ends_ok nearly_s nearly_e) ws -> Forall (ends_ok Ps Pe) ws.
Proof.
  revert lo. induction ws as [|t ws IH]; intros lo Hl O F; constructor; apply Forall_cons_iff in F as [(A & B & C) F]; destruct O as (O1 & O2 & O3).
  - split; auto. unfold nearly_s, nearly_e in *. split; [destruct B; auto; lia|destruct C; auto; lia].
  - apply (IH (snd t)); auto. lia.
Qed.
Lemma add_none ws : add_loop ws None = ws.
Proof. induction ws as [|t ws IH]; cbn; auto. now rewrite IH. Qed.
Lemma add_loop_ok ws : forall new lo, fst new <= fst z -> snd z <= snd new -> fst new < snd new -> Ps (fst new) -> Pe (snd new) -> fst z < lo ->
  in_order lo ws -> Forall (ends_ok nearly_s nearly_e) ws ->
  Forall (ends_ok Ps Pe) (add_loop ws (Some new)) /\ (forall x, fst new <= x < snd new \/ cov ws x -> cov (add_loop ws (Some new)) x).
Proof.
  induction ws as [|t ws IH]; intros new lo A1 A2 A3 A4 A5 Hl O F; cbn [add_loop].
  - split; [constructor; [split; auto|constructor]|]. intros x [H|H]; [apply cov_cons; auto|now apply cov_nil in H].
  - pose proof F as F0. apply Forall_cons_iff in F as [(T1 & T2 & T3) F]. pose proof O as (O1 & O2 & O3).
    destruct (iv_is_empty (iv_intersect t new)) eqn:E; cbn [negb].
    + rewrite add_none.
      assert (Hge : snd new <= fst t). { destruct (Nat.le_gt_cases (snd new) (fst t)); auto. exfalso. assert (iv_is_empty (iv_intersect t new) = false) by (apply inter_spec; lia). congruence. }
      split; [constructor; [split; auto|]; apply (after_right (fst t)); auto; [lia|]; cbn [in_order]; auto|].
      intros x Hx. rewrite !cov_cons in *. tauto.
    + apply inter_spec in E. rewrite union_eq by auto. destruct (IH (Nat.min (fst t) (fst new), Nat.max (snd t) (snd new)) (snd t)) as [I1 I2]; cbn [fst snd]; auto; try lia.
      * destruct (Nat.min_dec (fst t) (fst new)) as [Em| ->]; auto. rewrite Em. destruct T2 as [|T2]; auto. lia.
      * destruct (Nat.max_dec (snd t) (snd new)) as [Em| ->]; auto. rewrite Em. destruct T3 as [|T3]; auto. lia.
      * split; auto. intros x Hx. apply I2. rewrite cov_cons in Hx. cbn [fst snd] in *. destruct Hx as [Hx|[Hx|Hx]]; [left; lia|left; lia|auto].
Qed.
Lemma add_work_ok ws : fst z < snd z -> forall lo, in_order lo ws -> Forall (ends_ok nearly_s nearly_e) ws ->
  Forall (ends_ok Ps Pe) (add_work ws z) /\ (forall x, fst z <= x < snd z \/ cov ws x -> cov (add_work ws z) x) /\ add_work ws z <> [].
Proof.
  intros Hz. induction ws as [|t ws IH]; intros lo O F; cbn [add_work].
  - split; [constructor; [split; auto|constructor]|]. split; [|discriminate]. intros x [H|H]; [apply cov_cons; auto|now apply cov_nil in H].
  - pose proof F as F0. apply Forall_cons_iff in F as [(T1 & T2 & T3) F]. pose proof O as (O1 & O2 & O3).
    destruct (iv_is_empty (iv_intersect t z)) eqn:E; cbn [negb].
    + assert (N : ~ Nat.max (fst t) (fst z) < Nat.min (snd t) (snd z)) by (rewrite <- inter_spec; congruence).
      destruct (IH (snd t) O3 F) as (I1 & I2 & I3). split; [constructor; auto; split; auto; unfold nearly_s, nearly_e in *; split; [destruct T2; auto; lia|destruct T3; auto; lia]|].
      split; [|discriminate]. intros x Hx. rewrite cov_cons in *. destruct Hx as [Hx|[Hx|Hx]]; auto.
    + cbn [add_loop]. pose proof E as E'. rewrite E. cbn [negb]. apply inter_spec in E. rewrite union_eq by auto.
      destruct (add_loop_ok ws (Nat.min (fst t) (fst z), Nat.max (snd t) (snd z)) (snd t)) as [I1 I2]; cbn [fst snd]; auto; try lia.
      * destruct (Nat.min_dec (fst t) (fst z)) as [Em| ->]; auto. rewrite Em. destruct T2 as [|T2]; auto. lia.
      * destruct (Nat.max_dec (snd t) (snd z)) as [Em| ->]; auto. rewrite Em. destruct T3 as [|T3]; auto. lia.
      * split; auto. split.
        -- intros x Hx. apply I2. rewrite cov_cons in Hx. cbn [fst snd]. destruct Hx as [Hx|[Hx|Hx]]; [left; lia|left; lia|auto].
        -- intros Hn. destruct (I2 (fst z) ltac:(cbn [fst snd]; left; lia)) as (u & Hu & _). rewrite Hn in Hu. destruct Hu.
Qed.
End Add.
