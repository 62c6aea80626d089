(** Proofs about the line cache shadow. *)
From Coq Require Import List Arith Bool Lia ZifyBool.
From Verif Require Import Base ListLib ShadowModel ShadowSpec.
Import ListNotations.

(** ** A shadow line by line *)
Definition entry := option (nat * validity).
Definition ent (s : nat) (v : validity) : entry := if v_none v then None else Some (s, v).
Fixpoint lines (s n : nat) (v : validity) : list entry :=
  match n with 0 => [] | S n' => ent s v :: lines (S s) n' v end.
Definition expand (l : list span) : list entry := flat_map (fun '(n, s, v) => lines s n v) l.
Definition expand_plan (p : plan) : list tactic := flat_map (fun '(n, t) => repeat t n) p.

Lemma lines_length n : forall s v, length (lines s n v) = n.
Proof. induction n; intros; cbn [lines length]; auto. Qed.
Lemma lines_app a : forall s b v, lines s (a + b) v = lines s a v ++ lines (s + a) b v.
Proof.
  induction a as [|a IH]; intros s b v; cbn [lines Nat.add app]; [now rewrite Nat.add_0_r|].
  rewrite IH. now rewrite Nat.add_succ_r, Nat.add_succ_l.
Qed.
Lemma lines_invalid n : forall s v, v_none v = true -> lines s n v = repeat None n.
Proof. induction n as [|n IH]; intros s v H; cbn [lines repeat]; auto. rewrite IH by auto. unfold ent. now rewrite H. Qed.
Lemma lines_none n s : lines s n INVALID = repeat None n.
Proof. now apply lines_invalid. Qed.
Lemma lines_firstn k n s v : firstn k (lines s n v) = lines s (min k n) v.
Proof.
  destruct (Nat.le_ge_cases k n).
  - rewrite Nat.min_l by lia. replace n with (k + (n - k)) at 1 by lia. rewrite lines_app. apply firstn_app_exact. apply lines_length.
  - rewrite Nat.min_r by lia. apply firstn_all2. rewrite lines_length. lia.
Qed.
Lemma lines_skipn k n s v : skipn k (lines s n v) = lines (s + k) (n - k) v.
Proof.
  destruct (Nat.le_ge_cases k n).
  - replace n with (k + (n - k)) at 1 by lia. rewrite lines_app. apply skipn_app_exact. apply lines_length.
  - replace (n - k) with 0 by lia. apply skipn_all2. rewrite lines_length. lia.
Qed.
Lemma expand_app a b : expand (a ++ b) = expand a ++ expand b.
Proof. apply flat_map_app. Qed.
Lemma expand_cons n s v l : expand ((n, s, v) :: l) = lines s n v ++ expand l.
Proof. reflexivity. Qed.
Lemma plan_cons n t l : expand_plan ((n, t) :: l) = repeat t n ++ expand_plan l.
Proof. reflexivity. Qed.
Lemma plan_app a b : expand_plan (a ++ b) = expand_plan a ++ expand_plan b.
Proof. apply flat_map_app. Qed.
(** No empty spans. *)
Definition full (l : list span) : Prop := Forall (fun p => 0 < fst (fst p)) l.

Lemma v_eqb_eq v w : v_eqb v w = true -> v = w.
Proof. destruct v as [[] [] []], w as [[] [] []]; cbn; congruence. Qed.
Definition expb (b : list span) := expand (rev b).
Lemma expb_cons n s v b : expb ((n, s, v) :: b) = expb b ++ lines s n v.
Proof. unfold expb. cbn [rev]. rewrite expand_app. cbn. now rewrite app_nil_r. Qed.
Lemma add_span_ok b n s v : expb (add_span b n s v) = expb b ++ lines s n v.
Proof.
  unfold add_span. destruct (Nat.ltb_spec 0 n) as [Hn|Hn]; [|replace n with 0 by lia; now rewrite app_nil_r].
  destruct b as [|[[m s'] w] b']; [apply expb_cons|].
  destruct (v_eqb w v && (v_none v || (s' + m =? s))) eqn:E; [|apply expb_cons].
  apply andb_true_iff in E as [E1 E2]. apply v_eqb_eq in E1. subst w. rewrite !expb_cons, lines_app, app_assoc. f_equal.
  destruct (v_none v) eqn:Ev; [now rewrite !lines_invalid|]. cbn [orb] in E2. apply Nat.eqb_eq in E2. now subst s.
Qed.
Lemma add_span_full b n s v : full b -> full (add_span b n s v).
Proof.
  intros H. unfold add_span. destruct (Nat.ltb_spec 0 n) as [Hn|Hn]; [|auto].
  destruct b as [|[[m s'] w] b']; [constructor; auto; cbn; lia|].
  destruct (v_eqb w v && (v_none v || (s' + m =? s))); [|constructor; auto].
  inversion H; subst. constructor; auto. cbn in *. lia.
Qed.
Lemma full_rev l : full l -> full (rev l).
Proof. intros H. apply Forall_forall. intros x Hx. apply in_rev in Hx. rewrite <- in_rev in Hx || idtac. unfold full in H. rewrite Forall_forall in H. auto. Qed.

(** ** Editing *)
Lemma edit_head_ok l : forall k start b b' rest k', edit_head l k start b = (b', rest, k') -> k <= start ->
  expb b' = expb b ++ firstn (start - k) (expand l) /\ expand rest = skipn (k' - k) (expand l) /\ k <= k' <= start.
Proof.
  induction l as [|[[n s] v] l IH]; intros k start b b' rest k' H Hk; cbn [edit_head] in H.
  - injection H as <- <- <-. cbn [expand flat_map]. rewrite firstn_nil, skipn_nil, app_nil_r. auto.
  - destruct (Nat.leb_spec (k + n) start).
    + apply IH in H as (H1 & H2 & H3); [|lia]. rewrite add_span_ok in H1. rewrite expand_cons.
      split; [|split; [|lia]].
      * rewrite H1, <- app_assoc. f_equal. rewrite firstn_app, lines_length.
        rewrite (firstn_all2 (lines s n v)) by (rewrite lines_length; lia). f_equal. f_equal. lia.
      * rewrite H2, skipn_app, lines_length. rewrite (skipn_all2 (lines s n v)) by (rewrite lines_length; lia). cbn [app]. f_equal. lia.
    + injection H as <- <- <-. rewrite add_span_ok, expand_cons, Nat.sub_diag. split; [|split; [reflexivity|lia]]. f_equal.
      rewrite firstn_app, lines_length. replace (start - k - n) with 0 by lia. rewrite firstn_O, app_nil_r, lines_firstn. f_equal. lia.
Qed.
Lemma edit_tail_ok l : forall k e b, expb (edit_tail l k e b) = expb b ++ skipn (e - k) (expand l).
Proof.
  induction l as [|[[n s] v] l IH]; intros k e b; cbn [edit_tail].
  - now rewrite skipn_nil, app_nil_r.
  - rewrite IH, expand_cons, skipn_app, lines_length, lines_skipn. destruct (Nat.ltb_spec e (k + n)).
    + rewrite add_span_ok, <- app_assoc. f_equal. f_equal. f_equal. lia.
    + replace (n - (e - k)) with 0 by lia. cbn [lines app]. f_equal. f_equal. lia.
Qed.
Lemma shadow_edit_ok sh a b r : a <= b ->
  expand (spans (shadow_edit sh a b r)) = firstn a (expand (spans sh)) ++ repeat None r ++ skipn b (expand (spans sh)) /\
  dirty (shadow_edit sh a b r) = true.
Proof.
  intros H. unfold shadow_edit. destruct (edit_head (spans sh) 0 a []) as [[b' rest] k'] eqn:E. apply edit_head_ok in E as (H1 & H2 & H3); [|lia].
  cbn [build spans dirty]. split; [|auto]. change (expand (rev ?x)) with (expb x). rewrite edit_tail_ok, add_span_ok, lines_none, H1, H2.
  rewrite skipn_skipn. cbn [expb rev expand flat_map app]. rewrite <- app_assoc. rewrite !Nat.sub_0_r. repeat f_equal. lia.
Qed.
Lemma edit_head_full l : forall k start b b' rest k', edit_head l k start b = (b', rest, k') -> full l -> full b -> full b' /\ full rest.
Proof.
  induction l as [|[[n s] v] l IH]; intros k start b b' rest k' H Hl Hb; cbn [edit_head] in H.
  - injection H as <- <- <-. auto.
  - destruct (k + n <=? start).
    + inversion Hl; subst. eapply IH; eauto using add_span_full.
    + injection H as <- <- <-. auto using add_span_full.
Qed.
Lemma edit_tail_full l : forall k e b, full b -> full (edit_tail l k e b).
Proof. induction l as [|[[n s] v] l IH]; intros k e b H; cbn [edit_tail]; auto. apply IH. destruct (e <? k + n); auto using add_span_full. Qed.
Lemma shadow_edit_full sh a b r : full (spans sh) -> full (spans (shadow_edit sh a b r)).
Proof.
  intros H. unfold shadow_edit. destruct (edit_head (spans sh) 0 a []) as [[b' rest] k'] eqn:E. apply edit_head_full in E as (H1 & H2); [|auto|constructor].
  cbn [build spans]. apply full_rev. apply edit_tail_full. auto using add_span_full.
Qed.

(** ** Invalidation *)
Definition mask (inv : validity) (e : entry) : entry :=
  match e with None => None | Some (s, v) => ent s (v_minus v inv) end.
Fixpoint mask_from (i start end_ : nat) (inv : validity) (l : list entry) : list entry :=
  match l with [] => [] | e :: l' => (if (start <=? i) && (i <? end_) then mask inv e else e) :: mask_from (S i) start end_ inv l' end.
Lemma mask_from_app l1 : forall l2 i a b inv, mask_from i a b inv (l1 ++ l2) = mask_from i a b inv l1 ++ mask_from (i + length l1) a b inv l2.
Proof.
  induction l1 as [|e l1 IH]; intros; cbn [mask_from app length]; [now rewrite Nat.add_0_r|].
  rewrite IH. rewrite Nat.add_succ_l, Nat.add_succ_r. reflexivity.
Qed.
Lemma mask_ent inv s v : mask inv (ent s v) = ent s (v_minus v inv).
Proof. unfold ent at 1. destruct v as [[] [] []]; cbn; reflexivity. Qed.
Lemma mask_lines_in n : forall s v i a b inv, a <= i -> i + n <= b -> mask_from i a b inv (lines s n v) = lines s n (v_minus v inv).
Proof.
  induction n as [|n IH]; intros; cbn [lines mask_from]; auto. rewrite IH by lia.
  replace ((a <=? i) && (i <? b)) with true by lia. now rewrite mask_ent.
Qed.
Lemma mask_out l : forall i a b inv, length l = 0 \/ i + length l <= a \/ b <= i -> mask_from i a b inv l = l.
Proof.
  induction l as [|e l IH]; intros i a b inv H; cbn [mask_from length] in *; auto. rewrite IH by lia.
  replace ((a <=? i) && (i <? b)) with false by lia. reflexivity.
Qed.
Lemma inval_span n s v k a b inv : a <= b ->
  mask_from k a b inv (lines s n v) =
  lines s (min n (a - k)) v ++ lines (s + (max a k - k)) (min b (k + n) - max a k) (v_minus v inv) ++
  lines (s + (b - k)) (n - (b - k)) v.
Proof.
  intros H.
  set (x := min n (a - k)). set (y := min b (k + n) - max a k). set (z := n - (b - k)).
  destruct (Nat.le_gt_cases (k + n) a) as [Hlo|Hlo].
  - (* all before *) assert (y = 0 /\ z = 0 /\ x = n) as (-> & -> & ->) by (unfold x, y, z; lia).
    cbn [lines]. rewrite !app_nil_r. apply mask_out. rewrite lines_length. lia.
  - destruct (Nat.le_gt_cases b k) as [Hhi|Hhi].
    + assert (x = 0 /\ y = 0 /\ z = n) as (-> & -> & ->) by (unfold x, y, z; lia). cbn [lines app].
      replace (b - k) with 0 by lia. rewrite Nat.add_0_r. apply mask_out. lia.
    + assert (En : n = x + (y + z)) by (unfold x, y, z; lia). rewrite En at 1. rewrite lines_app, lines_app.
      rewrite !mask_from_app, !lines_length. rewrite (mask_out (lines s x v)) by (rewrite lines_length; unfold x; lia).
      rewrite mask_lines_in by (unfold x, y; lia).
      destruct (Nat.eq_dec z 0) as [Hz|Hz].
      * rewrite Hz. cbn [lines mask_from]. repeat f_equal. unfold x, y; lia.
      * rewrite mask_out by (unfold x, y, z in *; lia). f_equal. f_equal; [f_equal; unfold x; lia|]. f_equal. unfold x, y, z in *; lia.
Qed.
Lemma inval_loop_ok l : forall k a b inv acc, a <= b -> expb (inval_loop l k a b inv acc) = expb acc ++ mask_from k a b inv (expand l).
Proof.
  induction l as [|[[n s] v] l IH]; intros k a b inv acc H; cbn [inval_loop].
  - cbn. now rewrite app_nil_r.
  - rewrite IH by auto. rewrite expand_cons, mask_from_app, lines_length, (inval_span n s v k a b inv H), !app_assoc. f_equal.
    assert (H1 : expb (if k <? a then add_span acc (min n (a - k)) s v else acc) = expb acc ++ lines s (min n (a - k)) v).
    { destruct (Nat.ltb_spec k a); [apply add_span_ok|]. replace (min n (a - k)) with 0 by lia. now rewrite app_nil_r. }
    set (b1 := if k <? a then _ else _) in *. set (is := max a k) in *. set (ie := min b (k + n)) in *.
    assert (H2 : expb (if is <? ie then add_span b1 (ie - is) (s + (is - k)) (v_minus v inv) else b1) =
                 (expb acc ++ lines s (min n (a - k)) v) ++ lines (s + (is - k)) (ie - is) (v_minus v inv)).
    { destruct (Nat.ltb_spec is ie); [rewrite add_span_ok; now rewrite H1|]. replace (ie - is) with 0 by lia. now rewrite app_nil_r. }
    set (b2 := if is <? ie then _ else _) in *.
    destruct (Nat.ltb_spec b (k + n)); [rewrite add_span_ok; now rewrite H2|]. replace (n - (b - k)) with 0 by lia. now rewrite app_nil_r.
Qed.
Lemma inval_loop_full l : forall k a b inv acc, full acc -> full (inval_loop l k a b inv acc).
Proof.
  induction l as [|[[n s] v] l IH]; intros k a b inv acc H; cbn [inval_loop]; auto. apply IH.
  destruct (k <? a), (max a k <? min b (k + n)), (b <? k + n); auto using add_span_full.
Qed.
Lemma v_minus_disjoint v w : v_none (v_and v w) = true -> v_minus v w = v.
Proof. destruct v as [[] [] []], w as [[] [] []]; intros H; try discriminate H; reflexivity. Qed.
Lemma has_valid_false l : forall k a b inv, full l -> has_valid l k a b inv = false -> mask_from k a b inv (expand l) = expand l.
Proof.
  induction l as [|[[n s] v] l IH]; intros k a b inv Hf H; cbn [has_valid] in H; auto.
  destruct ((a <? k + n) && (k <? b) && negb (v_none (v_and v inv))) eqn:E; [discriminate|].
  inversion Hf as [|? ? F1 F2]; subst. cbn [fst] in F1.
  rewrite expand_cons, mask_from_app, lines_length. rewrite IH by auto. f_equal.
  destruct (v_none (v_and v inv)) eqn:Ev.
  - assert (K : forall m s i, mask_from i a b inv (lines s m v) = lines s m v).
    { clear - Ev. induction m as [|m IHm]; intros s i; cbn [lines mask_from]; auto. rewrite IHm. f_equal. rewrite mask_ent, v_minus_disjoint by auto.
      now destruct (_ && _). }
    apply K.
  - apply mask_out. rewrite lines_length. lia.
Qed.
Lemma partial_invalidate_ok sh a b inv : a <= b -> full (spans sh) ->
  expand (spans (partial_invalidate sh a b inv)) = mask_from 0 a b inv (expand (spans sh)) /\ full (spans (partial_invalidate sh a b inv)) /\
  (dirty (partial_invalidate sh a b inv) = false -> dirty sh = false /\ partial_invalidate sh a b inv = sh).
Proof.
  intros H Hf. unfold partial_invalidate. destruct (has_valid _ _ _ _ _) eqn:E.
  - cbn [build spans dirty]. split; [exact (inval_loop_ok (spans sh) 0 a b inv [] H)|]. split; [|discriminate].
    apply full_rev, inval_loop_full. constructor.
  - rewrite has_valid_false by auto. auto.
Qed.

(** ** Plans *)
Lemma repeat_add {X} (x : X) a b : repeat x (a + b) = repeat x a ++ repeat x b.
Proof. apply repeat_app. Qed.
Lemma request_head_ok p : forall k start hd rest k', request_head p k start = (hd, rest, k') -> k <= start ->
  expand_plan hd = firstn (start - k) (expand_plan p) /\ expand_plan rest = skipn (k' - k) (expand_plan p) /\ k <= k' <= start.
Proof.
  induction p as [|[n t] p IH]; intros k start hd rest k' H Hk; cbn [request_head] in H.
  - injection H as <- <- <-. cbn [expand_plan flat_map]. rewrite firstn_nil, skipn_nil. auto.
  - destruct (Nat.leb_spec (k + n) start).
    + destruct (request_head p (k + n) start) as [[hd1 rest1] k1] eqn:E. injection H as <- <- <-. apply IH in E as (H1 & H2 & H3); [|lia].
      rewrite !plan_cons. split; [|split; [|lia]].
      * rewrite firstn_app, repeat_length, H1. rewrite (firstn_all2 (repeat t n)) by (rewrite repeat_length; lia). f_equal. f_equal. lia.
      * rewrite skipn_app, repeat_length, H2. rewrite (skipn_all2 (repeat t n)) by (rewrite repeat_length; lia). cbn [app]. f_equal. lia.
    + injection H as <- <- <-. rewrite plan_cons, Nat.sub_diag. split; [|split; [reflexivity|lia]].
      rewrite firstn_app, repeat_length. replace (start - k - n) with 0 by lia. rewrite firstn_O, app_nil_r.
      replace n with ((start - k) + (n - (start - k))) by lia. rewrite repeat_add.
      rewrite firstn_app_exact by (now rewrite repeat_length).
      destruct (Nat.ltb_spec k start); [now rewrite plan_cons, app_nil_r|]. now replace (start - k) with 0 by lia.
Qed.
Lemma request_tail_ok p : forall k e, expand_plan (request_tail p k e) = skipn (e - k) (expand_plan p).
Proof.
  induction p as [|[n t] p IH]; intros k e; cbn [request_tail]; [now rewrite skipn_nil|].
  rewrite plan_app, IH, plan_cons, skipn_app, repeat_length. f_equal; [|f_equal; lia].
  destruct (Nat.ltb_spec e (k + n)).
  - rewrite plan_cons, app_nil_r. replace n with ((e - k) + (n - (e - k))) at 2 by lia. rewrite repeat_add.
    symmetry. apply skipn_app_exact. apply repeat_length.
  - cbn. symmetry. apply skipn_all2. rewrite repeat_length. lia.
Qed.
Lemma request_lines_ok p a b : a <= b -> exists p', request_lines p a b = Some p' /\
  expand_plan p' = firstn a (expand_plan p) ++ repeat Render (b - a) ++ skipn b (expand_plan p).
Proof.
  intros H. unfold request_lines. destruct (request_head p 0 a) as [[hd rest] k'] eqn:E. apply request_head_ok in E as (H1 & H2 & H3); [|lia].
  replace (a <=? b) with true by lia. cbn [check]. eexists. split; [reflexivity|].
  rewrite !plan_app, request_tail_ok, H1, H2, skipn_skipn, Nat.sub_0_r. cbn [expand_plan flat_map]. rewrite app_nil_r. repeat f_equal. lia.
Qed.
Lemma create_ok total first height : expand_plan (plan_create total first height) =
  let f := min first total in
  repeat Discard (f - 1000) ++ repeat Preserve (f - 2 - (f - 1000)) ++ repeat Render (min (f + height + 2) total - (f - 2)) ++
  repeat Preserve (min (f + height + 1000) total - min (f + height + 2) total) ++
  repeat Discard (total - min (f + height + 1000) total).
Proof.
  cbv zeta. unfold plan_create. set (f := min first total). assert (Hf : f <= total) by (unfold f; lia). clearbody f.
  change PRESERVE_EXTENT with 1000. change SCROLL_SLOP with 2.
  destruct (Nat.ltb_spec 1000 f), (Nat.ltb_spec 2 f); try lia;
    destruct (Nat.ltb_spec (min (f + height + 2) total) (min (f + height + 1000) total));
    match goal with |- context [?x <? total] => destruct (Nat.ltb_spec x total) end;
    rewrite ?plan_app; cbn [expand_plan flat_map]; rewrite ?app_nil_r, <- ?app_assoc;
    repeat match goal with |- context [repeat ?t ?n] => let E := fresh in assert (E : n = 0) by lia; rewrite E; clear E; cbn [repeat app] end;
    rewrite ?app_nil_r; repeat (f_equal; try lia).
Qed.
Lemma create_length total first height : length (expand_plan (plan_create total first height)) = total.
Proof. rewrite create_ok. cbv zeta. rewrite !app_length, !repeat_length. lia. Qed.
Lemma create_window total first height i t : nth_error (expand_plan (plan_create total first height)) i = Some t ->
  t = Render <-> (i < total /\ min first total <= i + 2 /\ i < min first total + height + 2).
Proof.
  rewrite create_ok. cbv zeta. set (f := min first total). assert (Hf : f <= total) by (unfold f; lia). clearbody f.
  intros H. assert (Hi : i < total).
  { assert (K : nth_error (repeat Discard (f - 1000) ++ repeat Preserve (f - 2 - (f - 1000)) ++ repeat Render (min (f + height + 2) total - (f - 2)) ++
      repeat Preserve (min (f + height + 1000) total - min (f + height + 2) total) ++ repeat Discard (total - min (f + height + 1000) total)) i <> None) by congruence.
    apply nth_error_Some in K. rewrite !app_length, !repeat_length in K. lia. }
  repeat match type of H with nth_error (?a ++ ?b) ?j = _ =>
    let L := fresh "L" in destruct (Nat.lt_ge_cases j (length a)) as [L|L];
      [rewrite nth_error_app1 in H by exact L|rewrite nth_error_app2 in H by exact L]; rewrite repeat_length in L; rewrite ?repeat_length in H end;
    apply nth_error_In in H; apply repeat_spec in H; subst t; split; try discriminate; intros; try lia; auto.
Qed.

(** ** Segments *)
Inductive covers : nat -> list entry -> list tactic -> list segment -> Prop :=
  | cov_nil our E P : E = [] \/ P = [] -> covers our E P []
  | cov_cons our their n v t E P gs :
      (n = 0 -> exists E', E = ent their v :: E') -> covers (our + n) E P gs ->
      covers our (lines their n v ++ E) (repeat t n ++ P) (Segment our their n v t :: gs).
Lemma iter_plan_ok : forall fuel sh sl p pl, full sh -> length sh + length p <= fuel ->
  (match sh with [] => True | (n, _, _) :: _ => max sl pl < sl + n end) ->
  (match p with [] => True | (m, _) :: _ => pl = max sl pl \/ max sl pl < pl + m end) ->
  (sh = [] -> p = [] \/ pl <= sl) ->
  covers (max sl pl) (skipn (max sl pl - sl) (expand sh)) (skipn (max sl pl - pl) (expand_plan p)) (iter_plan fuel sh sl p pl).
Proof.
  induction fuel as [|fuel IH]; intros sh sl p pl Hf Hfu Hs Hp He.
  - destruct sh; [|cbn in Hfu; lia]. cbn. rewrite skipn_nil. constructor. auto.
  - destruct sh as [|[[n s] v] sh']; [cbn; rewrite skipn_nil; constructor; auto|].
    destruct p as [|[m t] p']; [cbn [iter_plan]; cbn [expand_plan flat_map]; rewrite skipn_nil; constructor; auto|].
    inversion Hf as [|? ? F1 F2]; subst. cbn [fst] in F1. cbn [iter_plan].
    set (st := max sl pl) in *. set (en := min (sl + n) (pl + m)).
    assert (Hse : st <= en) by (unfold st, en in *; lia).
    rewrite expand_cons, plan_cons.
    assert (E1 : skipn (st - sl) (lines s n v ++ expand sh') =
      lines (s + (st - sl)) (en - st) v ++ skipn (en - sl) (lines s n v ++ expand sh')).
    { rewrite !skipn_app, lines_length, !lines_skipn, app_assoc. replace (st - sl - n) with 0 by lia. replace (en - sl - n) with 0 by (unfold en; lia).
      rewrite !skipn_O. f_equal. replace (n - (st - sl)) with ((en - st) + (n - (en - sl))) by (unfold st, en in *; lia).
      rewrite lines_app. f_equal. f_equal. unfold st, en in *; lia. }
    assert (E2 : skipn (st - pl) (repeat t m ++ expand_plan p') = repeat t (en - st) ++ skipn (en - pl) (repeat t m ++ expand_plan p')).
    { rewrite !skipn_app, repeat_length, app_assoc.
      assert (R : forall k, skipn k (repeat t m) = repeat t (m - k)).
      { intros k. destruct (Nat.le_ge_cases k m).
        - replace m with (k + (m - k)) at 1 by lia. rewrite repeat_add. apply skipn_app_exact. apply repeat_length.
        - replace (m - k) with 0 by lia. apply skipn_all2. rewrite repeat_length. lia. }
      rewrite !R. replace (st - pl - m) with 0 by (unfold st in *; lia). replace (en - pl - m) with 0 by (unfold en; lia). rewrite !skipn_O. f_equal.
      rewrite <- repeat_add. f_equal. unfold st, en in *; lia. }
    rewrite E1, E2.
    destruct (Nat.eqb_spec en (sl + n)) as [D1|D1]; destruct (Nat.eqb_spec en (pl + m)) as [D2|D2].
    + constructor; [unfold st in *; lia|]. replace (st + (en - st)) with (max en en) by lia.
      replace (skipn (en - sl) _) with (skipn (max en en - en) (expand sh')).
      2:{ replace (max en en - en) with 0 by lia. symmetry. rewrite skipn_O. apply skipn_app_exact. rewrite lines_length. lia. }
      replace (skipn (en - pl) _) with (skipn (max en en - en) (expand_plan p')).
      2:{ replace (max en en - en) with 0 by lia. symmetry. rewrite skipn_O. apply skipn_app_exact. rewrite repeat_length. lia. }
      apply IH; [exact F2|cbn [length] in Hfu; lia| | |intros _; right; lia].
      * destruct sh' as [|[[n' s'] v'] sh'']; auto. inversion F2; subst. cbn [fst] in *. lia.
      * destruct p' as [|[m' t'] p'']; auto; lia.
    + constructor; [unfold st in *; lia|]. replace (st + (en - st)) with (max en pl) by (unfold st, en in *; lia).
      replace (skipn (en - sl) _) with (skipn (max en pl - en) (expand sh')).
      2:{ replace (max en pl - en) with 0 by (unfold st, en in *; lia). symmetry. rewrite skipn_O. apply skipn_app_exact. rewrite lines_length. lia. }
      replace (skipn (en - pl) (repeat t m ++ expand_plan p')) with (skipn (max en pl - pl) (expand_plan ((m, t) :: p'))).
      2:{ rewrite plan_cons. f_equal. unfold st, en in *. lia. }
      apply IH; [exact F2|cbn [length] in *; lia| | |intros _; right; unfold st, en in *; lia].
      * destruct sh' as [|[[n' s'] v'] sh'']; auto. inversion F2; subst. cbn [fst] in *. unfold st, en in *; lia.
      * unfold st, en in *; lia.
    + constructor.
      { intros Hn0. rewrite skipn_app, lines_length, lines_skipn. destruct (n - (en - sl)) as [|q] eqn:Eq; [unfold st, en in *; lia|].
        cbn [lines app]. rewrite Nat.sub_diag || idtac. replace (s + (en - sl)) with (s + (st - sl)) by lia. eauto. }
      replace (st + (en - st)) with (max sl en) by (unfold st, en in *; lia).
      replace (skipn (en - sl) (lines s n v ++ expand sh')) with (skipn (max sl en - sl) (expand ((n, s, v) :: sh'))).
      2:{ rewrite expand_cons. f_equal. unfold st, en in *. lia. }
      replace (skipn (en - pl) _) with (skipn (max sl en - en) (expand_plan p')).
      2:{ replace (max sl en - en) with 0 by (unfold st, en in *; lia). symmetry. rewrite skipn_O. apply skipn_app_exact. rewrite repeat_length. lia. }
      apply IH; [exact Hf|cbn [length] in *; lia|unfold st, en in *; lia| |discriminate].
      destruct p' as [|[m' t'] p'']; auto. left. unfold st, en in *; lia.
    + exfalso. unfold en in *. lia.
Qed.
Lemma iter_with_plan_ok sh p : full sh -> covers 0 (expand sh) (expand_plan p) (iter_with_plan sh p).
Proof.
  intros H. unfold iter_with_plan. apply (iter_plan_ok _ sh 0 p 0 H (le_n _)).
  - destruct sh as [|[[n s] v] sh']; auto. inversion H; subst. cbn in *. lia.
  - destruct p as [|[m t] p']; auto.
  - auto.
Qed.
