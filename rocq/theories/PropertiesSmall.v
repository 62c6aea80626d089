(** Properties of two small containers: scope identifiers (C42) and the trace ring buffer (C37). *)
From Coq Require Import List Arith Lia Bool ZifyBool.
From Verif Require Import Base ListLib StackMapModel DequeModel.
Import ListNotations.

(** *** C42 *)
(** The place of a stack in a list of stacks. *)
Definition stack_eq_dec := list_eq_dec Nat.eq_dec.
Fixpoint index_of (s : list nat) (l : list (list nat)) : option nat :=
  match l with
  | [] => None
  | x :: l' => if stack_eq_dec x s then Some 0 else option_map S (index_of s l')
  end.
(** What lookups should answer, given the different stacks looked up before, in order. *)
Fixpoint answers (seen : list (list nat)) (stacks : list (list nat)) : list lookup :=
  match stacks with
  | [] => []
  | s :: ss =>
      match index_of s seen with
      | Some i => Existing i :: answers seen ss
      | None => New (length seen) :: answers (seen ++ [s]) ss
      end
  end.

(** The value stored for a path. *)
Fixpoint value_at (n : snode) (p : list nat) : option nat :=
  match p with
  | [] => sn_value n
  | k :: p' => match hm_get (sn_children n) k with Some c => value_at c p' | None => None end
  end.
Lemma hm_get_insert {V} (m : list (nat * V)) k v k' : hm_get (hm_insert m k v) k' = if k =? k' then Some v else hm_get m k'.
Proof.
  induction m as [|[a w] m IH]; cbn; [reflexivity|]. destruct (Nat.eqb_spec a k) as [->|E]; cbn.
  - destruct (Nat.eqb_spec k k'); reflexivity.
  - rewrite IH. destruct (Nat.eqb_spec a k'), (Nat.eqb_spec k k'); auto; congruence.
Qed.
Lemma sn_get_value_ok stack : forall n id, stack <> [] ->
  exists n' r, sn_get_value n stack id = Some (n', r) /\
    match value_at n stack with
    | Some v => r = Existing v /\ forall p, value_at n' p = value_at n p
    | None => r = New id /\ forall p, value_at n' p = if stack_eq_dec p stack then Some id else value_at n p
    end.
Proof.
  induction stack as [|k stack IH]; intros [v cs] id Hs; [congruence|]. destruct stack as [|k2 stack].
  - cbn [sn_get_value value_at sn_children]. destruct (hm_get cs k) as [[[w|] cc]|] eqn:E; cbn [sn_value].
    + eexists _, _. split; [reflexivity|]. split; auto.
    + eexists _, _. split; [reflexivity|]. split; auto. intros [|a p]; [now destruct (stack_eq_dec [] [k])|].
      cbn [value_at sn_children]. rewrite hm_get_insert. destruct (Nat.eqb_spec k a) as [<-|Hn].
      * rewrite E. destruct p as [|b p]; cbn [value_at sn_value sn_children]; [now destruct (stack_eq_dec [k] [k])|].
        destruct (stack_eq_dec (k :: b :: p) [k]); [discriminate|reflexivity].
      * destruct (stack_eq_dec (a :: p) [k]); [congruence|reflexivity].
    + eexists _, _. split; [reflexivity|]. split; auto. intros [|a p]; [now destruct (stack_eq_dec [] [k])|].
      cbn [value_at sn_children]. rewrite hm_get_insert. destruct (Nat.eqb_spec k a) as [<-|Hn].
      * rewrite E. destruct p as [|b p]; cbn [value_at sn_new sn_value sn_children hm_get]; [now destruct (stack_eq_dec [k] [k])|].
        destruct (stack_eq_dec (k :: b :: p) [k]); [discriminate|reflexivity].
      * destruct (stack_eq_dec (a :: p) [k]); [congruence|reflexivity].
  - set (rest := k2 :: stack) in *. set (child := match hm_get cs k with Some c => c | None => SNode None [] end).
    destruct (IH child id) as (c' & r & E & H); [discriminate|]. exists (SNode v (hm_insert cs k c')), r. split.
    { subst rest. cbn [sn_get_value] in *. fold child. rewrite E. reflexivity. }
    assert (Ev : value_at (SNode v cs) (k :: rest) = value_at child rest).
    { cbn [value_at sn_children]. unfold child. destruct (hm_get cs k); [reflexivity|]. subst rest. reflexivity. }
    assert (Ep : forall p, (match hm_get cs k with Some c => value_at c p | None => None end) = value_at child p).
    { intros p. unfold child. destruct (hm_get cs k); [reflexivity|]. now destruct p. }
    rewrite Ev. destruct (value_at child rest) as [w|].
    + destruct H as [-> H]. split; auto. intros [|a p]; [reflexivity|]. cbn [value_at sn_children]. rewrite hm_get_insert.
      destruct (Nat.eqb_spec k a) as [<-|Hn]; auto. now rewrite H, Ep.
    + destruct H as [-> H]. split; auto. intros [|a p]; [destruct (stack_eq_dec [] (k :: rest)); [discriminate|reflexivity]|].
      cbn [value_at sn_children]. rewrite hm_get_insert. destruct (Nat.eqb_spec k a) as [<-|Hn].
      * rewrite H, Ep. destruct (stack_eq_dec p rest), (stack_eq_dec (k :: p) (k :: rest)); auto; congruence.
      * destruct (stack_eq_dec (a :: p) (k :: rest)); [congruence|reflexivity].
Qed.
Lemma index_of_app s l x : index_of s (l ++ [x]) = match index_of s l with Some i => Some i | None => if stack_eq_dec x s then Some (length l) else None end.
Proof.
  induction l as [|y l IH]; cbn; [now destruct (stack_eq_dec x s)|]. destruct (stack_eq_dec y s); auto. rewrite IH.
  destruct (index_of s l); auto. now destruct (stack_eq_dec x s).
Qed.
Lemma sm_run_ok stacks : forall m seen, Forall (fun s => s <> []) stacks -> sm_next m = length seen ->
  (forall p, p <> [] -> value_at (sm_scopes m) p = index_of p seen) -> sm_run m stacks = Some (answers seen stacks).
Proof.
  induction stacks as [|s ss IH]; intros m seen F Hn Hi; [reflexivity|]. inversion F as [|? ? Fs Fss]; subst. cbn [sm_run answers].
  destruct (sn_get_value_ok s (sm_scopes m) (sm_next m) Fs) as (n' & r & E & H).
  assert (Eg : sm_get_value m s = Some (SMap (if is_new r then sm_next m + 1 else sm_next m) n', r)).
  { unfold sm_get_value. destruct s; [congruence|]. now rewrite E. }
  rewrite Eg. cbn [bind]. rewrite Hi in H by auto. destruct (index_of s seen) as [i|] eqn:Ei.
  - destruct H as [-> H]. rewrite (IH _ seen); auto. cbn. intros p Hp. rewrite H. auto.
  - destruct H as [-> H]. rewrite (IH _ (seen ++ [s])); auto; cbn [is_new sm_next sm_scopes].
    + cbn [bind]. now rewrite Hn.
    + rewrite app_length, Hn. reflexivity.
    + intros p Hp. rewrite H, index_of_app, Hi by auto. destruct (stack_eq_dec p s) as [->|Hne].
      * rewrite Ei. destruct (stack_eq_dec s s); congruence.
      * destruct (index_of p seen); auto. destruct (stack_eq_dec s p); congruence.
Qed.

(** Whatever stacks are looked up, in whatever order: a stack that was looked up before gets the
    identifier it got then, a new one gets the number of different stacks before it. *)
Theorem C42_scope_ids stacks : Forall (fun s => s <> []) stacks -> sm_run sm_default stacks = Some (answers [] stacks).
Proof. intros F. apply sm_run_ok; auto. intros [|k p]; [congruence|reflexivity]. Qed.
Print Assumptions C42_scope_ids.
Example C42_example : sm_run sm_default [[1; 2]; [1]; [1; 2]; [2; 1]; [1; 2; 3]; [1]] = Some [New 0; New 1; Existing 0; New 2; New 3; Existing 1].
Proof. reflexivity. Qed.

(** *** C37 *)
(** The last [n] elements. *)
Definition lastn {T} (n : nat) (l : list T) : list T := skipn (length l - n) l.
Inductive dop (T : Type) :=
| OPush (x : T) | OAppend (xs : list T) | OLimit (n : nat) | OPopFront | OPopBack | OClear | ORetain (f : T -> bool) | OSplitOff (k : nat) | OResize (n : nat) (x : T).
Arguments OPush {T}. Arguments OAppend {T}. Arguments OLimit {T}. Arguments OPopFront {T}. Arguments OPopBack {T}.
Arguments OClear {T}. Arguments ORetain {T}. Arguments OSplitOff {T}. Arguments OResize {T}.
Definition d_step {T} (d : deque T) (o : dop T) : option (deque T) :=
  match o with
  | OPush x => Some (push_back d x)
  | OAppend xs => Some (append d xs)
  | OLimit n => reset_limit d n
  | OPopFront => Some (pop_front d)
  | OPopBack => Some (pop_back d)
  | OClear => Some (d_clear d)
  | ORetain f => Some (d_retain d f)
  | OSplitOff k => let? (a, _) := d_split_off d k in Some a
  | OResize n x => Some (d_resize d n x)
  end.
Fixpoint d_run {T} (d : deque T) (os : list (dop T)) : option (deque T) :=
  match os with [] => Some d | o :: os' => let? d' := d_step d o in d_run d' os' end.
(** What each operation should do to the elements and the limit. *)
Definition d_effect {T} (o : dop T) (l : list T) (limit : nat) : list T * nat :=
  match o with
  | OPush x => (lastn limit (l ++ [x]), limit)
  | OAppend xs => (lastn limit (l ++ xs), limit)
  | OLimit n => (lastn n l, n)
  | OPopFront => (tl l, limit)
  | OPopBack => (removelast l, limit)
  | OClear => ([], limit)
  | ORetain f => (filter f l, limit)
  | OSplitOff k => (firstn k l, limit)
  | OResize n x => (if n <? length l then lastn n l else l ++ repeat x (Nat.min n limit - length l), limit)
  end.
Definition d_legal {T} (o : dop T) (l : list T) : Prop := match o with OSplitOff k => k <= length l | _ => True end.
Lemma lastn_all {T} n (l : list T) : length l <= n -> lastn n l = l.
Proof. intros H. unfold lastn. replace (length l - n) with 0 by lia. reflexivity. Qed.
Lemma lastn_length {T} n (l : list T) : length (lastn n l) = Nat.min n (length l).
Proof. unfold lastn. rewrite skipn_length. lia. Qed.
Lemma drop_append {T} (d : deque T) xs : length (d_storage d) <= d_limit d ->
  drop_excess (Deque (d_storage (drop_excess d (length xs)) ++ xs) (d_limit (drop_excess d (length xs)))) 0 = Deque (lastn (d_limit d) (d_storage d ++ xs)) (d_limit d).
Proof.
  destruct d as [l m]. intros H. unfold drop_excess. cbn [d_storage d_limit] in *. destruct (m <? length l + length xs) eqn:E; cbn [d_storage d_limit].
  - rewrite app_length, skipn_length, Nat.add_0_r. unfold lastn. rewrite app_length. destruct (Nat.le_gt_cases (length xs) m) as [Hx|Hx].
    + rewrite Nat.min_r by lia. replace (m <? _) with false by lia. f_equal. rewrite skipn_app.
      replace (length l + length xs - m - length l) with 0 by lia. reflexivity.
    + rewrite Nat.min_l by lia. replace (m <? _) with true by lia. f_equal. rewrite (skipn_all2 l) by lia. cbn [app].
      rewrite skipn_app, (skipn_all2 l) by lia. cbn [app]. f_equal. lia.
  - rewrite app_length, Nat.add_0_r, E. rewrite lastn_all; auto. rewrite app_length. lia.
Qed.
(** Each operation does that, and the limit is never exceeded. *)
Theorem C37_operation T (d : deque T) o : length (d_storage d) <= d_limit d -> d_legal o (d_storage d) ->
  exists d', d_step d o = Some d' /\ (d_storage d', d_limit d') = d_effect o (d_storage d) (d_limit d) /\ length (d_storage d') <= d_limit d'.
Proof.
  intros H Hl. destruct d as [l m]. cbn [d_storage d_limit] in *. destruct o as [x|xs|n| | | |f|k|n x]; cbn [d_step d_effect d_legal] in *.
  - eexists. split; [reflexivity|]. unfold push_back. change 1 with (length [x]). rewrite (drop_append (Deque l m) [x] H). cbn [d_storage d_limit]. split; auto. rewrite lastn_length. lia.
  - eexists. split; [reflexivity|]. unfold append. rewrite (drop_append (Deque l m) xs H). cbn [d_storage d_limit]. split; auto. rewrite lastn_length. lia.
  - unfold reset_limit, drop_excess. cbn [d_storage d_limit].
    assert (E : d_storage (if n <? m then if m <? length l + (m - n) then Deque (skipn (Nat.min (length l) (length l + (m - n) - m)) l) m else Deque l m else Deque l m) = lastn n l).
    { destruct (n <? m) eqn:E1; [destruct (m <? length l + (m - n)) eqn:E2|]; cbn [d_storage]; [|symmetry; apply lastn_all; lia..].
      unfold lastn. f_equal. lia. }
    rewrite E, lastn_length. replace (Nat.min n (length l) <=? n) with true by lia. cbn [check]. eexists. split; [reflexivity|]. cbn [d_storage d_limit]. split; auto. rewrite lastn_length. lia.
  - eexists. split; [reflexivity|]. cbn. split; auto. destruct l; cbn in *; lia.
  - eexists. split; [reflexivity|]. cbn. split; auto. rewrite removelast_firstn_len, firstn_length. lia.
  - eexists. split; [reflexivity|]. cbn. split; auto. lia.
  - eexists. split; [reflexivity|]. cbn. split; auto. pose proof (filter_length_le f l). lia.
  - unfold d_split_off. cbn [d_storage d_limit]. replace (k <=? length l) with true by lia. cbn [check bind]. eexists. split; [reflexivity|]. cbn. split; auto. rewrite firstn_length. lia.
  - unfold d_resize. cbn [d_storage d_limit]. eexists. split; [reflexivity|]. destruct (n <? length l) eqn:E; cbn [d_storage d_limit].
    + split; auto. rewrite skipn_length. lia.
    + rewrite firstn_all2 by lia. rewrite app_length, repeat_length. split; [|lia]. do 3 f_equal. lia.
Qed.
Print Assumptions C37_operation.

(** Over a history of pushes, appends and changes of the limit: the buffer holds a suffix of all
    that was pushed, never more than the limit, and all of it or at least as many as the smallest
    limit there ever was. *)
Definition pushed {T} (o : dop T) : list T := match o with OPush x => [x] | OAppend xs => xs | _ => [] end.
Definition grows {T} (o : dop T) : Prop := match o with OPush _ | OAppend _ | OLimit _ => True | _ => False end.
Definition limits {T} (o : dop T) (low : nat) : Prop := match o with OLimit n => low <= n | _ => True end.
Lemma lastn_suffix {T} n (a l : list T) : exists b, a ++ l = b ++ lastn n l.
Proof. exists (a ++ firstn (length l - n) l). unfold lastn. now rewrite <- app_assoc, firstn_skipn. Qed.
Theorem C37_history T (os : list (dop T)) limit low : Forall grows os -> low <= limit -> Forall (fun o => limits o low) os ->
  exists d, d_run (d_with_limit limit) os = Some d /\ length (d_storage d) <= d_limit d /\
    let log := flat_map pushed os in
    (exists dropped, log = dropped ++ d_storage d) /\ Nat.min low (length log) <= length (d_storage d).
Proof.
  intros G Hlow HL.
  assert (K : forall os (d : deque T) log, length (d_storage d) <= d_limit d -> low <= d_limit d -> (exists a, log = a ++ d_storage d) -> Nat.min low (length log) <= length (d_storage d) ->
    Forall grows os -> Forall (fun o => limits o low) os ->
    exists d', d_run d os = Some d' /\ length (d_storage d') <= d_limit d' /\ (exists a, log ++ flat_map pushed os = a ++ d_storage d') /\ Nat.min low (length (log ++ flat_map pushed os)) <= length (d_storage d')).
  { clear. induction os as [|o os IH]; intros d log H Hlo [a Ha] Hm G HL; cbn [d_run flat_map].
    - exists d. rewrite app_nil_r. split; auto. split; auto. split; eauto.
    - inversion G as [|? ? Go Gs]; inversion HL as [|? ? Lo Ls]; subst. destruct (C37_operation T d o H) as (d1 & E1 & E2 & H1); [now destruct o|].
      rewrite E1. cbn [bind]. rewrite app_assoc. apply IH; auto; clear IH; destruct o as [x|xs|n| | | |f|k|n x]; try now destruct Go; cbn [d_effect pushed limits] in *.
      all: cbn [d_effect pushed limits] in *; injection E2 as E2 E3; rewrite ?E2, ?E3; auto.
      + destruct (lastn_suffix (d_limit d) a (d_storage d ++ [x])) as [b Hb]. exists b. now rewrite <- app_assoc.
      + destruct (lastn_suffix (d_limit d) a (d_storage d ++ xs)) as [b Hb]. exists b. now rewrite <- app_assoc.
      + rewrite app_nil_r. apply lastn_suffix.
      + rewrite lastn_length, !app_length in *. cbn in *. lia.
      + rewrite lastn_length, !app_length in *. lia.
      + rewrite app_nil_r, lastn_length. lia. }
  destruct (K os (d_with_limit limit) []) as (d & E & H1 & H2 & H3); auto; try (cbn; lia). { now exists []. }
  exists d. auto.
Qed.
Print Assumptions C37_history.
Example C37_example : d_run (d_with_limit 3) [OPush 1; OAppend [2; 3; 4]; OLimit 2; OPush 5; OLimit 4; OAppend [6; 7; 8; 9; 10]; OPush 11] = Some (Deque [8; 9; 10; 11] 4).
Proof. reflexivity. Qed.
