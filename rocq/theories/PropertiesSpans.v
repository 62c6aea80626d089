(** Properties of spans: C26. *)
From Coq Require Import List Arith Lia Bool ZifyBool.
From Verif Require Import Base ListLib TreeModel TreeSpec TreeProofs CursorModel DeltaModel DeltaSpec DeltaProofs2 SpansModel SpansSpec SpansProofs PropertiesDelta.
Import ListNotations.

(** A sequence of spans made with the operations of the library: over [n] units of text, with
    the spans [l]. *)
Definition holds {T} (t : node (sleaf T) unit) (l : list (nat * nat * T)) (n : nat) : Prop :=
  (exists h, wf (@sp_ops T) uc sV (fun _ => tt) h t) /\ iter t = Some l /\ n_len t = n /\ ordered 0 l n.

Lemma holds_of {T} h (t : node (sleaf T) unit) : wf (@sp_ops T) uc sV (fun _ => tt) h t -> holds t (spans_of t) (n_len t).
Proof. intros W. split; [now exists h|]. split; [now apply (iter_ok h)|]. split; auto. now apply (spans_of_ok h). Qed.
Lemma holds_inv {T} (t : node (sleaf T) unit) l n : holds t l n -> exists h, wf (@sp_ops T) uc sV (fun _ => tt) h t /\ l = spans_of t /\ n = n_len t /\ ordered 0 l n.
Proof. intros ((h & W) & E & En & O). exists h. rewrite (iter_ok h t W) in E. split; auto. split; [congruence|]. auto. Qed.

Lemma ordered_in {T} (l : list (nat * nat * T)) : forall lo n a b d, ordered lo l n -> In (a, b, d) l -> a < b.
Proof. induction l as [|[[s e] v] l IH]; intros lo n a b d H Hi; [destruct Hi|]. destruct H as (A & B & C). destruct Hi as [E|Hi]; [congruence|]. eapply IH; eauto. Qed.
Lemma values_slice {T} (l : list (nat * nat * T)) n b e : e <= n -> slice (values l n) b e = map (value l) (seq b (e - b)).
Proof.
  intros He. apply nth_error_ext. intros k. rewrite nth_slice, values_nth, nth_error_map. destruct (k <? e - b) eqn:E.
  - replace (b + k <? n) with true by lia. rewrite (nth_error_nth' _ 0) by (rewrite seq_length; lia). rewrite seq_nth by lia. reflexivity.
  - replace (nth_error (seq b (e - b)) k) with (@None nat); auto. symmetry. apply nth_error_None. rewrite seq_length. lia.
Qed.
Lemma blanked_denote {A T} (sp : list (nat * nat * T)) n (l : list (element A)) : forall r, apply_els (blanked l) (values sp n) = Some r ->
  r = map (fun x => match x with inl i => value sp i | inr _ => None end) (denote l).
Proof.
  induction l as [|[b e|s] l IH]; intros r H; cbn [blanked map apply_els denote] in *; [now injection H as <-| |]; fold (@blanked T A l) in H.
  - rewrite values_len in H. destruct ((b <=? e) && (e <=? n)) eqn:E; [|discriminate]. destruct (apply_els (blanked l) (values sp n)) as [q|]; [|discriminate]. injection H as <-.
    rewrite map_app, map_map, (IH q eq_refl), values_slice by lia. reflexivity.
  - destruct (apply_els (blanked l) (values sp n)) as [q|]; [|discriminate]. injection H as <-. rewrite map_app, map_map, (IH q eq_refl). f_equal. clear. induction s; cbn; congruence.
Qed.

Lemma nth_error_app_ {X} (a b : list X) i : nth_error (a ++ b) i = if i <? length a then nth_error a i else nth_error b (i - length a).
Proof. destruct (i <? length a) eqn:E; [apply nth_error_app1|apply nth_error_app2]; lia. Qed.

(** What a builder is given is what the iterator gives back. *)
Theorem C26_build {T} (l : list (nat * nat * T)) n : ordered 0 l n ->
  exists sb t, add_spans (sb_new n) l = Some sb /\ sb_build sb = Some t /\ holds t l n.
Proof.
  intros O. destruct (builder_ok l n O) as (sb & t & h & E1 & E2 & W & Hn & Hs). exists sb, t. split; auto. split; auto. pose proof (holds_of h t W) as H. now rewrite Hn, Hs in H.
Qed.
Print Assumptions C26_build.

(** Merging gives at each offset the combination of the values there, and never fails on
    sequences of the same length. *)
Theorem C26_merge {T O} (f : T -> option T -> O) a b la lb n : holds a la n -> holds b lb n ->
  exists t l, merge f a b = Some t /\ holds t l n /\
    forall i, value l i =
      match value la i, value lb i with
      | Some x, y => Some (f x y)
      | None, Some y => Some (f y None)
      | None, None => None
      end.
Proof.
  intros Ha Hb. destruct (holds_inv _ _ _ Ha) as (h1 & Wa & -> & Hn & _). destruct (holds_inv _ _ _ Hb) as (h2 & Wb & -> & Hn' & _).
  destruct (merge_ok f h1 h2 a b Wa Wb) as (t & h & E & W & Ht & Hv); [congruence|]. exists t, (spans_of t). split; auto. split; [|exact Hv]. pose proof (holds_of h t W) as H. rewrite Ht in H. now rewrite Hn.
Qed.
Print Assumptions C26_merge.
Theorem C26_merge_lengths {T O} (f : T -> option T -> O) a b : n_len a <> n_len b -> merge f a b = None.
Proof. intros H. unfold merge, check. apply Nat.eqb_neq in H. now rewrite H. Qed.
Print Assumptions C26_merge_lengths.

(** Deleting keeps the spans before the first that intersects the interval. *)
Theorem C26_delete_after {T} (t : node (sleaf T) unit) l n s e : holds t l n ->
  exists t' k, delete_after t s e = Some t' /\ holds t' (firstn k l) n /\
    (forall a b d, In (a, b, d) (firstn k l) -> b <= s \/ e <= a \/ e <= s) /\
    (forall a b d, nth_error l k = Some (a, b, d) -> a < e /\ s < b /\ s < e).
Proof.
  intros H. destruct (holds_inv _ _ _ H) as (h & W & -> & -> & _). destruct (delete_after_ok h t s e W) as (t' & h' & E & W' & Hn & Hs).
  destruct (before_prefix (spans_of t) s e) as (k & Ek & Hk & F). exists t', k. split; auto. split; [pose proof (holds_of h' t' W') as G; now rewrite Hn, Hs, Ek in G|]. rewrite Forall_forall in F. split.
  - destruct (spans_of_ok h t W) as (Or & _). intros a b d Hi. specialize (F _ Hi). cbn in F. assert (a < b) by (apply (ordered_in _ _ _ a b d Or); rewrite <- (firstn_skipn k (spans_of t)); apply in_or_app; auto). lia.
  - intros a b d Ed. specialize (Hk _ Ed). cbn in Hk. lia.
Qed.
Print Assumptions C26_delete_after.

(** Following an edit of the text keeps each value over the text it was over; new text has
    none. *)
Theorem C26_apply_shape {A T} (t : node (sleaf T) unit) l (d : delta A) : holds t l (base_len d) -> wf_delta d ->
  exists t' l' n', apply_shape t d = Some t' /\ holds t' l' n' /\ n' = length (denote (els d)) /\
    forall j, j < n' -> value l' j = match nth_error (denote (els d)) j with Some (inl i) => value l i | _ => None end.
Proof.
  intros H [Hd _]. destruct (holds_inv _ _ _ H) as (h & W & -> & Hn & _). rewrite Hn in Hd. destruct (apply_shape_ok h t d W Hd) as (t' & h' & E & W' & Ea).
  destruct (spans_of_ok h t W) as (_ & _ & C). destruct (spans_of_ok h' t' W') as (_ & _ & C'). rewrite C, C' in Ea. exists t', (spans_of t'), (n_len t'). split; auto. split; [now apply (holds_of h')|].
  pose proof (blanked_denote _ _ (els d) _ Ea) as Er. split; [apply (f_equal (@length _)) in Er; now rewrite values_len, map_length in Er|].
  intros j Hj. apply (f_equal (fun s => nth_error s j)) in Er. rewrite values_nth in Er. replace (j <? n_len t') with true in Er by lia. rewrite nth_error_map in Er.
  destruct (nth_error (denote (els d)) j) as [[i|c]|] eqn:En; cbn [option_map] in Er; congruence.
Qed.
Print Assumptions C26_apply_shape.

(** Spans put in place of an interval of others. *)
Theorem C26_edit {T} (t new : node (sleaf T) unit) l ln n m s e : holds t l n -> holds new ln m -> s <= e -> e <= n ->
  exists t' l', edit sp_ops t s e new = Some t' /\ holds t' l' (s + m + (n - e)) /\
    forall i, value l' i = if i <? s then value l i else if i <? s + m then value ln (i - s) else value l (i - m - s + e).
Proof.
  intros H Hw Hse Hen. destruct (holds_inv _ _ _ H) as (h & W & -> & Hn & Ol). destruct (holds_inv _ _ _ Hw) as (hn & Wn & -> & Hm & On).
  assert (He : e <= length (content uc t)) by (rewrite <- (wf_len _ _ _ _ h t W); lia).
  destruct (edit_tree_ok sp_ops uc sV vcut (fun _ => tt) sp_value_spec h t s e hn new W Wn Hse He Logic.I Logic.I) as (t' & h' & E & W' & C). exists t', (spans_of t'). split; auto.
  destruct (spans_of_ok h t W) as (_ & _ & Ct). destruct (spans_of_ok hn new Wn) as (_ & _ & Cn). destruct (spans_of_ok h' t' W') as (O' & _ & Ct'). rewrite Ct, Cn, Ct' in C. rewrite <- Hn, <- Hm in C.
  assert (Hl : n_len t' = s + m + (n - e)). { apply (f_equal (@length _)) in C. rewrite !app_length, firstn_length, skipn_length, !values_len in C. lia. }
  split; [pose proof (holds_of h' t' W') as G; now rewrite Hl in G|]. intros i. destruct (Nat.lt_ge_cases i (n_len t')) as [Hi|Hi].
  - apply (f_equal (fun x => nth_error x i)) in C. rewrite values_nth in C. replace (i <? n_len t') with true in C by lia. rewrite nth_error_app_ in C. revert C. rewrite firstn_length, values_len, Nat.min_l by lia.
    destruct (i <? s) eqn:E1; [rewrite nth_error_firstn, E1, values_nth; replace (i <? n) with true by lia; congruence|]. rewrite nth_error_app_, values_len. replace (i - s <? m) with (i <? s + m) by lia.
    destruct (i <? s + m) eqn:E2; [rewrite values_nth; replace (i - s <? m) with true by lia; congruence|]. rewrite nth_error_skipn, values_nth. replace (e + (i - s - m) <? n) with true by lia. replace (e + (i - s - m)) with (i - m - s + e) by lia. congruence.
  - rewrite <- val1_value, (ord_out _ _ _ _ O') by lia. replace (i <? s) with false by lia. replace (i <? s + m) with false by lia. symmetry. rewrite <- val1_value, (ord_out _ _ _ _ Ol) by lia. reflexivity.
Qed.
Print Assumptions C26_edit.

(** Spans over the interval of a text that starts at [bs], moved through an edit of the text:
    a unit of text that survives keeps its value. *)
Theorem C26_transform {A T} (t : node (sleaf T) unit) l n (d : delta A) bs : holds t l n -> wf_delta d -> no_empty_copy (els d) ->
  exists t' l', transform t bs (bs + n) d = Some t' /\
    holds t' l' (transform_ix d (bs + n) true - transform_ix d bs false) /\
    forall i j, i < n -> nth_error (denote (els d)) j = Some (inl (bs + i)) ->
      transform_ix d bs false <= j /\ j < transform_ix d (bs + n) true /\ value l' (j - transform_ix d bs false) = value l i.
Proof.
  intros H Hd Hc. destruct (holds_inv _ _ _ H) as (h & W & -> & -> & _). pose proof (transform_ok h t d bs W) as Ht. cbv zeta in Ht.
  assert (M : mono d) by (intros i j a a' Hij; now apply C09_transform_monotone). destruct (Ht M) as (t' & h' & E & W' & Hn & Hs). exists t', (spans_of t'). split; auto. split; [pose proof (holds_of h' t' W') as G; now rewrite Hn in G|].
  intros i j Hi Hj. destruct (C09_transform d (bs + i) Hd Hc) as (Hx & _). destruct (Hx j Hj) as [H1 H2].
  assert (L1 : forall x, x <= i -> transform_ix d (x + bs) false <= j) by (intros x Hxi; rewrite <- H1; apply M; lia).
  assert (L2 : forall x, i < x -> j < transform_ix d (x + bs) false) by (intros x Hxi; enough (S j <= transform_ix d (x + bs) false) by lia; rewrite <- H2; apply M; lia).
  assert (L3 : j < transform_ix d (bs + n_len t) true) by (enough (S j <= transform_ix d (bs + n_len t) true) by lia; rewrite <- H2; apply M; lia).
  pose proof (L1 0 ltac:(lia)) as L0. cbn [Nat.add] in L0. split; auto. split; auto. rewrite Hs. apply moved_value.
  - intros x Hxi. specialize (L1 x Hxi). lia.
  - intros x Hxi. specialize (L2 x Hxi). lia.
Qed.
Print Assumptions C26_transform.

(** Cases that meet the hypotheses. *)
Definition mk {T} (l : list (nat * nat * T)) (n : nat) : option (node (sleaf T) unit) := let? sb := add_spans (sb_new n) l in sb_build sb.
Definition row (k n : nat) : list (nat * nat * nat) := map (fun i => (3 * i, 3 * i + k, i)) (seq 0 n).
Definition shown {T} (t : option (node (sleaf T) unit)) : option (list (nat * nat * T)) := let? t := t in iter t.
Lemma C26_hypotheses : ordered 0 [(0, 10, 7); (16, 20, 8)] 50 /\ ordered 0 [(5, 7, 1); (9, 18, 2)] 50 /\
  wf_delta (Delta [Copy 0 8; Insert [0; 0]; Copy 12 50] 50) /\ no_empty_copy (A:=nat) (els (Delta [Copy 0 8; Insert [0; 0]; Copy 12 50] 50)).
Proof. cbn. repeat split; try lia; repeat constructor; discriminate. Qed.
Example C26_case : let f := fun (x : nat) (y : option nat) => (x, y) in
  (let? a := mk [(0, 10, 7); (16, 20, 8)] 50 in let? b := mk [(5, 7, 1); (9, 18, 2)] 50 in shown (merge f a b)) =
    Some [(0, 5, (7, None)); (5, 7, (7, Some 1)); (7, 9, (7, None)); (9, 10, (7, Some 2)); (10, 16, (2, None)); (16, 18, (8, Some 2)); (18, 20, (8, None))] /\
  (let? a := mk [(0, 10, 7); (16, 20, 8)] 50 in shown (apply_shape a (Delta [Copy 0 8; Insert [0; 0]; Copy 12 50] 50))) = Some [(0, 8, 7); (14, 18, 8)] /\
  (let? a := mk [(0, 10, 7); (16, 20, 8)] 50 in shown (transform a 3 53 (Delta [Copy 0 8; Insert [0; 0]; Copy 12 60] 60))) = Some [(0, 8, 7); (14, 18, 8)].
Proof. vm_compute. auto. Qed.
(** Two hundred spans, in more than one leaf. *)
Example C26_case_big : (let? a := mk (row 2 200) 600 in shown (delete_after a 299 301)) = Some (row 2 100) /\ option_map n_height (mk (row 2 200) 600) = Some 1.
Proof. vm_compute. auto. Qed.

(** Deleting after an interval that no span intersects keeps the spans that come after it,
    against the comment on it ("deletes all spans that intersect with [interval] and that come
    after"). *)
Theorem C26_delete_after_refuted : (let? a := mk [(0, 5, 1); (20, 25, 2)] 50 in shown (delete_after a 10 15)) = Some [(0, 5, 1); (20, 25, 2)].
Proof. reflexivity. Qed.
Print Assumptions C26_delete_after_refuted.
(** Spans that overlap cannot be merged, and ones that are not in order can not always be
    added. *)
Theorem C26_overlap_refuted : let f := fun (x : nat) (y : option nat) => (x, y) in
  (exists a b, mk [(0, 10, 1); (0, 4, 2)] 10 = Some a /\ mk [(2, 6, 3)] 10 = Some b /\ iter a = Some [(0, 10, 1); (0, 4, 2)] /\
     shown (merge f a b) = Some [(0, 2, (1, None)); (2, 6, (1, Some 3)); (6, 10, (1, None)); (0, 4, (2, None))]) /\
  mk (row 1 65 ++ [(0, 1, 5)]) 200 = None.
Proof.
  split; [|vm_compute; reflexivity]. eexists _, _. split; [vm_compute; reflexivity|]. split; [vm_compute; reflexivity|]. split; vm_compute; reflexivity.
Qed.
Print Assumptions C26_overlap_refuted.
