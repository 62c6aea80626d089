(** Proofs about the layers of styles. *)
From Coq Require Import List Arith Lia Bool ZifyBool Sorted.
From Verif Require Import Base ListLib TreeModel TreeSpec TreeProofs DeltaModel DeltaSpec DeltaProofs2 SpansModel SpansSpec SpansProofs PropertiesSpans LayersModel LayersSpec.
Import ListNotations.

(** ** Spans by their values *)
Section Values.
Context {T : Type}.
Notation tree := (node (sleaf T) unit).
Implicit Types (t : tree).
Lemma val_holds t l n i : holds t l n -> val t i = value l i.
Proof. intros (_ & E & _). unfold val. now rewrite E. Qed.
Lemma sound_len t n : sound t n -> n_len t = n.
Proof. now intros (l & _ & _ & E & _). Qed.
Lemma val_out t n i : sound t n -> n <= i -> val t i = None.
Proof. intros (l & H) Hi. rewrite (val_holds _ _ _ _ H). destruct H as (_ & _ & _ & O). rewrite <- val1_value, (ord_out _ _ _ _ O); auto. Qed.
Lemma new_val n : exists t, sb_build (T:=T) (sb_new n) = Some t /\ sound t n /\ forall i, val t i = None.
Proof.
  destruct (C26_build (T:=T) [] n) as (sb & t & E & Eb & H); [cbn; lia|]. cbn in E. injection E as <-. exists t. split; auto. split; [now exists []|]. intros i. now rewrite (val_holds _ _ _ _ H).
Qed.
Lemma subseq_val t n s e : sound t n -> s <= e -> e <= n -> exists t', subseq sp_ops t s e = Some t' /\ sound t' (e - s) /\ forall i, i < e - s -> val t' i = val t (s + i).
Proof.
  intros (l & H) Hse Hen. destruct (holds_inv _ _ _ H) as (h & W & -> & Hn & Ol). assert (He : e <= length (content uc t)) by (rewrite <- (wf_len _ _ _ _ h t W); lia).
  destruct (subseq_ok sp_ops uc sV vcut (fun _ => tt) sp_value_spec h t s e W Hse He Logic.I Logic.I) as (t' & h' & E & W' & C). pose proof (holds_of h' t' W') as H'.
  destruct (spans_of_ok h t W) as (_ & _ & Ct). destruct (spans_of_ok h' t' W') as (_ & _ & Ct'). rewrite Ct, Ct' in C. rewrite <- Hn in C.
  assert (Hl : n_len t' = e - s). { apply (f_equal (@length _)) in C. unfold slice in C. rewrite firstn_length, skipn_length, !values_len in C. lia. }
  exists t'. split; auto. rewrite Hl in *. split; [now exists (spans_of t')|]. intros i Hi. rewrite (val_holds _ _ _ _ H'), (val_holds _ _ _ _ H).
  apply (f_equal (fun x => nth_error x i)) in C. rewrite nth_slice, !values_nth in C. replace (i <? e - s) with true in C by lia. replace (s + i <? n) with true in C by lia. congruence.
Qed.
Lemma edit_val t n new m s e : sound t n -> sound new m -> s <= e -> e <= n ->
  exists t', edit sp_ops t s e new = Some t' /\ sound t' (s + m + (n - e)) /\
    forall i, val t' i = if i <? s then val t i else if i <? s + m then val new (i - s) else val t (i - m - s + e).
Proof.
  intros (l & H) (ln & Hw) Hse Hen. destruct (C26_edit t new l ln n m s e H Hw Hse Hen) as (t' & l' & E & H' & Hv). exists t'. split; auto. split; [now exists l'|]. intros i.
  rewrite (val_holds _ _ _ _ H'), Hv, !(val_holds _ _ _ _ H), (val_holds _ _ _ _ Hw). reflexivity.
Qed.
Lemma shape_val {A} t (d : delta A) : sound t (base_len d) -> wf_delta d ->
  exists t', apply_shape t d = Some t' /\ sound t' (length (denote (els d))) /\ forall j, val t' j = match nth_error (denote (els d)) j with Some (inl i) => val t i | _ => None end.
Proof.
  intros (l & H) Hd. destruct (C26_apply_shape t l d H Hd) as (t' & l' & n' & E & H' & -> & Hv). exists t'. split; auto. split; [now exists l'|]. intros j. destruct (Nat.lt_ge_cases j (length (denote (els d)))) as [Hj|Hj].
  - rewrite (val_holds _ _ _ _ H'), Hv by auto. destruct (nth_error (denote (els d)) j) as [[i|c]|]; auto. now rewrite (val_holds _ _ _ _ H).
  - rewrite (val_out t' (length (denote (els d)))) by (auto; now exists l'). apply nth_error_None in Hj. now rewrite Hj.
Qed.
Lemma in_value (l : list (nat * nat * T)) s e d : forall lo n, ordered lo l n -> In (s, e, d) l -> value l s = Some d.
Proof.
  induction l as [|[[a b] v] l IH]; intros lo n H Hi; [destruct Hi|]. destruct H as (A & B & C). cbn [value]. destruct Hi as [E|Hi].
  - injection E as -> -> ->. now replace ((s <=? s) && (s <? e)) with true by lia.
  - specialize (IH _ _ C Hi). assert (b <= s). { destruct (Nat.le_gt_cases b s); auto. rewrite <- val1_value, (ord_out _ _ _ _ C) in IH by lia. discriminate. }
    now replace ((a <=? s) && (s <? b)) with false by lia.
Qed.
End Values.
Lemma merge_val {T O} (f : T -> option T -> O) a b n : sound a n -> sound b n ->
  exists t, merge f a b = Some t /\ sound t n /\ forall i, val t i = match val a i, val b i with Some x, y => Some (f x y) | None, Some y => Some (f y None) | None, None => None end.
Proof.
  intros (la & Ha) (lb & Hb). destruct (C26_merge f a b la lb n Ha Hb) as (t & l & E & H & Hv). exists t. split; auto. split; [now exists l|]. intros i. rewrite (val_holds _ _ _ _ H), Hv, (val_holds _ _ _ _ Ha), (val_holds _ _ _ _ Hb). reflexivity.
Qed.

Section Layers.
Context {St M : Type} (st_eqb : St -> St -> bool) (st_merge : St -> St -> St) (m_def : M) (m_apply : M -> M -> M) (to_style : M -> St).
Context (st_eqb_ok : forall x y, st_eqb x y = true -> x = y).
Notation theme := (list nat -> M).
Notation layer := (layer St M).
Notation layers := (layers St M).
Notation combine := (combine st_merge).
Notation fits := (fits st_merge).
Notation sfs := (styles_for_stacks m_def m_apply to_style).

(** ** Layers *)
Lemma sfs_ok hl stacks : forall c, Forall (fun s => s <> []) stacks -> exists l c', sfs hl c stacks = Some (l, c') /\ length l = length stacks.
Proof.
  induction stacks as [|s stacks IH]; intros c F; cbn [styles_for_stacks]; [eexists [], _; eauto|]. inversion F as [|x y Hs F']; subst. unfold style_for_stack. destruct s as [|z s]; [congruence|].
  destruct (match longest c (z :: s) (length (z :: s) - 1) with Some (m, n) => (m, n) | None => (m_def, length (z :: s)) end) as [base upper].
  cbn [bind]. edestruct IH as (l & c' & -> & E); auto. cbn [bind]. eexists _, _. split; [reflexivity|]. cbn [length]. lia.
Qed.
Definition lk (lookup : list St) (x : option nat) : option St := match x with Some k => nth_error lookup k | None => None end.
Lemma styles_loop_ok lookup rest : forall s e v (sb : sbuilder St) out lo n, given sb out -> ordered 0 out lo -> ordered lo ((s, e, v) :: rest) n ->
  (forall a b k, In (a, b, k) ((s, e, v) :: rest) -> k < length lookup) ->
  exists sb' more, styles_loop st_eqb lookup s e v rest sb = Some sb' /\ given sb' (out ++ more) /\ sb_total sb' = sb_total sb /\ ordered lo more n /\
    forall i, value more i = lk lookup (value ((s, e, v) :: rest) i).
Proof.
  induction rest as [|[[ns ne] nv] rest IH]; intros s e v sb out lo n G O Ol Hk; cbn [styles_loop]; pose proof Ol as (A & B & C).
  - destruct (nth_error lookup v) as [x|] eqn:Ex; [|apply nth_error_None in Ex; specialize (Hk s e v (or_introl eq_refl)); lia]. cbn [bind].
    destruct (add_span_ok sb out s e x G) as (sb' & -> & G' & T'); auto; [eapply ord_widen; eauto|]. exists sb', [(s, e, x)]. split; auto. split; auto. split; auto. split; [cbn [ordered]; auto|].
    intros i. cbn [value lk]. destruct (_ && _); cbn [lk]; auto.
  - destruct (nth_error lookup v) as [x|] eqn:Ex; [|apply nth_error_None in Ex; specialize (Hk s e v (or_introl eq_refl)); lia].
    destruct (nth_error lookup nv) as [y|] eqn:Ey; [|apply nth_error_None in Ey; specialize (Hk ns ne nv (or_intror (or_introl eq_refl))); lia]. cbn [bind]. destruct C as (C1 & C2 & C3).
    assert (Other : exists sb' more, bind (add_span sb s e x) (fun sb1 => styles_loop st_eqb lookup ns ne nv rest sb1) = Some sb' /\ given sb' (out ++ more) /\ sb_total sb' = sb_total sb /\ ordered lo more n /\
      forall i, value more i = lk lookup (value ((s, e, v) :: (ns, ne, nv) :: rest) i)).
    { destruct (add_span_ok sb out s e x G) as (sb1 & -> & G1 & T1); auto; [eapply ord_widen; eauto|]. cbn [bind].
      destruct (IH ns ne nv sb1 (out ++ [(s, e, x)]) e n G1) as (sb' & more & -> & G' & T' & Om & Hv); [apply ord_app with s; [eapply ord_widen; eauto|cbn; lia]|cbn [ordered]; auto|intros a b k Hi; apply (Hk a b k); now right|].
      exists sb', ((s, e, x) :: more). rewrite <- app_assoc in G'. split; auto. split; auto. split; [congruence|]. split; [cbn [ordered]; auto|]. intros i. cbn [value]. destruct ((s <=? i) && (i <? e)); cbn [lk]; auto. rewrite Hv. reflexivity. }
    destruct (ns =? e) eqn:En; cbn [bind]; [|exact Other]. destruct (st_eqb x y) eqn:Exy; [|exact Other]. clear Other. apply st_eqb_ok in Exy. subst y.
    unfold union. replace (e <=? s) with false by lia. replace (ne <=? ns) with false by lia. replace (Nat.min s ns) with s by lia. replace (Nat.max e ne) with ne by lia.
    destruct (IH s ne v sb out lo n G O) as (sb' & more & E & G' & T' & Om & Hv); [cbn [ordered]; repeat split; auto; lia|intros a b k [Hi|Hi]; [injection Hi as <- <- <-; apply (Hk s e v); now left|apply (Hk a b k); right; now right]|].
    exists sb', more. split; auto. split; auto. split; auto. split; auto. intros i. rewrite Hv. cbn [value]. destruct ((s <=? i) && (i <? e)) eqn:E1; [replace ((s <=? i) && (i <? ne)) with true by lia; reflexivity|].
    destruct ((ns <=? i) && (i <? ne)) eqn:E2; [replace ((s <=? i) && (i <? ne)) with true by lia; cbn [lk]; congruence|]. now replace ((s <=? i) && (i <? ne)) with false by lia.
Qed.
(** The styles of a sequence of scopes put in place of an interval. *)
Lemma update_styles_ok (k : layer) s e sp n m : sound (ly_style k) n -> sound sp m -> s <= e -> e <= n ->
  (forall i x, val sp i = Some x -> x < length (ly_lookup k)) ->
  exists st, update_styles st_eqb k s e sp = Some (Layer (ly_stacks k) (ly_lookup k) (ly_cache k) (ly_scope k) st) /\ sound st (s + m + (n - e)) /\
    forall i, val st i = if i <? s then val (ly_style k) i else if i <? s + m then lk (ly_lookup k) (val sp (i - s)) else val (ly_style k) (i - m - s + e).
Proof.
  intros Hs (l & Hl) Hse Hen Hk. unfold update_styles. pose proof Hl as (_ & Ei & En & Ol). rewrite Ei. cbn [bind]. rewrite En.
  assert (Hin : forall a b x, In (a, b, x) l -> x < length (ly_lookup k)). { intros a b x Hi. apply (Hk a). rewrite (val_holds _ _ _ _ Hl). eapply in_value; eauto. }
  assert (Hsb : exists sb out, match l with [] => Some (sb_new m) | (ps, pe, pv) :: l' => styles_loop st_eqb (ly_lookup k) ps pe pv l' (sb_new m) end = Some sb /\
    given sb out /\ sb_total sb = m /\ ordered 0 out m /\ forall i, value out i = lk (ly_lookup k) (value l i)).
  { destruct l as [|[[ps pe] pv] l']; [exists (sb_new m), []; split; auto; split; [apply given_new|]; split; auto; split; auto; cbn; lia|].
    destruct (styles_loop_ok (ly_lookup k) l' ps pe pv (sb_new m) [] 0 m) as (sb & out & E & G & Et & Oo & Hv); auto; [apply given_new|cbn; lia|]. exists sb, out. auto 6. }
  destruct Hsb as (sb & out & -> & G & Et & Oo & Hv). cbn [bind]. destruct (sb_build_ok sb out G) as (nt & h & -> & W & Hn & Hsp); [congruence|]. cbn [bind]. pose proof (holds_of h nt W) as Hnt. rewrite Hn, Hsp, Et in Hnt.
  destruct (edit_val (ly_style k) n nt m s e Hs (ex_intro (fun l => holds nt l m) _ Hnt) Hse Hen) as (st & -> & Hst & Hval). cbn [bind]. exists st. split; auto. split; auto. intros i. rewrite Hval, (val_holds _ _ _ _ Hnt), Hv, (val_holds _ _ _ _ Hl). reflexivity.
Qed.
Lemma layer_new_ok n : exists k : layer, layer_new n = Some k /\ layer_fits n k /\ forall i, val (ly_style k) i = None.
Proof.
  unfold layer_new. destruct (new_val (T:=nat) n) as (a & -> & Ha & Va). destruct (new_val (T:=St) n) as (b & -> & Hb & Vb). cbn [bind]. eexists. split; [reflexivity|]. cbn [ly_style].
  split; auto. unfold layer_fits. cbn [ly_scope ly_style ly_stacks ly_lookup]. split; auto. split; auto. split; auto. split; auto. split; intros i; [rewrite Va; discriminate|]. now rewrite Va.
Qed.
Lemma layer_add_ok hl (k : layer) stacks n : layer_fits n k -> Forall (fun s => s <> []) stacks ->
  exists k', layer_add_scopes m_def m_apply to_style hl k stacks = Some k' /\ layer_fits n k' /\ ly_style k' = ly_style k.
Proof.
  intros (H1 & H2 & H3 & H4 & H5 & H6) F. unfold layer_add_scopes. destruct (sfs_ok hl stacks (ly_cache k) F) as (l & c & -> & El). cbn [bind]. eexists. split; [reflexivity|]. cbn [ly_style]. split; auto.
  unfold layer_fits. cbn [ly_scope ly_style ly_stacks ly_lookup]. split; auto. split; auto. split; [now apply Forall_app|]. split; [rewrite !app_length; lia|]. split.
  - intros i x E. rewrite app_length. specialize (H5 _ _ E). lia.
  - intros i. rewrite H6. destruct (val (ly_scope k) i) as [x|] eqn:E; auto. rewrite nth_error_app1; eauto.
Qed.
Lemma update_scopes_ok (k : layer) s e sp n : layer_fits n k -> sound sp (e - s) -> s <= e -> e <= n -> (forall i x, val sp i = Some x -> x < length (ly_lookup k)) ->
  exists k', update_scopes st_eqb k s e sp = Some k' /\ layer_fits n k' /\
    (forall i, val (ly_scope k') i = if (s <=? i) && (i <? e) then val sp (i - s) else val (ly_scope k) i) /\
    (forall i, i < s \/ e <= i -> val (ly_style k') i = val (ly_style k) i) /\ ly_lookup k' = ly_lookup k.
Proof.
  intros (H1 & H2 & H3 & H4 & H5 & H6) Hsp Hse Hen Hk. unfold update_scopes. destruct (edit_val (ly_scope k) n sp (e - s) s e H1 Hsp Hse Hen) as (sc & -> & Hsc & Vsc). cbn [bind].
  edestruct (update_styles_ok (Layer (ly_stacks k) (ly_lookup k) (ly_cache k) sc (ly_style k)) s e sp n (e - s)) as (st & -> & Hst & Vst); cbn [ly_style ly_lookup]; auto.
  cbn [ly_stacks ly_lookup ly_cache ly_scope ly_style] in *. replace (s + (e - s) + (n - e)) with n in * by lia.
  assert (Vsc' : forall i, val sc i = if (s <=? i) && (i <? e) then val sp (i - s) else val (ly_scope k) i).
  { intros i. rewrite Vsc. destruct (i <? s) eqn:E1; [now replace ((s <=? i) && (i <? e)) with false by lia|]. replace (s + (e - s)) with e by lia. destruct (i <? e) eqn:E2; [now replace ((s <=? i) && true) with true by lia|].
    rewrite andb_false_r. f_equal. lia. }
  eexists. split; [reflexivity|]. cbn [ly_scope ly_style ly_lookup]. split; [|split; auto; split; auto].
  - unfold layer_fits. cbn [ly_scope ly_style ly_stacks ly_lookup]. split; auto. split; auto. split; auto. split; auto. split.
    + intros i x. rewrite Vsc'. destruct (_ && _); eauto.
    + intros i. rewrite Vsc', Vst. replace (s + (e - s)) with e by lia. destruct (i <? s) eqn:E1; [now replace ((s <=? i) && (i <? e)) with false by lia|].
      destruct (i <? e) eqn:E2; [now replace ((s <=? i) && true) with true by lia|]. rewrite andb_false_r. replace (i - (e - s) - s + e) with i by lia. apply H6.
  - intros i Hi. rewrite Vst. replace (s + (e - s)) with e by lia. destruct (i <? s) eqn:E1; auto. replace (i <? e) with false by lia. f_equal. lia.
Qed.
Lemma blank_ok {A} (k : layer) (d : delta A) : layer_fits (base_len d) k -> wf_delta d ->
  exists k', blank_scopes k d = Some k' /\ layer_fits (length (denote (els d))) k' /\
    forall j, val (ly_style k') j = match nth_error (denote (els d)) j with Some (inl i) => val (ly_style k) i | _ => None end.
Proof.
  intros (H1 & H2 & H3 & H4 & H5 & H6) Hd. unfold blank_scopes. destruct (shape_val _ d H2 Hd) as (st & -> & Hst & Vst). destruct (shape_val _ d H1 Hd) as (sc & -> & Hsc & Vsc). cbn [bind].
  eexists. split; [reflexivity|]. cbn [ly_style]. split; auto. unfold layer_fits. cbn [ly_scope ly_style ly_stacks ly_lookup]. split; auto. split; auto. split; auto. split; auto. split.
  - intros i x. rewrite Vsc. destruct (nth_error (denote (els d)) i) as [[j|c]|]; eauto; discriminate.
  - intros i. rewrite Vsc, Vst. destruct (nth_error (denote (els d)) i) as [[j|c]|]; auto.
Qed.
Lemma layer_theme_ok hl (k : layer) n : layer_fits n k -> exists k', layer_theme st_eqb m_def m_apply to_style hl k = Some k' /\ layer_fits n k'.
Proof.
  intros (H1 & H2 & H3 & H4 & H5 & H6). unfold layer_theme. destruct (sfs_ok hl _ (ly_cache k) H3) as (l & c & -> & El). cbn [bind]. rewrite (sound_len _ _ H2). destruct (new_val (T:=St) n) as (b & -> & Hb & Vb). cbn [bind].
  edestruct (update_styles_ok (Layer (ly_stacks k) l c (ly_scope k) b) 0 n (ly_scope k) n n) as (st & -> & Hst & Vst); cbn [ly_style ly_lookup]; auto; try lia; [intros i x E; specialize (H5 _ _ E); lia|].
  cbn [ly_stacks ly_lookup ly_cache ly_scope ly_style] in *. replace (0 + n + (n - n)) with n in * by lia. eexists. split; [reflexivity|]. unfold layer_fits. cbn [ly_scope ly_style ly_stacks ly_lookup]. split; auto. split; auto. split; auto. split; [lia|]. split.
  - intros i x E. specialize (H5 _ _ E). lia.
  - intros i. rewrite Vst. change (i <? 0) with false. rewrite Nat.add_0_l, Nat.sub_0_r. destruct (i <? n) eqn:E; [reflexivity|]. rewrite Vb, (val_out _ n) by (auto; lia). reflexivity.
Qed.

(** ** Combining *)
Lemma combine_none a b : combine (a ++ None :: b) = combine (a ++ b).
Proof. unfold LayersSpec.combine. rewrite !fold_left_app. cbn [fold_left]. now destruct (fold_left _ a None). Qed.
Lemma combine_snoc a v : combine (a ++ [v]) = match combine a, v with Some x, Some y => Some (st_merge x y) | Some x, None => Some x | None, v => v end.
Proof. unfold LayersSpec.combine. now rewrite fold_left_app. Qed.
Definition vals (m : list (nat * layer)) (i : nat) : list (option St) := map (fun x => val (ly_style (snd x)) i) m.
Lemma resolve_loop_ok m n s e : s <= e -> e <= n -> Forall (fun x => layer_fits n (snd x)) m -> forall acc r, sound r (e - s) -> (forall i, i < e - s -> val r i = combine (acc (s + i))) ->
  exists r', resolve_loop st_merge m s e r = Some r' /\ sound r' (e - s) /\ forall i, i < e - s -> val r' i = combine (acc (s + i) ++ vals m (s + i)).
Proof.
  intros Hse Hen. induction m as [|[q k] m IH]; intros F acc r Hr Vr; cbn [resolve_loop].
  - exists r. split; auto. split; auto. intros i Hi. cbn. rewrite app_nil_r. auto.
  - inversion F as [|x y Hk F']; subst. cbn [snd] in Hk. destruct (subseq_val (ly_style k) n s e (proj1 (proj2 Hk)) Hse Hen) as (sp & -> & Hsp & Vsp). cbn [bind]. rewrite (sound_len _ _ Hr), (sound_len _ _ Hsp). unfold check. rewrite Nat.eqb_refl.
    destruct (merge_val (over st_merge) r sp (e - s) Hr Hsp) as (t & -> & Ht & Vt). cbn [bind].
    destruct (IH F' (fun i => acc i ++ [val (ly_style k) i]) t Ht) as (r' & -> & Hr' & Vr').
    { intros i Hi. rewrite Vt, (Vr i Hi), (Vsp i Hi), combine_snoc. unfold over. now destruct (combine (acc (s + i))), (val (ly_style k) (s + i)). }
    exists r'. split; auto. split; auto. intros i Hi. rewrite (Vr' i Hi), <- app_assoc. reflexivity.
Qed.
Lemma resolve_ok m del mg n s e : s <= e -> e <= n -> StronglySorted lt (map fst m) -> Forall (fun x => layer_fits n (snd x)) m -> sound mg n ->
  (forall i, i < s \/ e <= i \/ m = [] -> val mg i = combine (vals m i)) ->
  exists mg', resolve_styles st_merge (Layers m del mg) s e = Some (Layers m del mg') /\ fits n (Layers m del mg').
Proof.
  intros Hse Hen Hs F Hm Hv. unfold resolve_styles. cbn [ls_layers ls_deleted ls_merged]. destruct m as [|[q k] m].
  { exists mg. split; auto. split; auto. split; auto. split; auto. cbn [ls_merged ls_layers]. intros i. apply Hv. auto. }
  inversion F as [|x y Hk F']; subst. cbn [snd] in Hk. destruct (subseq_val (ly_style k) n s e (proj1 (proj2 Hk)) Hse Hen) as (sp & -> & Hsp & Vsp). cbn [bind].
  destruct (resolve_loop_ok m n s e Hse Hen F' (fun i => [val (ly_style k) i]) sp Hsp) as (r & -> & Hr & Vr); [intros i Hi; rewrite (Vsp i Hi); reflexivity|]. cbn [bind].
  destruct (edit_val mg n r (e - s) s e Hm Hr Hse Hen) as (mg' & -> & Hmg & Vmg). cbn [bind]. replace (s + (e - s) + (n - e)) with n in Hmg by lia. exists mg'. split; auto. split; auto. split; auto. split; auto.
  cbn [ls_merged ls_layers]. intros i. rewrite Vmg. replace (s + (e - s)) with e by lia. destruct (i <? s) eqn:E1; [apply Hv; lia|]. destruct (i <? e) eqn:E2.
  - rewrite Vr by lia. replace (s + (i - s)) with i by lia. reflexivity.
  - replace (i - (e - s) - s + e) with i by lia. apply Hv. lia.
Qed.

(** ** The map *)
Lemma put_get (m : list (nat * layer)) p k k1 : StronglySorted lt (map fst m) -> lm_get m p = Some k -> exists a b, m = a ++ (p, k) :: b /\ lm_put m p k1 = a ++ (p, k1) :: b.
Proof.
  induction m as [|[q x] m IH]; intros Hs E; cbn [lm_get lm_put] in *; [discriminate|]. inversion Hs as [|u v Hs' Hq]; subst. destruct (q =? p) eqn:Eq.
  - injection E as ->. replace (q <? p) with false by lia. exists [], m. apply Nat.eqb_eq in Eq. subst q. auto.
  - destruct (IH Hs' E) as (a & b & -> & ->). assert (q < p). { rewrite Forall_forall in Hq. apply Hq. rewrite map_app. apply in_or_app. right. now left. }
    replace (q <? p) with true by lia. exists ((q, x) :: a), b. auto.
Qed.
Lemma put_new (m : list (nat * layer)) p k1 : StronglySorted lt (map fst m) -> lm_get m p = None -> exists a b, m = a ++ b /\ lm_put m p k1 = a ++ (p, k1) :: b /\ StronglySorted lt (map fst (a ++ (p, k1) :: b)).
Proof.
  induction m as [|[q x] m IH]; intros Hs E; cbn [lm_get lm_put] in *; [exists [], []; split; auto; split; auto; cbn; repeat constructor|]. inversion Hs as [|u v Hs' Hq]; subst. destruct (q =? p) eqn:Eq; [discriminate|].
  destruct (q <? p) eqn:El.
  - destruct (IH Hs' E) as (a & b & -> & -> & Hs2). exists ((q, x) :: a), b. split; auto. split; auto. cbn [map fst app] in *. constructor; auto. rewrite map_app in *. cbn [map fst]. apply Forall_app in Hq as [Q1 Q2]. apply Forall_app. split; auto. constructor; auto. lia.
  - exists [], ((q, x) :: m). split; auto. split; auto. cbn [map fst app]. constructor; auto. constructor; [lia|]. eapply Forall_impl; [|exact Hq]. cbn. intros. lia.
Qed.
Lemma lm_all_ok (f : layer -> option layer) (P Q : layer -> Prop) (R : layer -> layer -> Prop) m : (forall k, P k -> exists k', f k = Some k' /\ Q k' /\ R k k') -> Forall (fun x => P (snd x)) m ->
  exists m', lm_all f m = Some m' /\ map fst m' = map fst m /\ Forall (fun x => Q (snd x)) m' /\ Forall2 (fun x y => R (snd x) (snd y)) m m'.
Proof.
  intros Hf. induction m as [|[q k] m IH]; intros F; cbn [lm_all]; [exists []; auto|]. inversion F as [|x y Hk F']; subst. destruct (Hf k Hk) as (k' & -> & Hq & Hr). destruct (IH F') as (m' & -> & E & FQ & FR). cbn [bind].
  exists ((q, k') :: m'). split; auto. cbn [map fst]. split; [congruence|]. auto.
Qed.

(** ** The operations *)
Implicit Types (ls : layers).
Lemma create_ok ls p n : fits n ls ->
  if existsb (Nat.eqb p) (ls_deleted ls) then create_if_missing ls p = Some None
  else exists ls1 k, create_if_missing ls p = Some (Some ls1) /\ fits n ls1 /\ lm_get (ls_layers ls1) p = Some k /\ ls_deleted ls1 = ls_deleted ls /\ ls_merged ls1 = ls_merged ls /\
    (lm_get (ls_layers ls) p = Some k /\ ls1 = ls \/ lm_get (ls_layers ls) p = None /\ ly_lookup k = []).
Proof.
  intros (H1 & H2 & H3 & H4). unfold create_if_missing. destruct (existsb _ _); auto. destruct (lm_get (ls_layers ls) p) as [k|] eqn:E; [exists ls, k; split; auto; split; [split; auto|]; auto 6|].
  rewrite (sound_len _ _ H3). destruct (layer_new_ok n) as (k & Ek & Hk & Vk). rewrite Ek. cbn [bind]. destruct (put_new _ p k H1 E) as (a & b & Em & Ep & Hs). rewrite Ep. eexists _, k. split; [reflexivity|]. cbn [ls_layers ls_deleted ls_merged]. split; [|split; [|split; [auto|split; auto]]].
  - split; auto. cbn [ls_layers ls_merged]. split; [|split; auto].
    + rewrite Em in H2. apply Forall_app in H2 as [F1 F2]. apply Forall_app. split; auto.
    + intros i. rewrite H4, Em, !map_app. cbn [map snd]. rewrite Vk, combine_none. reflexivity.
  - rewrite Em in E. clear -E. induction a as [|[q x] a IH]; cbn [app lm_get] in *; [now rewrite Nat.eqb_refl|]. destruct (q =? p); [discriminate|]. auto.
  - right. split; auto. unfold layer_new in Ek. destruct (sb_build _), (sb_build _); try discriminate. injection Ek as <-. reflexivity.
Qed.
Lemma fits_in n ls p k : fits n ls -> lm_get (ls_layers ls) p = Some k -> layer_fits n k.
Proof.
  intros (_ & F & _) E. rewrite Forall_forall in F. enough (In (p, k) (ls_layers ls)) by (now apply (F (p, k))). clear -E. induction (ls_layers ls) as [|[q x] m IH]; cbn in E; [discriminate|].
  destruct (q =? p) eqn:Eq; [left; apply Nat.eqb_eq in Eq; congruence|]. right. auto.
Qed.
Lemma add_scopes_ok ls p stacks hl n : fits n ls -> Forall (fun s => s <> []) stacks -> exists ls', add_scopes m_def m_apply to_style ls p stacks hl = Some ls' /\ fits n ls' /\ ls_merged ls' = ls_merged ls.
Proof.
  intros H F. unfold add_scopes. pose proof (create_ok ls p n H) as C. destruct (existsb _ _); [rewrite C; exists ls; auto|]. destruct C as (ls1 & k & -> & H1 & E & _ & Em & _). cbn [bind]. rewrite E. cbn [bind].
  destruct (layer_add_ok hl k stacks n (fits_in _ _ _ _ H1 E) F) as (k1 & -> & Hk1 & Es). cbn [bind]. destruct H1 as (S1 & F1 & M1 & V1). destruct (put_get _ p k k1 S1 E) as (a & b & Ea & Ep). rewrite Ep. eexists. split; [reflexivity|]. cbn [ls_merged]. split; auto.
  unfold LayersSpec.fits. cbn [ls_layers ls_merged]. rewrite Ea in *. split; [rewrite map_app in *; auto|]. split; [apply Forall_app in F1 as [Fa Fb]; apply Forall_app; split; auto; inversion Fb; auto|]. split; auto. intros i. rewrite V1, !map_app. cbn [map snd]. now rewrite Es.
Qed.
Lemma update_layer_ok ls p s e sp n : fits n ls -> sound sp (e - s) -> s <= e -> e <= n ->
  (forall i x, val sp i = Some x -> exists k, lm_get (ls_layers ls) p = Some k /\ x < length (ly_lookup k)) ->
  exists ls', update_layer st_eqb st_merge ls p s e sp = Some ls' /\ fits n ls' /\
    (existsb (Nat.eqb p) (ls_deleted ls) = false -> exists k', lm_get (ls_layers ls') p = Some k' /\
       forall i, s <= i -> i < e -> val (ly_scope k') i = val sp (i - s)).
Proof.
  intros H Hsp Hse Hen Hk. unfold update_layer. pose proof (create_ok ls p n H) as C. destruct (existsb _ _) eqn:Ed; [rewrite C; exists ls; split; auto; split; auto; discriminate|]. destruct C as (ls1 & k & -> & H1 & E & _ & Em & Hc). cbn [bind]. rewrite E. cbn [bind].
  destruct (update_scopes_ok k s e sp n (fits_in _ _ _ _ H1 E) Hsp Hse Hen) as (k1 & -> & Hk1 & Vsc & Vst & _).
  { intros i x Ex. destruct (Hk _ _ Ex) as (k0 & E0 & Hx). destruct Hc as [[Hc _]|[Hc _]]; congruence. }
  cbn [bind]. destruct H1 as (S1 & F1 & M1 & V1). destruct (put_get _ p k k1 S1 E) as (a & b & Ea & Ep). rewrite Ep. rewrite Ea in *.
  destruct (resolve_ok (a ++ (p, k1) :: b) (ls_deleted ls1) (ls_merged ls1) n s e Hse Hen) as (mg & -> & Hf); auto.
  - rewrite map_app in *. auto.
  - apply Forall_app in F1 as [Fa Fb]. apply Forall_app. split; auto. inversion Fb; auto.
  - intros i Hi. rewrite V1. unfold vals. rewrite !map_app. cbn [map snd]. rewrite Vst; auto. destruct Hi as [Hi|[Hi|Hi]]; auto. now destruct a.
  - eexists. split; [reflexivity|]. split; auto. intros _. cbn [ls_layers]. exists k1. split.
    + destruct Hf as (Sf & _). cbn [ls_layers] in Sf. clear -Sf. induction a as [|[q x] a IH]; cbn [app lm_get]; [now rewrite Nat.eqb_refl|]. cbn [app map fst] in Sf. inversion Sf as [|u v Sf' Fq]; subst.
      replace (q =? p) with false; auto. symmetry. apply Nat.eqb_neq. rewrite map_app in Fq. apply Forall_app in Fq as [_ Fq]. inversion Fq; subst. cbn in *. lia.
    + intros i Hi Hi'. rewrite Vsc. now replace ((s <=? i) && (i <? e)) with true by lia.
Qed.
Lemma remove_ok ls p n : fits n ls -> exists b ls', remove_layer st_merge ls p = Some (b, ls') /\ fits n ls' /\ lm_get (ls_layers ls') p = None /\ ls_deleted ls' = p :: ls_deleted ls.
Proof.
  intros (H1 & H2 & H3 & H4). unfold remove_layer. destruct (lm_get (ls_layers ls) p) as [k|] eqn:E.
  - rewrite (sound_len _ _ H3). destruct (new_val (T:=St) n) as (mg & -> & Hm & Vm). cbn [bind].
    assert (S' : StronglySorted lt (map fst (lm_remove (ls_layers ls) p))).
    { clear -H1. induction (ls_layers ls) as [|[q x] m IH]; cbn [lm_remove filter map fst] in *; [constructor|]. inversion H1 as [|u v Hs Hq]; subst. destruct (negb (q =? p)); [|auto]. cbn [map fst]. constructor; [auto|]. rewrite Forall_forall in *. intros z Hz. apply Hq.
      apply in_map_iff in Hz as (y & Ey & Hy). apply in_map_iff. exists y. split; auto. now apply filter_In in Hy. }
    assert (F' : Forall (fun x => layer_fits n (snd x)) (lm_remove (ls_layers ls) p)). { rewrite Forall_forall in *. intros x Hx. apply H2. now apply filter_In in Hx. }
    destruct (resolve_ok _ (p :: ls_deleted ls) mg n 0 n ltac:(lia) ltac:(lia) S' F' Hm) as (mg' & -> & Hf).
    { intros i Hi. destruct Hi as [Hi|[Hi|Hi]]; [lia| |rewrite Hi, Vm; reflexivity]. rewrite Vm. symmetry. assert (Hn : forall x, In x (vals (lm_remove (ls_layers ls) p) i) -> x = None).
      { intros x Hx. apply in_map_iff in Hx as (y & <- & Hy). rewrite Forall_forall in F'. destruct (F' y Hy) as (_ & G & _). now apply (val_out _ n). }
      clear -Hn. induction (vals (lm_remove (ls_layers ls) p) i) as [|x l IH]; auto. rewrite (Hn x) by now left. change (None :: l) with ([] ++ None :: l). rewrite combine_none. apply IH. intros; apply Hn; now right. }
    cbn [bind]. eexists _, _. split; [reflexivity|]. split; auto. cbn [ls_layers ls_deleted]. split; auto. clear. induction (ls_layers ls) as [|[q x] m IH]; cbn [lm_remove filter fst lm_get]; auto. destruct (q =? p) eqn:Eq; cbn [negb lm_get]; auto. rewrite Eq. auto.
  - eexists _, _. split; [reflexivity|]. split; [split; auto|]. cbn [ls_layers ls_deleted]. auto.
Qed.
Lemma combine_nones l : (forall x, In x l -> x = None) -> combine l = None.
Proof. induction l as [|x l IH]; intros H; auto. rewrite (H x) by now left. change (None :: l) with ([] ++ None :: l). rewrite combine_none. apply IH. intros; apply H; now right. Qed.
Lemma theme_ok ls hl n : fits n ls -> exists ls', theme_changed st_eqb st_merge m_def m_apply to_style ls hl = Some ls' /\ fits n ls'.
Proof.
  intros (H1 & H2 & H3 & H4). unfold theme_changed. destruct (lm_all_ok (layer_theme st_eqb m_def m_apply to_style hl) (layer_fits n) (layer_fits n) (fun _ _ => True) (ls_layers ls)) as (m & -> & Em & F & _); auto.
  { intros k Hk. destruct (layer_theme_ok hl k n Hk) as (k' & E & Hk'). eauto. }
  cbn [bind]. rewrite (sound_len _ _ H3). destruct (new_val (T:=St) n) as (mg & -> & Hm & Vm). cbn [bind]. destruct (resolve_ok m (ls_deleted ls) mg n 0 n) as (mg' & -> & Hf); auto; try lia.
  - congruence.
  - intros i Hi. rewrite Vm. symmetry. apply combine_nones. intros x Hx. apply in_map_iff in Hx as (y & <- & Hy). destruct Hi as [Hi|[Hi|Hi]]; [lia| |subst m; destruct Hy]. rewrite Forall_forall in F. destruct (F y Hy) as (_ & G & _). now apply (val_out _ n).
  - eauto.
Qed.
Lemma update_all_ok {A} ls (d : delta A) : fits (base_len d) ls -> wf_delta d ->
  snd (fst (summary d)) <= length (denote (els d)) \/ ls_layers ls = [] -> fst (fst (summary d)) <= snd (fst (summary d)) ->
  exists ls', update_all st_merge ls d = Some ls' /\ fits (length (denote (els d))) ls'.
Proof.
  intros (H1 & H2 & H3 & H4) Hd He Hse. unfold update_all. destruct (shape_val _ d H3 Hd) as (mg & -> & Hm & Vm). cbn [bind].
  destruct (lm_all_ok (fun k => blank_scopes k d) (layer_fits (base_len d)) (layer_fits (length (denote (els d))))
    (fun k k' => forall j, val (ly_style k') j = match nth_error (denote (els d)) j with Some (inl i) => val (ly_style k) i | _ => None end) (ls_layers ls)) as (m & -> & Em & F & FR); auto.
  { intros k Hk. now apply blank_ok. }
  cbn [bind]. destruct (summary d) as [[s e] x]. cbn [fst snd] in *.
  assert (V : forall i, val mg i = combine (vals m i)).
  { intros i. rewrite Vm. assert (Ev : vals m i = match nth_error (denote (els d)) i with Some (inl j) => vals (ls_layers ls) j | _ => map (fun _ => None) m end).
    { clear -FR. unfold vals. induction FR as [|y z l l' Hyz FR IH]; cbn [map]; [now destruct (nth_error (denote (els d)) i) as [[j|c]|]|]. rewrite Hyz, IH. now destruct (nth_error (denote (els d)) i) as [[j|c]|]. }
    rewrite Ev. destruct (nth_error (denote (els d)) i) as [[j|c]|]; [apply H4| |]; symmetry; apply combine_nones; intros y Hy; apply in_map_iff in Hy as (z & <- & _); reflexivity. }
  destruct He as [He|He].
  - destruct (resolve_ok m (ls_deleted ls) mg (length (denote (els d))) s e) as (mg' & -> & Hf); auto; [congruence|]. eauto.
  - rewrite He in Em. destruct m; [|discriminate]. cbn. eexists. split; [reflexivity|]. split; [constructor|]. split; [constructor|]. split; auto.
Qed.

(** ** The styles of scopes *)
Notation inner := (inner m_def m_apply).
Definition cached (hl : theme) (c : list (list nat * M)) (old : list (list nat)) : Prop := forall s, In s old -> cache_get c s = Some (inner hl s).
Lemma stack_eqb_ok a : forall b, stack_eqb a b = true <-> a = b.
Proof.
  induction a as [|x a IH]; intros [|y b]; cbn [stack_eqb]; try (split; congruence). rewrite andb_true_iff, Nat.eqb_eq, IH. split; [intros [-> ->]; auto|]. intros E. injection E as -> ->. auto.
Qed.
Lemma style_for_stack_ok hl c s old : cached hl c old -> s <> [] -> length s = 1 \/ In (removelast s) old ->
  style_for_stack m_def m_apply to_style hl c s = Some (to_style (inner hl s), (s, inner hl s) :: c).
Proof.
  intros Hc Hs Hg. unfold style_for_stack. destruct s as [|z s]; [congruence|]. set (t := z :: s) in *. assert (Hlen : length t = S (length s)) by reflexivity.
  enough (E : (let (base, upper) := match longest c t (length t - 1) with Some (m, n) => (m, n) | None => (m_def, length t) end in apply_from m_apply hl t (length t - upper) upper base) = inner hl t).
  { destruct (match longest c t (length t - 1) with Some (m, n) => (m, n) | None => (m_def, length t) end) as [base upper]. now rewrite E. }
  rewrite Hlen. replace (S (length s) - 1) with (length s) by lia. destruct (length s) as [|n] eqn:En.
  - cbn [longest]. rewrite Nat.sub_diag. cbn [apply_from]. unfold LayersSpec.inner. rewrite Hlen. reflexivity.
  - destruct Hg as [Hg|Hg]; [lia|]. assert (Er : removelast t = firstn (S n) t) by (rewrite removelast_firstn_len, Hlen; reflexivity). cbn [longest]. rewrite <- Er. rewrite (Hc _ Hg). rewrite Er.
    replace (S (S n) - S n) with 1 by lia. cbn [apply_from]. unfold LayersSpec.inner. rewrite firstn_length, Hlen. replace (Nat.min (S n) (S (S n)) - 1) with n by lia. replace (S (S n) - 1) with (n + 1) by lia.
    rewrite seq_app, map_app, fold_left_app. cbn [seq map fold_left Nat.add]. f_equal. f_equal. apply map_ext_in. intros x Hx. apply in_seq in Hx. rewrite firstn_firstn. f_equal. f_equal. lia.
Qed.
Lemma sfs_styles hl new : forall c old, cached hl c old -> grown old new ->
  exists c', sfs hl c new = Some (map (fun s => to_style (inner hl s)) new, c') /\ cached hl c' (old ++ new).
Proof.
  induction new as [|s new IH]; intros c old Hc Hg; cbn [styles_for_stacks map]; [exists c; rewrite app_nil_r; auto|]. destruct Hg as (Hs & Hp & Hg). rewrite (style_for_stack_ok hl c s old Hc Hs Hp). cbn [bind].
  destruct (IH ((s, inner hl s) :: c) (old ++ [s])) as (c' & -> & Hc'); auto.
  - intros t Ht. cbn [cache_get]. destruct (stack_eqb s t) eqn:E; [apply stack_eqb_ok in E; now subst|]. apply in_app_or in Ht as [Ht|[Ht|[]]]; auto. subst t. assert (stack_eqb s s = true) by now apply stack_eqb_ok. congruence.
  - cbn [bind]. exists c'. rewrite <- app_assoc in Hc'. auto.
Qed.
Lemma grown_app new : forall old mid, grown old mid -> grown (old ++ mid) new -> grown old (mid ++ new).
Proof.
  intros old mid. revert old. induction mid as [|s mid IH]; intros old H1 H2; cbn [app grown]; [now rewrite app_nil_r in H2|]. destruct H1 as (A & B & C). split; auto. split; auto. apply IH; auto. now rewrite <- app_assoc.
Qed.
Lemma grown_nonempty new : forall old, grown old new -> Forall (fun s => s <> []) new.
Proof. induction new as [|s new IH]; intros old H; constructor; [apply H|]. destruct H as (_ & _ & H). eauto. Qed.
(** The layer has the styles of the theme. *)
Definition styled (hl : theme) (k : layer) : Prop :=
  grown [] (ly_stacks k) /\ ly_lookup k = map (fun s => to_style (inner hl s)) (ly_stacks k) /\ cached hl (ly_cache k) (ly_stacks k).
Definition all_styled (hl : theme) (ls : layers) : Prop := Forall (fun x => styled hl (snd x)) (ls_layers ls).
Definition same (k k' : layer) : Prop := ly_stacks k' = ly_stacks k /\ ly_lookup k' = ly_lookup k /\ ly_cache k' = ly_cache k.
Lemma styled_same hl k k' : same k k' -> styled hl k -> styled hl k'.
Proof. intros (A & B & C). unfold styled. now rewrite A, B, C. Qed.
Lemma update_styles_same k s e sp k' : update_styles st_eqb k s e sp = Some k' -> same k k'.
Proof.
  unfold update_styles. destruct (iter sp) as [l|]; [|discriminate]. cbn [bind]. destruct (match l with [] => _ | _ => _ end); [|discriminate]. cbn [bind]. destruct (sb_build _); [|discriminate]. cbn [bind]. destruct (edit _ _ _ _ _); [|discriminate]. cbn [bind]. intros E. injection E as <-. now split.
Qed.
Lemma update_scopes_same k s e sp k' : update_scopes st_eqb k s e sp = Some k' -> same k k'.
Proof. unfold update_scopes. destruct (edit _ _ _ _ _); [|discriminate]. cbn [bind]. intros E. apply update_styles_same in E. exact E. Qed.
Lemma blank_same {A} k (d : delta A) k' : blank_scopes k d = Some k' -> same k k'.
Proof. unfold blank_scopes. destruct (apply_shape _ _); [|discriminate]. destruct (apply_shape _ _); [|discriminate]. intros E. injection E as <-. now split. Qed.
Lemma resolve_layers ls s e ls' : resolve_styles st_merge ls s e = Some ls' -> ls_layers ls' = ls_layers ls.
Proof.
  unfold resolve_styles. destruct (ls_layers ls) as [|[q k] m] eqn:E; [congruence|]. destruct (subseq _ _ _ _); [|discriminate]. cbn [bind]. destruct (resolve_loop _ _ _ _ _); [|discriminate]. cbn [bind]. destruct (edit _ _ _ _ _); [|discriminate]. cbn [bind]. intros H. injection H as <-. reflexivity.
Qed.
Lemma put_forall (P : layer -> Prop) m p k : P k -> Forall (fun x => P (snd x)) m -> Forall (fun x => P (snd x)) (lm_put m p k).
Proof. intros Hk F. induction F as [|[q x] m Hx F IH]; cbn [lm_put]; [auto|]. destruct (q <? p); [auto|]. destruct (q =? p); auto. Qed.
Lemma get_forall (P : layer -> Prop) m p k : Forall (fun x => P (snd x)) m -> lm_get m p = Some k -> P k.
Proof. intros F. induction F as [|[q x] m Hx F IH]; cbn [lm_get]; [discriminate|]. destruct (q =? p); auto. intros E. injection E as <-. exact Hx. Qed.
Lemma all_forall (P Q : layer -> Prop) f m : (forall k k', P k -> f k = Some k' -> Q k') -> Forall (fun x => P (snd x)) m -> forall m', lm_all f m = Some m' -> Forall (fun x => Q (snd x)) m'.
Proof.
  intros Hf F. induction F as [|[q x] m Hx F IH]; cbn [lm_all]; intros m' E; [injection E as <-; auto|]. destruct (f x) eqn:Ef; [|discriminate]. cbn [bind] in E. destruct (lm_all f m) eqn:Em; [|discriminate]. cbn [bind] in E. injection E as <-. constructor; eauto.
Qed.
Lemma new_styled hl n k : layer_new n = Some k -> styled hl k.
Proof. unfold layer_new. destruct (sb_build _); [|discriminate]. destruct (sb_build _); [|discriminate]. intros E. injection E as <-. split; [exact Logic.I|]. split; auto. intros s []. Qed.
Lemma create_styled hl ls p ls' : all_styled hl ls -> create_if_missing ls p = Some (Some ls') -> all_styled hl ls'.
Proof.
  intros H. unfold create_if_missing. destruct (existsb _ _); [discriminate|]. destruct (lm_get _ _); [congruence|]. destruct (layer_new _) as [k|] eqn:E; [|discriminate]. cbn [bind]. intros E'. injection E' as <-. apply put_forall; [eapply new_styled; eauto|exact H].
Qed.
Lemma create_stacks ls p ls' k : create_if_missing ls p = Some (Some ls') -> lm_get (ls_layers ls') p = Some k -> ly_stacks k = match lm_get (ls_layers ls) p with Some k0 => ly_stacks k0 | None => [] end.
Proof.
  unfold create_if_missing. destruct (existsb _ _); [discriminate|]. destruct (lm_get (ls_layers ls) p) as [k0|] eqn:E0; [intros E; injection E as <-; rewrite E0; congruence|]. destruct (layer_new _) as [k1|] eqn:E; [|discriminate]. cbn [bind]. intros E'. injection E' as <-. cbn [ls_layers].
  assert (E1 : ly_stacks k1 = []). { unfold layer_new in E. destruct (sb_build _); [|discriminate]. destruct (sb_build _); [|discriminate]. now injection E as <-. }
  intros Eg. assert (k = k1); [|now subst]. clear -Eg E0. induction (ls_layers ls) as [|[q x] m IH]; cbn [lm_put lm_get] in *; [rewrite Nat.eqb_refl in Eg; congruence|]. destruct (q =? p) eqn:Eq; [discriminate|].
  destruct (q <? p); cbn [lm_get] in Eg; [rewrite Eq in Eg; auto|rewrite Nat.eqb_refl in Eg; congruence].
Qed.
Lemma add_styled hl ls p stacks ls' : all_styled hl ls -> grown match lm_get (ls_layers ls) p with Some k => ly_stacks k | None => [] end stacks ->
  add_scopes m_def m_apply to_style ls p stacks hl = Some ls' -> all_styled hl ls'.
Proof.
  intros H Hg. unfold add_scopes. destruct (create_if_missing ls p) as [[ls1|]|] eqn:E; [|intros E'; injection E' as <-; exact H|discriminate]. cbn [bind]. destruct (lm_get (ls_layers ls1) p) as [k|] eqn:Ek; [|discriminate]. cbn [bind].
  pose proof (create_styled _ _ _ _ H E) as H1. rewrite <- (create_stacks _ _ _ _ E Ek) in Hg. destruct (get_forall _ _ _ _ H1 Ek) as (A & B & C). unfold layer_add_scopes. destruct (sfs_styles hl stacks (ly_cache k) (ly_stacks k) C Hg) as (c & -> & Hc). cbn [bind].
  intros E'. injection E' as <-. apply put_forall; [|exact H1]. split; cbn [ly_stacks ly_lookup ly_cache]; [apply grown_app; auto|]. split; auto. rewrite map_app. congruence.
Qed.
Lemma update_styled hl ls p s e sp ls' : all_styled hl ls -> update_layer st_eqb st_merge ls p s e sp = Some ls' -> all_styled hl ls'.
Proof.
  intros H. unfold update_layer. destruct (create_if_missing ls p) as [[ls1|]|] eqn:E; [|intros E'; injection E' as <-; exact H|discriminate]. cbn [bind]. destruct (lm_get (ls_layers ls1) p) as [k|] eqn:Ek; [|discriminate]. cbn [bind].
  pose proof (create_styled _ _ _ _ H E) as H1. destruct (update_scopes st_eqb k s e sp) as [k1|] eqn:E1; [|discriminate]. cbn [bind]. intros E'. apply resolve_layers in E'. unfold all_styled. rewrite E'. cbn [ls_layers]. apply put_forall; [|exact H1].
  eapply styled_same; [eapply update_scopes_same; eauto|]. apply (get_forall _ _ _ _ H1 Ek).
Qed.
Lemma update_all_styled {A} hl ls (d : delta A) ls' : all_styled hl ls -> update_all st_merge ls d = Some ls' -> all_styled hl ls'.
Proof.
  intros H. unfold update_all. destruct (apply_shape _ _); [|discriminate]. cbn [bind]. destruct (lm_all _ _) as [m|] eqn:Em; [|discriminate]. cbn [bind]. destruct (summary d) as [[s e] x]. intros E'. apply resolve_layers in E'. unfold all_styled. rewrite E'. cbn [ls_layers].
  eapply all_forall; [|exact H|exact Em]. cbv beta. intros k k' Hk Ek. eapply styled_same; [eapply blank_same; eauto|auto].
Qed.
Lemma remove_styled hl ls p b ls' : all_styled hl ls -> remove_layer st_merge ls p = Some (b, ls') -> all_styled hl ls'.
Proof.
  intros H. unfold remove_layer. destruct (lm_get _ _); [|intros E; injection E as _ <-; exact H]. destruct (sb_build _); [|discriminate]. cbn [bind]. destruct (resolve_styles _ _ _ _) as [r|] eqn:E; [|discriminate]. cbn [bind]. intros E'. injection E' as _ <-. apply resolve_layers in E. unfold all_styled. rewrite E. cbn [ls_layers].
  unfold all_styled in H. rewrite Forall_forall in *. intros x Hx. apply H. now apply filter_In in Hx.
Qed.
Lemma theme_styled hl hl' ls ls' : all_styled hl ls -> theme_changed st_eqb st_merge m_def m_apply to_style ls hl' = Some ls' -> all_styled hl' ls'.
Proof.
  intros H. unfold theme_changed. destruct (lm_all _ _) as [m|] eqn:Em; [|discriminate]. cbn [bind]. destruct (sb_build _); [|discriminate]. cbn [bind]. intros E'. apply resolve_layers in E'. unfold all_styled. rewrite E'. cbn [ls_layers].
  eapply all_forall; [|exact H|exact Em]. cbv beta. intros k k' (Hg & _ & _) Ek. unfold layer_theme in Ek. destruct (sfs_styles hl' (ly_stacks k) (ly_cache k) [] ltac:(intros s []) Hg) as (c & Ec & Hc). rewrite Ec in Ek. cbn [bind] in Ek. destruct (sb_build _); [|discriminate]. cbn [bind] in Ek.
  apply update_styles_same in Ek as (A & B & C). cbn [ly_stacks ly_lookup ly_cache] in *. unfold styled. rewrite A, B, C. auto.
Qed.
End Layers.
