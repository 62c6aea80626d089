(** C65: annotations of plugins. *)
From Coq Require Import List Arith Bool Lia ZifyBool.
From Verif Require Import Base ListLib TreeModel CursorModel DeltaModel DeltaSpec DeltaProofs2 SpansModel SpansSpec SpansProofs PropertiesDelta PropertiesSpans AnnotationsModel AnnotationsSpec AnnotationsProofs.
Import ListNotations.

(** What is sent to the client for a range of the text: for each plugin and type exactly the annotations that touch
    the range, in order, each with the places of its ends and its own payload. *)
Theorem C65_shown : forall T (place : nat -> nat * nat) (st : store T) s e, sound st ->
  exists out, iter_range place st s e = Some out /\
    Forall2 (fun x sl => exists l n shown, holds (snd x) l n /\ ordered 0 l n /\ a_type sl = fst x /\
      (forall a b d, In (a, b, d) shown <-> In (a, b, d) l /\ a <= e /\ s <= b) /\ ordered 0 shown n /\
      length (a_ranges sl) = length (a_payloads sl) /\
      combine (a_ranges sl) (a_payloads sl) = map (fun '(a, b, d) => ((place a, place b), d)) shown) (flat_map snd st) out.
Proof.
  intros T place st s e S. destruct (shown_ok place st s e S) as (out & E & F). exists out. split; auto. clear E S. induction F as [|x sl es out (l & n & H & E1 & E2 & E3) F IH]; constructor; auto.
  assert (O : ordered 0 l n) by (destruct H as (_ & _ & _ & O); exact O). exists l, n, (filter (touches s e) l). split; auto. split; auto. split; auto. split; [|split; [|split]].
  - intros a b d. rewrite filter_In. unfold touches. rewrite andb_true_iff, !Nat.leb_le. tauto.
  - clear -O. assert (L : forall l lo lo' n, ordered (T:=T) lo l n -> lo' <= lo -> ordered lo' l n) by (intros [|[[? ?] ?] ?]; cbn; intros; lia || intuition lia).
    revert O. generalize 0 as lo. induction l as [|[[a b] d] l IH]; intros lo O; auto. destruct O as (O1 & O2 & O3). cbn [filter]. destruct (touches s e (a, b, d)); [cbn; auto|]. apply (L _ b); [auto|lia].
  - rewrite E2, E3, !map_length. reflexivity.
  - rewrite E2, E3. clear. induction (filter (touches s e) l) as [|[[a b] d] k IH]; cbn; auto. now rewrite IH.
Qed.
Print Assumptions C65_shown.

(** A plugin sends annotations for an interval of the text as it saw it, of a type it has sent before for this much text:
    they take the place of those in the interval and move with the text if it was edited since; those outside stay, and so
    do all of other plugins and types. Missing: types not sent before, text that is longer than what the first ones were
    for, and intervals that are untouched but have text inserted at an end. *)
Theorem C65_update_partial : forall A T (st : store T) p ty l n start len new (since : option (delta A)),
  marks st p ty l n -> ordered 0 new len ->
  match since with
  | None => start + len <= n
  | Some d => wf_delta d /\ no_empty_copy (els d) /\ transform_ix d (start + len) true <= n /\
      (interval_untouched d start (start + len) = true -> transform_ix d (start + len) true = transform_ix d start false + len)
  end ->
  exists st' l', update_annotations st p start len new ty since = Some st' /\ marks st' p ty l' n /\
    (forall q u, q <> p \/ u <> ty -> kept_by st' q u = kept_by st q u) /\
    match since with
    | None => forall i, value l' i = if (start <=? i) && (i <? start + len) then value new (i - start) else value l i
    | Some d =>
        (forall i j, i < len -> nth_error (denote (els d)) j = Some (inl (start + i)) -> value l' j = value new i) /\
        (forall j, j < transform_ix d start false \/ transform_ix d (start + len) true <= j -> value l' j = value l j)
    end.
Proof.
  intros A T st p ty l n start len new since (t & K & Ht) On Hs. unfold update_annotations. destruct (C26_build new len On) as (sb & sp & -> & Eb & Hsp). cbn [bind]. rewrite Eb. cbn [bind]. destruct since as [d|].
  - destruct Hs as (Hd & Hc & Hn & Hu). destruct (carried d sp new len start Hsp Hd Hc Hu) as (sp1 & l1 & E1 & Hsp1 & Hv). rewrite E1. cbn [bind].
    assert (M : transform_ix d start false <= transform_ix d (start + len) true) by (apply C09_transform_monotone; auto; lia).
    destruct (C26_edit t sp1 l l1 n _ _ _ Ht Hsp1 M Hn) as (t' & l' & Et & Ht' & Hv').
    destruct (update_known st p _ _ ty sp1 t t' K Et) as (st' & Es & Ek & Eo). exists st', l'. split; auto. split; [exists t'; split; auto; match goal with H : holds t' l' ?m |- _ => replace m with n in H by lia end; auto|]. split; auto. split.
    + intros i j Hi Hj. destruct (Hv i j Hi Hj) as (H1 & H2 & H3). rewrite Hv'. replace (j <? transform_ix d start false) with false by lia. replace (j <? _) with true by lia. exact H3.
    + intros j Hj. rewrite Hv'. destruct (j <? transform_ix d start false) eqn:E; auto. replace (j <? _) with false by lia. f_equal. lia.
  - destruct (C26_edit t sp l new n len start (start + len) Ht Hsp ltac:(lia) Hs) as (t' & l' & Et & Ht' & Hv').
    destruct (update_known st p _ _ ty sp t t' K Et) as (st' & Es & Ek & Eo). exists st', l'. split; auto. split; [exists t'; split; auto; match goal with H : holds t' l' ?m |- _ => replace m with n in H by lia end; auto|]. split; auto.
    intros i. rewrite Hv'. destruct (i <? start) eqn:E1; [replace (start <=? i) with false by lia; reflexivity|]. replace (start <=? i) with true by lia. cbn [andb]. destruct (i <? start + len) eqn:E2; auto. f_equal. lia.
Qed.
Print Assumptions C65_update_partial.
(** The first annotations of a type: right if they are for an interval from the start of the text. *)
Theorem C65_first_partial : forall T (st : store T) p ty len new, kept_by st p ty = None -> ordered 0 new len ->
  exists st', update_annotations (A:=nat) st p 0 len new ty None = Some st' /\ marks st' p ty new len /\
    (forall q u, q <> p \/ u <> ty -> kept_by st' q u = kept_by st q u).
Proof.
  intros T st p ty len new K On. unfold update_annotations. destruct (C26_build new len On) as (sb & sp & -> & Eb & Hsp). cbn [bind]. rewrite Eb. cbn [bind].
  destruct (update_unknown st p 0 (0 + len) ty sp K) as (st' & Es & Ek & Eo). exists st'. split; auto. split; auto. exists sp. auto.
Qed.
Print Assumptions C65_first_partial.
(** Clearing takes away what a plugin has annotated, and nothing else. *)
Theorem C65_clear : forall T (st : store T) p q ty, kept_by (clear st p) q ty = if q =? p then None else kept_by st q ty.
Proof. intros T st p q ty. unfold kept_by. rewrite get_clear. now destruct (q =? p). Qed.
Print Assumptions C65_clear.
(** An edit that takes away or replaces text some annotation is on: what is left of each kind are those before the first
    such annotation, so that all of them are where they were, on text that is as it was. Missing: edits that touch no
    annotation, and insertions, see below. *)
Theorem C65_edit_partial : forall A T (st : store T) (d : delta A) text s e x, sound st -> wf_delta d -> base_len d = length text -> summary d = ((s, e), x) ->
  exists st' r, after_edit st d = Some st' /\ sound st' /\ apply d text = Some r /\ firstn s r = firstn s text /\
    forall p ty l n, marks st p ty l n -> exists l', marks st' p ty l' n /\ (exists k, l' = firstn k l) /\
      (forall a b v, In (a, b, v) l -> b <= s -> In (a, b, v) l') /\
      ((exists a b v, In (a, b, v) l /\ a < e /\ s < b /\ s < e) -> forall a b v, In (a, b, v) l' -> b <= s).
Proof.
  intros A T st d text s e x S Hd Hb Hs. destruct (C07_summary d text s e x Hd Hb Hs) as (Hse & He & mid & _ & Ha). destruct (invalidate_ok st s e S) as (st' & E & S' & K).
  exists st'. eexists. unfold after_edit. rewrite Hs. split; [exact E|]. split; auto. split; [exact Ha|]. split; [rewrite firstn_app, firstn_firstn, firstn_length, Nat.min_id, Nat.min_l, Nat.sub_diag by lia; cbn; now rewrite app_nil_r|].
  intros p ty l n (t & Kt & Ht). specialize (K p ty). rewrite Kt in K. destruct K as (t' & Et & Kt'). destruct (C26_delete_after t l n s e Ht) as (t2 & k & Et2 & Ht2 & H1 & H2). rewrite Et in Et2. injection Et2 as <-.
  exists (firstn k l). split; [exists t'; auto|]. split; [eauto|].
  assert (O : ordered 0 l n) by (destruct Ht as (_ & _ & _ & O); exact O).
  assert (Rest : forall y, In y (skipn k l) -> exists a b v, nth_error l k = Some (a, b, v) /\ a <= fst (fst y) /\ b <= snd (fst y)).
  { clear -O. revert k O. generalize 0 as lo. induction l as [|[[a b] v] l IH]; intros lo k O y Hy; [now rewrite skipn_nil in Hy|]. destruct O as (O1 & O2 & O3). destruct k as [|k]; [|apply (IH b k O3 y Hy)]. cbn in Hy. exists a, b, v. split; auto. destruct Hy as [<-|Hy]; [cbn; lia|].
    assert (Q : forall l lo n y, ordered (T:=T) lo l n -> In y l -> lo <= fst (fst y) /\ fst (fst y) < snd (fst y)). { clear. induction l as [|[[a b] v] l IH]; intros lo n y O Hy; [destruct Hy|]. destruct O as (O1 & O2 & O3). destruct Hy as [<-|Hy]; [cbn; lia|]. destruct (IH b n y O3 Hy). lia. }
    destruct (Q _ _ _ _ O3 Hy). lia. }
  split.
  - intros a b v Hi Hbs. rewrite <- (firstn_skipn k l) in Hi. apply in_app_or in Hi as [Hi|Hi]; auto. destruct (Rest _ Hi) as (a0 & b0 & v0 & En & La & Lb). cbn in La, Lb. destruct (H2 _ _ _ En). lia.
  - intros (a & b & v & Hi & L1 & L2 & L3) a' b' v' Hi'. destruct (H1 a' b' v' Hi') as [|[G|]]; auto; [|lia]. exfalso.
    rewrite <- (firstn_skipn k l) in Hi. apply in_app_or in Hi as [Hi|Hi]; [destruct (H1 a b v Hi) as [|[|]]; lia|].
    destruct (Rest _ Hi) as (a0 & b0 & v0 & En & La & _). cbn in La. destruct (H2 _ _ _ En) as (G1 & G2 & G3).
    assert (Q : forall k l lo n, ordered (T:=T) lo l n -> forall y z, In y (firstn k l) -> nth_error l k = Some z -> snd (fst y) <= fst (fst z)).
    { clear. assert (Q2 : forall l lo n y, ordered (T:=T) lo l n -> In y l -> lo <= fst (fst y)). { induction l as [|[[a b] v] l IH]; intros lo n y O Hy; [destruct Hy|]. destruct O as (O1 & O2 & O3). destruct Hy as [<-|Hy]; [cbn; lia|]. specialize (IH b n y O3 Hy). lia. }
      induction k as [|k IH]; intros [|[[a b] v] l] lo n O y z Hy Hz; try destruct Hy; try discriminate; destruct O as (O1 & O2 & O3).
      - subst y. cbn in Hz |- *. apply nth_error_In in Hz. exact (Q2 _ _ _ _ O3 Hz).
      - exact (IH _ _ _ O3 _ _ H Hz). }
    specialize (Q k l 0 n O (a', b', v') (a0, b0, v0) Hi' En). cbn in Q. assert (a' < b') by (apply (ordered_in _ _ _ a' b' v' O); rewrite <- (firstn_skipn k l); apply in_or_app; auto). lia.
Qed.
Print Assumptions C65_edit_partial.

(** The first annotations of a type are put at the start of the text, whatever interval they are for. *)
Theorem C65_first_refuted : forall T (st : store T) p ty start len new, kept_by st p ty = None -> ordered 0 new len ->
  exists st', update_annotations (A:=nat) st p start len new ty None = Some st' /\ marks st' p ty new len.
Proof.
  intros T st p ty start len new K On. unfold update_annotations. destruct (C26_build new len On) as (sb & sp & -> & Eb & Hsp). cbn [bind]. rewrite Eb. cbn [bind].
  destruct (update_unknown st p start (start + len) ty sp K) as (st' & Es & Ek & _). exists st'. split; auto. exists sp. auto.
Qed.
Print Assumptions C65_first_refuted.
(** Text that is typed or pasted in moves no annotation, and takes none away: all of those after it are then on other
    text. *)
Theorem C65_insert_refuted : forall A T (st : store T) (d : delta A) s x p ty l n, sound st -> summary d = ((s, s), x) -> marks st p ty l n ->
  exists st', after_edit st d = Some st' /\ marks st' p ty l n.
Proof.
  intros A T st d s x p ty l n S Hs (t & Kt & Ht). destruct (invalidate_ok st s s S) as (st' & E & S' & K). exists st'. unfold after_edit. rewrite Hs. split; auto. specialize (K p ty). rewrite Kt in K. destruct K as (t' & Et & Kt').
  destruct (C26_delete_after t l n s s Ht) as (t2 & k & Et2 & Ht2 & _ & H2). rewrite Et in Et2. injection Et2 as <-. exists t'. split; auto. replace l with (firstn k l); auto. apply firstn_all2. destruct (nth_error l k) as [[[a b] v]|] eqn:N; [destruct (H2 _ _ _ eq_refl); lia|]. now apply nth_error_None.
Qed.
Print Assumptions C65_insert_refuted.

(** ** Cases *)
Local Definition look (st : option (store nat)) (s e : nat) : option (list (nat * list ((nat * nat) * (nat * nat)) * list nat)) :=
  let? st := st in let? out := iter_range (fun x => (x / 10, x mod 10)) st s e in Some (map (fun sl => (a_type sl, a_ranges sl, a_payloads sl)) out).
Local Definition first : option (store nat) := update_annotations (A:=nat) [] 1 0 40 [(2, 5, 7); (12, 15, 8); (30, 31, 9)] 6 None.
Example C65_case : look first 10 20 = Some [(6, [((1, 2), (1, 5))], [8])].
Proof. vm_compute. reflexivity. Qed.
Example C65_case_update : look (let? st := first in update_annotations (A:=nat) st 1 10 10 [(0, 1, 3)] 6 None) 0 40 = Some [(6, [((0, 2), (0, 5)); ((1, 0), (1, 1)); ((3, 0), (3, 1))], [7; 3; 9])].
Proof. vm_compute. reflexivity. Qed.
(** The text has grown by two at the start since the plugin saw it. *)
Example C65_case_since : look (let? st := first in update_annotations st 1 10 10 [(0, 1, 3)] 6 (Some (Delta [Insert [0; 0]; Copy 0 38] 38))) 0 40 = Some [(6, [((0, 2), (0, 5)); ((1, 2), (1, 3)); ((3, 0), (3, 1))], [7; 3; 9])].
Proof. vm_compute. reflexivity. Qed.
Example C65_case_edit : look (let? st := first in after_edit st (Delta [Copy 0 13; Copy 14 40] 40 : delta nat)) 0 40 = Some [(6, [((0, 2), (0, 5))], [7])].
Proof. vm_compute. reflexivity. Qed.
Example C65_case_sound : exists st, first = Some st /\ sound st /\ marks st 1 6 [(2, 5, 7); (12, 15, 8); (30, 31, 9)] 40.
Proof.
  destruct (C65_first_partial nat [] 1 6 40 [(2, 5, 7); (12, 15, 8); (30, 31, 9)] eq_refl ltac:(cbn; lia)) as (st & E & M & _). exists st. split; [exact E|]. split; auto. vm_compute in E. injection E as <-. destruct M as (t & Kt & Ht). vm_compute in Kt. injection Kt as <-. constructor; [|constructor]. eauto.
Qed.
(** What the two defects do: annotations for 20 to 30 are drawn at 0, and after typing at 10 the ones behind stay where they were. *)
Example C65_case_first_refuted : look (update_annotations (A:=nat) [] 1 20 10 [(0, 3, 7)] 6 None) 0 40 = Some [(6, [((0, 0), (0, 3))], [7])].
Proof. vm_compute. reflexivity. Qed.
Example C65_case_insert_refuted : look (let? st := first in after_edit st (Delta [Copy 0 10; Insert [0; 0]; Copy 10 40] 40 : delta nat)) 0 40 = look first 0 40.
Proof. vm_compute. reflexivity. Qed.
(** More annotations behind all that was annotated before are put right at the end of that. *)
Theorem C65_behind_refuted : exists st st', update_annotations (A:=nat) [] 1 0 10 [(0, 3, 7)] 6 None = Some st /\ update_annotations (A:=nat) st 1 20 10 [(0, 3, 8)] 6 None = Some st' /\
  look (Some st') 0 40 = Some [(6, [((0, 0), (0, 3)); ((1, 0), (1, 3))], [7; 8])].
Proof. eexists _, _. split; [vm_compute; reflexivity|]. split; vm_compute; reflexivity. Qed.
Print Assumptions C65_behind_refuted.
