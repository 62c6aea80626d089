From Coq Require Import List Arith Bool Lia ZifyBool.
From Verif Require Import Base ListLib TreeModel CursorModel DeltaModel DeltaSpec DeltaProofs2 SpansModel SpansSpec SpansProofs PropertiesDelta PropertiesSpans AnnotationsModel AnnotationsSpec.
Import ListNotations.

Section Proofs.
Context {T : Type}.
Implicit Types st : store T.
Lemma get_put st p es q : st_get (st_put st p es) q = if q =? p then Some es else st_get st q.
Proof.
  induction st as [|[r x] st IH]; cbn [st_put st_get]; [rewrite Nat.eqb_sym; now destruct (q =? p)|]. destruct (r =? p) eqn:E; cbn [st_get].
  - apply Nat.eqb_eq in E. subst r. rewrite (Nat.eqb_sym p q). now destruct (q =? p).
  - rewrite IH. destruct (r =? q) eqn:E2; auto. replace (q =? p) with false by lia. reflexivity.
Qed.
Lemma get_clear st p q : st_get (clear st p) q = if q =? p then None else st_get st q.
Proof.
  induction st as [|[r x] st IH]; cbn; [now destruct (q =? p)|]. destruct (r =? p) eqn:E; cbn [negb].
  - change (st_get (clear st p) q = if q =? p then None else if r =? q then Some x else st_get st q). rewrite IH. destruct (q =? p) eqn:E2; auto. replace (r =? q) with false by lia. reflexivity.
  - cbn [st_get]. change (filter _ st) with (clear st p). rewrite IH. destruct (r =? q) eqn:E2; auto. replace (q =? p) with false by lia. reflexivity.
Qed.
Notation find_ty es ty := (find (fun x : nat * node (sleaf T) unit => fst x =? ty) es).
Lemma update_entry_some es s e ty new t : find_ty es ty = Some t -> forall t', edit sp_ops (snd t) s e new = Some t' ->
  exists es', update_entry es s e ty new = Some es' /\ option_map snd (find_ty es' ty) = Some t' /\ forall u, u <> ty -> find_ty es' u = find_ty es u.
Proof.
  revert t. induction es as [|[u x] es IH]; intros t H t' Et; [discriminate|]. cbn [find fst] in H. cbn [update_entry]. destruct (u =? ty) eqn:E.
  - injection H as <-. cbn [snd] in Et. rewrite Et. cbn [bind]. eexists. split; [reflexivity|]. cbn [find fst]. rewrite E. split; [reflexivity|]. intros v Hv. replace (u =? v) with false by lia. reflexivity.
  - destruct (IH t H t' Et) as (es' & E1 & E2 & E3). rewrite E1. cbn [bind]. eexists. split; [reflexivity|]. cbn [find fst]. rewrite E. split; auto. intros v Hv. destruct (u =? v); auto.
Qed.
Lemma update_entry_none es s e ty new : find_ty es ty = None ->
  update_entry es s e ty new = Some (es ++ [(ty, new)]) /\ find_ty (es ++ [(ty, new)]) ty = Some (ty, new) /\ forall u, u <> ty -> find_ty (es ++ [(ty, new)]) u = find_ty es u.
Proof.
  induction es as [|[u x] es IH]; intros H.
  - cbn. rewrite Nat.eqb_refl. split; [reflexivity|]. split; [reflexivity|]. intros u Hu. replace (ty =? u) with false by lia. reflexivity.
  - cbn [find fst] in H. destruct (u =? ty) eqn:E; [discriminate|]. destruct (IH H) as (E1 & E2 & E3). cbn [update_entry app find fst]. rewrite E, E1. split; auto. split; auto. intros v Hv. destruct (u =? v); auto.
Qed.
Lemma update_known st p s e ty new t t' : kept_by st p ty = Some t -> edit sp_ops t s e new = Some t' ->
  exists st', update st p s e ty new = Some st' /\ kept_by st' p ty = Some t' /\ forall q u, q <> p \/ u <> ty -> kept_by st' q u = kept_by st q u.
Proof.
  unfold kept_by, update. destruct (st_get st p) as [es|] eqn:G; [|discriminate]. destruct (find_ty es ty) as [[u x]|] eqn:F; [|discriminate]. cbn [option_map snd]. intros H Et. injection H as ->.
  destruct (update_entry_some es s e ty new _ F t' Et) as (es' & E1 & E2 & E3). rewrite E1. cbn [bind]. eexists. split; [reflexivity|]. rewrite get_put, Nat.eqb_refl. split; auto.
  intros q v Hq. rewrite get_put. destruct (q =? p) eqn:Eq; auto. replace q with p by lia. rewrite G. rewrite E3; auto. destruct Hq; lia.
Qed.
Lemma update_unknown st p s e ty new : kept_by st p ty = None ->
  exists st', update st p s e ty new = Some st' /\ kept_by st' p ty = Some new /\ forall q u, q <> p \/ u <> ty -> kept_by st' q u = kept_by st q u.
Proof.
  unfold kept_by, update. destruct (st_get st p) as [es|] eqn:G; intros H.
  - destruct (find_ty es ty) as [[u x]|] eqn:F; [discriminate|]. destruct (update_entry_none es s e ty new F) as (E1 & E2 & E3). rewrite E1. cbn [bind]. eexists. split; [reflexivity|]. rewrite get_put, Nat.eqb_refl, E2. split; auto.
    intros q v Hq. rewrite get_put. destruct (q =? p) eqn:Eq; auto. replace q with p by lia. rewrite G. rewrite E3; auto. destruct Hq; lia.
  - eexists. split; [reflexivity|]. rewrite get_put, Nat.eqb_refl. cbn. rewrite Nat.eqb_refl. split; auto. intros q v Hq. rewrite get_put. destruct (q =? p) eqn:Eq; auto. replace q with p by lia. rewrite G. cbn. replace (ty =? v) with false by (destruct Hq; lia). reflexivity.
Qed.
Lemma invalidate_ok st s e : sound st -> exists st', invalidate st s e = Some st' /\ sound st' /\
  forall p ty, match kept_by st p ty with None => kept_by st' p ty = None | Some t => exists t', delete_after t s e = Some t' /\ kept_by st' p ty = Some t' end.
Proof.
  assert (Es : forall es, Forall (fun x => exists l n, holds (snd x) l n) es -> exists es', invalidate_entries es s e = Some es' /\ Forall (fun x => exists l n, holds (T:=T) (snd x) l n) es' /\
    forall ty, match find_ty es ty with None => find_ty es' ty = None | Some (_, t) => exists t', delete_after t s e = Some t' /\ option_map snd (find_ty es' ty) = Some t' end).
  { induction 1 as [|[u t] es (l & n & H) F (es' & E1 & E2 & E3)]; [exists []; repeat split; constructor|]. cbn [snd] in H. destruct (C26_delete_after t l n s e H) as (t' & k & Et & Ht & _).
    exists ((u, t') :: es'). cbn [invalidate_entries]. rewrite Et. cbn [bind]. rewrite E1. cbn [bind]. split; [reflexivity|]. split; [constructor; eauto|]. intros ty. cbn [find fst]. destruct (u =? ty); [exists t'; auto|apply E3]. }
  unfold sound, kept_by. induction st as [|[p es] st IH]; cbn [flat_map snd]; intros S; [exists []; repeat split; auto|]. apply Forall_app in S as [S1 S2]. destruct (Es es S1) as (es' & E1 & E2 & E3). destruct (IH S2) as (st' & F1 & F2 & F3).
  exists ((p, es') :: st'). cbn [invalidate]. rewrite E1. cbn [bind]. rewrite F1. cbn [bind]. split; [reflexivity|]. split; [cbn [flat_map snd]; apply Forall_app; auto|]. intros q ty. cbn [st_get]. destruct (p =? q); [|apply F3].
  specialize (E3 ty). destruct (find_ty es ty) as [[u t]|]; cbn [option_map snd] in *; [exact E3|now rewrite E3].
Qed.
Lemma shown_ok place st s e : sound st -> exists out, iter_range place st s e = Some out /\
  Forall2 (fun x sl => exists l n, holds (snd x) l n /\ a_type sl = fst x /\
    a_ranges sl = map (fun '(a, b, _) => (place a, place b)) (filter (touches s e) l) /\ a_payloads sl = map snd (filter (touches s e) l)) (flat_map snd st) out.
Proof.
  unfold sound, iter_range. generalize (flat_map snd st) as es. induction es as [|[u t] es IH]; intros S; [exists []; split; constructor|]. inversion S as [|x y (l & n & H) S']; subst. destruct (IH S') as (out & E & F). cbn [snd] in H. pose proof H as (_ & Ei & _ & _).
  cbn [map_all]. unfold slice_of at 1. cbn [snd]. rewrite Ei. cbn [bind]. rewrite E. cbn [bind]. eexists. split; [reflexivity|]. constructor; auto. exists l, n. cbn. auto.
Qed.

(** ** Spans that a plugin sends *)
Lemma carried {A} (d : delta A) (sp : node (sleaf T) unit) l len start : holds sp l len -> wf_delta d -> no_empty_copy (els d) ->
  (interval_untouched d start (start + len) = true -> transform_ix d (start + len) true = transform_ix d start false + len) ->
  exists sp1 l1, (if interval_untouched d start (start + len) then Some sp else transform sp start (start + len) d) = Some sp1 /\
    holds sp1 l1 (transform_ix d (start + len) true - transform_ix d start false) /\
    forall i j, i < len -> nth_error (denote (els d)) j = Some (inl (start + i)) ->
      transform_ix d start false <= j /\ j < transform_ix d (start + len) true /\ value l1 (j - transform_ix d start false) = value l i.
Proof.
  intros H Hd Hc U. destruct (interval_untouched d start (start + len)) eqn:E.
  - specialize (U eq_refl). exists sp, l. split; auto. split; [now replace (transform_ix d (start + len) true - transform_ix d start false) with len by lia|]. intros i j Hi Hj.
    destruct (C09_untouched d start (start + len) Hd ltac:(lia) E) as (j0 & Hj0).
    assert (P1 : transform_ix d start true = j0) by (apply (C09_transform d start Hd Hc); specialize (Hj0 start); rewrite Nat.sub_diag, Nat.add_0_r in Hj0; apply Hj0; lia).
    assert (P2 : transform_ix d (start + len) false = j0 + len).
    { destruct (proj1 (C09_transform d (start + (len - 1)) Hd Hc) (j0 + (len - 1))) as [_ P]; [replace (len - 1) with (start + (len - 1) - start) at 1 by lia; apply Hj0; lia|]. replace (S (start + (len - 1))) with (start + len) in P by lia. lia. }
    assert (P3 : j = j0 + i).
    { pose proof (proj1 (proj1 (C09_transform d (start + i) Hd Hc) j Hj)) as Q1. pose proof (proj1 (proj1 (C09_transform d (start + i) Hd Hc) (j0 + i) ltac:(replace i with (start + i - start) at 1 by lia; apply Hj0; lia))) as Q2. lia. }
    pose proof (C09_transform_monotone d start start false true Hd ltac:(auto)) as M1. pose proof (C09_transform_monotone d (start + len) (start + len) false true Hd ltac:(auto)) as M2.
    split; [lia|]. split; [lia|]. f_equal. lia.
  - destruct (C26_transform sp l len d start H Hd Hc) as (t' & l' & Et & Ht & Hv). exists t', l'. auto.
Qed.
End Proofs.
