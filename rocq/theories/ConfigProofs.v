(** Proofs about settings: the model of config.rs keeps the sheet of ConfigSpec.v. *)
From Coq Require Import List Arith Bool String ZArith Lia.
From Verif Require Import Base DetectModel ConfigModel ConfigSpec.
Import ListNotations.

(** Association lists. *)
Section Assoc.
Context {K V : Type} (eqb : K -> K -> bool) (E : forall a b, eqb a b = true <-> a = b).
Implicit Types m : list (K * V).
Lemma e_refl k : eqb k k = true. Proof. now apply E. Qed.
Lemma e_neq a b : a <> b -> eqb a b = false.
Proof. intros H. destruct (eqb a b) eqn:X; auto. apply E in X. congruence. Qed.
Lemma aget_aset m k v j : aget eqb (aset eqb m k v) j = if eqb k j then Some v else aget eqb m j.
Proof.
  induction m as [|[i w] m IH]; cbn [aset aget]; [reflexivity|].
  destruct (eqb i k) eqn:X; cbn [aget].
  - apply E in X. subst i. destruct (eqb k j); reflexivity.
  - destruct (eqb i j) eqn:Y; auto. apply E in Y. subst j. destruct (eqb k i) eqn:Z; auto.
    apply E in Z. subst. rewrite e_refl in X. discriminate.
Qed.
Lemma aget_arem m k j : aget eqb (arem eqb m k) j = if eqb k j then None else aget eqb m j.
Proof.
  induction m as [|[i w] m IH]; cbn [arem filter aget fst]; [now destruct (eqb k j)|].
  fold (arem eqb m k). destruct (eqb i k) eqn:X; cbn [negb].
  - apply E in X. subst i. rewrite IH. destruct (eqb k j); reflexivity.
  - cbn [aget]. rewrite IH. destruct (eqb i j) eqn:Y; auto. apply E in Y. subst j.
    destruct (eqb k i) eqn:Z; auto. apply E in Z. subst. rewrite e_refl in X. discriminate.
Qed.
Lemma aget_in m k v : aget eqb m k = Some v -> In (k, v) m.
Proof.
  induction m as [|[i w] m IH]; cbn [aget]; [discriminate|]. destruct (eqb i k) eqn:X.
  - apply E in X. intros [= ->]. subst. now left.
  - right. auto.
Qed.
Lemma aget_key m k : In k (map fst m) <-> exists v, aget eqb m k = Some v.
Proof.
  induction m as [|[i w] m IH]; cbn [aget map fst]; [split; [easy|now intros [v H]]|].
  destruct (eqb i k) eqn:X.
  - apply E in X. subst. split; eauto. now left.
  - rewrite <- IH. split; [intros [->|H]|]; auto. rewrite e_refl in X. discriminate. now right.
Qed.
Lemma in_aget m k v : NoDup (map fst m) -> In (k, v) m -> aget eqb m k = Some v.
Proof.
  induction m as [|[i w] m IH]; cbn [aget map fst]; intros N I; [easy|]. inversion N as [|? ? A B]; subst.
  destruct I as [X|I]; [injection X as -> ->; now rewrite e_refl|].
  destruct (eqb i k) eqn:X; auto. apply E in X. subst. elim A. apply in_map_iff. exists (k, v). auto.
Qed.
Lemma aset_keys m k v j : In j (map fst (aset eqb m k v)) <-> j = k \/ In j (map fst m).
Proof.
  rewrite !aget_key. rewrite aget_aset. destruct (eqb k j) eqn:X.
  - apply E in X. subst. split; eauto.
  - split; [auto|intros [->|H]; auto]. rewrite e_refl in X. discriminate.
Qed.
Lemma aset_nodup m k v : NoDup (map fst m) -> NoDup (map fst (aset eqb m k v)).
Proof.
  induction m as [|[i w] m IH]; cbn [aset map fst]; intros N; [constructor; [easy|constructor]|].
  inversion N as [|? ? A B]; subst. destruct (eqb i k) eqn:X; cbn [map fst]; [constructor; auto|].
  constructor; auto. rewrite aset_keys. intros [->|H]; auto. rewrite e_refl in X. discriminate.
Qed.
Lemma aset_same_keys m k v : In k (map fst m) -> map fst (aset eqb m k v) = map fst m.
Proof.
  induction m as [|[i w] m IH]; cbn [aset map fst]; [easy|]. intros H. destruct (eqb i k) eqn:X; cbn [map fst]; auto.
  f_equal. apply IH. destruct H; auto. subst. rewrite e_refl in X. discriminate.
Qed.
Lemma filter_nodup {A B} (f : A -> B) p (l : list A) : NoDup (map f l) -> NoDup (map f (filter p l)).
Proof.
  induction l as [|a l IH]; cbn [map filter]; intros N; [constructor|]. inversion N as [|? ? X Y]; subst.
  destruct (p a); cbn [map]; auto. constructor; auto. intros H. apply X. apply in_map_iff in H.
  destruct H as (b & <- & I). apply filter_In in I. apply in_map. tauto.
Qed.
Lemma arem_nodup m k : NoDup (map fst m) -> NoDup (map fst (arem eqb m k)).
Proof. apply filter_nodup. Qed.
Lemma aget_find m k : aget eqb m k = match List.find (fun p => eqb (fst p) k) m with Some p => Some (snd p) | None => None end.
Proof. induction m as [|[i w] m IH]; cbn [aget List.find fst]; auto. destruct (eqb i k); auto. Qed.
End Assoc.

Lemma sE a b : String.eqb a b = true <-> a = b. Proof. apply String.eqb_eq. Qed.
Lemma nE a b : Nat.eqb a b = true <-> a = b. Proof. apply Nat.eqb_eq. Qed.
Lemma dE a b : domain_eqb a b = true <-> a = b.
Proof.
  destruct a, b; cbn [domain_eqb]; try (split; congruence); rewrite ?String.eqb_eq, ?Nat.eqb_eq; split; congruence.
Qed.
Lemma given_tget t k : given t k = tget t k.
Proof. unfold given, tget. symmetry. apply aget_find. Qed.

(** Folds over tables. *)
Lemma tget_nil j : tget [] j = None. Proof. reflexivity. Qed.
Lemma tget_cons k v t j : tget ((k, v) :: t) j = if String.eqb k j then Some v else tget t j. Proof. reflexivity. Qed.
Lemma fold_upd (op : table -> string * value -> table) (F : value -> option value -> option value) :
  (forall t k v j, tget (op t (k, v)) j = if String.eqb k j then F v (tget t j) else tget t j) ->
  forall l t, NoDup (map fst l) -> forall j,
  tget (fold_left op l t) j = match tget l j with Some v => F v (tget t j) | None => tget t j end.
Proof.
  intros H l. induction l as [|[k v] l IH]; intros t N j; [reflexivity|]. cbn [map fst] in N. inversion N as [|? ? A B]; subst.
  cbn [fold_left]. rewrite IH by auto. rewrite H. rewrite tget_cons.
  destruct (String.eqb k j) eqn:X.
  - apply sE in X. subst. destruct (tget l j) eqn:Y; [|reflexivity]. elim A. apply (aget_key String.eqb sE). eauto.
  - reflexivity.
Qed.
Lemma fold_nodup (op : table -> string * value -> table) :
  (forall t p, NoDup (map fst t) -> NoDup (map fst (op t p))) ->
  forall l t, NoDup (map fst t) -> NoDup (map fst (fold_left op l t)).
Proof. intros H l. induction l; cbn [fold_left]; auto. Qed.
Lemma tget_tset t k v j : tget (tset t k v) j = if String.eqb k j then Some v else tget t j.
Proof. apply (aget_aset _ sE). Qed.
Lemma tget_trem t k j : tget (trem t k) j = if String.eqb k j then None else tget t j.
Proof. apply (aget_arem _ sE). Qed.
Lemma tset_nodup t k v : NoDup (map fst t) -> NoDup (map fst (tset t k v)).
Proof. apply (aset_nodup _ sE). Qed.

Definition over (a b : option value) : option value := match a with Some x => Some x | None => b end.
Lemma extend_get t u j : NoDup (map fst u) -> tget (extend t u) j = over (tget u j) (tget t j).
Proof.
  intros N. unfold extend. rewrite (fold_upd _ (fun v _ => Some v)); auto.
  intros. cbn [fst snd]. apply tget_tset.
Qed.
Lemma rebuild_get p j : NoDup (map fst (table_or_default (p_user p))) ->
  tget (p_cache (rebuild p)) j = over (tget (table_or_default (p_user p)) j) (tget (table_or_default (p_base p)) j).
Proof.
  intros N. unfold rebuild. cbn [p_cache]. destruct (p_user p) as [u|]; cbn [table_or_default] in *; [|reflexivity].
  apply (extend_get (table_or_default (p_base p)) u j N).
Qed.
Lemma pupdate_get p t j : NoDup (map fst t) ->
  tget (pair_table_for_update p t) j
  = match tget t j with Some VNull => None | Some x => Some x | None => tget (table_or_default (p_user p)) j end.
Proof.
  intros N. unfold pair_table_for_update.
  rewrite (fold_upd _ (fun v _ => if is_null v then None else Some v)); auto.
  - destruct (tget t j) as [[]|]; reflexivity.
  - intros. cbn [fst snd]. destruct (is_null v); [apply tget_trem|apply tget_tset].
Qed.
Lemma pupdate_nodup p t : NoDup (map fst (table_or_default (p_user p))) -> NoDup (map fst (pair_table_for_update p t)).
Proof.
  apply fold_nodup. intros u [k v] N. cbn [fst snd]. destruct (is_null v); [apply arem_nodup|apply tset_nodup]; auto.
Qed.

(** Stacks of tables. *)
Lemma collate_one_get t out j : tget (collate_one out t) j = over (tget out j) (tget t j).
Proof.
  unfold collate_one. revert out. induction t as [|[k v] t IH]; intros out; cbn [fold_left fst snd].
  - rewrite tget_nil. now destruct (tget out j).
  - rewrite IH. rewrite tget_cons. destruct (tget out k) as [x|] eqn:X.
    + destruct (String.eqb k j) eqn:Y; auto. apply sE in Y. subst. now rewrite X.
    + rewrite tget_tset. destruct (String.eqb k j) eqn:Y; auto. apply sE in Y. subst. now rewrite X.
Qed.
Lemma collate_from st out j : tget (fold_left collate_one st out) j = over (tget out j) (stack_get st j).
Proof.
  revert out. induction st as [|t st IH]; intros out; cbn [fold_left stack_get]; [now destruct (tget out j)|].
  rewrite IH, collate_one_get. destruct (tget out j); auto.
Qed.
Lemma collate_get st j : tget (collate st) j = stack_get st j.
Proof. unfold collate. now rewrite collate_from. Qed.
Lemma collate_nodup st : NoDup (map fst (collate st)).
Proof.
  unfold collate. assert (G : NoDup (map fst (@nil (string * value)))) by constructor. revert G.
  generalize (@nil (string * value)). induction st as [|t st IH]; intros out N; cbn [fold_left]; auto.
  apply IH. unfold collate_one. apply fold_nodup; auto. intros u p M. destruct (tget u (fst p)); auto. now apply tset_nodup.
Qed.
Lemma value_eqb_eq a b : value_eqb a b = true <-> a = b.
Proof. unfold value_eqb. destruct (value_dec a b); split; congruence. Qed.
Lemma opt_value_eqb_eq a b : opt_value_eqb a b = true <-> a = b.
Proof. destruct a, b; cbn [opt_value_eqb]; try rewrite value_eqb_eq; split; congruence. Qed.

Definition differs (st : list table) (k : string) (x : value) : Prop := stack_get st k <> Some x.
Lemma diff_fold other l : NoDup (map fst l) -> forall out,
  let r := fold_left (fun out kv =>
               if opt_value_eqb (stack_get other (fst kv)) (Some (snd kv)) then out
               else Some (tset (table_or_default out) (fst kv) (snd kv))) l out in
  (forall j, tget (table_or_default r) j
    = match tget l j with
      | Some x => if opt_value_eqb (stack_get other j) (Some x) then tget (table_or_default out) j else Some x
      | None => tget (table_or_default out) j end)
  /\ (r = None <-> out = None /\ forall k x, In (k, x) l -> stack_get other k = Some x)
  /\ (NoDup (map fst (table_or_default out)) -> NoDup (map fst (table_or_default r)))
  /\ (r <> Some [] \/ out = Some []).
Proof.
  induction l as [|[k v] l IH]; intros N out; cbn [fold_left fst snd]; cbv zeta.
  { split; [intros j; reflexivity|]. split; [split; [intros ->; split; [auto|easy]|tauto]|]. split; auto.
    destruct out as [[|]|]; auto; left; congruence. }
  cbn [map fst] in N. inversion N as [|? ? A B]; subst. specialize (IH B).
  destruct (opt_value_eqb (stack_get other k) (Some v)) eqn:X.
  - destruct (IH out) as (I1 & I2 & I3 & I4). split; [|split; [|split; auto]].
    + intros j. rewrite I1. rewrite tget_cons. destruct (String.eqb k j) eqn:Y; auto.
      apply sE in Y. subst j. rewrite X. destruct (tget l k) eqn:Z; auto. elim A. apply (aget_key _ sE). eauto.
    + apply opt_value_eqb_eq in X. rewrite I2. split; intros [U W]; split; auto.
      * intros i x [Q|Q]; [injection Q as -> ->; auto|auto].
      * intros i x Q. apply W. now right.
  - destruct (IH (Some (tset (table_or_default out) k v))) as (I1 & I2 & I3 & I4). split; [|split; [|split]].
    + intros j. rewrite I1. cbn [table_or_default]. rewrite tget_tset. rewrite tget_cons.
      destruct (String.eqb k j) eqn:Y; auto. apply sE in Y. subst j. rewrite X. destruct (tget l k) eqn:Z; auto.
      elim A. apply (aget_key _ sE). eauto.
    + rewrite I2. split; [intros [U _]; discriminate|]. intros [_ W]. specialize (W k v (or_introl eq_refl)).
      apply opt_value_eqb_eq in W. congruence.
    + intros M. apply I3. cbn [table_or_default]. now apply tset_nodup.
    + destruct I4 as [I4|I4]; auto. injection I4 as I4. destruct (table_or_default out) as [|[i w] q]; cbn in I4; try discriminate.
      destruct (String.eqb i k); discriminate.
Qed.
Lemma diff_get this other t : diff this other = Some t ->
  forall k x, tget t k = Some x <-> stack_get this k = Some x /\ stack_get other k <> Some x.
Proof.
  intros D k x. destruct (diff_fold other (collate this) (collate_nodup this) None) as (I1 & _ & _ & _).
  specialize (I1 k). unfold diff in D. rewrite D in I1. cbn [table_or_default] in I1. rewrite I1, collate_get.
  unfold tget. cbn [aget]. destruct (stack_get this k) as [y|]; [|split; [discriminate|intros [? _]; discriminate]].
  destruct (opt_value_eqb (stack_get other k) (Some y)) eqn:X.
  - apply opt_value_eqb_eq in X. split; [discriminate|]. intros [[= ->] F]. contradiction.
  - split; [intros [= ->]; split; auto; intros F; apply opt_value_eqb_eq in F; congruence|tauto].
Qed.
Lemma diff_none this other : diff this other = None <-> forall k x, stack_get this k = Some x -> stack_get other k = Some x.
Proof.
  destruct (diff_fold other (collate this) (collate_nodup this) None) as (_ & I2 & _ & _). unfold diff. rewrite I2. split.
  - intros [_ H] k x G. apply H. rewrite <- collate_get in G. now apply (aget_in _ sE) in G.
  - intros H. split; auto. intros k x G. apply H. rewrite <- collate_get. apply (in_aget _ sE); auto. apply collate_nodup.
Qed.
Lemma diff_nodup this other t : diff this other = Some t -> NoDup (map fst t) /\ t <> [].
Proof.
  intros D. destruct (diff_fold other (collate this) (collate_nodup this) None) as (_ & _ & I3 & I4). unfold diff in D.
  rewrite D in I3, I4. split; [apply I3; constructor|]. destruct I4 as [I4|I4]; [intros ->; now apply I4|discriminate].
Qed.

(** Deserialising. *)
Lemma from_of_ok fs t : from_value_of fs t <> None <-> forall k kd, In (k, kd) fs -> exists x, tget t k = Some x /\ fits kd x = true.
Proof.
  induction fs as [|[k kd] fs IH]; cbn [from_value_of]; [split; [easy|discriminate]|].
  destruct (tget t k) as [x|] eqn:X; [destruct (fits kd x) eqn:Y|].
  - destruct (from_value_of fs t) as [r|] eqn:Z; cbn [bind].
    + split; [|discriminate]. intros _ i ki [Q|Q]; [injection Q as <- <-; eauto|]. apply IH; auto. discriminate.
    + split; [intros H; now elim H|]. intros H _. apply IH; auto. intros. apply H. now right.
  - split; [intros H; now elim H|]. intros H. destruct (H k kd (or_introl eq_refl)) as (y & A & B). congruence.
  - split; [intros H; now elim H|]. intros H. destruct (H k kd (or_introl eq_refl)) as (y & A & B). congruence.
Qed.
Lemma from_of_get fs t its : from_value_of fs t = Some its -> forall k, In k (map fst fs) -> tget its k = tget t k.
Proof.
  revert its. induction fs as [|[k kd] fs IH]; cbn [from_value_of]; intros its H j I; [easy|].
  destruct (tget t k) as [x|] eqn:X; [|discriminate]. destruct (fits kd x); [|discriminate].
  destruct (from_value_of fs t) as [r|] eqn:Z; cbn [bind] in H; [|discriminate]. injection H as <-.
  rewrite tget_cons. destruct (String.eqb k j) eqn:Y.
  - apply sE in Y. now subst.
  - apply (IH r); auto. destruct I as [I|I]; auto. cbn in I. subst. rewrite String.eqb_refl in Y. discriminate.
Qed.
Lemma fields_once : NoDup (map fst fields).
Proof. cbv [fields map fst]. repeat (constructor; [cbv [In]; intuition discriminate|]). constructor. Qed.

Lemma fieldwise k v : forallb (fun f => negb (String.eqb (fst f) k) || fits (snd f) v) fields = true
  <-> (forall kd, In (k, kd) fields -> fits kd v = true).
Proof.
  rewrite forallb_forall. split.
  - intros H kd I. specialize (H _ I). cbn [fst snd] in H. rewrite String.eqb_refl in H. exact H.
  - intros H [j kd] I. cbn [fst snd]. destruct (String.eqb j k) eqn:X; auto. apply sE in X. subst. cbn [negb orb]. auto.
Qed.
(** A source whose settings fit. *)
Definition good (f : source) : Prop :=
  forall k x kd, f k = Some x -> x <> VNull -> In (k, kd) fields -> fits kd x = true.
Lemma acceptable_good t : NoDup (map fst t) -> (acceptable t = true <-> good (given t)).
Proof.
  intros N. unfold acceptable. rewrite forallb_forall. split.
  - intros H k x kd G X I. rewrite given_tget in G. apply (aget_in _ sE) in G. specialize (H _ G). cbn [fst snd] in H.
    apply orb_true_iff in H. destruct H as [H|H]; [destruct x; try discriminate; congruence|]. apply fieldwise with (kd := kd) in H; auto.
  - intros H [k x] I. cbn [fst snd]. destruct (is_null x) eqn:X; auto. cbn [orb]. apply fieldwise. intros kd F.
    apply (H k x kd); auto; [|intros ->; discriminate]. rewrite given_tget. apply (in_aget _ sE); auto.
Qed.
Lemma complete_ok t : complete t <-> from_value t <> None.
Proof. unfold complete, from_value. rewrite from_of_ok. split; intros H k kd I; destruct (H k kd I) as (x & A & B); exists x; rewrite given_tget in *; auto. Qed.

(** Languages. *)
Definition ok_named (ls : languages) := (forall n l, aget String.eqb (named ls) n = Some l -> l_name l = n) /\ NoDup (map fst (named ls)).
Lemma ext_fold (l : language) es (m : list (string * language)) e : aget String.eqb (fold_left (fun m e => aset String.eqb m e l) es m) e
  = if existsb (String.eqb e) es then Some l else aget String.eqb m e.
Proof.
  revert m. induction es as [|f es IH]; intros m; cbn [fold_left existsb]; auto. rewrite IH.
  rewrite (aget_aset _ sE). rewrite String.eqb_sym. destruct (String.eqb e f); destruct (existsb (String.eqb e) es); auto.
Qed.
Lemma find_app {X} p (l r : list X) : List.find p (l ++ r) = match List.find p l with Some x => Some x | None => List.find p r end.
Proof. induction l as [|a l IH]; cbn; auto. destruct (p a); auto. Qed.
Lemma languages_fold defs : forall ls, ok_named ls ->
  let r := fold_left (fun ls l =>
               {| named := aset String.eqb (named ls) (l_name l) l;
                  extensions := fold_left (fun m e => aset String.eqb m e l) (l_extensions l) (extensions ls) |}) defs ls in
  ok_named r
  /\ (forall n, aget String.eqb (named r) n = match definition_of defs n with Some d => Some d | None => aget String.eqb (named ls) n end)
  /\ (forall e, aget String.eqb (extensions r) e
       = match List.find (fun d => existsb (String.eqb e) (l_extensions d)) (rev defs) with Some d => Some d | None => aget String.eqb (extensions ls) e end).
Proof.
  induction defs as [|d defs IH]; intros ls O; cbn [fold_left]; cbv zeta; [split; [auto|split; reflexivity]|].
  destruct O as [O1 O2].
  destruct (IH {| named := aset String.eqb (named ls) (l_name d) d;
                  extensions := fold_left (fun m e => aset String.eqb m e d) (l_extensions d) (extensions ls) |}) as (A & B & C).
  { split; cbn [named]; [|now apply (aset_nodup _ sE)]. intros n l. rewrite (aget_aset _ sE).
    destruct (String.eqb (l_name d) n) eqn:X; [|auto]. apply sE in X. now intros [= <-]. }
  cbv zeta in A, B, C. split; auto. split.
  - intros n. rewrite B. unfold definition_of. cbn [rev named]. rewrite find_app. cbn [List.find].
    destruct (List.find (fun d0 => String.eqb (l_name d0) n) (rev defs)); auto. rewrite (aget_aset _ sE).
    destruct (String.eqb (l_name d) n); auto.
  - intros e. rewrite C. cbn [rev extensions]. rewrite find_app. cbn [List.find]. rewrite ext_fold.
    destruct (List.find _ (rev defs)); auto. destruct (existsb (String.eqb e) (l_extensions d)); auto.
Qed.
Lemma languages_ok defs : ok_named (languages_new defs)
  /\ (forall n, language_for_name (languages_new defs) n = definition_of defs n)
  /\ (forall e, language_for_path (languages_new defs) e = List.find (fun d => existsb (String.eqb e) (l_extensions d)) (rev defs)).
Proof.
  destruct (languages_fold defs {| named := []; extensions := [] |}) as (A & B & C).
  { split; [discriminate|constructor]. }
  split; [exact A|]. unfold language_for_name, language_for_path, languages_new. split; [intros n; rewrite B|intros e; rewrite C]; cbn [named extensions aget].
  - now destruct (definition_of defs n).
  - now destruct (List.find _ (rev defs)).
Qed.
Lemma definition_name defs l d : definition_of defs l = Some d -> l_name d = l.
Proof. intros H. apply find_some in H. now apply sE. Qed.

(** Updating buffers. *)
Lemma stack_with_buffers m b id : stack_of (with_buffers m b) id = stack_of m id.
Proof. reflexivity. Qed.
Lemma update_buffers_ok ids : forall m m' ch, NoDup ids -> update_buffers m ids = Some (m', ch) ->
  m_configs m' = m_configs m /\ m_languages m' = m_languages m /\ m_tags m' = m_tags m
  /\ (forall id, In id ids -> exists c, generate_buffer_config m id = Some c /\ aget Nat.eqb (m_buffers m') id = Some c)
  /\ (forall id, ~ In id ids -> aget Nat.eqb (m_buffers m') id = aget Nat.eqb (m_buffers m) id)
  /\ (NoDup (map fst (m_buffers m)) -> NoDup (map fst (m_buffers m')))
  /\ (forall id t, In (id, t) ch <-> In id ids /\ exists c, generate_buffer_config m id = Some c /\ changes_from c (aget Nat.eqb (m_buffers m) id) = Some t)
  /\ (NoDup (map fst ch) /\ incl (map fst ch) ids).
Proof.
  induction ids as [|id ids IH]; intros m m' ch N H; cbn [update_buffers] in H.
  - injection H as <- <-. split; [auto|]. split; [auto|]. split; [auto|]. split; [easy|]. split; [auto|]. split; [auto|].
    split; [intros; split; [easy|intros [[] _]]|]. split; [constructor|easy].
  - inversion N as [|? ? A B]; subst. unfold update_buffer_config in H.
    destruct (generate_buffer_config m id) as [c|] eqn:G; cbn [bind fst snd] in H; [|discriminate].
    destruct (update_buffers _ ids) as [[m1 ch1]|] eqn:U; cbn [bind fst snd] in H; [|discriminate]. injection H as <- <-.
    apply IH in U; auto. destruct U as (U1 & U2 & U3 & U4 & U5 & U6 & U7 & U8 & U9). cbn [m_configs m_languages m_tags m_buffers with_buffers] in *.
    split; [auto|]. split; [auto|]. split; [auto|]. split; [|split; [|split; [|split; [|split]]]].
    + intros i [<-|I].
      * exists c. split; auto. rewrite U5 by auto. rewrite (aget_aset _ nE), Nat.eqb_refl. reflexivity.
      * destruct (U4 i I) as (c' & P & Q). exists c'. split; auto.
    + intros i NI. rewrite U5 by (intros I; apply NI; now right). rewrite (aget_aset _ nE). rewrite (e_neq _ nE); auto.
      intros ->. apply NI. now left.
    + intros ND. apply U6. now apply (aset_nodup _ nE).
    + intros i t. rewrite in_app_iff. rewrite U7. split.
      * intros [I|(I & c' & P & Q)].
        -- destruct (changes_from c (aget Nat.eqb (m_buffers m) id)) as [t'|] eqn:CF; [|easy]. destruct I as [I|[]]. injection I as <- <-.
           split; [now left|]. exists c. auto.
        -- split; [now right|]. exists c'. split; auto. rewrite (aget_aset _ nE) in Q. rewrite (e_neq _ nE) in Q; auto. intros ->. auto.
      * intros ([<-|I] & c' & P & Q).
        -- left. rewrite G in P. injection P as <-. rewrite Q. now left.
        -- right. split; auto. exists c'. split; auto. rewrite (aget_aset _ nE). rewrite (e_neq _ nE); auto. intros ->. auto.
    + rewrite map_app. destruct (changes_from c _) as [t'|]; cbn [map fst app]; auto. constructor; auto.
    + rewrite map_app. destruct (changes_from c _) as [t'|]; cbn [map fst app].
      * intros i [<-|I]; [now left|right; auto].
      * intros i I. right. auto.
Qed.
Lemma update_buffers_total ids : forall m, (forall id, In id ids -> generate_buffer_config m id <> None) -> update_buffers m ids <> None.
Proof.
  induction ids as [|id ids IH]; intros m H; cbn [update_buffers]; [discriminate|]. unfold update_buffer_config.
  destruct (generate_buffer_config m id) as [c|] eqn:G; [|elim (H id (or_introl eq_refl) G)]. cbn [bind fst snd].
  destruct (update_buffers _ ids) eqn:U; [discriminate|]. exfalso. revert U. apply IH. intros i I. exact (H i (or_intror I)).
Qed.
