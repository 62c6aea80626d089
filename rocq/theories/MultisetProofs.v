From Coq Require Import List Arith Bool Lia ZifyBool.
From Verif Require Import Base ListLib MultisetModel MultisetSpec.
Import ListNotations.

(** ** Bind *)
Lemma bind_Some {A B} (x : option A) (k : A -> option B) r :
  bind x k = Some r -> exists a, x = Some a /\ k a = Some r.
Proof. destruct x; cbn; intros; [eauto|discriminate]. Qed.

(** ** Flat *)
Lemma flat_app a b : flat (a ++ b) = flat a ++ flat b.
Proof. induction a as [|g a IH]; cbn; [auto|]. rewrite IH, app_assoc; auto. Qed.

Lemma flat_segs_push l len c : flat (segs_push l len c) = flat l ++ repeat c len.
Proof.
  induction l as [|s l IH]; cbn; [now rewrite app_nil_r|].
  destruct l as [|s2 l].
  - destruct (Nat.eqb_spec (seg_count s) c) as [->|]; cbn; rewrite !app_nil_r; auto.
    now rewrite repeat_app.
  - cbn [flat] in *. rewrite IH. now rewrite !app_assoc.
Qed.

Definition last_count (l : list segment) : option nat :=
  match rev l with [] => None | g :: _ => Some (seg_count g) end.

Lemma segs_push_cons2 s s2 l len c :
  segs_push (s :: s2 :: l) len c = s :: segs_push (s2 :: l) len c.
Proof. reflexivity. Qed.

Lemma segs_push_head s l len c : exists s' l', segs_push (s :: l) len c = s' :: l' /\
   seg_count s' = seg_count s.
Proof.
  destruct l.
  - cbn. destruct (seg_count s =? c); eauto.
  - rewrite segs_push_cons2; eauto.
Qed.

Lemma canonical_segs_push l len c : 0 < len -> canonical l -> canonical (segs_push l len c).
Proof.
  intros Hl. induction l as [|s l IH]; intros H; [cbn; auto|].
  destruct l as [|s2 l].
  - cbn in *. destruct (Nat.eqb_spec (seg_count s) c); cbn; intuition lia.
  - rewrite segs_push_cons2. destruct H as (H1 & H2 & H3).
    specialize (IH H3). destruct (segs_push_head s2 l len c) as (s' & l' & E & Hc).
    rewrite E in *. split; [exact H1|split; [now rewrite Hc|exact IH]].
Qed.

(** The builder invariant. *)
Definition bld_ok (sb : builder) : Prop :=
  canonical (b_segs sb) /\ b_total sb = length (flat (b_segs sb)).

Lemma bld_ok_new : bld_ok builder_new.
Proof. split; cbn; auto. Qed.

Lemma push_segment_ok sb len c : bld_ok sb -> 0 < len ->
  exists sb', push_segment sb len c = Some sb' /\ bld_ok sb' /\
              flat (build sb') = flat (build sb) ++ repeat c len.
Proof.
  intros [Hc Ht] Hl. unfold push_segment. destruct (Nat.eqb_spec len 0); [lia|].
  eexists; split; [reflexivity|]. unfold bld_ok, build; cbn.
  rewrite flat_segs_push. repeat split; auto using canonical_segs_push.
  rewrite app_length, repeat_length; lia.
Qed.

Lemma push_segment_0 sb c : push_segment sb 0 c = None.
Proof. reflexivity. Qed.

(** ** Canonical forms are unique. *)
Lemma canonical_repeat_inv g s : canonical (g :: s) ->
  forall n c rest, flat (g :: s) = repeat c n ++ rest -> 0 < n ->
  (forall x r, rest = x :: r -> x <> c) -> seg_count g = c /\ seg_len g = n /\ flat s = rest.
Proof.
  intros (Hl & Hn & Hc) n c rest E Hp Hr. cbn in E.
  destruct g as [gl gc]; cbn in *. destruct gl as [|gl]; [lia|]. destruct n as [|n]; [lia|].
  cbn in E. injection E as -> E. split; auto.
  revert n Hp E. induction gl as [|gl IH]; intros n Hp E.
  - cbn in E. destruct n as [|n]; cbn in E; [auto|]. exfalso.
    destruct s as [|h s]; cbn in E; [discriminate|].
    destruct Hc as (Hh & _). destruct h as [[|hl] hc]; cbn in *; [lia|].
    injection E as -> _. congruence.
  - destruct n as [|n]; cbn in E.
    + exfalso. eapply Hr; [symmetry; exact E|]. reflexivity.
    + injection E as E. destruct (IH ltac:(lia) n ltac:(lia) E); split; auto.
Qed.

Lemma flat_inj a b : canonical a -> canonical b -> flat a = flat b -> a = b.
Proof.
  revert b. induction a as [|g a IH]; intros b Ha Hb E.
  - destruct b as [|h b]; auto. destruct Hb as (H & _). destruct h as [[|hl] hc]; cbn in *; [lia|discriminate].
  - destruct b as [|h b].
    { destruct Ha as (H & _). destruct g as [[|gl] gc]; cbn in *; [lia|discriminate]. }
    destruct (canonical_repeat_inv g a Ha (seg_len h) (seg_count h) (flat b)) as (E1 & E2 & E3).
    + exact E.
    + apply Hb.
    + intros x r Er. destruct Hb as (_ & Hn & Hc). destruct b as [|k b]; [discriminate|].
      destruct Hc as (Hk & _). destruct k as [[|kl] kc]; cbn in *; [lia|].
      injection Er as <- _. congruence.
    + f_equal.
      * destruct g, h; cbn in *; congruence.
      * apply IH; auto; [apply Ha|apply Hb].
Qed.

(** ** zip *)
Fixpoint zip_list (fuel : nat) (z : zip_iter) : option (list zip_segment) :=
  match fuel with
  | 0 => None
  | S f =>
      let? r := zip_next z in
      match r with
      | None => Some []
      | Some (zs, z') => let? l := zip_list f z' in Some (zs :: l)
      end
  end.

Fixpoint foldM {S X} (f : S -> X -> option S) (s : S) (l : list X) : option S :=
  match l with [] => Some s | x :: l' => let? s' := f s x in foldM f s' l' end.

Lemma zip_for_foldM f : forall z body sb,
  zip_for f z body sb = let? l := zip_list f z in foldM body sb l.
Proof.
  induction f as [|f IH]; intros; cbn; auto.
  destruct (zip_next z) as [[[zs z']|]|]; cbn; auto.
  destruct (body sb zs) as [sb'|] eqn:E; cbn.
  - rewrite IH. destruct (zip_list f z'); cbn; [rewrite E|]; auto.
  - destruct (zip_list f z'); cbn; [rewrite E|]; auto.
Qed.

Definition zflat (l : list zip_segment) : list (nat * nat) :=
  flat_map (fun z => repeat (zs_a z, zs_b z) (zs_len z)) l.

Definition all_pos (l : list segment) := Forall (fun g => 0 < seg_len g) l.

Lemma canonical_all_pos s : canonical s -> all_pos s.
Proof. induction s as [|g s IH]; intros H; constructor; [apply H|apply IH, H]. Qed.

Lemma zip_list_spec f : forall a b ac bc c,
  all_pos a -> all_pos b -> ac <= c -> bc <= c ->
  match a with [] => ac = c | g :: _ => c - ac < seg_len g end ->
  match b with [] => bc = c | g :: _ => c - bc < seg_len g end ->
  length a + length b < f ->
  let ra := skipn (c - ac) (flat a) in
  let rb := skipn (c - bc) (flat b) in
  if length ra =? length rb then
    exists l, zip_list f (ZIter a b ac bc c) = Some l /\ zflat l = combine ra rb /\
              Forall (fun z => 0 < zs_len z) l
  else zip_list f (ZIter a b ac bc c) = None.
Proof.
  induction f as [|f IH]; intros a b ac bc c Ha Hb Hac Hbc Ea Eb Hf; [lia|].
  cbn zeta. cbn [zip_list]. unfold zip_next; cbn [z_a z_b z_ac z_bc z_consumed].
  destruct a as [|ga a], b as [|gb b].
  - cbn. rewrite !skipn_nil; cbn. exists []; cbn; auto.
  - cbn [flat]. rewrite skipn_nil. cbn [length].
    rewrite skipn_length, app_length, repeat_length.
    destruct (Nat.eqb_spec 0 (seg_len gb + length (flat b) - (c - bc))); [lia|]. reflexivity.
  - cbn [flat]. rewrite skipn_nil. cbn [length].
    rewrite skipn_length, app_length, repeat_length.
    destruct (Nat.eqb_spec (seg_len ga + length (flat a) - (c - ac)) 0); [lia|]. reflexivity.
  - inversion Ha as [|? ? Hga Ha']; inversion Hb as [|? ? Hgb Hb']; subst.
    cbn [flat]. rewrite !skipn_app, !skipn_repeat, !repeat_length.
    replace (c - ac - seg_len ga) with 0 by lia. replace (c - bc - seg_len gb) with 0 by lia.
    cbn [skipn]. rewrite !app_length, !repeat_length.
    cbn [length] in Hf.
    assert (Pa : forall x y, match a with [] => x = y | g :: _ => y - x < seg_len g end <->
              (a = [] -> x = y) /\ (forall g r, a = g :: r -> y - x < seg_len g)).
    { intros x y. destruct a as [|h t]; split.
      - intro; split; [auto|congruence].
      - intros [H _]; auto.
      - intro; split; [congruence|intros ? ? E0; inversion E0; subst; auto].
      - intros [_ H]; eauto. }
    assert (Pb : forall x y, match b with [] => x = y | g :: _ => y - x < seg_len g end <->
              (b = [] -> x = y) /\ (forall g r, b = g :: r -> y - x < seg_len g)).
    { intros x y. destruct b as [|h t]; split.
      - intro; split; [auto|congruence].
      - intros [H _]; auto.
      - intro; split; [congruence|intros ? ? E0; inversion E0; subst; auto].
      - intros [_ H]; eauto. }
    assert (Fa : forall g r, a = g :: r -> 0 < seg_len g) by (intros; subst; inversion Ha'; auto).
    assert (Fb : forall g r, b = g :: r -> 0 < seg_len g) by (intros; subst; inversion Hb'; auto).
    destruct (Nat.compare_spec (seg_len ga + ac) (seg_len gb + bc)) as [E|E|E]; cbn [bind].
    + specialize (IH a b (ac + seg_len ga) (bc + seg_len gb) (c + (ac + seg_len ga - c)) Ha' Hb'
                    ltac:(lia) ltac:(lia)).
      rewrite Pa, Pb in IH.
      specialize (IH ltac:(split; [lia|intros g r Hg; specialize (Fa g r Hg); lia])
                     ltac:(split; [lia|intros g r Hg; specialize (Fb g r Hg); lia]) ltac:(lia)).
      cbn zeta in IH.
      replace (c + (ac + seg_len ga - c) - (ac + seg_len ga)) with 0 in IH by lia.
      replace (c + (ac + seg_len ga - c) - (bc + seg_len gb)) with 0 in IH by lia.
      cbn [skipn] in IH.
      destruct (Nat.eqb_spec (length (flat a)) (length (flat b))).
      * destruct IH as (l & -> & Hz & Hp). cbn [bind].
        destruct (Nat.eqb_spec (seg_len ga - (c - ac) + length (flat a))
                    (seg_len gb - (c - bc) + length (flat b))); [|lia].
        eexists; split; [reflexivity|split].
        -- cbn. fold (zflat l). rewrite Hz. rewrite combine_app by (rewrite !repeat_length; lia).
           f_equal. replace (seg_len gb - (c - bc)) with (seg_len ga - (c - ac)) by lia.
           rewrite combine_repeat. f_equal. lia.
        -- constructor; cbn; auto; lia.
      * rewrite IH; cbn [bind].
        destruct (Nat.eqb_spec (seg_len ga - (c - ac) + length (flat a))
                    (seg_len gb - (c - bc) + length (flat b))); [lia|]. auto.
    + specialize (IH a (gb :: b) (ac + seg_len ga) bc (c + (ac + seg_len ga - c)) Ha' Hb
                    ltac:(lia) ltac:(lia)).
      rewrite Pa in IH.
      specialize (IH ltac:(split; [lia|intros g r Hg; specialize (Fa g r Hg); lia])
                     ltac:(cbn; lia) ltac:(cbn [length]; lia)).
      cbn zeta in IH.
      replace (c + (ac + seg_len ga - c) - (ac + seg_len ga)) with 0 in IH by lia.
      cbn [skipn flat] in IH. rewrite !skipn_app, !skipn_repeat, !repeat_length in IH.
      replace (c + (ac + seg_len ga - c) - bc - seg_len gb) with 0 in IH by lia. cbn [skipn] in IH.
      rewrite !app_length, !repeat_length in IH.
      destruct (Nat.eqb_spec (length (flat a))
        (seg_len gb - (c + (ac + seg_len ga - c) - bc) + length (flat b))).
      * destruct IH as (l & -> & Hz & Hp). cbn [bind].
        destruct (Nat.eqb_spec (seg_len ga - (c - ac) + length (flat a))
                    (seg_len gb - (c - bc) + length (flat b))); [|lia].
        eexists; split; [reflexivity|split].
        -- cbn. fold (zflat l). rewrite Hz.
           replace (seg_len gb - (c - bc)) with
             ((seg_len ga - (c - ac)) + (seg_len gb - (c + (ac + seg_len ga - c) - bc))) by lia.
           rewrite repeat_app, <- app_assoc.
           rewrite combine_app by (rewrite !repeat_length; lia).
           rewrite combine_repeat. do 2 f_equal. lia.
        -- constructor; cbn; auto; lia.
      * rewrite IH; cbn [bind].
        destruct (Nat.eqb_spec (seg_len ga - (c - ac) + length (flat a))
                    (seg_len gb - (c - bc) + length (flat b))); [lia|]. auto.
    + specialize (IH (ga :: a) b ac (bc + seg_len gb) (c + (bc + seg_len gb - c)) Ha Hb'
                    ltac:(lia) ltac:(lia)).
      rewrite Pb in IH.
      specialize (IH ltac:(cbn; lia)
                     ltac:(split; [lia|intros g r Hg; specialize (Fb g r Hg); lia])
                     ltac:(cbn [length]; lia)).
      cbn zeta in IH.
      replace (c + (bc + seg_len gb - c) - (bc + seg_len gb)) with 0 in IH by lia.
      cbn [skipn flat] in IH. rewrite !skipn_app, !skipn_repeat, !repeat_length in IH.
      replace (c + (bc + seg_len gb - c) - ac - seg_len ga) with 0 in IH by lia. cbn [skipn] in IH.
      rewrite !app_length, !repeat_length in IH.
      destruct (Nat.eqb_spec (seg_len ga - (c + (bc + seg_len gb - c) - ac) + length (flat a))
        (length (flat b))).
      * destruct IH as (l & -> & Hz & Hp). cbn [bind].
        destruct (Nat.eqb_spec (seg_len ga - (c - ac) + length (flat a))
                    (seg_len gb - (c - bc) + length (flat b))); [|lia].
        eexists; split; [reflexivity|split].
        -- cbn. fold (zflat l). rewrite Hz.
           replace (seg_len ga - (c - ac)) with
             ((seg_len gb - (c - bc)) + (seg_len ga - (c + (bc + seg_len gb - c) - ac))) by lia.
           rewrite repeat_app, <- app_assoc.
           rewrite combine_app by (rewrite !repeat_length; lia).
           rewrite combine_repeat. do 2 f_equal. lia.
        -- constructor; cbn; auto; lia.
      * rewrite IH; cbn [bind].
        destruct (Nat.eqb_spec (seg_len ga - (c - ac) + length (flat a))
                    (seg_len gb - (c - bc) + length (flat b))); [lia|]. auto.
Qed.

Lemma zip_list_of a b : all_pos a -> all_pos b ->
  if length (flat a) =? length (flat b) then
    exists l, zip_list (S (length a + length b)) (zip_of a b) = Some l /\
              zflat l = combine (flat a) (flat b) /\ Forall (fun z => 0 < zs_len z) l
  else zip_list (S (length a + length b)) (zip_of a b) = None.
Proof.
  intros Ha Hb. pose proof (zip_list_spec (S (length a + length b)) a b 0 0 0 Ha Hb) as H.
  cbn [skipn Nat.sub] in H. cbn zeta in H. apply H; auto; try lia.
  - destruct a; auto. inversion Ha; subst; lia.
  - destruct b; auto. inversion Hb; subst; lia.
Qed.

(** A zip operation that appends [f a b] (or nothing) for each pair. *)
Lemma zip_build_push a b (g : nat * nat -> option nat) body :
  canonical a -> canonical b -> length (flat a) = length (flat b) ->
  (forall sb z, bld_ok sb -> 0 < zs_len z ->
     match g (zs_a z, zs_b z) with
     | Some c => body sb z = push_segment sb (zs_len z) c
     | None => body sb z = Some sb
     end) ->
  exists r, zip_build a b body = Some r /\ canonical r /\
    flat r = flat_map (fun p => match g p with Some c => [c] | None => [] end)
                      (combine (flat a) (flat b)).
Proof.
  intros Ha Hb Hl Hbody. unfold zip_build. rewrite zip_for_foldM.
  pose proof (zip_list_of a b (canonical_all_pos _ Ha) (canonical_all_pos _ Hb)) as H.
  rewrite (proj2 (Nat.eqb_eq _ _) Hl) in H. destruct H as (l & -> & Hz & Hp). cbn [bind].
  rewrite <- Hz. clear Hz.
  enough (forall sb, bld_ok sb -> exists sb', foldM body sb l = Some sb' /\ bld_ok sb' /\
     flat (build sb') = flat (build sb) ++
       flat_map (fun p => match g p with Some c => [c] | None => [] end) (zflat l)) as Hk.
  { destruct (Hk builder_new bld_ok_new) as (sb' & -> & [Hc _] & Hf). cbn.
    eexists; split; [reflexivity|]. auto. }
  induction Hp as [|z l Hz Hp IH]; intros sb Hsb.
  - cbn. exists sb; rewrite app_nil_r; auto.
  - cbn [foldM]. specialize (Hbody sb z Hsb Hz).
    unfold zflat; cbn [flat_map]; fold (zflat l). rewrite flat_map_app.
    destruct (g (zs_a z, zs_b z)) as [c|] eqn:Eg.
    + destruct (push_segment_ok sb (zs_len z) c Hsb Hz) as (sb1 & E1 & Hsb1 & Hf1).
      rewrite Hbody, E1. cbn [bind]. destruct (IH sb1 Hsb1) as (sb' & -> & Hsb' & Hf').
      exists sb'; split; auto; split; auto. rewrite Hf', Hf1, <- app_assoc. f_equal. f_equal.
      clear - Eg. induction (zs_len z); cbn; auto. rewrite Eg; cbn. f_equal; auto.
    + rewrite Hbody; cbn [bind]. destruct (IH sb Hsb) as (sb' & -> & Hsb' & Hf').
      exists sb'; split; auto; split; auto. rewrite Hf'. f_equal.
      replace (flat_map _ (repeat _ _)) with (@nil nat); auto.
      clear - Eg. induction (zs_len z); cbn; auto. rewrite Eg; cbn. auto.
Qed.

Lemma zip_build_mismatch a b body :
  canonical a -> canonical b -> length (flat a) <> length (flat b) -> zip_build a b body = None.
Proof.
  intros Ha Hb Hl. unfold zip_build. rewrite zip_for_foldM.
  pose proof (zip_list_of a b (canonical_all_pos _ Ha) (canonical_all_pos _ Hb)) as H.
  rewrite (proj2 (Nat.eqb_neq _ _) Hl) in H. rewrite H; auto.
Qed.

Lemma union_ok a b : canonical a -> canonical b -> length (flat a) = length (flat b) ->
  exists r, union a b = Some r /\ canonical r /\ flat r = zipw Nat.add (flat a) (flat b).
Proof.
  intros Ha Hb Hl.
  destruct (zip_build_push a b (fun p => Some (fst p + snd p))
     (fun sb z => push_segment sb (zs_len z) (zs_a z + zs_b z)) Ha Hb Hl) as (r & E & Hc & Hf); auto.
  exists r; split; [exact E|split; [exact Hc|exact Hf]].
Qed.

Lemma bitxor_ok a b : canonical a -> canonical b -> length (flat a) = length (flat b) ->
  exists r, bitxor a b = Some r /\ canonical r /\ flat r = zipw Nat.lxor (flat a) (flat b).
Proof.
  intros Ha Hb Hl.
  destruct (zip_build_push a b (fun p => Some (Nat.lxor (fst p) (snd p)))
     (fun sb z => push_segment sb (zs_len z) (Nat.lxor (zs_a z) (zs_b z))) Ha Hb Hl) as (r & E & Hc & Hf); auto.
  exists r; split; [exact E|split; [exact Hc|exact Hf]].
Qed.

Lemma zkept (a b : list nat) : length a = length b ->
  flat_map (fun p => match (if snd p =? 0 then Some (fst p) else None) with
                     | Some c => [c] | None => [] end) (combine a b) = kept b a.
Proof.
  revert b; induction a as [|x a IH]; intros [|y b]; cbn; intros; try lia; auto.
  destruct (y =? 0); cbn; rewrite IH; auto.
Qed.

Lemma transform_shrink_ok a b : canonical a -> canonical b -> length (flat a) = length (flat b) ->
  exists r, transform_shrink a b = Some r /\ canonical r /\ flat r = kept (flat b) (flat a).
Proof.
  intros Ha Hb Hl.
  destruct (zip_build_push a b (fun p => if snd p =? 0 then Some (fst p) else None)
     (fun sb z => if zs_b z =? 0 then push_segment sb (zs_len z) (zs_a z) else Some sb) Ha Hb Hl)
     as (r & E & Hc & Hf); auto.
  - intros sb z _ _. cbn. destruct (zs_b z =? 0); auto.
  - exists r; repeat split; auto. rewrite Hf. now apply zkept.
Qed.

Lemma foldM_None_in {S X} (f : S -> X -> option S) l x :
  In x l -> (forall s, f s x = None) -> forall s, foldM f s l = None.
Proof.
  induction l as [|y l IH]; cbn; [tauto|]. intros [->|Hi] Hf s; [now rewrite Hf|].
  destruct (f s y); cbn; auto.
Qed.

Lemma zip_fold_push l body (g : nat * nat -> option nat) :
  Forall (fun z => 0 < zs_len z) l ->
  (forall z sb, In z l -> bld_ok sb ->
     match g (zs_a z, zs_b z) with
     | Some c => body sb z = push_segment sb (zs_len z) c
     | None => body sb z = Some sb
     end) ->
  forall sb, bld_ok sb -> exists sb', foldM body sb l = Some sb' /\ bld_ok sb' /\
     flat (build sb') = flat (build sb) ++
       flat_map (fun p => match g p with Some c => [c] | None => [] end) (zflat l).
Proof.
  intros Hp. induction Hp as [|z l Hz Hp IH]; intros Hb sb Hsb.
  - cbn. exists sb; rewrite app_nil_r; auto.
  - cbn [foldM]. pose proof (Hb z sb (or_introl eq_refl) Hsb) as Hbody.
    unfold zflat; cbn [flat_map]; fold (zflat l). rewrite flat_map_app.
    assert (Hb' : forall z sb, In z l -> bld_ok sb ->
     match g (zs_a z, zs_b z) with
     | Some c => body sb z = push_segment sb (zs_len z) c
     | None => body sb z = Some sb
     end) by (intros; apply Hb; cbn; auto).
    destruct (g (zs_a z, zs_b z)) as [c|] eqn:Eg.
    + destruct (push_segment_ok sb (zs_len z) c Hsb Hz) as (sb1 & E1 & Hsb1 & Hf1).
      rewrite Hbody, E1. cbn [bind]. destruct (IH Hb' sb1 Hsb1) as (sb' & -> & Hsb' & Hf').
      exists sb'; split; auto; split; auto. rewrite Hf', Hf1, <- app_assoc. f_equal. f_equal.
      clear - Eg. induction (zs_len z); cbn; auto. rewrite Eg; cbn. f_equal; auto.
    + rewrite Hbody; cbn [bind]. destruct (IH Hb' sb Hsb) as (sb' & -> & Hsb' & Hf').
      exists sb'; split; auto; split; auto. rewrite Hf'. f_equal.
      replace (flat_map _ (repeat _ _)) with (@nil nat); auto.
      clear - Eg. induction (zs_len z); cbn; auto. rewrite Eg; cbn. auto.
Qed.

Definition dominated (b a : list nat) := Forall (fun p => snd p <= fst p) (combine a b).

Lemma subtract_ok a b : canonical a -> canonical b -> length (flat a) = length (flat b) ->
  dominated (flat b) (flat a) ->
  exists r, subtract a b = Some r /\ canonical r /\ flat r = zipw Nat.sub (flat a) (flat b).
Proof.
  intros Ha Hb Hl Hd. unfold subtract, zip_build. rewrite zip_for_foldM.
  pose proof (zip_list_of a b (canonical_all_pos _ Ha) (canonical_all_pos _ Hb)) as H.
  rewrite (proj2 (Nat.eqb_eq _ _) Hl) in H. destruct H as (l & -> & Hz & Hp). cbn [bind].
  destruct (zip_fold_push l (fun (sb : builder) (z : zip_segment) =>
     if zs_a z <? zs_b z then None else push_segment sb (zs_len z) (zs_a z - zs_b z))
     (fun p => Some (fst p - snd p)) Hp) with (sb := builder_new) as (sb' & -> & [Hc _] & Hf).
  - intros z sb Hi _. cbn [fst snd]. destruct (Nat.ltb_spec (zs_a z) (zs_b z)); auto. exfalso.
    unfold dominated in Hd. rewrite <- Hz in Hd. rewrite Forall_forall in Hd, Hp.
    specialize (Hd (zs_a z, zs_b z)). cbn in Hd. cut (zs_b z <= zs_a z); [lia|]. apply Hd.
    unfold zflat. apply in_flat_map. exists z; split; auto.
    specialize (Hp z Hi). destruct (zs_len z); [lia|]. cbn; auto.
  - apply bld_ok_new.
  - cbn [bind]. eexists; split; [reflexivity|]. split; auto. rewrite Hf, Hz. unfold zipw; cbn.
    now rewrite <- flat_map_single.
Qed.

(** ** new, complement, count *)
Lemma builder_new_flat : flat (build builder_new) = [].
Proof. reflexivity. Qed.

Lemma pad_to_len_ok sb n : bld_ok sb -> exists sb', pad_to_len sb n = Some sb' /\ bld_ok sb' /\
  flat (build sb') = flat (build sb) ++ repeat 0 (n - length (flat (build sb))).
Proof.
  intros Hsb. unfold pad_to_len. pose proof Hsb as [_ Ht]. unfold build. rewrite <- Ht.
  destruct (Nat.ltb_spec (b_total sb) n).
  - destruct (push_segment_ok sb (n - b_total sb) 0 Hsb ltac:(lia)) as (sb' & E & H1 & H2). eauto.
  - exists sb; split; auto; split; auto. replace (n - b_total sb) with 0 by lia. cbn. now rewrite app_nil_r.
Qed.

Lemma subset_new_ok n : exists r, subset_new n = Some r /\ canonical r /\ flat r = repeat 0 n.
Proof.
  unfold subset_new. destruct (pad_to_len_ok builder_new n bld_ok_new) as (sb & -> & [Hc _] & Hf).
  cbn [bind]. eexists; split; [reflexivity|]. split; auto. rewrite Hf. cbn. f_equal. lia.
Qed.

Lemma add_range_ok sb b e c : bld_ok sb -> b_total sb <= b -> exists sb', add_range sb b e c = Some sb' /\
  bld_ok sb' /\ flat (build sb') = flat (build sb) ++
     (if e <=? b then [] else repeat 0 (b - b_total sb) ++ repeat c (e - b)).
Proof.
  intros Hsb Hb. unfold add_range. destruct (Nat.ltb_spec b (b_total sb)); [lia|].
  destruct (Nat.leb_spec e b); [exists sb; rewrite app_nil_r; auto|].
  destruct (Nat.ltb_spec (b_total sb) b).
  - destruct (push_segment_ok sb (b - b_total sb) 0 Hsb ltac:(lia)) as (sb1 & -> & H1' & H2').
    cbn [bind]. destruct (push_segment_ok sb1 (e - b) c H1' ltac:(lia)) as (sb2 & -> & H3 & H4).
    eexists; split; [reflexivity|]. split; auto. now rewrite H4, H2', app_assoc.
  - cbn [bind]. destruct (push_segment_ok sb (e - b) c Hsb ltac:(lia)) as (sb2 & -> & H3 & H4).
    eexists; split; [reflexivity|]. split; auto. rewrite H4. replace (b - b_total sb) with 0 by lia. auto.
Qed.

Lemma complement_loop_ok l : all_pos l -> forall sb, bld_ok sb ->
  exists sb', complement_loop l sb = Some sb' /\ bld_ok sb' /\
    flat (build sb') = flat (build sb) ++ map (fun k => if k =? 0 then 1 else 0) (flat l).
Proof.
  induction 1 as [|g l Hg Hl IH]; intros sb Hsb; cbn [complement_loop flat].
  - exists sb; cbn; rewrite app_nil_r; auto.
  - destruct (push_segment_ok sb (seg_len g) (if seg_count g =? 0 then 1 else 0) Hsb Hg)
      as (sb1 & -> & H1 & H2). cbn [bind].
    destruct (IH sb1 H1) as (sb' & -> & H3 & H4). exists sb'; split; auto; split; auto.
    rewrite H4, H2, map_app, map_repeat, app_assoc. reflexivity.
Qed.

Lemma complement_ok s : canonical s -> exists r, complement s = Some r /\ canonical r /\
  flat r = map (fun k => if k =? 0 then 1 else 0) (flat s).
Proof.
  intros Hs. unfold complement.
  destruct (complement_loop_ok s (canonical_all_pos _ Hs) builder_new bld_ok_new) as (sb & -> & [Hc _] & Hf).
  cbn [bind]. eexists; split; [reflexivity|]; auto.
Qed.

Lemma count_ok s m : count s m = length (filter (matchc m) (flat s)).
Proof.
  induction s as [|g s IH]; cbn; auto. rewrite filter_app, app_length, IH.
  f_equal. clear. replace (matches m g) with (matchc m (seg_count g)) by (destruct m; reflexivity).
  destruct (matchc m (seg_count g)) eqn:E; induction (seg_len g); cbn; rewrite ?E; cbn; auto.
Qed.

Lemma subset_len_ok s : subset_len s = length (flat s).
Proof. unfold subset_len. rewrite count_ok. cbn. now rewrite filter_true. Qed.

Lemma len_after_delete_ok s : len_after_delete s = zeros (flat s).
Proof. unfold len_after_delete. now rewrite count_ok. Qed.

Lemma is_empty_ok s : canonical s -> is_empty s = true <-> Forall (fun k => k = 0) (flat s).
Proof.
  intros Hs. destruct s as [|g [|h s]]; cbn.
  - split; auto.
  - rewrite app_nil_r, Nat.eqb_eq. destruct Hs as (Hl & _). split.
    + intros ->. apply Forall_forall. intros x Hx. now apply repeat_spec in Hx.
    + intros H. destruct (seg_len g); [lia|]. cbn in H. inversion H; auto.
  - split; [discriminate|]. intros H. exfalso. destruct Hs as (Hl & Hn & Hh & _).
    destruct g as [[|gl] gc], h as [[|hl] hc]; cbn in *; try lia.
    inversion H as [|? ? H0 H1]; subst. apply Forall_app in H1 as [_ H1]. inversion H1; subst. congruence.
Qed.

Lemma is_empty_repeat s : canonical s -> is_empty s = true -> flat s = repeat 0 (length (flat s)).
Proof.
  intros Hs He. apply is_empty_ok in He; auto. induction He; cbn; f_equal; auto.
Qed.

(** ** delete_from *)
Lemma ranges_from_shift l c m : ranges_from l c m =
  map (fun p => (c + fst p, c + snd p)) (ranges_from l 0 m).
Proof.
  revert c; induction l as [|g l IH]; intros c; cbn; auto.
  rewrite (IH (c + seg_len g)), (IH (seg_len g)).
  destruct (matches m g); cbn; [f_equal; [f_equal; lia|]|]; rewrite map_map; apply map_ext;
    intros; cbn; f_equal; lia.
Qed.

Lemma slice_shift {A} (p s : list A) b e : slice (p ++ s) (length p + b) (length p + e) = slice s b e.
Proof.
  unfold slice. f_equal; [lia|]. rewrite skipn_app, skipn_all2 by lia. cbn. f_equal; lia.
Qed.

Lemma push_ranges_shift {A} (p s : list A) rs :
  push_ranges (map (fun r => (length p + fst r, length p + snd r)) rs) (p ++ s) = push_ranges rs s.
Proof.
  induction rs as [|[b e] rs IH]; cbn [map push_ranges fst snd]; auto.
  rewrite IH, slice_shift, app_length.
  destruct (Nat.leb_spec b e), (Nat.leb_spec (length p + b) (length p + e)); cbn; try lia; auto.
  destruct (Nat.leb_spec e (length s)), (Nat.leb_spec (length p + e) (length p + length s)); cbn; try lia; auto.
Qed.

Lemma kept_app {A} c c' (s s' : list A) : length c = length s ->
  kept (c ++ c') (s ++ s') = kept c s ++ kept c' s'.
Proof.
  revert s; induction c as [|k c IH]; intros [|x s]; cbn; intros; try lia; auto.
  destruct (k =? 0); cbn; rewrite IH; auto.
Qed.

Lemma kept_repeat {A} k (s : list A) : kept (repeat k (length s)) s = if k =? 0 then s else [].
Proof.
  induction s as [|x s IH]; cbn; [now destruct (k =? 0)|]. destruct (k =? 0); cbn; auto. now rewrite IH.
Qed.

Lemma delete_from_ok {A} d (s : list A) : length (flat d) = length s ->
  delete_from d s = Some (kept (flat d) s).
Proof.
  unfold delete_from, ranges. revert s; induction d as [|g d IH]; intros s Hl; [destruct s; auto|].
  cbn [flat] in *. rewrite app_length, repeat_length in Hl.
  rewrite <- (firstn_skipn (seg_len g) s).
  assert (Hf : length (firstn (seg_len g) s) = seg_len g) by (rewrite firstn_length; lia).
  set (p := firstn (seg_len g) s) in *. set (q := skipn (seg_len g) s).
  assert (Hq : length (flat d) = length q) by (unfold q; rewrite skipn_length; lia).
  rewrite <- Hf. rewrite kept_app by (now rewrite repeat_length). rewrite kept_repeat.
  cbn [ranges_from]. rewrite ranges_from_shift. cbn [matches].
  rewrite Nat.add_0_l. rewrite <- !Hf.
  destruct (seg_count g =? 0).
  - cbn [push_ranges]. rewrite push_ranges_shift, IH by auto. cbn [bind].
    rewrite app_length. replace (length p - length p) with 0 by lia.
    destruct (Nat.leb_spec 0 (length p)); [|lia].
    destruct (Nat.leb_spec (length p) (length p + length q)); [|lia]. cbn [andb].
    unfold slice. cbn [skipn]. rewrite Nat.sub_0_r, firstn_app, firstn_all.
    replace (length p - length p) with 0 by lia. cbn. now rewrite app_nil_r.
  - rewrite push_ranges_shift, IH; auto.
Qed.

(** ** transform *)
Definition tpending (st : tstate) : list nat :=
  repeat (seg_count (t_cur st)) (seg_len (t_cur st)) ++ flat (t_iter st).

Lemma transform_fill_ok f : forall st tbc,
  bld_ok (t_sb st) -> all_pos (t_iter st) ->
  (if seg_len (t_cur st) =? 0 then 0 else 1) + length (t_iter st) < f ->
  if tbc <=? length (tpending st) then
    exists st', transform_fill f st tbc = Some st' /\ bld_ok (t_sb st') /\ all_pos (t_iter st') /\
      flat (build (t_sb st')) = flat (build (t_sb st)) ++ firstn tbc (tpending st) /\
      tpending st' = skipn tbc (tpending st)
  else transform_fill f st tbc = None.
Proof.
  induction f as [|f IH]; intros st tbc Hsb Hit Hf; [lia|].
  cbn [transform_fill]. destruct (Nat.eqb_spec tbc 0) as [->|Ht].
  { cbn. exists st. cbn [firstn skipn]. rewrite app_nil_r. auto. }
  assert (Hmain : forall st1, bld_ok (t_sb st1) -> all_pos (t_iter st1) -> 0 < seg_len (t_cur st1) ->
    length (t_iter st1) < f ->
    if tbc <=? length (tpending st1) then
    exists st', (let c := Nat.min (seg_len (t_cur st1)) tbc in
      let? sb' := push_segment (t_sb st1) c (seg_count (t_cur st1)) in
      transform_fill f (TState sb' (t_iter st1) (Seg (seg_len (t_cur st1) - c) (seg_count (t_cur st1))))
          (tbc - c)) = Some st' /\ bld_ok (t_sb st') /\ all_pos (t_iter st') /\
      flat (build (t_sb st')) = flat (build (t_sb st1)) ++ firstn tbc (tpending st1) /\
      tpending st' = skipn tbc (tpending st1)
    else (let c := Nat.min (seg_len (t_cur st1)) tbc in
      let? sb' := push_segment (t_sb st1) c (seg_count (t_cur st1)) in
      transform_fill f (TState sb' (t_iter st1) (Seg (seg_len (t_cur st1) - c) (seg_count (t_cur st1))))
          (tbc - c)) = None).
  { intros st1 Hsb1 Hit1 Hcur Hf1. cbn zeta.
    set (c := Nat.min (seg_len (t_cur st1)) tbc).
    destruct (push_segment_ok (t_sb st1) c (seg_count (t_cur st1)) Hsb1 ltac:(unfold c; lia))
      as (sb' & -> & Hsb' & Hfl). cbn [bind].
    set (st2 := TState sb' (t_iter st1) (Seg (seg_len (t_cur st1) - c) (seg_count (t_cur st1)))).
    assert (Hp : tpending st1 = repeat (seg_count (t_cur st1)) c ++ tpending st2).
    { unfold tpending, st2; cbn [t_cur t_iter seg_count seg_len].
      rewrite app_assoc, <- repeat_app. do 2 f_equal. unfold c; lia. }
    destruct (Nat.le_gt_cases tbc (seg_len (t_cur st1))) as [Hle|Hgt].
    - (* finishes within the current segment *)
      assert (Ec : c = tbc) by (unfold c; lia).
      assert (Hl : tbc <= length (tpending st1)) by (rewrite Hp, app_length, repeat_length; lia).
      rewrite (proj2 (Nat.leb_le _ _) Hl). replace (tbc - c) with 0 by lia.
      destruct f as [|f]; [lia|]. cbn [transform_fill Nat.eqb].
      exists st2. repeat split; auto; try apply Hsb'.
      + unfold st2; cbn [t_sb]. rewrite Hfl, Hp, Ec, firstn_app, repeat_length.
        replace (tbc - tbc) with 0 by lia. cbn. rewrite app_nil_r.
        f_equal. rewrite firstn_all2; auto. rewrite repeat_length; auto.
      + rewrite Hp, Ec, skipn_app, repeat_length. replace (tbc - tbc) with 0 by lia. cbn.
        rewrite skipn_all2; auto. rewrite repeat_length; auto.
    - assert (Ec : c = seg_len (t_cur st1)) by (unfold c; lia).
      specialize (IH st2 (tbc - c) Hsb' Hit1).
      assert (Hz : seg_len (t_cur st2) = 0) by (unfold st2; cbn; lia). rewrite Hz in IH.
      cbn [Nat.eqb] in IH. specialize (IH ltac:(unfold st2; cbn; lia)).
      rewrite Hp, app_length, repeat_length.
      destruct (Nat.leb_spec (tbc - c) (length (tpending st2))), (Nat.leb_spec tbc (c + length (tpending st2))); try lia; auto.
      destruct IH as (st' & -> & H1 & H2 & H3 & H4). exists st'. repeat split; auto; try apply H1.
      + rewrite H3. unfold st2 at 1; cbn [t_sb]. rewrite Hfl, <- app_assoc. f_equal.
        rewrite firstn_app, repeat_length. f_equal. rewrite firstn_all2; auto. rewrite repeat_length; lia.
      + rewrite H4, skipn_app, repeat_length. rewrite (skipn_all2 (n:=tbc) (repeat (seg_count (t_cur st1)) c)) by (rewrite repeat_length; lia). auto. }
  destruct (Nat.eqb_spec (seg_len (t_cur st)) 0) as [Hz|Hz].
  - destruct st as [sb it cur]; cbn [t_sb t_iter t_cur] in *. destruct it as [|g it].
    + cbn [bind]. unfold tpending; cbn [t_cur t_iter flat]. rewrite Hz. cbn.
      destruct (Nat.leb_spec tbc 0); [lia|auto].
    + cbn [bind]. inversion Hit; subst.
      specialize (Hmain (TState sb it g) Hsb ltac:(auto) ltac:(auto) ltac:(cbn in *; lia)).
      replace (tpending (TState sb (g :: it) cur)) with (tpending (TState sb it g)); auto.
      unfold tpending; cbn. now rewrite Hz.
  - cbn [bind]. apply Hmain; auto; lia.
Qed.


Lemma spread_zeros u s n o : n <= length s ->
  spread u s (repeat 0 n ++ o) = firstn n s ++ spread u (skipn n s) o.
Proof.
  revert s; induction n; intros s H; cbn; auto. destruct s as [|c s]; cbn in *; [lia|].
  rewrite IHn by lia. auto.
Qed.

Lemma spread_nonzeros u s n k o :
  spread u s (repeat (S k) n ++ o) = repeat (if u then S k else 0) n ++ spread u s o.
Proof. induction n; cbn; auto. now rewrite IHn. Qed.

Lemma zeros_app a b : zeros (a ++ b) = zeros a + zeros b.
Proof. unfold zeros. now rewrite filter_app, app_length. Qed.
Lemma zeros_repeat k n : zeros (repeat k n) = if k =? 0 then n else 0.
Proof. unfold zeros. induction n; cbn; [now destruct (k =? 0)|]. destruct (k =? 0); cbn; lia. Qed.

Lemma transform_loop_ok o : all_pos o -> forall u st, bld_ok (t_sb st) -> all_pos (t_iter st) ->
  if zeros (flat o) <=? length (tpending st) then
    exists st', transform_loop o u st = Some st' /\ bld_ok (t_sb st') /\ all_pos (t_iter st') /\
      flat (build (t_sb st')) = flat (build (t_sb st)) ++ spread u (tpending st) (flat o) /\
      tpending st' = skipn (zeros (flat o)) (tpending st)
  else transform_loop o u st = None.
Proof.
  induction 1 as [|g o Hg Ho IH]; intros u st Hsb Hit.
  { cbn. exists st. rewrite app_nil_r. auto. }
  cbn [transform_loop flat]. rewrite zeros_app, zeros_repeat.
  destruct (Nat.ltb_spec 0 (seg_count g)) as [Hc|Hc].
  - destruct (push_segment_ok (t_sb st) (seg_len g) (if u then seg_count g else 0) Hsb Hg)
      as (sb1 & -> & H1 & H2). cbn [bind].
    destruct (Nat.eqb_spec (seg_count g) 0); [lia|]. cbn [Nat.add].
    specialize (IH u (TState sb1 (t_iter st) (t_cur st)) H1 Hit). unfold tpending in *; cbn [t_sb t_iter t_cur] in *.
    destruct (zeros (flat o) <=? _); auto.
    destruct IH as (st' & -> & H3 & H4 & H5 & H6). exists st'. repeat split; auto; try apply H3.
    rewrite H5, H2, <- app_assoc. f_equal. destruct (seg_count g) as [|k]; [lia|]. now rewrite spread_nonzeros.
  - assert (Ez : seg_count g = 0) by lia. rewrite Ez. cbn [Nat.eqb].
    pose proof (transform_fill_ok (S (S (length (t_iter st)))) st (seg_len g) Hsb Hit
      ltac:(destruct (_ =? 0); lia)) as HF.
    destruct (Nat.leb_spec (seg_len g) (length (tpending st))) as [Hle|Hgt].
    + destruct HF as (st1 & -> & H1 & H2 & H3 & H4). cbn [bind].
      specialize (IH u st1 H1 H2). rewrite H4, skipn_length in IH.
      destruct (Nat.leb_spec (zeros (flat o)) (length (tpending st) - seg_len g)),
        (Nat.leb_spec (seg_len g + zeros (flat o)) (length (tpending st))); try lia; auto.
      destruct IH as (st' & -> & H5 & H6 & H7 & H8). exists st'. repeat split; auto; try apply H5.
      * rewrite H7, H3, <- app_assoc. f_equal. now rewrite spread_zeros.
      * rewrite H8. now rewrite skipn_skipn.
    + rewrite HF. cbn [bind]. destruct (Nat.leb_spec (seg_len g + zeros (flat o)) (length (tpending st))); [lia|auto].
Qed.

Lemma tpending_nil st : all_pos (t_iter st) ->
  (seg_len (t_cur st) =? 0) && (match t_iter st with [] => true | _ => false end) =
  (length (tpending st) =? 0).
Proof.
  intros H. unfold tpending. rewrite app_length, repeat_length.
  destruct (t_iter st) as [|g l]; cbn [flat length]; [rewrite Nat.add_0_r, andb_true_r; auto|].
  inversion H; subst. rewrite app_length, repeat_length, andb_false_r.
  symmetry; apply Nat.eqb_neq; lia.
Qed.

Lemma transform_ok s o u : canonical s -> canonical o ->
  if length (flat s) =? zeros (flat o) then
    exists r, transform s o u = Some r /\ canonical r /\ flat r = spread u (flat s) (flat o)
  else transform s o u = None.
Proof.
  intros Hs Ho. unfold transform.
  pose proof (transform_loop_ok o (canonical_all_pos _ Ho) u (TState builder_new s (Seg 0 0))
    bld_ok_new (canonical_all_pos _ Hs)) as H.
  replace (tpending (TState builder_new s (Seg 0 0))) with (flat s) in H by reflexivity.
  destruct (Nat.leb_spec (zeros (flat o)) (length (flat s))).
  - destruct H as (st & -> & [Hc _] & Hi & Hf & Hp). cbn [bind]. rewrite tpending_nil by auto.
    rewrite Hp, skipn_length.
    destruct (Nat.eqb_spec (length (flat s)) (zeros (flat o))),
      (Nat.eqb_spec (length (flat s) - zeros (flat o)) 0); try lia; auto.
    eexists; split; [reflexivity|]; auto.
  - rewrite H; cbn [bind]. destruct (Nat.eqb_spec (length (flat s)) (zeros (flat o))); [lia|auto].
Qed.

Lemma transform_expand_ok s o : canonical s -> canonical o -> length (flat s) = zeros (flat o) ->
  exists r, transform_expand s o = Some r /\ canonical r /\ flat r = spread false (flat s) (flat o).
Proof.
  intros Hs Ho E. pose proof (transform_ok s o false Hs Ho) as H.
  rewrite (proj2 (Nat.eqb_eq _ _) E) in H. auto.
Qed.
Lemma transform_union_ok s o : canonical s -> canonical o -> length (flat s) = zeros (flat o) ->
  exists r, transform_union s o = Some r /\ canonical r /\ flat r = spread true (flat s) (flat o).
Proof.
  intros Hs Ho E. pose proof (transform_ok s o true Hs Ho) as H.
  rewrite (proj2 (Nat.eqb_eq _ _) E) in H. auto.
Qed.

(** ** Mapper *)
Lemma rank_app m a b k : rank m (a ++ b) (length a + k) = rank m a (length a) + rank m b k.
Proof.
  unfold rank. rewrite firstn_app_2, filter_app, app_length, firstn_all. reflexivity.
Qed.

Lemma rank_prefix m a b : rank m (a ++ b) (length a) = rank m a (length a).
Proof. rewrite <- (Nat.add_0_r (length a)) at 1. rewrite rank_app. unfold rank at 2. cbn. lia. Qed.

Lemma rank_repeat m c n k : k <= n -> rank m (repeat c n) k = if matchc m c then k else 0.
Proof.
  intros H. unfold rank. rewrite firstn_repeat, Nat.min_l by lia.
  clear H. induction k; cbn; [now destruct (matchc m c)|]. destruct (matchc m c); cbn; lia.
Qed.

Lemma matches_matchc m g : matches m g = matchc m (seg_count g).
Proof. destruct m; reflexivity. Qed.

Definition none_match m (l : list segment) := Forall (fun g => matches m g = false) l.

Lemma rank_none m l k : none_match m l -> rank m (flat l) k = 0.
Proof.
  unfold rank. intros H. replace (filter (matchc m) (firstn k (flat l))) with (@nil nat); auto.
  symmetry. revert k; induction H as [|g l Hg Hl IH]; intros k; cbn; [now rewrite firstn_nil|].
  rewrite firstn_app, filter_app, IH, app_nil_r. rewrite matches_matchc in Hg.
  rewrite firstn_repeat. generalize (Nat.min k (seg_len g)). intros n. induction n; cbn; auto. now rewrite Hg.
Qed.

Lemma range_next_spec m l c :
  match range_next_aux l c m with
  | (Some (b, e), RIter l' c' m') =>
      exists sk g, l = sk ++ g :: l' /\ none_match m sk /\ matches m g = true /\
        b = c + length (flat sk) /\ e = b + seg_len g /\ c' = e /\ m' = m
  | (None, RIter l' c' m') => l' = [] /\ none_match m l /\ m' = m
  end.
Proof.
  revert c; induction l as [|g l IH]; intros c; cbn; [repeat constructor|].
  destruct (matches m g) eqn:E.
  - exists [], g. cbn. repeat split; auto; try constructor; lia.
  - specialize (IH (c + seg_len g)).
    destruct (range_next_aux l (c + seg_len g) m) as [[[b e]|] [l' c' m']].
    + destruct IH as (sk & h & -> & H1 & H2 & H3 & H4 & H5 & H6).
      exists (g :: sk), h. cbn. rewrite app_length, repeat_length. repeat split; auto; try lia.
      constructor; auto.
    + destruct IH as (H1 & H2 & H3). repeat split; auto. constructor; auto.
Qed.

Definition mp_inv (s : subset) (m : matcher) (lo : nat) (mp : mapper) : Prop :=
  ri_m (mp_ri mp) = m /\
  match mp_cur mp with
  | Some (b, e) =>
      (exists pre, s = pre ++ ri_segs (mp_ri mp) /\ length (flat pre) = e /\
                   ri_consumed (mp_ri mp) = e) /\
      b <= e /\ lo <= e /\
      forall j, lo <= j -> j <= e -> rank m (flat s) j = if b <=? j then mp_consumed mp + (j - b) else mp_consumed mp
  | None => forall j, lo <= j -> rank m (flat s) j = mp_consumed mp
  end.

Lemma mapper_of_inv s m : mp_inv s m 0 (mapper_of s m).
Proof.
  split; [reflexivity|]. cbn. split; [exists []; auto|]. repeat split; auto.
  intros j _ Hj. replace j with 0 by lia. reflexivity.
Qed.

Lemma mapper_advance_ok s m f : forall mp lo i,
  mp_inv s m lo mp -> lo <= i -> length (ri_segs (mp_ri mp)) + 1 < f ->
  exists early mp', mapper_advance f mp i = Some (early, mp') /\ mp_last mp' = mp_last mp /\
    mp_inv s m i mp' /\ (forall b e, mp_cur mp' = Some (b, e) -> i < e) /\
    (early = true -> mp_cur mp' = None).
Proof.
  induction f as [|f IH]; intros mp lo i (Hm & Hinv) Hlo Hf; [lia|].
  cbn [mapper_advance]. destruct (mp_cur mp) as [[b e]|] eqn:Ecur.
  2:{ exists false, mp. repeat split; auto; rewrite ?Ecur; try congruence. intros; apply Hinv; lia. }
  destruct Hinv as ((pre & Hs & Hpre & Hcons) & Hbe & Hle & Hrank).
  destruct (Nat.leb_spec e i) as [Hei|Hei].
  2:{ exists false, mp. split; [auto|]. split; [auto|]. split; [|split; [|congruence]].
      - split; [auto|]. rewrite Ecur. split; [eauto|]. split; [lia|]. split; [lia|].
        intros; apply Hrank; lia.
      - intros b' e' E; congruence || (rewrite Ecur in E; injection E as <- <-; auto). }
  pose proof (Hrank e ltac:(lia) ltac:(lia)) as Re.
  rewrite (proj2 (Nat.leb_le _ _) Hbe) in Re.
  unfold range_next. rewrite Hm. pose proof (range_next_spec m (ri_segs (mp_ri mp)) (ri_consumed (mp_ri mp))) as HR.
  destruct (range_next_aux (ri_segs (mp_ri mp)) (ri_consumed (mp_ri mp)) m) as [[[b' e']|] [l' c' m']].
  - destruct HR as (sk & g & El & Hsk & Hg & Hb' & He' & -> & ->).
    destruct (IH (Mp (RIter l' e' m) (mp_last mp) (Some (b', e')) (mp_consumed mp + (e - b))) e i)
      as (early & mp' & E & HH); auto.
    + split; [reflexivity|]. cbn [mp_cur mp_ri ri_segs ri_consumed mp_consumed]. split.
      { exists (pre ++ sk ++ [g]). rewrite Hs, El. rewrite <- !app_assoc. cbn. split; auto.
        rewrite !flat_app, !app_length. cbn. rewrite app_nil_r, repeat_length. split; auto. lia. }
      split; [lia|]. split; [lia|]. intros j Hj1 Hj2.
      rewrite Hs, El, flat_app. replace j with (length (flat pre) + (j - e)) by lia.
      rewrite rank_app.
      assert (Rp : rank m (flat pre) (length (flat pre)) = mp_consumed mp + (e - b)).
      { rewrite <- Re, Hs, flat_app, <- Hpre. symmetry; apply rank_prefix. }
      rewrite Rp. replace (length (flat pre) + (j - e)) with j by lia.
      rewrite flat_app. cbn [flat]. destruct (Nat.leb_spec b' j).
      * replace (j - e) with (length (flat sk) + (j - b')) by lia. rewrite rank_app, rank_none by auto.
        rewrite Nat.add_0_l. unfold rank. rewrite firstn_app, repeat_length.
        replace (j - b' - seg_len g) with 0 by lia. rewrite firstn_O, app_nil_r.
        fold (rank m (repeat (seg_count g) (seg_len g)) (j - b')). rewrite rank_repeat by lia.
        rewrite <- matches_matchc, Hg. lia.
      * unfold rank. rewrite firstn_app. replace (j - e - length (flat sk)) with 0 by lia.
        rewrite firstn_O, app_nil_r. fold (rank m (flat sk) (j - e)). rewrite rank_none; auto.
    + cbn. rewrite El, app_length in Hf. cbn in Hf. lia.
    + exists early, mp'. split; [exact E|]. exact HH.
  - destruct HR as (-> & Hn & ->). eexists _, _. split; [reflexivity|]. cbn [mp_last mp_cur].
    repeat split; auto; try congruence. cbn [mp_cur mp_consumed]. intros j Hj.
    assert (Rp : rank m (flat pre) (length (flat pre)) = mp_consumed mp + (e - b)).
    { rewrite <- Re, Hs, flat_app, <- Hpre. symmetry; apply rank_prefix. }
    rewrite Hs, flat_app. replace j with (length (flat pre) + (j - e)) by lia.
    rewrite rank_app, Rp, rank_none; auto.
Qed.

Lemma doc_index_ok s m mp i : mp_inv s m (mp_last mp) mp -> mp_last mp <= i ->
  exists mp', doc_index_to_subset mp i = Some (rank m (flat s) i, mp') /\
    mp_inv s m (mp_last mp') mp' /\ mp_last mp' = i.
Proof.
  intros Hinv Hi. unfold doc_index_to_subset. destruct (Nat.ltb_spec i (mp_last mp)); [lia|].
  set (mp1 := Mp (mp_ri mp) i (mp_cur mp) (mp_consumed mp)).
  destruct (mapper_advance_ok s m (S (S (length (ri_segs (mp_ri mp1))))) mp1 (mp_last mp) i)
    as (early & mp' & E & Hl & Hinv' & Hcur & Hearly); auto; try lia.
  cbn zeta. rewrite E. cbn [bind]. exists mp'. cbn in Hl. rewrite Hl. split; [|auto].
  destruct Hinv' as (_ & Hinv'). destruct early.
  - rewrite (Hearly eq_refl) in Hinv'. rewrite Hinv' by lia. reflexivity.
  - destruct (mp_cur mp') as [[b e]|]; [|rewrite Hinv' by lia; reflexivity].
    specialize (Hcur b e eq_refl). destruct Hinv' as (_ & _ & _ & Hr).
    rewrite (Hr i) by lia. destruct (Nat.leb_spec b i); do 2 f_equal; lia.
Qed.

Lemma doc_index_panics mp i : i < mp_last mp -> doc_index_to_subset mp i = None.
Proof. intros. unfold doc_index_to_subset. destruct (Nat.ltb_spec i (mp_last mp)); [auto|lia]. Qed.
