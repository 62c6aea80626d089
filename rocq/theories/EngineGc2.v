(** Garbage collection preserves the invariant and the text. *)
From Coq Require Import List Arith Bool Lia ZifyBool Permutation.
From Verif Require Import Base ListLib MultisetModel MultisetSpec MultisetProofs SpreadFacts
  DeltaModel DeltaSpec ExpandProofs SynthProofs DeltaProofs RebaseFacts
  EngineModel EngineSpec EngineFacts EngineInv EngineGc.
Import ListNotations.

Lemma rev_id_eqb_eq a b : rev_id_eqb a b = true <-> a = b.
Proof.
  destruct a as [a1 a2 a3], b as [b1 b2 b3]. unfold rev_id_eqb. cbn. split.
  - intros H. f_equal; lia.
  - intros [= -> -> ->]. lia.
Qed.

Lemma last_rev_split l r : last_rev l = Some r -> exists l', l = l' ++ [r].
Proof.
  unfold last_rev. destruct (rev l) as [|x l'] eqn:E; [discriminate|]. intros [= ->].
  exists (rev l'). apply (f_equal (@rev _)) in E. rewrite rev_involutive in E. exact E.
Qed.

Section Gc2.
Context {A : Type}.
Implicit Types (e : engine A) (u : list A).

Lemma empty_first_ok e u n0 : Inv e u n0 -> exists s, empty_subset_before_first_rev e = Some s /\
  canonical s /\ flat s = repeat 0 n0.
Proof.
  intros I. pose proof (i_chain e u n0 I) as Hc. pose proof (i_ne e u n0 I) as Hn.
  unfold empty_subset_before_first_rev. destruct (revs e) as [|[id mx [p g ins del|tg bx]] l]; [easy|..];
    cbn [chain r_edit] in *.
  - destruct Hc as (_ & _ & H & _). rewrite count_ok. rewrite <- H. apply subset_new_ok.
  - destruct Hc as (_ & H & _). rewrite count_ok. rewrite <- H.
    replace (length (filter (matchc All) (flat bx))) with (length (flat bx)); [apply subset_new_ok|].
    unfold matchc. now rewrite filter_true.
Qed.

Theorem gc_inv_ok e u n0 gs : Inv e u n0 -> gc_safe (revs e) (undone_groups e) gs ->
  exists e' H n0', gc e gs = Some e' /\ length H = length u /\
    Inv e' (kept H u) n0' /\ text e' = text e /\
    flat (deletes_from_union e') = kept H (flat (deletes_from_union e)) /\
    undone_groups e' = undone_groups e /\ session e' = session e /\
    rev_id_counter e' = rev_id_counter e /\ get_head_rev_id e' = get_head_rev_id e /\
    (forall r, In r (revs e') -> exists r0, In r0 (revs e) /\ r_id r0 = r_id r) /\
    (forall V, (forall g, mem g gs = true -> mem g V = mem g (undone_groups e)) ->
       kept H (replay V (revs e) (repeat 0 n0)) = replay V (revs e') (repeat 0 n0') /\
       covers (replay V (revs e) (repeat 0 n0)) H).
Proof.
  intros I Hsafe. destruct (empty_first_ok e u n0 I) as (s0 & Es & Cs & Fs).
  unfold gc. rewrite Es. cbn [bind].
  destruct (last_rev_ex (revs e) (i_ne e u n0 I)) as (la & El & Hin). rewrite El. cbn [bind].
  pose proof (i_chain e u n0 I) as Hc.
  destruct (gc_loop_ok (r_id la) gs (undone_groups e) (revs e) s0 n0 (length u)) as (G & -> & CG & FG); auto.
  { rewrite Fs. apply repeat_length. }
  cbn [bind]. rewrite Fs in FG.
  set (ret := is_rev (r_id la)) in *. set (U := undone_groups e) in *. set (l := revs e) in *.
  set (D := flat (deletes_from_union e)).
  assert (LH : length (flat G) = length u).
  { rewrite FG. eapply gplay_length; eauto. apply repeat_length. }
  assert (LD : length D = length u) by apply I.
  assert (HcovV : forall V, (forall g, mem g gs = true -> mem g V = mem g U) ->
     covers (replay V l (repeat 0 n0)) (flat G)).
  { intros V HV. apply covers_dominated. rewrite FG.
    eapply gplay_dominated; eauto using dominated_refl; apply repeat_length. }
  assert (Hcov : covers D (flat G)).
  { unfold D. rewrite (i_replay e u n0 I). fold U. fold l. apply HcovV. auto. }
  assert (Et : exists dels, (if is_empty G then Some (tombstones e, deletes_from_union e)
     else
       let? not_in_tomb := complement (deletes_from_union e) in
       let? dels_from_tomb := transform_shrink G not_in_tomb in
       let? tomb := delete_from dels_from_tomb (tombstones e) in
       let? dels := transform_shrink (deletes_from_union e) G in
       Some (tomb, dels)) = Some (removed (kept (flat G) D) (kept (flat G) u), dels) /\ canonical dels /\
       flat dels = kept (flat G) D).
  { destruct (is_empty G) eqn:Ei.
    - exists (deletes_from_union e). rewrite !kept_empty by (auto; lia). rewrite (i_tomb e u n0 I).
      repeat split; auto. apply I.
    - destruct (complement_ok (deletes_from_union e) (i_can e u n0 I)) as (x & -> & Cx & Fx). cbn [bind].
      change (map _ _) with (compl D) in Fx.
      destruct (transform_shrink_ok G x CG Cx) as (y & -> & Cy & Fy); [rewrite Fx, compl_length; lia|]. cbn [bind].
      rewrite Fx, kept_compl in Fy.
      rewrite (i_tomb e u n0 I). fold D.
      rewrite delete_from_ok.
      2:{ rewrite Fy. rewrite !removed_length by lia. reflexivity. }
      cbn [bind].
      destruct (transform_shrink_ok (deletes_from_union e) G (i_can e u n0 I) CG) as (z & -> & Cz & Fz); [fold D; lia|].
      cbn [bind]. exists z. rewrite Fy. rewrite gc_tomb; auto; lia. }
  destruct Et as (dels & -> & Cdels & Fdels). cbn [bind].
  rewrite (gc_revs_ok (r_id la) gs l G n0 (length u) [] CG LH Hc). cbn [bind]. fold ret.
  rewrite app_nil_r.
  assert (Hnd : NoDup (map r_id l)) by apply I.
  destruct (last_rev_split l la El) as (li & Eli).
  assert (Hret : forall r, In r li -> ret r = false).
  { intros r Hr. unfold ret, is_rev. destruct (rev_id_eqb _ _) eqn:E; auto. apply rev_id_eqb_eq in E.
    rewrite Eli, map_app in Hnd. cbn [map] in Hnd.
    assert (Hp : NoDup (r_id la :: map r_id li)).
    { apply (Permutation_NoDup (l := map r_id li ++ [r_id la])); auto.
      apply Permutation_sym, Permutation_cons_append. }
    inversion Hp as [|? ? Hn _]; subst. exfalso. apply Hn. rewrite <- E. now apply in_map. }
  assert (Hla : ret la = true) by (apply rev_id_eqb_eq; reflexivity).
  destruct (prefix_split ret gs l) as (l1 & l2 & Esp & P1 & P2).
  assert (Hl2 : exists li2, l2 = li2 ++ [la] /\ li = l1 ++ li2).
  { destruct (@exists_last _ l2) as (li2 & x & E).
    - intros ->. rewrite app_nil_r in Esp. subst l1. specialize (P1 la Hin).
      unfold gcd in P1. rewrite Hla in P1. destruct (r_edit la); discriminate.
    - subst l2. rewrite Eli in Esp. rewrite app_assoc in Esp. apply app_inj_tail in Esp as [-> ->]. eauto. }
  destruct Hl2 as (li2 & El2 & Eli2).
  assert (Hund : forall r, In r l2 -> gcd ret gs r = true ->
     match r_edit r with Edit _ g ins _ => mem g U = true \/ is_empty ins = true | Undo _ _ => True end).
  { intros r Hr Hg. destruct r as [id mx [p g ins del|tg bx]]; cbn [r_edit]; auto.
    destruct (mem g U) eqn:Em; auto. destruct (is_empty ins) eqn:Ei; auto. exfalso.
    apply in_split in Hr as (a & b & E).
    destruct b as [|b0 b].
    - rewrite El2 in E. apply app_inj_tail in E as [_ E]. subst la.
      unfold gcd in Hg. cbn [r_edit] in Hg. rewrite Hla in Hg. discriminate.
    - pose proof Hg as Hg0. unfold gcd in Hg. cbn [r_edit] in Hg. apply andb_true_iff in Hg as [_ Hg].
      specialize (Hsafe (l1 ++ a) id mx p g ins del (b0 :: b)). rewrite <- app_assoc, <- E in Hsafe.
      specialize (Hsafe Esp ltac:(discriminate) Hg Em Ei).
      destruct a as [|a0 a].
      + rewrite E in P2. cbn [app r_edit] in P2. congruence.
      + rewrite E in P2. cbn [app] in P2. specialize (Hsafe a0).
        rewrite in_app_iff in Hsafe. specialize (Hsafe (or_intror (or_introl eq_refl))).
        assert (Hi : ret a0 = false).
        { apply Hret. rewrite Eli2. apply in_or_app. right. rewrite El2 in E.
          destruct li2 as [|z li2]; cbn [app] in E.
          - destruct a; discriminate.
          - injection E as -> _. now left. }
        destruct (r_edit a0) as [p0 g0 i0 d0|] eqn:Ea; [|congruence].
        unfold gcd in P2. rewrite Ea, Hi, Hsafe in P2. discriminate. }
  rewrite Esp in Hc. apply chain_app in Hc as (k & Hc1 & Hc2).
  set (c1 := gplay ret gs U l1 (repeat 0 n0)) in *.
  assert (Lc1 : length c1 = k) by (eapply gplay_length; eauto; apply repeat_length).
  assert (FG' : flat G = gplay ret gs U l2 c1) by (rewrite FG, Esp, gplay_app; reflexivity).
  assert (Hok : gc_ok ret gs U l2 (flat G)) by (rewrite FG'; eapply gc_ok_of; eauto).
  assert (Hg1 : forall H, gcl ret gs l1 H = []) by (intros; eapply clean_prefix_gcl; eauto).
  assert (Egcl : gcl ret gs l (flat G) = gcl ret gs l2 (flat G)) by (rewrite Esp, gcl_app, Hg1; reflexivity).
  set (n0' := zeros (hback l2 (flat G))).
  assert (Lhb : length (hback l2 (flat G)) = k) by (eapply hback_length; eauto).
  assert (Hrep : forall V, (forall g, mem g gs = true -> mem g V = mem g U) ->
       kept (flat G) (replay V l (repeat 0 n0)) = replay V (gcl ret gs l (flat G)) (repeat 0 n0')).
  { intros V HV. rewrite Egcl, Esp, replay_app.
    assert (E1 : replay V l1 (repeat 0 n0) = c1).
    { apply clean_prefix; auto. intros r Hr. specialize (P1 r Hr). destruct (r_edit r); auto. }
    rewrite E1. rewrite (gcl_replay ret gs U V l2 HV k (length u)); auto. f_equal.
    apply kept_covered; [lia|]. apply covers_dominated. rewrite FG'. eapply hback_dominates; eauto. }
  eexists _, (flat G), n0'. split; [reflexivity|].
  cbn [text deletes_from_union undone_groups session rev_id_counter revs].
  assert (Hnin : forall r, In r (gcl ret gs l (flat G)) -> exists r0, In r0 l /\ r_id r0 = r_id r).
  { intros r Hr. apply ids_gcl in Hr. apply in_map_iff in Hr as (r0 & ? & ?). eauto. }
  assert (Hgl : exists lr, gcl ret gs l (flat G) = gcl ret gs li2 (hback [la] (flat G)) ++ [lr] /\ r_id lr = r_id la /\
     match r_edit la with
     | Edit p g ins del => exists i d, r_edit lr = Edit p g i d
     | Undo tg bx => r_edit lr = Undo (set_minus tg gs) (enc (kept (flat G) (flat bx)))
     end).
  { rewrite Egcl, El2, gcl_app. cbn [gcl hback]. destruct (r_edit la) as [p g ins del|tg bx] eqn:Ela; rewrite Hla;
      cbn [orb]; eexists; (split; [reflexivity|]); split; cbn [r_id r_edit]; eauto. }
  destruct Hgl as (lr & Egl & Eid & Hlr).
  assert (Hedits : forall r, In r (gcl ret gs li2 (hback [la] (flat G))) ->
     match r_edit r with Edit _ g _ _ => mem g gs = false | Undo _ _ => False end).
  { assert (Hli2 : forall r, In r li2 -> ret r = false) by (intros; apply Hret; rewrite Eli2; apply in_or_app; auto).
    clear - Hli2. generalize (hback [la] (flat G)). intros H. induction li2 as [|x li2 IH]; cbn [gcl]; [intros r []|].
    pose proof (Hli2 x (or_introl eq_refl)) as Hx. specialize (IH (fun r Hr => Hli2 r (or_intror Hr))).
    rewrite Hx. destruct (r_edit x) as [p g ins del|tg bx]; auto. cbn [orb].
    destruct (mem g gs) eqn:Em; cbn [negb]; auto. intros r [<-|Hr]; [cbn [r_edit]; auto|exact (IH r Hr)]. }
  assert (Hch : chain n0' (gcl ret gs l (flat G)) (zeros (flat G))).
  { rewrite Egcl. eapply gcl_chain; eauto. }
  split; [auto|]. split.
  2:{ repeat (split; [solve [auto]|]). split; [|split; [exact Hnin|auto]].
      unfold get_head_rev_id. cbn [revs]. fold l. rewrite El, Egl. unfold last_rev.
      rewrite rev_app_distr. cbn [rev app bind]. now rewrite Eid. }
  constructor; cbn [text deletes_from_union undone_groups session rev_id_counter revs tombstones]; auto.
  - rewrite kept_length by lia. exact Hch.
  - rewrite Egl. intros Q. apply app_eq_nil in Q as [_ Q]. discriminate.
  - rewrite Fdels, !kept_length by lia. reflexivity.
  - rewrite Fdels, (i_text e u n0 I). fold D. rewrite gc_text; auto; lia.
  - now rewrite Fdels.
  - rewrite Fdels. unfold D. rewrite (i_replay e u n0 I). fold U. fold l. apply Hrep. auto.
  - assert (Erep : replay U (gcl ret gs l (flat G)) (repeat 0 n0') = flat dels).
    { rewrite <- Hrep by auto. rewrite Fdels. unfold D. rewrite (i_replay e u n0 I). reflexivity. }
    destruct la as [lid lmx [lp lg lins ldel|ltg lbx]] eqn:Ela; cbn [r_edit] in Hlr.
    + apply (hist_edits n0' U _ (zeros (flat G))); auto.
      * rewrite Fdels, kept_length; lia.
      * rewrite Egl. intros r Hr. apply in_app_iff in Hr as [Hr|[<-|[]]].
        -- specialize (Hedits r Hr). destruct (r_edit r); auto.
        -- destruct Hlr as (i & d & ->). exact Logic.I.
      * rewrite Erep. apply dominated_refl.
    + rewrite Egl, rev_app_distr. cbn [rev app hist fst snd hback r_edit]. split.
      { rewrite rev_involutive. rewrite <- Erep, Egl. cbn [hback r_edit]. apply dominated_refl. }
      unfold unstep. rewrite Hlr. cbn [fst snd]. rewrite flat_enc.
      cbn [hback r_edit] in *.
      (* the hypothesis about the old history *)
      pose proof (i_hist e u n0 I) as Hh. fold l in Hh. rewrite Eli, rev_app_distr in Hh. cbn [rev app hist] in Hh.
      destruct Hh as [_ Hh]. unfold unstep in Hh. cbn [r_edit fst snd] in Hh. fold U D in Hh.
      assert (Hd : dominated (replay (symdiff U ltg) li (repeat 0 n0)) (zipw Nat.lxor D (flat lbx))).
      { destruct (rev li) eqn:Er in Hh; cbn [hist] in Hh; destruct Hh as [Hh _]; rewrite <- Er, rev_involutive in Hh; exact Hh. }
      rewrite Eli2, replay_app in Hd.
      rewrite El2 in Hc2. apply chain_app in Hc2 as (k2 & Hc21 & Hc22). cbn [chain r_edit] in Hc22.
      destruct Hc22 as (Cb & Lb & Ek). subst k2.
      assert (Lb' : length (flat lbx) = length D) by lia.
      rewrite Fdels, <- kept_zipw by lia.
      assert (Hhb : hback l2 (flat G) = hback li2 (flat G)) by (rewrite El2, hback_app; reflexivity).
      assert (Hok2 : gc_ok ret gs U li2 (flat G)).
      { clear - Hok El2. subst l2. revert Hok. generalize (flat G) as H. induction li2 as [|x li2 IH]; intros H Hok; [exact Logic.I|].
        cbn [app gc_ok] in *. destruct Hok as [H1 H2]. split; [|apply IH; auto].
        rewrite hback_app in H1. cbn [hback r_edit] in H1. exact H1. }
      apply (hist_edits n0' _ _ (zeros (flat G))).
      * unfold n0'. rewrite Hhb. rewrite Ek in Hc21. eapply gcl_chain; eauto.
      * rewrite kept_length; auto. rewrite zipw_length; lia.
      * intros r Hr. specialize (Hedits r Hr). destruct (r_edit r); auto.
      * assert (Eag : forall c, replay (symdiff U (set_minus ltg gs)) (gcl ret gs li2 (flat G)) c =
                      replay (symdiff U ltg) (gcl ret gs li2 (flat G)) c).
        { apply replay_agree. intros r g Hr Hg. specialize (Hedits r Hr). unfold has_group in Hg.
          destruct (r_edit r) as [p0 g0 i0 d0|]; [|easy]. apply Nat.eqb_eq in Hg. subst g0.
          rewrite !mem_symdiff, mem_minus, Hedits. cbn. now rewrite andb_true_r. }
        rewrite Eag.
        assert (LR1 : length (replay (symdiff U ltg) l1 (repeat 0 n0)) = k) by (eapply replay_length; eauto; apply repeat_length).
        assert (Lz : forall c, length c = k -> length (replay (symdiff U ltg) li2 c) = length u).
        { intros. eapply replay_length; [rewrite Ek in Hc21; exact Hc21|auto]. }
        eapply dominated_trans; [| |eapply (gcl_replay_le ret gs U (symdiff U ltg) li2 k (length u) (flat G)
            (replay (symdiff U ltg) l1 (repeat 0 n0)) (repeat 0 n0'))|apply dominated_kept; [| |exact Hd]]; auto.
        -- transitivity (zeros (flat G)).
           { eapply replay_length; [eapply gcl_chain; [rewrite Ek in Hc21; exact Hc21| |exact Hok2]; auto|].
             rewrite repeat_length. unfold n0'. now rewrite Hhb. }
           symmetry. apply kept_length. rewrite Lz; auto.
        -- rewrite !kept_length; auto; [rewrite zipw_length; lia|rewrite Lz; auto].
        -- rewrite Ek in Hc21; exact Hc21.
        -- rewrite repeat_length. unfold n0'. now rewrite Hhb.
        -- apply dominated_zero.
        -- rewrite Lz; auto.
        -- rewrite zipw_length; lia.
  - apply max_ok_gcl. apply I.
  - destruct (i_ids e u n0 I) as [J1 J2]. split; cbn [revs session rev_id_counter].
    + apply NoDup_gcl. exact J1.
    + intros r Hr Hs. destruct (Hnin r Hr) as (r0 & Hr0 & E0). rewrite <- E0 in *. apply J2; auto.
Qed.

End Gc2.
