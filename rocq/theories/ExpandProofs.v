(** [InsertDelta::transform_expand] computes [rebase_script]. *)
From Coq Require Import List Arith Bool Lia ZifyBool.
From Verif Require Import Base ListLib MultisetModel MultisetSpec MultisetProofs DeltaModel DeltaSpec.
Import ListNotations.

(** Zero ranges of the counts [c] that start at position [y]. *)
Fixpoint runs (y : nat) (rs : list (nat * nat)) (c : list nat) : Prop :=
  match rs with
  | [] => Forall (fun k => k <> 0) c
  | (b, e) :: rs' =>
      b < e /\ y < e /\
      exists nz c', c = nz ++ repeat 0 (e - Nat.max b y) ++ c' /\ length nz = b - y /\
        Forall (fun k => k <> 0) nz /\ runs e rs' c'
  end.

Lemma runs_nz y n rs nz c : Forall (fun k => k <> 0) nz -> length nz = n -> 0 < n ->
  (forall b e rs', rs = (b, e) :: rs' -> y + n <= b) ->
  runs (y + n) rs c -> runs y rs (nz ++ c).
Proof.
  intros Hnz Hl Hn Hb H. destruct rs as [|[b e] rs]; cbn in *; [apply Forall_app; auto|].
  destruct H as (H1 & H2 & nz' & c' & -> & H3 & H4 & H5). specialize (Hb b e rs eq_refl).
  split; [lia|]. split; [lia|]. exists (nz ++ nz'), c'. rewrite <- app_assoc.
  repeat split; auto; [replace (Nat.max b (y + n)) with (Nat.max b y) by lia; reflexivity|rewrite app_length; lia|apply Forall_app; auto].
Qed.

Lemma ranges_from_ge l c m b e : In (b, e) (ranges_from l c m) -> c <= b.
Proof.
  revert c; induction l as [|g l IH]; intros c; cbn; [tauto|].
  destruct (matches m g); cbn; [intros [E|H]|intros H].
  - injection E as <- <-; lia.
  - apply IH in H; lia.
  - apply IH in H; lia.
Qed.

Lemma runs_ranges l : all_pos l -> forall y, runs y (ranges_from l y Zero) (flat l).
Proof.
  induction 1 as [|g l Hg Hl IH]; intros y; cbn; [constructor|].
  specialize (IH (y + seg_len g)).
  destruct (Nat.eqb_spec (seg_count g) 0) as [E|E]; cbn.
  - split; [lia|]. split; [lia|]. exists [], (flat l). cbn.
    rewrite E. repeat split; auto; [|lia].
    replace (y + seg_len g - Nat.max (y + seg_len g - seg_len g) y) with (seg_len g) by lia. auto.
  - apply (runs_nz y (seg_len g)); auto.
    + apply Forall_forall. intros x Hx. apply repeat_spec in Hx. lia.
    + apply repeat_length.
    + intros b e rs' Er. apply (ranges_from_ge l (y + seg_len g) Zero b e). rewrite Er; cbn; auto.
Qed.

Lemma runs_ranges0 s : canonical s -> runs 0 (ranges s Zero) (flat s).
Proof. intros H. apply runs_ranges. now apply canonical_all_pos. Qed.

Section Expand.
Context {A : Type}.
Implicit Types (l : list (element A)) (w : list (option A)).

Lemma script_app l1 l2 : script (l1 ++ l2) = script l1 ++ script l2.
Proof.
  induction l1 as [|[b e|n] l1 IH]; cbn; auto; rewrite IH, app_assoc; auto.
Qed.

Lemma contiguous_app pos l1 l2 n m : contiguous pos l1 n -> contiguous n l2 m -> contiguous pos (l1 ++ l2) m.
Proof.
  revert pos; induction l1 as [|[b e|s] l1 IH]; cbn; intros pos H1 H2; subst; auto.
  intuition eauto.
Qed.

(** Rest of a contiguous delta when [x] elements of the base have been consumed. *)
Fixpoint contx (x : nat) l (n : nat) : Prop :=
  match l with
  | [] => x = n
  | Copy b e :: l' => b <= x /\ x < e /\ contx e l' n
  | Insert s :: l' => s <> [] /\ contx x l' n
  end.
Fixpoint scriptx (x : nat) l : list (option A) :=
  match l with
  | [] => []
  | Copy b e :: l' => repeat None (e - x) ++ scriptx e l'
  | Insert n :: l' => map Some n ++ scriptx x l'
  end.

Lemma contx_of pos l n : contiguous pos l n -> no_empty_insert l -> no_empty_copy l -> contx pos l n.
Proof.
  revert pos; induction l as [|[b e|s] l IH]; cbn; intros pos H H1 H2; auto;
    inversion H1; inversion H2; subst.
  - destruct H as (-> & _ & H). repeat split; auto.
  - auto.
Qed.
Lemma scriptx_of pos l n : contiguous pos l n -> scriptx pos l = script l.
Proof.
  revert pos; induction l as [|[b e|s] l IH]; cbn; intros pos H; auto.
  - destruct H as (-> & _ & H). now rewrite IH.
  - now rewrite IH.
Qed.

Lemma contx_le x l n : contx x l n -> x <= n.
Proof.
  revert x; induction l as [|[b e|s] l IH]; cbn; intros x H; [lia| |].
  - destruct H as (_ & H1 & H2). apply IH in H2. lia.
  - destruct H as [_ H]. auto.
Qed.

Lemma span_app_Some (s : list A) w : span (map Some s ++ w) =
  (map Some s ++ fst (span w), snd (span w)).
Proof.
  induction s; cbn; [now destruct (span w)|]. rewrite IHs. reflexivity.
Qed.

Lemma rebase_ins after (s : list A) w c :
  after = false \/ c = [] \/ (exists c', c = 0 :: c') ->
  rebase_script after (map Some s ++ w) c = map Some s ++ rebase_script after w c.
Proof.
  intros H. destruct c as [|[|k] c]; cbn [rebase_script]; auto.
  - rewrite span_app_Some. destruct (span w) as [p r]; cbn. now rewrite app_assoc.
  - destruct after; [destruct H as [H|[H|[c' H]]]; discriminate|].
    rewrite span_app_Some. destruct (span w) as [p r]; cbn. now rewrite app_assoc.
Qed.

Lemma rebase_zeros after n w c :
  rebase_script after (repeat None n ++ w) (repeat 0 n ++ c) = repeat None n ++ rebase_script after w c.
Proof. induction n; cbn; auto. now rewrite IHn. Qed.

Lemma rebase_nz_after nz w c : Forall (fun k => k <> 0) nz ->
  rebase_script true w (nz ++ c) = repeat None (length nz) ++ rebase_script true w c.
Proof. induction 1 as [|k nz Hk H IH]; cbn; auto. destruct k; [lia|]. now rewrite IH. Qed.

Lemma rebase_nz_before nz w c : Forall (fun k => k <> 0) nz -> fst (span w) = [] ->
  rebase_script false w (nz ++ c) = repeat None (length nz) ++ rebase_script false w c.
Proof.
  intros H Hs. induction H as [|k nz Hk H IH]; cbn; auto. destruct k; [lia|].
  destruct (span w) as [p r] eqn:E. cbn in Hs. subst p. cbn.
  assert (r = w) as -> by (destruct w as [|[x|] w]; cbn in E; [congruence| |congruence];
                           destruct (span w); discriminate). now rewrite IH.
Qed.

Record te_inv (len n : nat) (c : list nat) (after : bool) (total : list (option A)) (st : @testate A) : Prop := {
  ti_cont : contiguous 0 (te_els st) (te_b1 st);
  ti_ne : no_empty_insert (te_els st) /\ no_empty_copy (te_els st);
  ti_by : te_b1 st <= te_y st;
  ti_yl : te_y st <= len;
  ti_i : contx (te_x st) (te_i st) n;
  ti_runs : runs (te_y st) (te_r st) (skipn (te_y st) c);
  ti_zeros : zeros (skipn (te_y st) c) = n - te_x st;
  ti_total : script (te_els st) ++ repeat None (te_y st - te_b1 st) ++
             rebase_script after (scriptx (te_x st) (te_i st)) (skipn (te_y st) c) = total }.

Lemma no_empty_insert_app l1 l2 : no_empty_insert (l1 ++ l2) <-> no_empty_insert l1 /\ no_empty_insert l2.
Proof. apply Forall_app. Qed.
Lemma no_empty_copy_app l1 l2 : no_empty_copy (l1 ++ l2) <-> no_empty_copy l1 /\ no_empty_copy l2.
Proof. apply Forall_app. Qed.

Lemma te_push_ok (out : list (element A)) b1 y : contiguous 0 out b1 -> no_empty_insert out -> no_empty_copy out -> b1 <= y ->
  let out1 := if b1 <? y then out ++ [Copy b1 y] else out in
  contiguous 0 out1 y /\ no_empty_insert out1 /\ no_empty_copy out1 /\
  script out1 = script out ++ repeat None (y - b1).
Proof.
  intros H1 H2 H3 H4. destruct (Nat.ltb_spec b1 y); cbn.
  - repeat split.
    + eapply contiguous_app; eauto. cbn. repeat split; lia.
    + apply no_empty_insert_app; split; auto. repeat constructor.
    + apply no_empty_copy_app; split; auto. repeat constructor. auto.
    + rewrite script_app. cbn. now rewrite app_nil_r.
  - replace y with b1 by lia. repeat split; auto. replace (b1 - b1) with 0 by lia. cbn. now rewrite app_nil_r.
Qed.

Lemma runs_after_skip len y r c next : length c = len -> y <= len ->
  next = match r with (xb, _) :: _ => xb | [] => len end ->
  runs y r (skipn y c) -> y < next ->
  next <= len /\ exists nz, skipn y c = nz ++ skipn next c /\ length nz = next - y /\
     Forall (fun k => k <> 0) nz /\ runs next r (skipn next c).
Proof.
  intros Hlen Hyl Hn I6 Hy. destruct r as [|[xb xe] r].
  - subst next. split; [lia|]. exists (skipn y c). rewrite (skipn_all2 c (n:=len)) by lia.
    rewrite app_nil_r, skipn_length. split; [auto|]. split; [lia|]. split; [exact I6|constructor].
  - subst next. cbn in I6. destruct I6 as (J1 & J2 & nz & c' & E & J3 & J4 & J5).
    replace (Nat.max xb y) with xb in E by lia. split.
    { apply (f_equal (@length nat)) in E. rewrite skipn_length, !app_length, repeat_length in E. lia. }
    assert (Es : skipn xb c = repeat 0 (xe - xb) ++ c').
    { replace xb with (y + (xb - y)) at 1 by lia. rewrite <- skipn_skipn, E.
      apply skipn_app_exact. lia. }
    exists nz. rewrite Es. split; [auto|]. split; [auto|]. split; [auto|]. cbn.
    split; [lia|]. split; [lia|].
    exists [], c'. cbn. rewrite Nat.max_id. repeat split; auto. lia.
Qed.

Lemma zeros_nz nz : Forall (fun k => k <> 0) nz -> zeros nz = 0.
Proof.
  induction 1 as [|k nz Hk H IH]; auto. unfold zeros in *; cbn.
  destruct (Nat.eqb_spec k 0); [lia|auto].
Qed.

(** What one run of the inner loop establishes. *)
Lemma te_inner_ok len n c after total next : length c = len -> forall i out x y b1 r,
  te_inv len n c after total (TEState out x y i b1 r) ->
  next = match r with (xb, _) :: _ => xb | [] => len end ->
  (after = true -> next <= y) ->
  let st1 := te_inner next out x y b1 r i in
  let y2 := if negb after && (te_y st1 <? next) then next else te_y st1 in
  let st2 := TEState (te_els st1) (te_x st1) y2 (te_i st1) (te_b1 st1) (te_r st1) in
  te_inv len n c after total st2 /\ y <= y2 /\
  (len - y2 + length (te_i st1) <= len - y + length i) /\
  (y < len \/ i <> [] -> len - y2 + length (te_i st1) < len - y + length i).
Proof.
  intros Hlen. induction i as [|[b e|s] i IH]; intros out x y b1 r Hinv Hnext Hafter.
  - (* no element left *)
    cbn [te_inner te_els te_x te_y te_i te_b1 te_r]. cbn zeta.
    destruct Hinv as [I1 [I2 I2'] I3 I4 I5 I6 I7 I8]; cbn [te_els te_x te_y te_i te_b1 te_r] in *.
    cbn in I5. subst x. rewrite Nat.sub_diag in I7.
    assert (Hr : r = []).
    { destruct r as [|[xb xe] r]; auto. cbn in I6. destruct I6 as (J1 & J2 & nz & c' & E & J3 & J4 & J5).
      rewrite E, !zeros_app, zeros_repeat in I7. cbn in I7. lia. }
    subst r. cbn in Hnext. subst next.
    destruct (negb after && (y <? len)) eqn:Eb.
    + destruct after; [discriminate|]. cbn in Eb. apply Nat.ltb_lt in Eb.
      split; [|split; [lia|split; [cbn; lia|cbn; lia]]].
      cbn in I6. constructor; cbn [te_els te_x te_y te_i te_b1 te_r]; auto; try lia; cbn; auto.
      * rewrite skipn_all2 by lia. constructor.
      * rewrite skipn_all2 by lia. cbn. lia.
      * rewrite <- I8. f_equal. rewrite (skipn_all2 c) by lia. cbn.
        rewrite <- (app_nil_r (skipn y c)), rebase_nz_before by auto. cbn.
        rewrite !app_nil_r, <- repeat_app, skipn_length. f_equal. lia.
    + split; [|split; [lia|split; [cbn; lia|]]].
      * constructor; cbn [te_els te_x te_y te_i te_b1 te_r]; auto; cbn; auto. now rewrite Nat.sub_diag.
      * intros [H|H]; [|congruence]. destruct after.
        -- specialize (Hafter eq_refl). lia.
        -- cbn [negb andb] in Eb. apply Nat.ltb_ge in Eb. lia.
  - (* a copy *)
    cbn [te_inner].
    destruct Hinv as [I1 [I2 I2'] I3 I4 I5 I6 I7 I8]; cbn [te_els te_x te_y te_i te_b1 te_r] in *.
    destruct I5 as (K1 & K2 & K3). pose proof (contx_le _ _ _ K3) as K4.
    destruct (Nat.leb_spec next y) as [Hny|Hny].
    + (* step *)
      destruct r as [|[xb xe] r].
      { exfalso. subst next. rewrite skipn_all2 in I7 by lia. cbn in I7. lia. }
      subst next. cbn in I6. destruct I6 as (J1 & J2 & nz & c' & E & J3 & J4 & J5).
      assert (nz = []) by (destruct nz; cbn in *; [auto|lia]). subst nz. cbn [app] in E.
      replace (Nat.max xb y) with y in E by lia.
      set (k := Nat.min (e + y - x) xe - y).
      assert (Hk : 0 < k /\ k <= e - x /\ k <= xe - y) by (unfold k; lia).
      replace (Nat.min (e + y - x) xe) with (y + k) by (unfold k; lia).
      replace (x + (y + k - y)) with (x + k) by lia.
      cbn [te_els te_x te_y te_i te_b1 te_r]. cbn zeta.
      assert (Hsk : skipn (y + k) c = repeat 0 (xe - y - k) ++ c').
      { rewrite <- skipn_skipn, E, skipn_app, skipn_repeat, repeat_length.
        replace (k - (xe - y)) with 0 by lia. reflexivity. }
      assert (Hlen2 : y + k <= len).
      { apply (f_equal (@length nat)) in E. rewrite skipn_length, app_length, repeat_length in E. lia. }
      replace (negb after && (y + k <? xb)) with false
        by (symmetry; apply andb_false_iff; right; apply Nat.ltb_ge; lia).
      split; [|split; [lia|split]].
      * constructor; cbn [te_els te_x te_y te_i te_b1 te_r]; auto; try lia.
        -- destruct (Nat.eqb_spec (x + k) e) as [->|Hne]; auto. cbn. repeat split; auto; lia.
        -- destruct (Nat.eqb_spec (y + k) xe) as [Hxe|Hne].
           ++ rewrite Hsk. replace (xe - y - k) with 0 by lia. cbn. now rewrite Hxe.
           ++ rewrite Hsk. cbn. split; [lia|]. split; [lia|]. exists [], c'.
              cbn. replace (Nat.max xb (y + k)) with (y + k) by lia. repeat split; auto; [|lia].
              replace (xe - (y + k)) with (xe - y - k) by lia. auto.
        -- rewrite Hsk. rewrite E in I7. rewrite zeros_app, zeros_repeat in *. cbn in *. lia.
        -- rewrite <- I8. f_equal.
           replace (y + k - b1) with ((y - b1) + k) by lia. rewrite repeat_app, <- app_assoc. f_equal.
           rewrite Hsk, E. replace (xe - y) with (k + (xe - y - k)) by lia.
           rewrite repeat_app, <- app_assoc. replace (k + (xe - y - k) - k) with (xe - y - k) by lia.
           cbn [scriptx]. replace (e - x) with (k + (e - (x + k))) by lia.
           rewrite repeat_app, <- app_assoc, rebase_zeros. f_equal.
           destruct (Nat.eqb_spec (x + k) e) as [->|Hne]; [|reflexivity].
           rewrite Nat.sub_diag. reflexivity.
      * destruct (x + k =? e); cbn; lia.
      * intros _. destruct (x + k =? e); cbn; lia.
    + (* blocked before the next zero range *)
      destruct after; [specialize (Hafter eq_refl); lia|]. cbn [negb andb].
      cbn [te_els te_x te_y te_i te_b1 te_r]. cbn zeta.
      rewrite (proj2 (Nat.ltb_lt _ _) Hny).
      destruct (runs_after_skip len y r c next Hlen I4 Hnext I6 Hny) as (Hnl & nz & E & L1 & L2 & L4).
      split; [|split; [lia|split; [lia|]]].
      * constructor; cbn [te_els te_x te_y te_i te_b1 te_r]; auto; try lia.
        -- cbn. auto.
        -- rewrite E, zeros_app, zeros_nz in I7; auto.
        -- rewrite <- I8. f_equal. rewrite E.
           replace (next - b1) with ((y - b1) + (next - y)) by lia. rewrite repeat_app, <- app_assoc. f_equal.
           rewrite rebase_nz_before; auto.
           ++ now rewrite L1.
           ++ cbn. destruct (e - x) eqn:Ee; [lia|]. reflexivity.
      * intros _. lia.
  - (* an insert *)
    cbn [te_inner].
    destruct Hinv as [I1 [I2 I2'] I3 I4 I5 I6 I7 I8]; cbn [te_els te_x te_y te_i te_b1 te_r] in *.
    destruct I5 as [Hs I5].
    pose proof (te_push_ok out b1 y I1 I2 I2' I3) as HP. cbn zeta in HP.
    set (out1 := if b1 <? y then out ++ [Copy b1 y] else out) in *.
    destruct HP as (P1 & P2 & P3 & P4).
    assert (Hinv' : te_inv len n c after total (TEState (out1 ++ [Insert s]) x y i y r)).
    { constructor; cbn [te_els te_x te_y te_i te_b1 te_r]; auto.
      - eapply contiguous_app; eauto. reflexivity.
      - split; [apply no_empty_insert_app; split; auto; repeat constructor; auto|
                apply no_empty_copy_app; split; auto; repeat constructor].
      - rewrite <- I8, script_app, P4. cbn [script]. rewrite app_nil_r, Nat.sub_diag. cbn [repeat app].
        rewrite <- !app_assoc. do 2 f_equal. cbn [scriptx]. symmetry. apply rebase_ins.
        destruct after; [|auto]. right. specialize (Hafter eq_refl).
        destruct r as [|[xb xe] r].
        + left. subst next. apply skipn_all2. lia.
        + right. subst next. cbn in I6. destruct I6 as (J1 & J2 & nz & c' & E & J3 & J4 & J5).
          assert (nz = []) by (destruct nz; cbn in *; [auto|lia]). subst nz. cbn in E.
          replace (Nat.max xb y) with y in E by lia.
          destruct (xe - y) as [|k] eqn:Ek; [lia|]. rewrite E. cbn. eauto. }
    specialize (IH (out1 ++ [Insert s]) x y y r Hinv' Hnext Hafter). cbn zeta in IH.
    cbn zeta. cbn [length]. intuition lia.
Qed.

Lemma te_outer_ok len n c after total : length c = len -> forall f st,
  te_inv len n c after total st -> len - te_y st + length (te_i st) < f ->
  exists st', te_outer f len after st = Some st' /\ te_inv len n c after total st' /\
    te_y st' = len /\ te_i st' = [].
Proof.
  intros Hlen. induction f as [|f IH]; intros st Hinv Hf; [lia|]. cbn [te_outer].
  destruct ((te_y st <? len) || match te_i st with [] => false | _ => true end) eqn:Econd.
  2:{ exists st. apply orb_false_iff in Econd as [E1 E2]. pose proof (ti_yl _ _ _ _ _ _ Hinv).
      apply Nat.ltb_ge in E1. repeat split; auto; try apply Hinv; [lia|].
      destruct (te_i st); [auto|discriminate]. }
  cbn zeta. set (next := match te_r st with (xb, _) :: _ => xb | [] => len end).
  set (y1 := if after && (te_y st <? next) then next else te_y st).
  assert (Hinv1 : te_inv len n c after total (TEState (te_els st) (te_x st) y1 (te_i st) (te_b1 st) (te_r st))
     /\ (after = true -> next <= y1) /\ te_y st <= y1 /\ (y1 = te_y st \/ te_y st < y1)).
  { unfold y1. destruct after; cbn [andb].
    - destruct (Nat.ltb_spec (te_y st) next) as [Hy|Hy].
      + destruct Hinv as [I1 I2 I3 I4 I5 I6 I7 I8].
        destruct (runs_after_skip len (te_y st) (te_r st) c next Hlen I4 eq_refl I6 Hy)
          as (Hnl & nz & E & L1 & L2 & L3).
        repeat split; auto; try lia; cbn [te_els te_x te_y te_i te_b1 te_r]; auto; try apply I2; try lia.
        * rewrite E, zeros_app, (zeros_nz nz) in I7; auto.
        * rewrite <- I8, E, rebase_nz_after by auto. f_equal.
          rewrite app_assoc, <- repeat_app, L1. do 2 f_equal. lia.
      + repeat split; auto; try apply Hinv; lia.
    - repeat split; auto; try apply Hinv; try lia; try discriminate. }
  destruct Hinv1 as (Hinv1 & Ha & Hy1 & Hy1').
  destruct (te_inner_ok len n c after total next Hlen (te_i st) (te_els st) (te_x st) y1 (te_b1 st) (te_r st)
              Hinv1 eq_refl Ha) as (Hinv2 & Hy2 & Hm1 & Hm2).
  apply IH; auto. cbn [te_y te_i].
  pose proof (ti_yl _ _ _ _ _ _ Hinv1) as Hyl; cbn [te_y] in Hyl.
  set (y2 := if negb after && _ then _ else _) in *.
  destruct Hy1' as [Ey|Ey].
  - assert (te_y st < len \/ te_i st <> []).
    { apply orb_true_iff in Econd as [H|H]; [apply Nat.ltb_lt in H; auto|].
      right. destruct (te_i st); [discriminate|congruence]. }
    rewrite <- Ey in H. specialize (Hm2 H). lia.
  - lia.
Qed.

Lemma delta_transform_expand_ok (d : delta A) xform after :
  wf_insert_delta d -> canonical xform -> base_len d = zeros (flat xform) ->
  exists d', delta_transform_expand d xform after = Some d' /\ wf_insert_delta d' /\
    base_len d' = length (flat xform) /\
    script (els d') = rebase_script after (script (els d)) (flat xform).
Proof.
  intros (H1 & H2 & H3) Hx Hb. unfold delta_transform_expand.
  fold (subset_len xform). rewrite subset_len_ok.
  set (len := length (flat xform)). cbn zeta.
  destruct (te_outer_ok len (base_len d) (flat xform) after
              (rebase_script after (script (els d)) (flat xform)) eq_refl
              (S (len + length (els d))) (TEState [] 0 0 (els d) 0 (ranges xform Zero)))
    as (st & -> & Hinv & Hy & Hi).
  - constructor; cbn [te_els te_x te_y te_i te_b1 te_r]; auto; try lia.
    + reflexivity.
    + split; constructor.
    + now apply contx_of.
    + cbn [skipn]. now apply runs_ranges0.
    + cbn [skipn]. lia.
    + cbn. rewrite (scriptx_of 0 (els d) (base_len d)); auto.
  - cbn [te_y te_i]. lia.
  - cbn [bind]. destruct Hinv as [I1 [I2 I2'] I3 I4 I5 I6 I7 I8].
    pose proof (te_push_ok _ _ _ I1 I2 I2' I3) as HP. cbn zeta in HP. destruct HP as (P1 & P2 & P3 & P4).
    eexists; split; [reflexivity|]. cbn [els base_len]. rewrite Hy in *.
    split; [|split; [reflexivity|]].
    + split; cbn [els base_len]; auto.
    + rewrite P4, <- I8, Hi. rewrite (skipn_all2 (flat xform)) by (unfold len; lia).
      cbn. now rewrite app_nil_r.
Qed.

End Expand.
