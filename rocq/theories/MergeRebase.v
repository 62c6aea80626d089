(** [compute_transforms], [rebase] and [merge] on a lattice of edits. *)
From Coq Require Import List Arith Bool Lia ZifyBool.
From Verif Require Import Base ListLib MultisetModel MultisetSpec MultisetProofs SpreadFacts
  DeltaModel DeltaSpec ExpandProofs SynthProofs DeltaProofs RebaseFacts EngineModel EngineSpec EngineFacts
  EngineInv MergeModel MergeFacts MergeLattice MergePath.
Import ListNotations.

Definition tr := (full_priority * list nat)%type.
Definition all_zero (M : list nat) : bool := forallb (fun k => k =? 0) M.

(** Join neighbours of the same priority, leave out empty ones. *)
Fixpoint coal (cur : option tr) (R : list tr) : list tr :=
  match R with
  | [] => match cur with None => [] | Some c => [c] end
  | (q, M) :: R' =>
      if all_zero M then coal cur R'
      else match cur with
           | None => coal (Some (q, M)) R'
           | Some (q0, N) =>
               if fst q0 =? fst q then coal (Some (q0, spread true N M)) R'
               else (q0, N) :: coal (Some (q, M)) R'
           end
  end.

Fixpoint tchain (n : nat) (R : list tr) (m : nat) : Prop :=
  match R with
  | [] => n = m
  | (_, M) :: R' => zeros M = n /\ tchain (length M) R' m
  end.

Lemma all_zero_repeat M : all_zero M = true -> M = repeat 0 (length M).
Proof.
  unfold all_zero. induction M as [|k M IH]; cbn; auto. intros H. apply andb_prop in H as [H1 H2].
  apply Nat.eqb_eq in H1. subst k. f_equal. auto.
Qed.

Lemma all_zero_spread M c : length M = zeros c -> all_zero (spread false M c) = all_zero M.
Proof.
  revert M; induction c as [|k c IH]; intros M H.
  - destruct M; [reflexivity|discriminate].
  - destruct k as [|k].
    + destruct M as [|x M]; [discriminate|]. rewrite zeros_cons in H. cbn in H. cbn. f_equal. apply IH. lia.
    + cbn. apply IH. exact H.
Qed.

Lemma spread_zero_id u x M : all_zero M = true -> length x = zeros M -> spread u x M = x.
Proof.
  intros H L. rewrite (all_zero_repeat M H) in *. rewrite zeros_repeat in L. cbn in L.
  now apply spread_all_zero.
Qed.

Lemma spread_join N M c : length N = zeros M -> length M = zeros c ->
  spread false (spread true N M) c =
  spread true (spread false N (kept (spread false M c) c)) (spread false M c).
Proof.
  revert N M; induction c as [|k c IH]; intros N M H1 H2.
  - destruct M; [|discriminate]. reflexivity.
  - destruct k as [|k].
    + destruct M as [|x M]; [discriminate|]. rewrite zeros_cons in H2. cbn in H2.
      destruct x as [|x].
      * destruct N as [|y N]; [discriminate|]. rewrite zeros_cons in H1. cbn in H1.
        cbn. f_equal. apply IH; lia.
      * rewrite zeros_cons in H1. cbn in H1. cbn. f_equal. apply IH; lia.
    + rewrite zeros_cons in H2. cbn in H2. cbn. f_equal. apply IH; lia.
Qed.

Section Push.
Context {A : Type}.
Implicit Types (w : list (option A)).

Fixpoint pushL (p : full_priority) w (d : list nat) (R : list tr) : list (option A) * list nat * list tr :=
  match R with
  | [] => (w, d, [])
  | (q, M) :: R' =>
      let w1 := rebase_script (priority_leb q p) w M in
      let M' := spread false M (marks w1) in
      let r := pushL p w1 (spread false d M') R' in
      (fst (fst r), snd (fst r), (q, M') :: snd r)
  end.

Lemma keeps_le w : keeps w <= length w.
Proof. rewrite <- zeros_marks, <- marks_length. apply zeros_le_length. Qed.

Lemma rebase_len f w M : keeps w = zeros M -> length (rebase_script f w M) = length w + length M - zeros M.
Proof.
  intros H. pose proof (keeps_rebase f w M H) as K. pose proof (shrink_rebase f w M H) as S.
  assert (G : forall (x : list (option A)) c, keeps x = length c -> length (shrink_script x c) + length c = length x + zeros c).
  { clear. induction x as [|[y|] x IH]; intros c Hc.
    - destruct c; [reflexivity|discriminate].
    - cbn. rewrite <- (IH c Hc). lia.
    - destruct c as [|k c]; [discriminate|]. rewrite keeps_None in Hc. cbn in Hc. rewrite zeros_cons.
      specialize (IH c ltac:(lia)). cbn [shrink_script length]. destruct (k =? 0); cbn [length]; lia. }
  specialize (G _ _ K). rewrite S in G. lia.
Qed.

Lemma pushL_coal sess p R : forall q N w d m, snd q = sess -> Forall (fun t : tr => snd (fst t) = sess) R ->
  keeps w = zeros N -> length d = length w -> tchain (length N) R m ->
  let w1 := rebase_script (priority_leb q p) w N in
  let N' := spread false N (marks w1) in
  let r := pushL p w1 (spread false d N') R in
  pushL p w d (coal (Some (q, N)) R) = (fst (fst r), snd (fst r), coal (Some (q, N')) (snd r)).
Proof.
  induction R as [|[q2 M] R IH]; intros q N w d m Hq HR Hw Hd Ht; cbv zeta.
  - reflexivity.
  - inversion HR as [|? ? Hq2 HR']; subst. cbn [fst snd] in Hq2. cbn [tchain] in Ht. destruct Ht as [Hz Ht].
    set (w1 := rebase_script (priority_leb q p) w N).
    assert (K1 : keeps w1 = length N) by (apply keeps_rebase; auto).
    assert (L1 : length w1 = length w + length N - zeros N) by (apply rebase_len; auto).
    set (N' := spread false N (marks w1)).
    assert (LN' : length N' = length w1).
    { unfold N'. rewrite spread_length, marks_length; auto. rewrite zeros_marks; auto. }
    assert (ZN' : zeros N' = length w).
    { unfold N'. rewrite zeros_spread_false; rewrite ?zeros_marks, ?marks_length; auto.
      pose proof (zeros_le_length N). pose proof (keeps_le w). lia. }
    cbn [coal pushL fst snd]. set (w2 := rebase_script (priority_leb q2 p) w1 M).
    assert (K2 : keeps w2 = length M) by (apply keeps_rebase; lia).
    rewrite (all_zero_spread M (marks w2)) by (rewrite zeros_marks; auto).
    destruct (all_zero M) eqn:Ez.
    + assert (Lm : length M = length N).
      { rewrite (all_zero_repeat M Ez), zeros_repeat in Hz. cbn in Hz. lia. }
      assert (Ew : w2 = w1).
      { unfold w2. rewrite (all_zero_repeat M Ez). apply rebase_empty. lia. }
      rewrite Ew. rewrite (spread_zero_id false (spread false d N')).
      * rewrite Lm in Ht. pose proof (IH q N w d m eq_refl HR' Hw Hd Ht) as E. cbv zeta in E.
        fold w1 in E. fold N' in E. rewrite E. reflexivity.
      * rewrite all_zero_spread; auto. rewrite zeros_marks; lia.
      * rewrite spread_length by lia. rewrite zeros_spread_false; rewrite ?zeros_marks, ?marks_length; try lia.
        pose proof (keeps_le w1). lia.
    + destruct (fst q =? fst q2) eqn:Eq.
      * assert (q2 = q).
        { apply Nat.eqb_eq in Eq. destruct q as [? ?], q2 as [? ?]. cbn in *. subst. now f_equal. }
        subst q2. assert (LNM : length N = zeros M) by lia.
        pose proof (IH q (spread true N M) w d m eq_refl HR') as E. cbv zeta in E.
        assert (Ew : rebase_script (priority_leb q p) w (spread true N M) = w2).
        { unfold w2, w1. rewrite rebase_twice; auto. }
        rewrite Ew in E.
        assert (Ek : kept (spread false M (marks w2)) (marks w2) = marks w1).
        { rewrite marks_shrink by lia. unfold w2. rewrite shrink_rebase by lia. reflexivity. }
        assert (EN : spread false (spread true N M) (marks w2) = spread true N' (spread false M (marks w2))).
        { rewrite spread_join; [|auto|rewrite zeros_marks; auto]. now rewrite Ek. }
        rewrite EN in E. rewrite <- spread_spread in E.
        -- apply E; auto.
           ++ rewrite zeros_spread_true; auto.
           ++ rewrite spread_length; auto.
        -- rewrite zeros_spread_false; rewrite ?zeros_marks, ?marks_length; try lia.
           rewrite LN', K2. unfold w2. rewrite rebase_len by lia. pose proof (zeros_le_length M). pose proof (keeps_le w1). lia.
        -- lia.
      * pose proof (IH q2 M w1 (spread false d N') m Hq2 HR' ltac:(lia)) as E. cbv zeta in E. cbn [pushL].
        fold w1. fold N'. fold w2 in E.
        specialize (E ltac:(rewrite spread_length; lia) Ht). unfold tr, full_priority in *. rewrite E. reflexivity.
Qed.

Lemma pushL_coal0 sess p R : forall w d m, Forall (fun t : tr => snd (fst t) = sess) R ->
  length d = length w -> tchain (keeps w) R m ->
  let r := pushL p w d R in
  pushL p w d (coal None R) = (fst (fst r), snd (fst r), coal None (snd r)).
Proof.
  induction R as [|[q M] R IH]; intros w d m HR Hd Ht; cbv zeta.
  - reflexivity.
  - inversion HR as [|? ? Hq HR']; subst. cbn [fst snd] in *. cbn [tchain] in Ht. destruct Ht as [Hz Ht].
    cbn [coal pushL fst snd]. set (w1 := rebase_script (priority_leb q p) w M).
    assert (K1 : keeps w1 = length M) by (apply keeps_rebase; auto).
    rewrite (all_zero_spread M (marks w1)) by (rewrite zeros_marks; auto).
    destruct (all_zero M) eqn:Ez.
    + assert (Lm : length M = keeps w).
      { rewrite (all_zero_repeat M Ez), zeros_repeat in Hz. cbn in Hz. lia. }
      assert (Ew : w1 = w).
      { unfold w1. rewrite (all_zero_repeat M Ez). apply rebase_empty. lia. }
      rewrite Ew. rewrite (spread_zero_id false d).
      * rewrite Lm in Ht. apply (IH w d m HR' Hd Ht).
      * rewrite all_zero_spread; auto. rewrite zeros_marks; lia.
      * rewrite zeros_spread_false; rewrite ?zeros_marks, ?marks_length; try lia.
        pose proof (keeps_le w). lia.
    + pose proof (pushL_coal _ p R q M w d m eq_refl) as E. cbv zeta in E. apply E; auto.
Qed.

(** ** The model's loops *)
Definition flats (E : list (full_priority * subset)) : list tr := map (fun t => (fst t, flat (snd t))) E.
Definition canonicals (E : list (full_priority * subset)) : Prop := Forall (fun t => canonical (snd t)) E.

Lemma expand_over_ok p E : forall (d : delta A) dels m, canonicals E -> wf_insert_delta d ->
  tchain (base_len d) (flats E) m -> canonical dels -> length (flat dels) = length (script (els d)) ->
  exists d' dels' E', expand_over E p d dels = Some (d', dels', E') /\ wf_insert_delta d' /\ base_len d' = m /\
    canonical dels' /\ canonicals E' /\
    pushL p (script (els d)) (flat dels) (flats E) = (script (els d'), flat dels', flats E').
Proof.
  induction E as [|[q s] E IH]; intros d dels m CE W Ht Cd Ld; cbn [expand_over flats map pushL].
  - exists d, dels, []. repeat split; auto; apply W.
  - inversion CE as [|? ? Cs CE']; subst. cbn [snd] in Cs. cbn [flats map tchain fst snd] in Ht. destruct Ht as [Hz Ht].
    destruct (delta_transform_expand_ok d s (priority_leb q p) W Cs) as (d1 & -> & W1 & B1 & S1); [auto|].
    cbn [bind]. destruct (inserted_subset_ok d1) as (ins & -> & Ci & Fi); try apply W1. cbn [bind].
    assert (K1 : keeps (script (els d1)) = length (flat s)) by (rewrite keeps_wf; auto).
    assert (Kd : keeps (script (els d)) = zeros (flat s)) by (rewrite keeps_wf; auto).
    destruct (transform_expand_ok s ins Cs Ci) as (s' & -> & C' & F'); [rewrite Fi, zeros_marks; lia|]. cbn [bind].
    assert (Ln : length (script (els d1)) = length (script (els d)) + length (flat s) - zeros (flat s)).
    { rewrite S1. apply rebase_len. auto. }
    assert (Zs : zeros (flat s') = length (script (els d))).
    { rewrite F', Fi, zeros_spread_false; rewrite ?zeros_marks, ?marks_length; try lia.
      pose proof (zeros_le_length (flat s)). pose proof (keeps_le (script (els d))). lia. }
    assert (Ls : length (flat s') = length (script (els d1))).
    { rewrite F', Fi, spread_length, marks_length; auto. rewrite zeros_marks. auto. }
    destruct (transform_expand_ok dels s' Cd C') as (dels1 & -> & C1 & F1); [lia|]. cbn [bind].
    destruct (IH d1 dels1 m CE' W1) as (d' & dels' & E' & -> & W' & B' & Cd' & CE2 & P); auto.
    { rewrite B1. exact Ht. }
    { rewrite F1, spread_length; lia. }
    cbn [bind fst snd]. exists d', dels', ((q, s') :: E'). repeat (split; [solve [auto]|]). split; [constructor; auto|].
    rewrite <- S1. rewrite <- Fi, <- F'. rewrite <- F1. change (map _ E) with (flats E). rewrite P. reflexivity.
Qed.

Definition trans_of (r : revision) (t : tr) : Prop := exists id mx pri g ins del,
  r = Rev id mx (Edit pri g ins del) /\ fst t = (pri, session_of id) /\ canonical ins /\ flat ins = snd t.

Lemma is_empty_all_zero ins : canonical ins -> is_empty ins = all_zero (flat ins).
Proof.
  intros Ci. pose proof (is_empty_ok ins Ci) as Q. destruct (is_empty ins), (all_zero (flat ins)) eqn:Ez; auto.
  - exfalso. assert (T : true = true) by auto. apply Q in T. unfold all_zero in Ez.
    assert (forallb (fun k => k =? 0) (flat ins) = true); [|congruence].
    apply forallb_forall. rewrite Forall_forall in T. intros x Hx. rewrite (T x Hx). reflexivity.
  - exfalso. assert (false = true); [|discriminate]. apply Q. apply Forall_forall. unfold all_zero in Ez.
    rewrite forallb_forall in Ez. intros x Hx. apply Nat.eqb_eq. auto.
Qed.

Lemma transforms_loop_ok sess l : forall R, Forall2 trans_of l R ->
  Forall (fun t : tr => snd (fst t) = sess) R ->
  forall n m, tchain n R m ->
  (forall q s out, canonicals ((q, s) :: out) -> length (flat s) = n ->
    exists E, transforms_loop l (Some (fst q)) ((q, s) :: out) = Some (rev out ++ E) /\ canonicals E /\
      flats E = coal (Some (q, flat s)) R) /\
  (exists E, transforms_loop l None [] = Some E /\ canonicals E /\ flats E = coal None R).
Proof.
  intros R F. induction F as [|r [q2 M] l R (id & mx & pri & g & ins & del & -> & Eq & Ci & Fi) F IH]; intros HR n m Ht.
  - split.
    + intros q s out CE _. exists [(q, s)]. inversion CE; subst. cbn. repeat split; auto. constructor; auto.
    + exists []. cbn. repeat split; auto. constructor.
  - inversion HR as [|? ? Hq2 HR']; subst. cbn [fst snd] in *. cbn [tchain] in Ht. destruct Ht as [Hz Ht].
    subst q2 M. destruct (IH HR' _ _ Ht) as [I1 I2]. clear IH.
    cbn [transforms_loop coal r_edit r_id]. rewrite is_empty_all_zero by auto.
    destruct (all_zero (flat ins)) eqn:Ez.
    + assert (length (flat ins) = n) by (rewrite (all_zero_repeat _ Ez), zeros_repeat in Hz; cbn in Hz; lia).
      split; [|exact I2]. intros q s out CE Ln. apply I1; auto. lia.
    + split.
      * intros q s out CE Ln. cbn [fst]. inversion CE as [|? ? Cs CE']; subst. cbn [snd] in Cs.
        destruct (fst q =? pri) eqn:Ep.
        -- destruct (transform_union_ok s ins Cs Ci) as (s' & -> & C' & F'); [lia|]. cbn [bind].
           rewrite <- F'. apply I1; auto; [constructor; auto|]. rewrite F', spread_length; lia.
        -- destruct (I1 (pri, session_of id) ins ((q, s) :: out)) as (E & EE & CE2 & FE); auto.
           { constructor; auto. }
           exists ((q, s) :: E). cbn [rev fst] in EE. rewrite <- app_assoc in EE. cbn [app] in EE.
           split; [exact EE|]. split.
           ++ constructor; auto.
           ++ cbn. fold (flats E). now rewrite FE.
      * destruct (I1 (pri, session_of id) ins []) as (E & EE & CE2 & FE); auto.
        { constructor; auto; constructor. }
        cbn [fst rev app] in EE. exists E. auto.
Qed.
End Push.
