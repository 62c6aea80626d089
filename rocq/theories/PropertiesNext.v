(** C58: going from one occurrence to the next. *)
From Coq Require Import List Arith Lia Bool ZifyBool.
From Verif Require Import Base ListLib TreeModel TreeSpec TreeProofs CursorModel RopeModel RopeSpec RopeProofs RopeIterModel RopeIterProofs RopeCursor FindModel FindProofs PropertiesFind
  DeltaModel SelectionModel SelectionProofs PropertiesSelection WordModel PropertiesWord EditOpsProofs LinewrapModel LinewrapSpec LinewrapHist PropertiesLinewrap MovementModel PropertiesMovement ShadowModel ViewModel EditOpsMore ViewSpec ViewProofs PropertiesView DrawProofs SearchModel SearchSpec SearchProofs PropertiesSearch NextSpec.
Import ListNotations.
Local Notation region := SelectionModel.region.
Local Notation lo := PropertiesSelection.lo.

(** ** Proofs *)
Lemma first_hd {A} (f : A -> bool) (P : A -> Prop) l : (forall x, In x l -> (f x = true <-> P x)) ->
  match hd_error (filter f l) with Some x => first_of P l x | None => forall x, In x l -> ~ P x end.
Proof.
  induction l as [|y l IH]; intros H; cbn [filter]; [intros x []|]. pose proof (H y (or_introl eq_refl)) as Hy. destruct (f y); cbn [hd_error].
  - exists [], l. split; auto. split; [now apply Hy|intros z []].
  - assert (Ny : ~ P y) by (intros Q; apply Hy in Q; discriminate). specialize (IH ltac:(intros x Hx; apply H; now right)). destruct (hd_error (filter f l)) as [x|].
    + destruct IH as (a & b & -> & Px & Na). exists (y :: a), b. split; auto. split; auto. intros z [<-|Hz]; auto.
    + intros z [<-|Hz]; auto.
Qed.
Lemma last_region_rev rs : last_region rs = hd_error (rev rs).
Proof. reflexivity. Qed.
Lemma filter_rev {A} (f : A -> bool) l : filter f (rev l) = rev (filter f l).
Proof. induction l as [|x l IH]; auto. cbn [rev filter]. rewrite filter_app, IH. cbn [filter]. destruct (f x); cbn [rev]; auto. now rewrite app_nil_r. Qed.
Lemma last_of_rev {A} (P : A -> Prop) l x : first_of P (rev l) x -> last_of P l x.
Proof.
  intros (a & b & E & Px & H). exists (rev b), (rev a). split; [|split; auto; intros y Hy; apply H; now apply in_rev].
  rewrite <- (rev_involutive l), E, rev_app_distr. cbn [rev]. now rewrite <- app_assoc.
Qed.
Lemma last_filter (f : region -> bool) (P : region -> Prop) l : (forall x, In x l -> (f x = true <-> P x)) ->
  match last_region (filter f l) with Some x => last_of P l x | None => forall x, In x l -> ~ P x end.
Proof.
  intros H. rewrite last_region_rev, <- filter_rev. pose proof (first_hd f P (rev l) ltac:(intros x Hx; apply H; now apply in_rev)) as K. destruct (hd_error _) as [x|].
  - now apply last_of_rev.
  - intros x Hx. apply K. now apply in_rev in Hx.
Qed.
(** The query of a selection with nothing beyond its end. *)
Lemma beyond rs n : sok rs -> (forall r, In r rs -> rmax r <= n) -> regions_in_range rs (n + 1) n = Some [].
Proof.
  intros So H. assert (E : search rs (n + 1) = length rs).
  { clear So. induction rs as [|r rs IH]; auto. cbn [search length]. pose proof (H r (or_introl eq_refl)). replace (rmax r <? n + 1) with true by lia. rewrite IH; auto. intros; apply H; now right. }
  unfold regions_in_range. rewrite E. pose proof (search_le rs n) as Hl. destruct (nth_error rs (search rs n)) as [o|] eqn:Eo.
  - assert (search rs n < length rs) by (apply nth_error_Some; congruence). assert (Ho : rmin o <=? n = true). { pose proof (H o ltac:(eapply nth_error_In; eauto)). pose proof (min_le_max o). lia. } rewrite Ho.
    assert (S (search rs n) = length rs).
    { destruct (Nat.eq_dec (S (search rs n)) (length rs)) as [|Hne]; auto. exfalso. destruct (nth_error rs (S (search rs n))) as [o'|] eqn:Eo'; [|apply nth_error_None in Eo'; lia].
      pose proof (sok_nth rs (search rs n) (S (search rs n)) o o' So ltac:(lia) Eo Eo') as [K1 K2]. pose proof (search_nth rs n (search rs n) o So Eo) as Hn.
      pose proof (H o' ltac:(eapply nth_error_In; eauto)). pose proof (min_le_max o'). lia. }
    replace ((length rs <=? S (search rs n)) && (S (search rs n) <=? length rs)) with true by lia. cbn [check]. now replace (S (search rs n) - length rs) with 0 by lia.
  - apply nth_error_None in Eo. assert (search rs n = length rs) by lia. replace ((length rs <=? search rs n) && (search rs n <=? length rs)) with true by lia. cbn [check]. now replace (search rs n - length rs) with 0 by lia.
Qed.
(** Nothing of a selection touches a range if the query is empty, whatever meets at its end. *)
Lemma query_empty rs a b : sok rs -> a <= b -> exists l, regions_in_range rs a b = Some l /\ (l = [] <-> forall x, In x rs -> rmax x < a \/ b < rmin x).
Proof.
  intros So Hab. destruct (regions_in_range_ok rs a b So Hab) as (l & E & Hn & H1 & H2). exists l. split; auto. split.
  - intros -> x Hx. destruct (Nat.lt_ge_cases (rmax x) a) as [|Ha]; auto. destruct (Nat.lt_ge_cases b (rmin x)) as [|Hb]; auto. exfalso.
    destruct (Nat.eq_dec (rmin x) b) as [Eb|]; [|apply (H2 x Hx Ha); lia].
    assert (N : no_meeting rs b).
    { intros y z Hy Hz Ey Ez. destruct (Nat.eq_dec (rmin y) b) as [|Hne]; auto. exfalso. pose proof (min_le_max y). apply (H2 y Hy); lia. }
    specialize (Hn N). assert (I : In x (filter (fun r => (a <=? rmax r) && (rmin r <=? b)) rs)) by (apply filter_In; split; auto; lia). rewrite <- Hn in I. destruct I.
  - intros H. destruct l as [|x l]; auto. exfalso. destruct (H1 x (or_introl eq_refl)) as (Hx & Ha & Hb). destruct (H x Hx); lia.
Qed.
Lemma unselected_ok sel rs : sok sel -> (forall o, In o rs -> rmin o <= rmax o) -> exists f, unselected sel rs = Some (filter f rs) /\ forall o, f o = true <-> apart sel o.
Proof.
  intros So H. set (f := fun o => match regions_in_range sel (rmin o) (rmax o) with Some [] => true | _ => false end). exists f.
  assert (Hf : forall o, f o = true <-> apart sel o).
  { intros o. unfold f. destruct (query_empty sel (rmin o) (rmax o) So (min_le_max o)) as (l & -> & Hl). unfold apart. change lo with rmin. change hi with rmax. rewrite <- Hl. destruct l; split; congruence. }
  split; auto. induction rs as [|o rs IH]; auto. cbn [unselected filter]. destruct (query_empty sel (rmin o) (rmax o) So (min_le_max o)) as (l & E & _).
  rewrite IH by (intros; apply H; now right). unfold f at 2. rewrite E. cbn [bind]. now destruct l.
Qed.

Lemma bd_len u i : char_boundary u i -> i <= length u.
Proof. intros (a & b & _ & -> & ->). rewrite concat_app, app_length. lia. Qed.
Section Next.
Context (e : env) (OK : env_ok e).
Local Notation s := (es e).
Local Notation t := (e_text e).
Lemma e_len : n_len t = length s. Proof. destruct (eo_text e OK) as [h W]. exact (len_r t h W). Qed.
Lemma proper_le x : proper s x -> rmin x <= length s /\ rmax x <= length s.
Proof. intros (H1 & H2 & _). apply bd_len in H1, H2. unfold rmin, rmax. lia. Qed.

(** What the query of a selection at a place past all of it comes to. *)
Lemma next_ok f rs x reverse wrapped : occurrences s (fd_occ f) -> sound s (rs ++ [x]) -> (reverse = true -> no_meeting (fd_occ f) (rmin x - 1)) ->
  exists o, next_occurrence f t reverse wrapped (rs ++ [x]) = Some o /\
    match o with
    | Some r => In r (fd_occ f) /\ next_from (rs ++ [x]) x reverse (fd_occ f) r
    | None => wrapped = false -> forall r, ~ next_from (rs ++ [x]) x reverse (fd_occ f) r
    end /\ (wrapped = true -> (forall r, ~ next_from (rs ++ [x]) x reverse (fd_occ f) r) -> o = None).
Proof.
  intros (So & Ho) (Ne & Sd & Fp) Hm. pose proof So as So'. apply sok_order in So, Sd. unfold next_occurrence. destruct (fd_occ f) as [|o0 occ0] eqn:Eo.
  - exists None. split; auto. split; auto. intros _ r. unfold next_from. destruct reverse; intros [(a & b & E & _)|(_ & a & b & E & _)]; destruct a; discriminate.
  - rewrite <- Eo in *. clear Eo o0 occ0. set (occ := fd_occ f) in *. rewrite last_region_app, e_len. set (n := length s).
    assert (Hocc : forall o, In o occ -> rmin o < rmax o /\ rmax o <= n).
    { intros o Hi. destruct (Ho o Hi) as [Hp Hl]. pose proof (proper_le o Hp). unfold n, rmin, rmax in *. lia. }
    assert (Px : rmin x <= n /\ rmax x <= n) by (apply proper_le, Fp, in_or_app; right; now left).
    destruct (unselected_ok (rs ++ [x]) occ Sd ltac:(intros o _; apply min_le_max)) as (g & Eg & Hg).
    assert (All : regions_in_range occ 0 n = Some occ).
    { destruct (regions_in_range_ok occ 0 n So ltac:(lia)) as (out & E & Hn & _). rewrite E. f_equal. rewrite Hn.
      - apply filter_all. intros o Hi. destruct (Hocc o Hi). lia.
      - intros a b _ Hb _ Eb. destruct (Hocc b Hb). lia. }
    destruct reverse.
    + set (k := if rmin x =? 0 then Some None else let? l := regions_in_range occ 0 (rmin x - 1) in Some (last_region l)).
      assert (K : exists p, k = Some p /\ match p with Some r => In r occ /\ last_of (behind x) occ r | None => forall y, In y occ -> ~ behind x y end).
      { unfold k. destruct (rmin x =? 0) eqn:E0; [exists None; split; auto; intros y _; unfold behind; change lo with rmin; lia|].
        destruct (regions_in_range_ok occ 0 (rmin x - 1) So ltac:(lia)) as (out & -> & Hn & _). cbn [bind]. rewrite (Hn (Hm eq_refl)). clear out Hn.
        pose proof (last_filter (fun r => (0 <=? rmax r) && (rmin r <=? rmin x - 1)) (behind x) occ) as L. eexists. split; [reflexivity|]. destruct (last_region _) as [r|].
        - assert (L' : last_of (behind x) occ r) by (apply L; intros y _; unfold behind; change lo with rmin; lia). split; auto. destruct L' as (a & b & -> & _). apply in_or_app. right. now left.
        - apply L. intros y _. unfold behind. change lo with rmin. lia. }
      fold k. destruct K as (p & -> & K). cbn [bind]. destruct p as [r|].
      * exists (Some r). split; auto. split; [split; [tauto|left; tauto]|]. intros _ H. exfalso. apply (H r). left. tauto.
      * destruct wrapped; [exists None; split; auto; split; [discriminate|auto]|]. rewrite All. cbn [bind]. rewrite Eg. cbn [bind]. eexists. split; [reflexivity|]. split; [|discriminate].
        pose proof (last_filter g (apart (rs ++ [x])) occ ltac:(intros y _; apply Hg)) as L. destruct (last_region (filter g occ)) as [r|].
        -- split; [destruct L as (a & b & -> & _); apply in_or_app; right; now left|right; auto].
        -- intros _ r [(a & b & E & Q & _)|(_ & a & b & E & Q & _)]; [apply (K r)|apply (L r)]; auto; rewrite E; apply in_or_app; right; now left.
    + set (se := if is_caret x then rmax x else rmax x + 1). set (k := let? l := regions_in_range occ se n in Some (hd_error l)).
      assert (K : exists p, k = Some p /\ match p with Some r => In r occ /\ first_of (ahead x) occ r | None => forall y, In y occ -> ~ ahead x y end).
      { unfold k. assert (Hr : regions_in_range occ se n = Some (filter (fun r => se <=? rmax r) occ)).
        { destruct (Nat.le_gt_cases se n) as [Hs|Hs].
          - destruct (regions_in_range_ok occ se n So Hs) as (out & -> & Hn & _). f_equal. rewrite Hn.
            + apply filter_ext_in. intros o Hi. destruct (Hocc o Hi). lia.
            + intros a b _ Hb _ Eb. destruct (Hocc b Hb). lia.
          - assert (se = n + 1) by (unfold se in *; destruct (is_caret x); lia). replace se with (n + 1). rewrite beyond; auto; [|intros r Hr; apply (Hocc r Hr)].
            f_equal. symmetry. apply filter_none. intros o Hi. destruct (Hocc o Hi). lia. }
        rewrite Hr. cbn [bind]. pose proof (first_hd (fun r => se <=? rmax r) (ahead x) occ) as L. eexists. split; [reflexivity|].
        assert (Hp : forall y, In y occ -> (se <=? rmax y = true <-> ahead x y)) by (intros y _; unfold ahead, se; change hi with rmax; destruct (is_caret x); lia). specialize (L Hp). destruct (hd_error _) as [r|]; auto.
        split; auto. destruct L as (a & b & -> & _). apply in_or_app. right. now left. }
      fold k. destruct K as (p & -> & K). cbn [bind]. destruct p as [r|].
      * exists (Some r). split; auto. split; [split; [tauto|left; tauto]|]. intros _ H. exfalso. apply (H r). left. tauto.
      * destruct wrapped; [exists None; split; auto; split; [discriminate|auto]|]. rewrite All. cbn [bind]. rewrite Eg. cbn [bind]. eexists. split; [reflexivity|]. split; [|discriminate].
        pose proof (first_hd g (apart (rs ++ [x])) occ ltac:(intros y _; apply Hg)) as L. destruct (hd_error (filter g occ)) as [r|].
        -- split; [destruct L as (a & b & -> & _); apply in_or_app; right; now left|right; auto].
        -- intros _ r [(a & b & E & Q & _)|(_ & a & b & E & Q & _)]; [apply (K r)|apply (L r)]; auto; rewrite E; apply in_or_app; right; now left.
Qed.

Lemma first_unique {A} (P : A -> Prop) l x y : first_of P l x -> first_of P l y -> x = y.
Proof.
  induction l as [|z l IH]; intros (a & b & E & Px & H) (a' & b' & E' & Py & H'); [destruct a; discriminate|]. destruct a as [|w a], a' as [|w' a']; cbn in E, E'; injection E as E1 E2; injection E' as E1' E2'; subst.
  - reflexivity.
  - exfalso. eapply H'; [left; reflexivity|eassumption].
  - exfalso. eapply H; [left; reflexivity|eassumption].
  - apply IH; [exists a, b|exists a', b']; (split; [reflexivity || assumption|split; [assumption|]]); intros v Hv; [apply H|apply H']; now right.
Qed.
Lemma last_unique {A} (P : A -> Prop) l x y : last_of P l x -> last_of P l y -> x = y.
Proof.
  assert (K : forall z, last_of P l z -> first_of P (rev l) z).
  { intros z (a & b & -> & Pz & H). exists (rev b), (rev a). split; [rewrite rev_app_distr; cbn [rev]; now rewrite <- app_assoc|]. split; auto. intros v Hv. apply H. now apply in_rev in Hv. }
  intros H1 H2. apply K in H1, H2. eapply first_unique; eauto.
Qed.
Lemma next_unique sel x reverse occ a b : next_from sel x reverse occ a -> next_from sel x reverse occ b -> a = b.
Proof.
  assert (I : forall P z, first_of P occ z -> In z occ /\ P z) by (intros P z (u & v & -> & Pz & _); split; auto; apply in_or_app; right; now left).
  assert (J : forall P z, last_of P occ z -> In z occ /\ P z) by (intros P z (u & v & -> & Pz & _); split; auto; apply in_or_app; right; now left).
  unfold next_from. destruct reverse; intros [H|[N H]] [H'|[N' H']]; try (eapply last_unique; eassumption); try (eapply first_unique; eassumption); exfalso.
  - apply J in H as [? ?]. eapply N'; eauto. - apply J in H' as [? ?]. eapply N; eauto. - apply I in H as [? ?]. eapply N'; eauto. - apply I in H' as [? ?]. eapply N; eauto.
Qed.
Lemma nexts_ok fs rs x reverse wrapped : Forall (fun f => occurrences s (fd_occ f)) fs -> sound s (rs ++ [x]) -> (reverse = true -> Forall (fun f => no_meeting (fd_occ f) (rmin x - 1)) fs) ->
  exists l, next_occurrences fs t reverse wrapped (rs ++ [x]) = Some l /\
    (forall r, In r l -> exists f, In f fs /\ In r (fd_occ f) /\ next_from (rs ++ [x]) x reverse (fd_occ f) r) /\
    (wrapped = false -> forall f r, In f fs -> next_from (rs ++ [x]) x reverse (fd_occ f) r -> In r l) /\
    (wrapped = true -> (forall f r, In f fs -> ~ next_from (rs ++ [x]) x reverse (fd_occ f) r) -> l = []).
Proof.
  intros F Sd. induction fs as [|f fs IH]; intros Hm; cbn [next_occurrences].
  - exists []. split; auto. split; [intros r []|]. split; [intros _ f r []|auto].
  - inversion F as [|? ? F1 F2]; subst. destruct (next_ok f rs x reverse wrapped F1 Sd) as (o & -> & H1 & H2); [intros Hr; specialize (Hm Hr); now inversion Hm|]. cbn [bind].
    destruct IH as (l & -> & I1 & I2 & I3); auto; [intros Hr; specialize (Hm Hr); now inversion Hm|]. cbn [bind]. eexists. split; [reflexivity|]. split; [|split].
    + intros r Hr. assert (Hl : In r l -> exists g, In g (f :: fs) /\ In r (fd_occ g) /\ next_from (rs ++ [x]) x reverse (fd_occ g) r).
      { intros Hl. destruct (I1 r Hl) as (g & Hg & K). exists g. split; auto. now right. }
      destruct o as [y|]; auto. destruct Hr as [<-|Hr]; auto. exists f. split; auto. now left.
    + intros -> g r [<-|Hg] Hn.
      * destruct o as [y|]; [left; destruct H1 as [_ H1]; eapply next_unique; eauto|]. exfalso. eapply H1; eauto.
      * specialize (I2 eq_refl g r Hg Hn). destruct o; auto. now right.
    + intros -> H. rewrite (H2 eq_refl) by (intros r; apply H; now left). apply I3; auto. intros g r Hg. apply H. now right.
Qed.
Lemma min_by_ok key l : match min_by key l with Some x => In x l /\ forall y, In y l -> key x <= key y | None => l = [] end.
Proof.
  induction l as [|x l IH]; cbn [min_by]; auto. destruct (min_by key l) as [y|].
  - destruct IH as [H1 H2]. destruct (Nat.leb_spec (key x) (key y)).
    + split; [now left|]. intros z [<-|Hz]; [lia|]. specialize (H2 z Hz). lia.
    + split; [now right|]. intros z [<-|Hz]; [lia|auto].
  - subst l. split; [now left|]. intros z [<-|[]]. lia.
Qed.
Lemma far_ok x reverse o o' : proper s x -> proper s o -> proper s o' -> r_start o < r_end o -> r_start o' < r_end o' ->
  distance (n_len t) (rmin x) (rmax x) reverse o <= distance (n_len t) (rmin x) (rmax x) reverse o' -> far (length s) x reverse o <= far (length s) x reverse o'.
Proof.
  rewrite e_len. intros Px Po Po' Ho Ho'. apply proper_le in Px, Po, Po'. unfold distance, far, around_to, rmin, rmax, hi, lo in *.
  assert (Nat.max (r_start o) (r_end o) = r_end o) as -> by lia. assert (Nat.max (r_start o') (r_end o') = r_end o') as -> by lia.
  assert (Nat.min (r_start o) (r_end o) = r_start o) as -> by lia. assert (Nat.min (r_start o') (r_end o') = r_start o') as -> by lia.
  set (a := Nat.min (r_start x) (r_end x)) in *. set (b := Nat.max (r_start x) (r_end x)) in *. clearbody a b.
  destruct reverse.
  - destruct (b <? r_end o) eqn:E1, (b <? r_end o') eqn:E2; destruct (r_end o <=? b) eqn:E3, (r_end o' <=? b) eqn:E4; lia.
  - destruct (r_start o <? a) eqn:E1, (r_start o' <? a) eqn:E2; destruct (a <=? r_start o) eqn:E3, (a <=? r_start o') eqn:E4; lia.
Qed.

Definition found_next (v : view) (fs : list finder) (reverse : bool) (m : selection_modifier) (v' : view) : Prop :=
  exists rs x, vw_sel v = rs ++ [x] /\
  ((exists o, nearest_from (length s) (vw_sel v) x reverse (map fd_occ fs) o /\ takes m rs x o (vw_sel v') /\ comes_in_view e v m v') \/
   (forall occ o, In occ (map fd_occ fs) -> ~ next_from (vw_sel v) x reverse occ o) /\ v' = v).
Lemma select_ok v fs rs x reverse wrapped m : vw_sel v = rs ++ [x] -> sound s (vw_sel v) -> 1 <= vw_height v -> Forall (fun f => occurrences s (fd_occ f)) fs ->
  (reverse = true -> Forall (fun f => no_meeting (fd_occ f) (rmin x - 1)) fs) -> (wrapped = true -> m = ModNone \/ forall f r, In f fs -> ~ next_from (vw_sel v) x reverse (fd_occ f) r) ->
  exists v', select_next_occurrence (e_lo e) fs t v reverse wrapped m = Some v' /\
    ((wrapped = true /\ v' = v) \/ wrapped = false /\
     ((exists o, nearest_from (length s) (vw_sel v) x reverse (map fd_occ fs) o /\ takes m rs x o (vw_sel v') /\ comes_in_view e v m v') \/
      (forall f r, In f fs -> ~ next_from (vw_sel v) x reverse (fd_occ f) r) /\ v' = v)).
Proof.
  intros Ev Sd Hh F Hm Hw. unfold select_next_occurrence. rewrite Ev in *. rewrite last_region_app. destruct (nexts_ok fs rs x reverse wrapped F Sd Hm) as (l & -> & N1 & N2 & N3). cbn [bind].
  pose proof (min_by_ok (distance (n_len t) (rmin x) (rmax x) reverse) l) as M. destruct (min_by _ l) as [o|].
  2:{ exists v. split; auto. destruct wrapped; auto. right. split; auto. right. split; auto. intros f r Hf Hn. specialize (N2 eq_refl f r Hf Hn). now subst l. }
  destruct wrapped.
  { destruct (Hw eq_refl) as [->|Hn]; [exists v; auto|]. specialize (N3 eq_refl Hn). subst l. destruct M as [[] _]. }
  destruct M as [M1 M2]. rewrite Forall_forall in F. assert (Px : proper s x) by (apply (proj2 (proj2 Sd)), in_or_app; right; now left).
  assert (Ps : forall f r, In f fs -> next_from (rs ++ [x]) x reverse (fd_occ f) r -> proper s r /\ r_start r < r_end r).
  { intros f r Hf Hn. apply (F f Hf). unfold next_from in Hn. destruct reverse; destruct Hn as [(a & b & -> & _)|(_ & a & b & -> & _)]; apply in_or_app; right; now left. }
  assert (Near : nearest_from (length s) (rs ++ [x]) x reverse (map fd_occ fs) o).
  { split.
    - destruct (N1 o M1) as (f & Hf & _ & Hn). exists (fd_occ f). split; auto. now apply in_map.
    - intros occ o' Ho Hn. apply in_map_iff in Ho as (f & <- & Hf). destruct (N1 o M1) as (g & Hg & _ & Hng). destruct (Ps _ _ Hf Hn), (Ps _ _ Hg Hng).
      apply far_ok; [exact Px|assumption..|]. apply M2. exact (N2 eq_refl f o' Hf Hn). }
  destruct (N1 o M1) as (g & Hg & _ & Hng). destruct (Ps _ _ Hg Hng) as [Po _]. apply sound_fit in Sd as Ft.
  destruct m.
  - exists v. split; auto. right. split; auto. left. exists o. split; auto. split; [exact Ev|reflexivity].
  - destruct (set_ok e OK v [o]) as (v' & Es & E1 & _ & I); [now rewrite Ev|now apply sound_one|auto|]. exists v'. split; auto. right. split; auto. left. exists o. split; auto.
  - destruct (unites_of e (rs ++ [x]) o Ft Po) as (sel' & -> & S' & U). cbn [bind].
    destruct (set_ok e OK v sel') as (v' & Es & E1 & _ & I); [now rewrite Ev|auto|auto|]. exists v'. split; auto. right. split; auto. left. exists o. split; auto. split; [cbn [takes]; now rewrite E1|exact I].
  - assert (K : (if is_caret x then Some (rs ++ [x]) else sel_delete_range (rs ++ [x]) (rmin x) (rmax x) false) = Some (if is_caret x then rs ++ [x] else rs)).
    { destruct (is_caret x) eqn:Ec; auto. assert (Hx : rmin x < rmax x) by (unfold is_caret in Ec; unfold rmin, rmax; lia). rewrite delete_intersecting_ok; [|apply Ft|left; lia]. f_equal.
      rewrite filter_app. cbn [filter]. replace (negb ((rmin x <? rmax x) && (rmin x <? rmax x))) with false by lia. rewrite app_nil_r. apply filter_all. intros y Hy.
      destruct Ft as [So _]. apply sok_app in So as (_ & _ & So). specialize (So y x Hy (or_introl eq_refl)). unfold ilt in So. lia. }
    rewrite K. cbn [bind].
    assert (Fr : fit s (if is_caret x then rs ++ [x] else rs)) by (destruct (is_caret x); auto; now apply fit_app in Ft).
    destruct (unites_of e _ o Fr Po) as (sel' & -> & S' & U). cbn [bind].
    destruct (set_ok e OK v sel') as (v' & Es & E1 & _ & I); [now rewrite Ev|auto|auto|]. exists v'. split; auto. right. split; auto. left. exists o. split; auto. split; [cbn [takes]; now rewrite E1|exact I].
Qed.
Lemma find_next_ok v fs reverse wrap m : vreach e v -> Forall (fun f => occurrences s (fd_occ f)) fs ->
  (reverse = true -> forall x rs, vw_sel v = rs ++ [x] -> Forall (fun f => no_meeting (fd_occ f) (rmin x - 1)) fs) ->
  exists v', do_find_next (e_lo e) fs t v reverse wrap m = Some v' /\ found_next v fs reverse m v'.
Proof.
  intros R F Hm. destruct (C55_sound_partial e v R) as [Sd Hh]. destruct (last_ex _ (proj1 Sd)) as (rs & x & Ev). unfold do_find_next.
  destruct (select_ok v fs rs x reverse false m Ev Sd Hh F) as (v1 & -> & [[? _]|[_ K]]); [intros Hr; eapply Hm; eauto|discriminate|discriminate|]. cbn [bind].
  assert (G : found_next v fs reverse m v1).
  { exists rs, x. split; auto. destruct K as [K|[K ->]]; auto. right. split; auto. intros occ o Ho. apply in_map_iff in Ho as (f & <- & Hf). now apply K. }
  destruct (negb (is_some (vw_scroll v1)) && wrap) eqn:Ec; [|eauto].
  assert (V : v1 = v /\ (m = ModNone \/ forall f r, In f fs -> ~ next_from (vw_sel v) x reverse (fd_occ f) r)).
  { destruct K as [(o & _ & _ & K)|[K ->]]; auto. destruct m; auto; exfalso; destruct K as (a & b & l & _ & Es & _); rewrite Es in Ec; discriminate. }
  destruct V as [-> V]. destruct (select_ok v fs rs x reverse true m Ev Sd Hh F) as (v2 & -> & [[_ ->]|[? _]]); [intros Hr; eapply Hm; eauto|auto| |discriminate]. eauto.
Qed.
End Next.

(** ** Theorems *)
(** Going on never panics. It selects, of the occurrences next to the selection, one for each query,
    the nearest, as the modifier says, and brings it into the window; if there is none, nothing
    happens. *)
Theorem C58_find_next e v fs wrap m : vreach e v -> Forall (fun f => occurrences (es e) (fd_occ f)) fs ->
  exists v', do_find_next (e_lo e) fs (e_text e) v false wrap m = Some v' /\ found_next e v fs false m v'.
Proof. intros R F. pose proof (proj1 (reach_VI _ _ R)) as OK. apply find_next_ok; auto. discriminate. Qed.
Print Assumptions C58_find_next.
(** Going back likewise. Missing: two occurrences that meet one byte before the last region; see below. *)
Theorem C58_find_previous_partial e v fs wrap m : vreach e v -> Forall (fun f => occurrences (es e) (fd_occ f)) fs ->
  (forall rs x, vw_sel v = rs ++ [x] -> Forall (fun f => forall a b, In a (fd_occ f) -> In b (fd_occ f) -> ~ (hi a + 1 = lo x /\ lo b + 1 = lo x)) fs) ->
  exists v', do_find_next (e_lo e) fs (e_text e) v true wrap m = Some v' /\ found_next e v fs true m v'.
Proof.
  intros R F H. pose proof (proj1 (reach_VI _ _ R)) as OK. apply find_next_ok; auto. intros _ x rs Ev. specialize (H rs x Ev). rewrite Forall_forall in *. intros f Hf a b Ha Hb Ea Eb.
  change rmin with lo in *. change rmax with hi in *. destruct (Nat.eq_dec (lo x) 0) as [E0|E0].
  - destruct (F f Hf) as [_ Fo]. destruct (Fo a Ha) as [_ L]. unfold hi, lo in *. lia.
  - exfalso. apply (H f Hf a b Ha Hb). lia.
Qed.
Print Assumptions C58_find_previous_partial.
(** All occurrences of all queries can be selected at once: exactly what one of them covers is then
    selected; if it is one query, its occurrences are the selection. *)
Theorem C58_find_all e v fs : vreach e v -> Forall (fun f => occurrences (es e) (fd_occ f)) fs ->
  exists v', do_find_all (e_lo e) fs v = Some v' /\
    ((exists f o, In f fs /\ In o (fd_occ f)) -> in_view e v v' /\ sound (es e) (vw_sel v') /\ forall p, selected (vw_sel v') p <-> exists f, In f fs /\ selected (fd_occ f) p) /\
    ((forall f, In f fs -> fd_occ f = []) -> v' = v) /\
    (forall f, fs = [f] -> fd_occ f <> [] -> vw_sel v' = fd_occ f).
Proof.
  intros R F. pose proof (proj1 (reach_VI _ _ R)) as OK. destruct (C55_sound_partial e v R) as [Sd Hh]. unfold do_find_all.
  destruct (add_regions_fit (es e) (flat_map fd_occ fs) [] (fit_nil _)) as (out & E & Fo & Hp).
  { apply Forall_forall. intros o Ho. apply in_flat_map in Ho as (f & Hf & Ho). rewrite Forall_forall in F. apply (F f Hf). exact Ho. }
  rewrite E. cbn [bind].
  assert (Hs : forall p, selected out p <-> exists f, In f fs /\ selected (fd_occ f) p).
  { intros p. rewrite (Hp KCov p : selected out p <-> _). split.
    - intros [H|(r & Hr & Hl)]; [now apply pts_nil in H|]. apply in_flat_map in Hr as (f & Hf & Hr). exists f. split; auto. exists r. auto.
    - intros (f & Hf & r & Hr & Hl). right. exists r. split; auto. apply in_flat_map. eauto. }
  destruct out as [|r out].
  - exists v. split; auto. assert (N : forall f o, In f fs -> In o (fd_occ f) -> False).
    { intros f o Hf Ho. apply (pts_nil KTouch (rmin o)). apply Hp. right. exists o. split; [apply in_flat_map; eauto|]. cbn. pose proof (min_le_max o). lia. }
    split; [intros (f & o & Hf & Ho); exfalso; eauto|]. split; auto. intros f -> Hne. exfalso. destruct (fd_occ f) as [|o l] eqn:Ef; [congruence|]. apply (N f o); [now left|rewrite Ef; now left].
  - destruct (set_ok e OK v (r :: out)) as (v' & Es & E1 & _ & I); [auto|now apply fit_sound|auto|]. exists v'. split; auto. rewrite E1. split; [|split].
    + intros _. split; auto. split; [now apply fit_sound|auto].
    + intros N. exfalso. replace (flat_map fd_occ fs) with (@nil region) in E; [discriminate|]. clear - N. symmetry. induction fs as [|f fs IH]; auto. cbn. rewrite N by now left. apply IH. intros; apply N; now right.
    + intros f -> Hne. cbn [flat_map] in E. rewrite app_nil_r in E. rewrite add_regions_same in E; [now injection E as <-|]. inversion F as [|? ? [So _] _]. now apply sok_order.
Qed.
Print Assumptions C58_find_all.
(** What a search shows are such occurrences. *)
Theorem C58_searched lower slow h t f q start b slop : rope_wf h t -> plain lower slow f q -> fd_whole f = false ->
  some_found (matches lower slow f q t) (fd_occ f) -> occurrences (rcontent t) (fd_occ f) -> start <= b -> start <= length (rcontent t) ->
  exists f', update_find lower slow f t start b slop = Some f' /\ occurrences (rcontent t) (fd_occ f').
Proof.
  intros W (Eq & Er & Hs) Ew So Oc Hse Hst. apply some_ok in So as [Sk Hm]. pose proof (laws_ok lower slow (fd_case f) q t h W Hs) as L.
  destruct (update_ok lower slow f q t h start b slop W Eq Er Hs) as (from & T & occ' & E & S' & M' & Hf & HT & P1 & P3 & P2 & P5); auto; [congruence|].
  exists (dirtied (with_occ f occ')). split; auto. split; [now apply sok_order|]. intros o Ho. cbn [fd_occ dirtied with_occ] in *. destruct (P1 o Ho) as [H|(_ & _ & ->)]; [now apply Oc|].
  pose proof (ml_range _ _ L _ _ (M' o Ho)) as R. destruct (ml_cut _ _ L _ _ (M' o Ho)) as [C1 C2]. pose proof (rope_utf8 h t W) as U. cbn [region_new r_start r_end]. split; [|lia].
  split; [now apply boundary_iff|]. split; [now apply boundary_iff|reflexivity].
Qed.
Print Assumptions C58_searched.

(** The selected text, or the word at the caret, can be made the query: the only one there is, or else
    a new one at the end; then the search starts anew. *)
Theorem C58_selection_for_find compile e v s case_sensitive : vreach e v ->
  exists rs x a b s' fs f, vw_sel v = rs ++ [x] /\ (if is_caret x then word_of (es e) (hi x) a b else a = lo x /\ b = hi x) /\
    do_selection_for_find compile s (e_text e) (vw_sel v) case_sensitive = Some s' /\ se_progress s' = Started /\ se_find s' = fs ++ [f] /\
    (fs = [] /\ length (se_find s) = 1 \/ fs = se_find s /\ length (se_find s) <> 1) /\
    fd_string f = Some (slice (es e) a b) /\ fd_case f = (if case_sensitive then Exact else CaseInsensitive) /\ fd_regex f = None /\ fd_whole f = true.
Proof.
  intros R. pose proof (proj1 (reach_VI _ _ R)) as OK. destruct (C55_sound_partial e v R) as [Sd Hh]. destruct (last_ex _ (proj1 Sd)) as (rs & x & Ev). destruct (eo_text e OK) as [h W].
  pose proof (rope_utf8 h (e_text e) W) as U. unfold do_selection_for_find. rewrite Ev, last_region_app.
  assert (Px : proper (es e) x) by (apply (proj2 (proj2 Sd)); rewrite Ev; apply in_or_app; right; now left).
  assert (B : char_boundary (es e) (rmin x) /\ char_boundary (es e) (rmax x)).
  { destruct Px as (P1 & P2 & _). unfold rmin, rmax. split; [destruct (Nat.min_spec (r_start x) (r_end x)) as [[_ ->]|[_ ->]]|destruct (Nat.max_spec (r_start x) (r_end x)) as [[_ ->]|[_ ->]]]; auto. }
  destruct B as [B1 B2].
  assert (K : exists a b, (if is_caret x then word_of (es e) (hi x) a b else a = lo x /\ b = hi x) /\
    (if is_caret x then let? c := c_new (e_text e) (rmax x) in let? (a, b, _) := select_word (e_text e) (n_len (e_text e)) c in slice_to_cow (e_text e) a b else slice_to_cow (e_text e) (rmin x) (rmax x)) = Some (slice (es e) a b)).
  { destruct (is_caret x).
    - destruct (rnew_ok h (e_text e) (rmax x) W (bd_len _ _ B2)) as (c & -> & Pc & Vc). cbn [bind].
      destruct (C44_select_word (e_text e) h W c (n_len (e_text e)) Vc) as (a & b & c' & -> & H1 & H2 & H3 & H4 & H5 & H6 & H7 & H8 & _); [now rewrite Pc|rewrite (len_r _ h W); auto|]. cbn [bind].
      exists a, b. rewrite Pc in *. split; [split; [exact H1|auto]|]. apply (slice_to_cow_ok (e_text e) h W); [lia|apply boundary_iff; auto..].
    - exists (rmin x), (rmax x). split; auto. apply (slice_to_cow_ok (e_text e) h W); [apply min_le_max|apply boundary_iff; auto..]. }
  destruct K as (a & b & Hw & ->). cbn [bind]. set (q := slice (es e) a b).
  assert (F : forall f, let f' := snd (set_find compile f q case_sensitive false true) in fd_string f' = Some q /\ fd_case f' = (if case_sensitive then Exact else CaseInsensitive) /\ fd_regex f' = None /\ fd_whole f' = true).
  { intros f. cbv zeta. unfold set_find. set (f0 := match q with [] => unset f | _ => f end). destruct (fd_string f0) as [q'|] eqn:Eq; cbn [snd]; auto.
    destruct (_ && _ && _ && _) eqn:Ec; cbn [snd]; auto. rewrite !andb_true_iff, bytes_eqb_ok, !eqb_true_iff in Ec. destruct Ec as (((-> & C1) & C2) & C3). split; auto. split; [|split; auto].
    - destruct case_sensitive, (fd_case f0); auto; discriminate.
    - destruct (fd_regex f0); [discriminate|auto]. }
  assert (P : forall fs f, put (fs ++ [f]) (length (fs ++ [f]) - 1) (snd (set_find compile f q case_sensitive false true)) = fs ++ [snd (set_find compile f q case_sensitive false true)]).
  { intros fs f. unfold put. rewrite app_length. cbn [length]. replace (length fs + 1 - 1) with (length fs) by lia. rewrite firstn_app_exact by auto. rewrite skipn_all2 by (rewrite app_length; cbn; lia). reflexivity. }
  exists rs, x, a, b. destruct (length (se_find s) =? 1) eqn:El.
  - destruct (se_find s) as [|f [|? ?]] eqn:Es; cbn in El; try lia. cbn [rev app hd_error bind]. eexists _, [], _. split; auto. split; auto. split; [reflexivity|]. cbn [se_progress se_find]. split; auto.
    split; [exact (P [] f)|]. split; [left; auto|]. apply F.
  - cbn [add_find se_find se_next]. rewrite rev_app_distr. cbn [rev app hd_error bind]. eexists _, (se_find s), _. split; auto. split; auto. split; [reflexivity|]. cbn [se_progress se_find]. split; auto.
    split; [exact (P (se_find s) (finder_new (se_next s)))|]. split; [right; split; auto; lia|]. apply F.
Qed.
Print Assumptions C58_selection_for_find.

(** ** Concrete cases *)
Definition shown_at (ps : list (nat * nat)) : finder := Finder 1 true None Exact None false (map (fun p => region_new (fst p) (snd p)) ps).
(** A view after some commands, with some occurrences of each query, goes to the next one. *)
Definition nexts (tx : list nat) (evs : list view_event) (fs : list (list (nat * nat))) (reverse wrap : bool) (m : selection_modifier) : option (list region * option (list region)) :=
  let? t := rope_from tx in
  let e := view_env t (set_wrap_width (F := nat) ln_default t WNone) (every tx) in
  let? v := do_all e view_new evs in
  Some (vw_sel v, option_map vw_sel (do_find_next (e_lo e) (map shown_at fs) (e_text e) v reverse wrap m)).
Lemma nexts_at tx evs fs reverse wrap m sel out : forallb (fun b => b <? 128) tx = true -> forallb calm evs = true -> nexts tx evs fs reverse wrap m = Some (sel, Some out) ->
  exists e v v', vreach e v /\ es e = tx /\ vw_sel v = sel /\ do_find_next (e_lo e) (map shown_at fs) (e_text e) v reverse wrap m = Some v' /\ vw_sel v' = out.
Proof.
  intros Ha Hc E. unfold nexts in E. destruct (rope_from tx) as [t|] eqn:Et; [|discriminate]. cbn [bind] in E. destruct (rope_of tx t Ha Et) as (W & A & C). cbv zeta in E.
  set (ln := set_wrap_width ln_default t WNone) in *. assert (Rl : creach t ln) by (apply reach_start; auto).
  assert (OK : env_ok (view_env t ln (every tx))).
  { apply (C55_view_env_partial 0 Nat.add cge cgt (Nat.eqb 0) (fun x => x) cwid copps (100 * 100) concrete_widths ascii cpo concrete_opps ltac:(lia)); auto. rewrite C. apply every_ok. now apply ascii_dec. }
  destruct (do_all _ view_new evs) as [v|] eqn:Ev; [|discriminate]. cbn [bind] in E. destruct (do_find_next _ _ _ _ _ _ _) as [v'|] eqn:En; [|discriminate]. cbn [option_map] in E.
  exists (view_env t ln (every tx)), v, v'. split; [eapply run_reach; eauto; now apply vr_new|]. split; auto. split; [congruence|]. split; auto. congruence.
Qed.
Lemma shown_ok tx ps : ascii tx -> disjoint_in_order (fd_occ (shown_at ps)) -> Forall (fun p => fst p < snd p <= length tx) ps -> occurrences tx (fd_occ (shown_at ps)).
Proof.
  intros A Hd H. split; auto. intros o Ho. cbn [fd_occ shown_at] in Ho. apply in_map_iff in Ho as (p & <- & Hp). rewrite Forall_forall in H. specialize (H p Hp). cbn [region_new r_start r_end r_aff]. split; [|lia].
  assert (B : forall i, i <= length tx -> char_boundary tx i) by (intros i Hi; apply boundary_iff; [now apply ascii_utf8|now apply ascii_boundary]). split; [apply B; cbn; lia|]. split; [apply B; cbn; lia|reflexivity].
Qed.
Ltac order_two := apply sok_order; cbn [fd_occ shown_at map sok fst snd]; repeat match goal with |- ilt _ _ => unfold ilt, rmin, rmax; cbn; lia | |- Forall _ _ => constructor | |- True => exact Logic.I | |- _ /\ _ => split end.
(** From the caret behind the first "ab" of "ab xx ab", with two queries shown: the caret touches the
    first, but "xx" is the nearer one ahead; it is also once "ab" is selected, and is added to it. *)
Example C58_find_next_case :
  (exists e v v', vreach e v /\ Forall (fun f => occurrences (es e) (fd_occ f)) (map shown_at [[(0, 2); (6, 8)]; [(3, 5)]]) /\ vw_sel v = [caret 2] /\
    do_find_next (e_lo e) (map shown_at [[(0, 2); (6, 8)]; [(3, 5)]]) (e_text e) v false true ModSet = Some v' /\ vw_sel v' = [region_new 3 5]) /\
  (exists e v v', vreach e v /\ Forall (fun f => occurrences (es e) (fd_occ f)) (map shown_at [[(0, 2); (6, 8)]; [(3, 5)]]) /\ vw_sel v = [region_new 0 2] /\
    do_find_next (e_lo e) (map shown_at [[(0, 2); (6, 8)]; [(3, 5)]]) (e_text e) v false true ModAdd = Some v' /\ vw_sel v' = [region_new 0 2; region_new 3 5]).
Proof.
  set (tx := [97; 98; 32; 120; 120; 32; 97; 98]).
  assert (O : Forall (fun f => occurrences tx (fd_occ f)) (map shown_at [[(0, 2); (6, 8)]; [(3, 5)]])).
  { assert (A : ascii tx) by now apply ascii_dec. repeat (apply Forall_cons || apply Forall_nil); (apply shown_ok; [auto|order_two|repeat constructor; cbn; lia]). }
  split.
  - destruct (nexts_at tx [EGesture 0 2 (Select GPoint false)] [[(0, 2); (6, 8)]; [(3, 5)]] false true ModSet [caret 2] [region_new 3 5]) as (e & v & v' & R & Ee & H); [reflexivity|reflexivity|vm_compute; reflexivity|].
    exists e, v, v'. rewrite Ee. auto.
  - destruct (nexts_at tx [EGesture 0 0 (Select GPoint false); EGesture 0 2 GDrag] [[(0, 2); (6, 8)]; [(3, 5)]] false true ModAdd [region_new 0 2] [region_new 0 2; region_new 3 5]) as (e & v & v' & R & Ee & H); [reflexivity|reflexivity|vm_compute; reflexivity|].
    exists e, v, v'. rewrite Ee. auto.
Qed.

(** ** Where the code does otherwise *)
(** Not to wrap around at the end of the text makes no difference: after the only "ab" of "ab x" one
    is taken back to it. *)
Theorem C58_wrap_refuted : exists e v v' o, vreach e v /\ es e = [97; 98; 32; 120] /\ vw_sel v = [caret 4] /\ occurrences (es e) (fd_occ (shown_at [(0, 2)])) /\
  do_find_next (e_lo e) [shown_at [(0, 2)]] (e_text e) v false false ModSet = Some v' /\ vw_sel v' = [o] /\ hi o < 4.
Proof.
  destruct (nexts_at [97; 98; 32; 120] [EGesture 0 4 (Select GPoint false)] [[(0, 2)]] false false ModSet [caret 4] [region_new 0 2]) as (e & v & v' & R & Ee & H); [reflexivity|reflexivity|vm_compute; reflexivity|].
  exists e, v, v', (region_new 0 2). rewrite Ee. split; auto. split; auto. split; [tauto|]. split; [apply shown_ok; [now apply ascii_dec|order_two|repeat constructor; cbn; lia]|]. split; [tauto|]. split; [tauto|]. cbn. lia.
Qed.
Print Assumptions C58_wrap_refuted.
(** Going back from the third "a" of "aaa" goes to the first one. *)
Theorem C58_find_previous_refuted : exists e v v', vreach e v /\ es e = [97; 97; 97] /\ vw_sel v = [region_new 2 3] /\ occurrences (es e) (fd_occ (shown_at [(0, 1); (1, 2); (2, 3)])) /\
  do_find_next (e_lo e) [shown_at [(0, 1); (1, 2); (2, 3)]] (e_text e) v true true ModSet = Some v' /\ vw_sel v' = [region_new 0 1] /\
  next_from (vw_sel v) (region_new 2 3) true (fd_occ (shown_at [(0, 1); (1, 2); (2, 3)])) (region_new 1 2).
Proof.
  destruct (nexts_at [97; 97; 97] [EGesture 0 2 (Select GPoint false); EGesture 0 3 GDrag] [[(0, 1); (1, 2); (2, 3)]] true true ModSet [region_new 2 3] [region_new 0 1]) as (e & v & v' & R & Ee & H); [reflexivity|reflexivity|vm_compute; reflexivity|].
  exists e, v, v'. rewrite Ee. destruct H as (H1 & H2 & H3). rewrite H1. split; [exact R|]. split; [reflexivity|]. split; [reflexivity|].
  split; [apply shown_ok; [now apply ascii_dec|order_two|repeat constructor; cbn; lia]|]. split; [exact H2|]. split; [exact H3|]. left. exists [region_new 0 1], [region_new 2 3].
  split; auto. split; [unfold behind, lo; cbn; lia|]. intros y [<-|[]]. unfold behind, lo. cbn. lia.
Qed.
Print Assumptions C58_find_previous_refuted.
