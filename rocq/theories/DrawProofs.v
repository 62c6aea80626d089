(** What is drawn on a line: proofs. *)
From Coq Require Import List Arith ZArith Lia Bool ZifyBool.
From Verif Require Import Base ListLib TreeModel TreeSpec TreeProofs RopeModel RopeSpec SelectionModel SelectionProofs PropertiesSelection LinewrapSpec MovementModel MovementSpec MovementProofs ShadowModel ShadowSpec
  ViewModel ViewSpec ViewProofs SpansModel SpansSpec SpansProofs PropertiesSpans DrawModel DrawSpec.
Import ListNotations.
Local Notation region := SelectionModel.region.
Local Notation concat := List.concat.
Local Open Scope nat_scope.
Local Notation event_ok := ShadowSpec.event_ok.

(** ** The regions asked for *)
Lemma range_split rs s e : sok rs -> s <= e -> exists pre out post,
  regions_in_range rs s e = Some out /\ rs = pre ++ out ++ post /\ Forall (fun r => rmax r < s) pre /\
  Forall (fun r => e <= rmin r /\ (rmin r = e -> rmin r < rmax r)) post.
Proof.
  intros Hs He. unfold regions_in_range. pose proof (last_bounds rs s e (fun o => rmin o <=? e) He) as B. cbn beta in B.
  set (l := match nth_error rs (search rs e) with Some o => if rmin o <=? e then S (search rs e) else search rs e | None => search rs e end) in *.
  replace ((search rs s <=? l) && (l <=? length rs)) with true by lia. cbn [check].
  exists (firstn (search rs s) rs), (firstn (l - search rs s) (skipn (search rs s) rs)), (skipn l rs). split; auto. split.
  - rewrite <- (firstn_skipn (search rs s) rs) at 1. f_equal. rewrite <- (firstn_skipn (l - search rs s) (skipn (search rs s) rs)) at 1. f_equal.
    rewrite skipn_skipn. f_equal. lia.
  - split; [apply search_ok; auto|]. apply Forall_forall. intros r Hr. apply In_nth_error in Hr as [i Hi]. rewrite nth_error_skipn in Hi.
    pose proof (min_le_max r). pose proof (search_nth rs e _ _ Hs Hi) as N. unfold l in Hi, N. destruct (nth_error rs (search rs e)) as [o|] eqn:El.
    + pose proof (search_nth rs e _ _ Hs El) as No. destruct (rmin o <=? e) eqn:Eo.
      * destruct (sok_nth rs (search rs e) (S (search rs e) + i) o r Hs ltac:(lia) El Hi) as [O1 O2]. split; [lia|]. intros Er. destruct (Nat.eq_dec (rmin r) (rmax r)) as [Ec|Ec]; [|lia]. specialize (O2 (or_intror Ec)). lia.
      * destruct i; [rewrite Nat.add_0_r in Hi; rewrite El in Hi; injection Hi as ->; lia|].
        destruct (sok_nth rs (search rs e) (search rs e + S i) o r Hs ltac:(lia) El Hi) as [O1 O2]. pose proof (min_le_max o). lia.
    + apply nth_error_None in El. assert (nth_error rs (search rs e + i) <> None) as Hn by congruence. apply nth_error_Some in Hn. lia.
Qed.
Lemma flat_nil {X Y} (g : X -> list Y) l : (forall x, In x l -> g x = []) -> flat_map g l = [].
Proof. induction l as [|x l IH]; intros H; cbn; auto. rewrite (H x), IH; cbn; auto. intros y Hy. apply H. now right. Qed.
(** What is gathered from the regions asked for is gathered from all. *)
Lemma range_flat {Y} (g : region -> list Y) rs s e : sok rs -> s <= e ->
  (forall r, In r rs -> rmax r < s \/ e <= rmin r /\ (rmin r = e -> rmin r < rmax r) -> g r = []) ->
  (let? out := regions_in_range rs s e in Some (flat_map g out)) = Some (flat_map g rs).
Proof.
  intros Hs He Hg. destruct (range_split rs s e Hs He) as (pre & out & post & E & Er & F1 & F2). rewrite E. cbn [bind]. f_equal.
  rewrite Forall_forall in F1, F2. rewrite Er, !flat_map_app, (flat_nil g pre), (flat_nil g post), app_nil_r; auto.
  - intros r Hr. apply Hg; [rewrite Er, !in_app_iff; auto|]. right. now apply F2.
  - intros r Hr. apply Hg; [rewrite Er, !in_app_iff; auto|]. left. now apply F1.
Qed.

(** ** Pieces *)
Definition piece (a b : nat) (r : region) : list (nat * nat) :=
  let x := clamp (rmin r) a b - a in let y := clamp (rmax r) a b - a in if x <? y then [(x, y)] else [].
Lemma clamp_bounds x a b : a <= b -> a <= clamp x a b <= b.
Proof. intros H. unfold clamp. destruct (x <? a) eqn:E, (x <? b) eqn:F; lia. Qed.
Lemma clamp_id x a b : a <= x <= b -> clamp x a b = x.
Proof. intros H. unfold clamp. destruct (x <? a) eqn:E, (x <? b) eqn:F; lia. Qed.
Lemma clamp_le x a b : a <= b -> x <= a -> clamp x a b = a.
Proof. intros H. unfold clamp. destruct (x <? a) eqn:E, (x <? b) eqn:F; lia. Qed.
Lemma clamp_ge x a b : a <= b -> b <= x -> clamp x a b = b.
Proof. intros H. unfold clamp. destruct (x <? a) eqn:E, (x <? b) eqn:F; lia. Qed.
Lemma clamp_mono x y a b : a <= b -> x <= y -> clamp x a b <= clamp y a b.
Proof. intros H. unfold clamp. destruct (x <? a) eqn:E, (x <? b) eqn:F, (y <? a) eqn:G, (y <? b) eqn:K; lia. Qed.
Lemma piece_out a b r : a <= b -> rmax r <= a \/ b <= rmin r -> piece a b r = [].
Proof.
  intros Hab H. pose proof (min_le_max r). unfold piece. cbv zeta. destruct H as [H|H].
  - rewrite (clamp_le (rmax r)) by auto. replace (_ <? _) with false by lia. reflexivity.
  - rewrite (clamp_ge (rmin r)) by auto. pose proof (clamp_bounds (rmax r) a b Hab). replace (_ <? _) with false by lia. reflexivity.
Qed.
Lemma line_selections_flat rs a b : sok rs -> a <= b -> line_selections rs a b = Some (flat_map (piece a b) rs).
Proof. intros Hs Hab. unfold line_selections. apply (range_flat (piece a b)); auto. intros r _ H. apply piece_out; auto. lia. Qed.
Lemma pieces_wide from ps n from' : pieces_in from ps n -> from' <= from -> pieces_in from' ps n.
Proof. destruct ps as [|[a b] ps]; cbn; intros H L; [lia|]. destruct H as (H1 & H2 & H3). repeat split; auto; lia. Qed.
Lemma flat_pieces a b : a <= b -> forall rs from, sok rs -> Forall (fun r => from <= clamp (rmin r) a b - a) rs -> from <= b - a -> pieces_in from (flat_map (piece a b) rs) (b - a).
Proof.
  intros Hab. induction rs as [|r rs IH]; intros from Hs F L; [exact L|]. destruct Hs as [S1 S2]. apply Forall_cons_iff in F as [F1 F2]. cbn [flat_map]. unfold piece at 1. cbv zeta.
  pose proof (clamp_bounds (rmax r) a b Hab). destruct (_ <? _) eqn:E; [|now apply IH]. cbn [app pieces_in]. split; auto. split; [lia|]. apply IH; auto; [|lia].
  rewrite Forall_forall in *. intros x Hx. destruct (S1 x Hx) as [H1 _]. pose proof (clamp_mono (rmax r) (rmin x) a b Hab H1). lia.
Qed.
Lemma flat_covers a b rs i : a <= b -> i < b - a -> (covers (flat_map (piece a b) rs) i <-> selected rs (a + i)).
Proof.
  intros Hab Hi. unfold covers, selected. split.
  - intros (x & y & Hin & Hxy). apply in_flat_map in Hin as (r & Hr & Hp). exists r. split; auto. unfold piece in Hp. cbv zeta in Hp. destruct (_ <? _) eqn:E; [|destruct Hp]. destruct Hp as [Hp|[]]. injection Hp as <- <-.
    change (rmin r <= a + i < rmax r). unfold clamp in *. destruct (rmin r <? a) eqn:E1, (rmin r <? b) eqn:E2, (rmax r <? a) eqn:E3, (rmax r <? b) eqn:E4; lia.
  - intros (r & Hr & Hp). change (rmin r <= a + i < rmax r) in Hp. exists (clamp (rmin r) a b - a), (clamp (rmax r) a b - a). split.
    + apply in_flat_map. exists r. split; auto. unfold piece. cbv zeta.
      replace (_ <? _) with true; [now left|]. unfold clamp. destruct (rmin r <? a) eqn:E1, (rmin r <? b) eqn:E2, (rmax r <? a) eqn:E3, (rmax r <? b) eqn:E4; lia.
    + unfold clamp. destruct (rmin r <? a) eqn:E1, (rmin r <? b) eqn:E2, (rmax r <? a) eqn:E3, (rmax r <? b) eqn:E4; lia.
Qed.
Lemma line_selections_ok rs a b : sok rs -> a <= b -> exists ps, line_selections rs a b = Some ps /\ shows_selected rs a b ps.
Proof.
  intros Hs Hab. exists (flat_map (piece a b) rs). split; [now apply line_selections_flat|]. split; [apply flat_pieces; auto; [|lia]|intros i Hi; now apply flat_covers].
  apply Forall_forall. intros. lia.
Qed.

(** ** Carets *)
Section Rows.
Context (s st : list nat) (V : visual s st).
Notation n := (length s).
Local Notation R := (row_start s st).
Local Notation last := (last_row st).
Lemma on_rowb_ok l p : on_rowb s st l p = true <-> on_row s st l p.
Proof. unfold on_rowb, on_row. lia. Qed.
Definition mark (a b last_pos : nat) (r : region) : list nat :=
  let c := r_end r in
  if ((a <? c) && (c <? b)) || (negb (is_upstream r) && (c =? a)) || (is_upstream r && (c =? b)) || ((c =? b) && (c =? last_pos)) then [c - a] else [].
Lemma end_between r : rmin r <= r_end r <= rmax r.
Proof. unfold rmin, rmax. lia. Qed.
Lemma cursors_flat sel l : sok sel -> (forall x, In x sel -> r_aff x = Downstream /\ rmax x <= n) ->
  line_cursors sel (R l) (R (l + 1)) n = Some (flat_map (mark (R l) (R (l + 1)) n) sel).
Proof.
  intros Hs Hx. pose proof (R_mono s st V l (l + 1) ltac:(lia)) as M. pose proof (R_le s st V (l + 1)). unfold line_cursors. apply (range_flat (mark (R l) (R (l + 1)) n)); auto.
  intros r Hr H'. destruct (Hx r Hr) as [Ha Hm]. pose proof (end_between r). unfold mark, is_upstream. rewrite Ha. cbv zeta. cbn [negb andb orb]. rewrite orb_false_r.
  assert (R l = R (l + 1) -> R (l + 1) = n). { intros E. destruct (Nat.lt_ge_cases l last) as [L|L]; [pose proof (R_step s st V l L); lia|]. apply (R_past s st). lia. }
  match goal with |- (if ?b then _ else _) = _ => replace b with false; auto end. destruct H' as [H'|[H1' H2']]; [lia|].
  destruct (Nat.eq_dec (rmin r) (R (l + 1))) as [E|E]; [specialize (H2' E)|]; lia.
Qed.
Lemma marks_on sel l : l <= last -> (forall x, In x sel -> r_aff x = Downstream /\ rmax x <= n) ->
  (l + 1 = last -> R last = n -> forall x, In x sel -> r_end x <> n) ->
  flat_map (mark (R l) (R (l + 1)) n) sel = carets_on s st sel l.
Proof.
  intros Hl Hx Hq. unfold carets_on. induction sel as [|r sel IH]; auto. cbn [flat_map filter].
  rewrite IH; [|intros x Hx'; apply Hx; now right|intros A B x Hx'; apply (Hq A B); now right]. destruct (Hx r (or_introl eq_refl)) as [Ha Hm]. pose proof (end_between r).
  specialize (fun A B => Hq A B r (or_introl eq_refl)). unfold mark, is_upstream, on_rowb. rewrite Ha. cbv zeta. cbn [negb andb orb].
  pose proof (R_mono s st V l (l + 1) ltac:(lia)) as M. pose proof (R_le s st V (l + 1)).
  destruct (Nat.eq_dec l last) as [El|El].
  - pose proof (R_past s st (l + 1) ltac:(lia)) as P.
    match goal with |- (if ?b then _ else _) ++ _ = map _ (if ?c then _ else _) => replace b with c; [destruct c; auto|]; rewrite orb_false_r; lia end.
  - pose proof (R_step s st V l ltac:(lia)). assert (R (l + 1) = n -> l + 1 = last).
    { intros E. destruct (Nat.eq_dec (l + 1) last); auto. pose proof (R_step s st V (l + 1) ltac:(lia)). pose proof (R_le s st V (l + 1 + 1)). lia. }
    assert (R (l + 1) = n -> r_end r <> n). { intros E. apply Hq; auto. now rewrite <- H2. }
    match goal with |- (if ?b then _ else _) ++ _ = map _ (if ?c then _ else _) => replace b with c; [destruct c; auto|]; rewrite orb_false_r; lia end.
Qed.
End Rows.

(** ** Repainting *)
Lemma forallb_In {X} (f : X -> bool) l : forallb f l = true -> forall x, In x l -> f x = true.
Proof. intros H. now apply forallb_forall. Qed.
Lemma hd_least sel f : sok sel -> hd_error sel = Some f -> forall x, In x sel -> rmin f <= rmin x.
Proof.
  intros Hs Ef x Hx. destruct sel as [|y sel]; [discriminate|]. injection Ef as ->. destruct Hs as [S1 S2]. destruct Hx as [->|Hx]; auto.
  rewrite Forall_forall in S1. destruct (S1 x Hx). pose proof (min_le_max f). lia.
Qed.
Lemma last_most sel z : sok sel -> last_region sel = Some z -> forall x, In x sel -> rmax x <= rmax z.
Proof.
  intros Hs Ez x Hx. unfold last_region in Ez. destruct (rev sel) as [|y r] eqn:E; [discriminate|]. injection Ez as ->. apply (f_equal (@rev region)) in E. rewrite rev_involutive in E. cbn in E.
  rewrite E in Hs, Hx. apply sok_app in Hs as (_ & _ & Hz). apply in_app_iff in Hx as [Hx|[->|[]]]; auto. destruct (Hz x z Hx (or_introl eq_refl)). pose proof (min_le_max z). lia.
Qed.
Definition blank {T S} (l : list (vline T (list S))) : list (vline T (list S)) := map (fun x => VLine (vtext x) [] [] (vhard x)) l.

Section Repaint.
Context (e : env) (OK : env_ok e).
Notation n := (length (es e)).
Local Notation R := (row_start (es e) (e_st e)).
Local Notation last := (last_row (e_st e)).
Let V : visual (es e) (e_st e) := an_visual _ _ _ (eo_lines e OK).

Lemma sound_sok sel : sound (es e) sel -> sok sel.
Proof. intros (_ & H & _). now apply sok_order. Qed.
Lemma sound_in sel x : sound (es e) sel -> In x sel -> r_aff x = Downstream /\ rmax x <= n.
Proof.
  intros (_ & _ & H) Hx. destruct (H x Hx) as (A & B & C). apply (e_bd_le e OK) in A, B. split; auto. unfold rmax. lia.
Qed.
Lemma sound_ends sel x : sound (es e) sel -> In x sel -> char_boundary (es e) (rmin x) /\ char_boundary (es e) (rmax x).
Proof. intros (_ & _ & H) Hx. destruct (H x Hx) as (A & B & _). unfold rmin, rmax. split; [destruct (Nat.min_spec (r_start x) (r_end x)) as [[_ ->]|[_ ->]]|destruct (Nat.max_spec (r_start x) (r_end x)) as [[_ ->]|[_ ->]]]; auto. Qed.

(** Lines from [a] to [b] hold all of the selection. *)
Definition holds_all (sel : list region) (a b : nat) : Prop :=
  a <= b <= last /\ (forall x, In x sel -> R a <= rmin x) /\ (b < last -> forall x, In x sel -> rmax x < R (b + 1)).
Lemma invalidate_what v v1 : sound (es e) (vw_sel v) -> invalidate_selection (e_lo e) v = Some v1 -> exists a b w,
  vw_sel v1 = vw_sel v /\ vw_shadow v1 = partial_invalidate (vw_shadow v) a (b + 1) w /\ holds_all (vw_sel v) a b /\
  v_cursor w = true /\ (v_styles w = false -> forall x, In x (vw_sel v) -> is_caret x = true).
Proof.
  intros H E. pose proof (sound_sok _ H) as Hs. unfold invalidate_selection in E.
  destruct (hd_error (vw_sel v)) as [f|] eqn:Ef; [|discriminate]. cbn [bind] in E.
  assert (If : In f (vw_sel v)) by (destruct (vw_sel v); [discriminate|injection Ef as ->; now left]).
  destruct (an_line _ _ _ (eo_lines e OK) (rmin f) (proj1 (sound_ends _ _ H If))) as (a & Ea & Oa). rewrite Ea in E. cbn [bind] in E.
  destruct (last_region (vw_sel v)) as [z|] eqn:Ez; [|discriminate]. cbn [bind] in E.
  assert (Iz : In z (vw_sel v)). { unfold last_region in Ez. apply in_rev. destruct (rev (vw_sel v)); [discriminate|injection Ez as ->; now left]. }
  destruct (an_line _ _ _ (eo_lines e OK) (rmax z) (proj2 (sound_ends _ _ H Iz))) as (b & Eb & Ob). rewrite Eb in E. cbn [bind] in E. injection E as <-.
  eexists a, b, _. split; [reflexivity|]. split; [reflexivity|]. split; [|split].
  - assert (Hab : rmin f <= rmax z) by (pose proof (min_le_max f); pose proof (last_most _ z Hs Ez f If); lia).
    pose proof (on_row_order (es e) (e_st e) V a b _ _ Oa Ob Hab). destruct Oa as (A1 & A2 & A3). destruct Ob as (B1 & B2 & B3). split; [lia|]. split.
    + intros x Hx. pose proof (hd_least _ f Hs Ef x Hx). lia.
    + intros Hb x Hx. pose proof (last_most _ z Hs Ez x Hx). lia.
  - destruct (forallb is_caret (vw_sel v)); reflexivity.
  - destruct (forallb is_caret (vw_sel v)) eqn:Ec; [|discriminate]. intros _. now apply forallb_In.
Qed.
Lemma outside_none sel a b l : holds_all sel a b -> (forall x, In x sel -> rmax x <= n) -> l <= last -> l < a \/ b < l ->
  carets_on (es e) (e_st e) sel l = [] /\ flat_map (piece (R l) (R (l + 1))) sel = [].
Proof.
  intros (Hab & Ha & Hb) Hn Hl Ho. pose proof (R_mono _ _ V l (l + 1) ltac:(lia)) as M. split.
  - unfold carets_on. replace (filter _ sel) with (@nil region); auto. symmetry. induction sel as [|x sel IH]; auto. cbn [filter].
    rewrite IH; [|intros; apply Ha; now right|intros ? y Hy; apply Hb; auto; now right|intros; apply Hn; now right].
    specialize (Ha x (or_introl eq_refl)). specialize (fun H => Hb H x (or_introl eq_refl)). pose proof (end_between x). unfold on_rowb.
    destruct Ho as [Ho|Ho].
    + pose proof (R_mono _ _ V (l + 1) a ltac:(lia)). replace ((l <=? last) && (R l <=? r_end x) && ((r_end x <? R (l + 1)) || (l =? last) && (r_end x <=? n))) with false by lia. reflexivity.
    + specialize (Hb ltac:(lia)). pose proof (R_mono _ _ V (b + 1) l ltac:(lia)). replace ((l <=? last) && (R l <=? r_end x) && ((r_end x <? R (l + 1)) || (l =? last) && (r_end x <=? n))) with false by lia. reflexivity.
  - apply flat_nil. intros x Hx. apply piece_out; auto. specialize (Ha x Hx). destruct Ho as [Ho|Ho].
    + pose proof (R_mono _ _ V (l + 1) a ltac:(lia)). lia.
    + specialize (Hb ltac:(lia) x Hx). pose proof (R_mono _ _ V (b + 1) l ltac:(lia)). lia.
Qed.
Lemma carets_none sel a b : a <= b -> (forall x, In x sel -> is_caret x = true) -> flat_map (piece a b) sel = [].
Proof.
  intros Hab H. apply flat_nil. intros x Hx. specialize (H x Hx). unfold piece. cbv zeta. unfold is_caret in H.
  replace (rmin x) with (rmax x) by (unfold rmin, rmax; lia). now rewrite Nat.ltb_irrefl.
Qed.
Lemma quiet_row sel l : quiet_end (es e) (e_st e) sel -> l + 1 = last -> R last = n -> forall x, In x sel -> r_end x <> n.
Proof. intros [H|[H|H]] E1 E2; auto; lia. Qed.
Lemma drawn_row sel view l x : sound (es e) sel -> quiet_end (es e) (e_st e) sel -> drawn e sel view -> nth_error view l = Some x ->
  l <= last /\ vcur x = carets_on (es e) (e_st e) sel l /\ vstyle x = flat_map (piece (R l) (R (l + 1))) sel.
Proof.
  intros H Q (Hl & D) Ex. assert (l < length view) by (apply nth_error_Some; congruence). split; [lia|]. destruct (D l x Ex) as (_ & D2 & D3 & _).
  rewrite line_selections_flat in D2 by (auto using sound_sok; apply (R_mono _ _ V); lia). rewrite cursors_flat in D3 by (auto using sound_sok; intros; now apply (sound_in sel)).
  injection D2 as D2. injection D3 as D3. split; auto. rewrite <- D3. apply marks_on; auto; [lia|intros; now apply (sound_in sel)|]. intros E1 E2. now apply (quiet_row sel l).
Qed.
Lemma drawn_lines sel view : drawn e sel view -> lines_ok view /\ lines_ok (blank view).
Proof.
  intros (Hl & D). destruct view as [|x view]; [cbn in Hl; lia|]. destruct (D 0 x eq_refl) as (_ & _ & _ & D4). rewrite (R_0 _ _ V) in D4. cbn in D4. split; exact D4.
Qed.
Lemma blank_nth (view : list (vline (list nat) (list (nat * nat)))) l y : nth_error (blank view) l = Some y -> exists x, nth_error view l = Some x /\ y = VLine (vtext x) [] [] (vhard x).
Proof. unfold blank. rewrite nth_error_map. destruct (nth_error view l) as [x|]; cbn; [|discriminate]. intros [= <-]. now exists x. Qed.
Lemma blank_same sel sel' view view' : drawn e sel view -> drawn e sel' view' -> blank view = blank view'.
Proof.
  intros (H1 & D1) (H2 & D2). apply nth_error_ext. intros l. unfold blank. rewrite !nth_error_map.
  destruct (nth_error view l) as [x|] eqn:E1, (nth_error view' l) as [y|] eqn:E2; auto; cbn [option_map].
  - destruct (D1 l x E1) as (A & _ & _ & B). destruct (D2 l y E2) as (A' & _ & _ & B'). now rewrite A, A', B, B'.
  - apply nth_error_None in E2. assert (l < length view) by (apply nth_error_Some; congruence). lia.
  - apply nth_error_None in E1. assert (l < length view') by (apply nth_error_Some; congruence). lia.
Qed.
Lemma blank_events sel view a b w : sound (es e) sel -> quiet_end (es e) (e_st e) sel -> drawn e sel view -> holds_all sel a b -> v_cursor w = true ->
  (v_styles w = false -> forall x, In x sel -> is_caret x = true) ->
  event_ok view (Change a (b + 1) w (blank view)) /\ event_ok (blank view) (Change a (b + 1) w view).
Proof.
  intros H Q D Ha Hc Hw. destruct (drawn_lines _ _ D) as [L1 L2].
  assert (K : forall l x, nth_error view l = Some x -> (a <= l < b + 1 /\ v_styles w = true \/ vstyle x = []) /\ (a <= l < b + 1 /\ v_cursor w = true \/ vcur x = [])).
  { intros l x Ex. destruct (drawn_row sel view l x H Q D Ex) as (Hl & Ec & Es). rewrite Ec, Es. destruct (Nat.lt_ge_cases l a) as [?|?]; [|destruct (Nat.lt_ge_cases b l) as [?|?]].
    - destruct (outside_none sel a b l Ha) as [-> ->]; auto. intros y Hy. now apply (sound_in sel).
    - destruct (outside_none sel a b l Ha) as [-> ->]; auto. intros y Hy. now apply (sound_in sel).
    - split; [|left; split; auto; lia]. destruct (v_styles w) eqn:Ew; [left; split; auto; lia|]. right. apply carets_none; auto. apply (R_mono _ _ V). lia. }
  destruct Ha as (Hab & _). unfold ShadowSpec.event_ok. split; (split; [lia|]); (split; [auto|]); (split; [unfold blank; now rewrite map_length|]).
  - intros l x y Ex Ey. apply blank_nth in Ey as (x' & Ex' & ->). rewrite Ex in Ex'. injection Ex' as <-. cbn [vtext vstyle vcur vhard]. destruct (K l x Ex) as [[?|K1] [?|K2]]; auto 6.
  - intros l y x Ey Ex. apply blank_nth in Ey as (x' & Ex' & ->). rewrite Ex in Ex'. injection Ex' as <-. cbn [vtext vstyle vcur vhard]. destruct (K l x Ex) as [[?|K1] [?|K2]]; auto 6.
Qed.
Lemma raw_repaints v s v' view view' : sound (es e) (vw_sel v) -> sound (es e) s -> set_selection_raw (e_lo e) v s = Some v' ->
  quiet_end (es e) (e_st e) (vw_sel v) -> quiet_end (es e) (e_st e) s -> drawn e (vw_sel v) view -> drawn e s view' -> repaints (vw_shadow v) (vw_shadow v') view view'.
Proof.
  intros H H' E Q Q' D D'. unfold set_selection_raw in E. destruct (invalidate_selection (e_lo e) v) as [v1|] eqn:E1; [|discriminate]. cbn [bind] in E.
  destruct (invalidate_what v v1 H E1) as (a & b & w & Es1 & Esh & Ha & Hc & Hw). destruct (invalidate_what (with_sel v1 s) v' H' E) as (a' & b' & w' & Es2 & Esh' & Ha' & Hc' & Hw').
  cbn [with_sel vw_sel vw_shadow] in *. destruct (blank_events _ _ _ _ _ H Q D Ha Hc Hw) as [B1 _]. destruct (blank_events _ _ _ _ _ H' Q' D' Ha' Hc' Hw') as [_ B2].
  exists a, (b + 1), w, (blank view), a', (b' + 1), w'. split; auto. rewrite <- (blank_same _ _ _ _ D D') in B2. split; auto. congruence.
Qed.
End Repaint.

(** ** Every command sets the selection at most once *)
Lemma bind_some {X Y} (o : option X) (k : X -> option Y) y : bind o k = Some y -> exists x, o = Some x /\ k x = Some y.
Proof. destruct o; cbn; [eauto|discriminate]. Qed.
Lemma raw_sel lo v s v' : set_selection_raw lo v s = Some v' -> vw_sel v' = s.
Proof.
  unfold set_selection_raw. intros E. apply bind_some in E as (v1 & _ & E). unfold invalidate_selection in E. repeat (apply bind_some in E as (? & _ & E)).
  injection E as <-. reflexivity.
Qed.
Definition same_sel (v v' : view) : Prop := vw_sel v' = vw_sel v /\ vw_shadow v' = vw_shadow v.
Definition sets lo (v v' : view) : Prop := same_sel v v' \/ exists v0 v1 s, same_sel v v0 /\ set_selection_raw lo v0 s = Some v1 /\ same_sel v1 v'.
Lemma scroll_same lo v v' : scroll_to_cursor lo v = Some v' -> same_sel v v'.
Proof.
  unfold scroll_to_cursor. intros E. apply bind_some in E as (? & _ & E). apply bind_some in E as (line & _ & E). apply bind_some in E as (v1 & E1 & E). injection E as <-.
  destruct (line <? vw_first v); [injection E1 as <-; now split|]. destruct (_ <=? _); [|injection E1 as <-; now split]. unfold check in E1. destruct (_ && _); [|discriminate]. injection E1 as <-. now split.
Qed.
Lemma set_sets lo v0 v s v' : same_sel v v0 -> set_selection lo v0 s = Some v' -> sets lo v v'.
Proof. intros H E. unfold set_selection in E. apply bind_some in E as (v1 & E1 & E). right. exists v0, v1, s. split; auto. split; auto. now apply (scroll_same lo). Qed.
Lemma drag_sets lo v v' d : sets lo v v' -> sets lo v (with_drag v' d).
Proof. intros [H|(v0 & v1 & s & H1 & H2 & H3)]; [now left|]. right. now exists v0, v1, s. Qed.
Lemma raw_sets lo v0 v s v' : same_sel v v0 -> set_selection_raw lo v0 s = Some v' -> sets lo v v'.
Proof. intros H E. right. exists v0, v', s. split; auto. split; auto. now split. Qed.
Lemma gesture_sets gb text lo lr v line col ty v' : do_gesture gb text lo lr v line col ty = Some v' -> sets lo v v'.
Proof.
  assert (S0 : same_sel v v) by now split. unfold do_gesture. intros E. apply bind_some in E as (p & _ & E). destruct ty as [g multi|g| |].
  - unfold select in E. apply bind_some in E as (t & Et & E). destruct t as [v1|].
    + injection E as <-. destruct g, multi; try discriminate. unfold deselect_at_offset in Et. apply bind_some in Et as (rs & _ & Et). destruct rs; [discriminate|].
      apply bind_some in Et as (q & _ & Et). destruct q; [discriminate|]. apply bind_some in Et as (v2 & E2 & Et). injection Et as <-. eapply raw_sets; [|exact E2]. now split.
    + apply bind_some in E as ([a b] & _ & E). apply bind_some in E as (s & _ & E). apply bind_some in E as (v1 & E1 & E). injection E as <-. apply drag_sets. eapply set_sets; eauto.
  - unfold extend_selection in E. destruct (last_region (vw_sel v)); [|injection E as <-; now left].
    apply bind_some in E as (bs & _ & E). apply bind_some in E as (nr & _ & E). apply bind_some in E as (s & _ & E). eapply set_sets; [|exact E]. now split.
  - unfold do_drag in E. destruct (vw_drag v); [|injection E as <-; now left]. apply bind_some in E as (nr & _ & E). apply bind_some in E as (s & _ & E). eapply set_sets; eauto.
  - injection E as <-. now left.
Qed.
Lemma edit_sets gb text lo lr v ev v' : do_edit gb text lo lr v ev = Some v' -> sets lo v v'.
Proof.
  assert (S0 : same_sel v v) by now split. destruct ev; cbn [do_edit]; intros E.
  1,2: unfold do_move in E; apply bind_some in E as (s & _ & E); eapply set_sets; [|exact E]; now split.
  - eapply raw_sets; eauto.
  - unfold set_scroll, check in E. destruct (_ <=? _); [|discriminate]. injection E as <-. now left.
  - unfold add_selection_by_movement in E. apply bind_some in E as (s & _ & E). eapply set_sets; eauto.
  - unfold add_selection_by_movement in E. apply bind_some in E as (s & _ & E). eapply set_sets; eauto.
  - eapply gesture_sets; eauto.
  - unfold goto_line in E. apply bind_some in E as (s & _ & E). eapply set_sets; eauto.
  - unfold collapse_selections in E. apply bind_some in E as (s & _ & E). eapply set_sets; eauto.
  - unfold split_selection_into_lines in E. apply bind_some in E as (s & _ & E). eapply raw_sets; eauto.
  - destruct shift; eapply gesture_sets; eauto.
  - eapply gesture_sets; eauto.
Qed.
Lemma drawn_same e sel view view' : drawn e sel view -> drawn e sel view' -> view = view'.
Proof.
  intros (H1 & D1) (H2 & D2). apply nth_error_ext. intros l. destruct (nth_error view l) as [x|] eqn:E1, (nth_error view' l) as [y|] eqn:E2; auto.
  - destruct (D1 l x E1) as (A & B & C & D). destruct (D2 l y E2) as (A' & B' & C' & D'). destruct x, y. cbn in *. congruence.
  - apply nth_error_None in E2. assert (l < length view) by (apply nth_error_Some; congruence). lia.
  - apply nth_error_None in E1. assert (l < length view') by (apply nth_error_Some; congruence). lia.
Qed.

(** ** Styles *)
Lemma map_get_in m x k : map_get m x = Some k -> In (x, k) m.
Proof. induction m as [|[y j] m IH]; cbn; [discriminate|]. destruct (style_eq x y) as [->|]; [intros [= ->]; now left|auto]. Qed.
Lemma map_get_none m x : map_get m x = None -> forall k, ~ In (x, k) m.
Proof. induction m as [|[y j] m IH]; cbn; [auto|]. destruct (style_eq x y) as [->|N]; [discriminate|]. intros H k [E|E]; [congruence|]. now apply (IH H k). Qed.
Lemma stands_app a b id : stands_for (a ++ b) id = match stands_for b id with Some y => Some y | None => stands_for a id end.
Proof. induction a as [|[k x] a IH]; cbn [app stands_for]; [destruct (stands_for b id); auto|]. rewrite IH. destruct (stands_for b id); auto. Qed.
(** The entries of the map are numbered from eight, in the order of the styles, without repeats. *)
Definition sm_ok (fg : nat) (sm : style_map) (ms : list message) : Prop :=
  sm_default sm = default_style fg /\
  (forall x k, In (x, k) (sm_map sm) -> N_RESERVED <= k < length (sm_styles sm) + N_RESERVED /\ exists y, stands_for ms k = Some y /\ over_default fg x y) /\
  (forall x y k, In (x, k) (sm_map sm) -> In (y, k) (sm_map sm) -> x = y) /\
  (forall x k j, In (x, k) (sm_map sm) -> In (x, j) (sm_map sm) -> k = j) /\
  (forall k, In k (map fst ms) -> k < length (sm_styles sm) + N_RESERVED) /\ NoDup (map fst ms).
Lemma merge_default fg x : style_ok x -> exists y, style_merge (default_style fg) x = Some y /\ over_default fg x y.
Proof.
  intros H. unfold style_ok in H. unfold style_merge. change (sy_prio (default_style fg)) with 0. replace (sy_prio x <? 0) with false by lia. unfold style_new, check. replace (sy_prio x <=? 1000) with true by lia.
  eexists. split; [reflexivity|]. unfold over_default. cbn. destruct (sy_fg x), (sy_bg x), (sy_weight x), (sy_underline x), (sy_italic x); repeat split; reflexivity.
Qed.
Lemma nodup_snoc {X} (l : list X) x : NoDup l -> ~ In x l -> NoDup (l ++ [x]).
Proof.
  induction 1 as [|k l A B IH]; intros Hn; cbn; [constructor; [auto|constructor]|]. constructor; [|apply IH; intros Hi; apply Hn; now right].
  rewrite in_app_iff. intros [Hk|[Hk|[]]]; [auto|]. apply Hn. now left.
Qed.
Lemma get_id_ok fg sm ms x : sm_ok fg sm ms -> style_ok x -> exists sm' id ms', get_or_def_style_id sm x = Some (sm', id, ms') /\ sm_ok fg sm' (ms ++ ms') /\ In (x, id) (sm_map sm') /\
  (forall y k, In (y, k) (sm_map sm) -> In (y, k) (sm_map sm')).
Proof.
  intros (D & M1 & M2 & M3 & M4 & M5) Hx. unfold get_or_def_style_id, lookup. destruct (map_get (sm_map sm) x) as [k|] eqn:E.
  - exists sm, k, []. rewrite app_nil_r. split; auto. split; [now split|]. split; auto. now apply map_get_in.
  - unfold sm_add. cbn [sm_default]. rewrite D. destruct (merge_default fg x Hx) as (y & Ey & Hy). rewrite Ey. cbn [bind].
    pose proof (map_get_none _ _ E) as Nx. set (id := length (sm_styles sm) + N_RESERVED) in *.
    assert (Ni : forall z, ~ In (z, id) (sm_map sm)) by (intros z Hz; destruct (M1 _ _ Hz); lia).
    eexists _, id, _. split; [reflexivity|]. split; [|split; [now left|intros; now right]].
    unfold sm_ok. cbn [sm_default sm_map sm_styles]. rewrite app_length. cbn [length]. split; auto. split; [|split; [|split; [|split]]].
    + intros z k [[= <- <-]|Hz].
      * split; [unfold id; lia|]. exists y. split; auto. rewrite stands_app. cbn [stands_for]. now rewrite Nat.eqb_refl.
      * destruct (M1 _ _ Hz) as (L & w & Ew & Hw). split; [lia|]. exists w. split; auto. rewrite stands_app. cbn [stands_for]. replace (id =? k) with false by lia. auto.
    + intros a b k [Ea|Ha] [Eb|Hb]; [congruence|injection Ea as _ <-; exfalso; now apply (Ni b)|injection Eb as _ <-; exfalso; now apply (Ni a)|now apply (M2 a b k)].
    + intros a k j [Ea|Ha] [Eb|Hb]; [congruence|injection Ea as <- _; exfalso; now apply (Nx j)|injection Eb as <- _; exfalso; now apply (Nx k)|now apply (M3 a k j)].
    + intros k. rewrite map_app, in_app_iff. cbn. intros [Hk|[<-|[]]]; [specialize (M4 k Hk)|]; lia.
    + rewrite map_app. cbn [map fst].
      assert (~ In id (map fst ms)) as Hn by (intros Hi; specialize (M4 _ Hi); lia). now apply nodup_snoc.
Qed.
Lemma styled_ok fg sm ms : styled fg sm ms -> sm_ok fg sm ms.
Proof.
  induction 1 as [|sm ms x sm' id ms' S IH Hx E]; [repeat split; try easy; constructor|]. destruct (get_id_ok fg sm ms x IH Hx) as (sm1 & id1 & ms1 & E1 & H1 & _). congruence.
Qed.
Lemma styled_id fg sm ms x : styled fg sm ms -> style_ok x -> exists sm' id ms', get_or_def_style_id sm x = Some (sm', id, ms') /\ styled fg sm' (ms ++ ms') /\ In (x, id) (sm_map sm') /\
  (forall y k, In (y, k) (sm_map sm) -> In (y, k) (sm_map sm')).
Proof. intros H Hx. destruct (get_id_ok fg sm ms x (styled_ok _ _ _ H) Hx) as (sm' & id & ms' & E & _ & I & M). exists sm', id, ms'. split; auto. split; auto. now apply (styled_more fg sm ms x sm' id ms'). Qed.

(** Reading triples back. *)
Lemma read_one a b id l ix r : a < b -> read_styles l (Z.of_nat b) = Some r ->
  read_styles ((Z.of_nat a - ix)%Z :: (Z.of_nat b - Z.of_nat a)%Z :: Z.of_nat id :: l) ix = Some ((a, b, id) :: r).
Proof.
  intros H E. cbn [read_styles]. replace (ix + (Z.of_nat a - ix))%Z with (Z.of_nat a) by lia. replace (Z.of_nat a + (Z.of_nat b - Z.of_nat a))%Z with (Z.of_nat b) by lia.
  replace (_ && _ && _) with true by lia. unfold check. rewrite E. cbn [bind]. now rewrite !Nat2Z.id.
Qed.
Lemma read_pieces id ps : forall ix l r, (forall a b, In (a, b) ps -> a < b) -> read_styles l (snd (encode_pieces ps id ix)) = Some r ->
  read_styles (fst (encode_pieces ps id ix) ++ l) ix = Some (with_id id ps ++ r).
Proof.
  induction ps as [|[a b] ps IH]; intros ix l r H E; [exact E|]. cbn [encode_pieces] in *. specialize (IH (Z.of_nat b) l r (fun x y Hi => H x y (or_intror Hi))).
  destruct (encode_pieces ps id (Z.of_nat b)) as [o ix']. cbn [fst snd app] in *. cbn [with_id map app fst snd]. apply read_one; [apply H; now left|]. now apply IH.
Qed.
Lemma read_hls hls : forall index ix l r, (forall ps a b, In ps hls -> In (a, b) ps -> a < b) -> read_styles l (snd (encode_hls hls index ix)) = Some r ->
  read_styles (fst (encode_hls hls index ix) ++ l) ix = Some (numbered index hls ++ r).
Proof.
  induction hls as [|ps hls IH]; intros index ix l r H E; [exact E|]. cbn [encode_hls numbered] in *. pose proof (read_pieces (index + 1) ps ix) as Hp. destruct (encode_pieces ps (index + 1) ix) as [o ix1].
  specialize (IH (index + 1) ix1 l r (fun q x y Hi => H q x y (or_intror Hi))). destruct (encode_hls hls (index + 1) ix1) as [o' ix2]. cbn [fst snd] in *. rewrite <- !app_assoc. apply Hp; [intros; apply (H ps); auto; now left|]. now apply IH.
Qed.
Lemma read_spans fg l : forall sm ms ix, styled fg sm ms -> (forall a b x, In (a, b, x) l -> a < b /\ style_ok x) -> exists out sm' ms' r,
  encode_spans l sm ix = Some (out, sm', ms') /\ styled fg sm' (ms ++ ms') /\ read_styles out ix = Some r /\ (forall y k, In (y, k) (sm_map sm) -> In (y, k) (sm_map sm')) /\
  Forall2 (fun '(a, b, x) '(a', b', id) => a' = a /\ b' = b /\ In (x, id) (sm_map sm')) l r.
Proof.
  induction l as [|[[a b] x] l IH]; intros sm ms ix H Hl.
  - exists [], sm, [], []. rewrite app_nil_r. repeat split; auto.
  - destruct (Hl a b x (or_introl eq_refl)) as [Hab Hx]. destruct (styled_id fg sm ms x H Hx) as (sm1 & id & ms1 & E1 & H1 & I1 & K1).
    destruct (IH sm1 (ms ++ ms1) (Z.of_nat b) H1 (fun p q y Hi => Hl p q y (or_intror Hi))) as (out & sm2 & ms2 & r & E2 & H2 & R2 & K2 & F).
    cbn [encode_spans]. rewrite E1. cbn [bind]. rewrite E2. cbn [bind]. eexists _, sm2, _, ((a, b, id) :: r). split; [reflexivity|]. rewrite app_assoc. split; auto. split; [now apply read_one|]. split; [auto|]. constructor; auto.
Qed.

(** ** The styles of a line *)
Lemma value_in {T} (l : list (nat * nat * T)) i x : value l i = Some x -> exists a b, In (a, b, x) l /\ a <= i < b.
Proof. induction l as [|[[a b] y] l IH]; cbn [value]; [discriminate|]. destruct (_ && _) eqn:E; [intros [= ->]; exists a, b; split; [now left|lia]|]. intros H. destruct (IH H) as (p & q & Hi & Hp). exists p, q. split; [now right|auto]. Qed.
Lemma in_value {T} (l : list (nat * nat * T)) : forall from n a b x i, ordered from l n -> In (a, b, x) l -> a <= i < b -> value l i = Some x.
Proof.
  induction l as [|[[p q] y] l IH]; intros from n a b x i O Hi Hx; [destruct Hi|]. destruct O as (O1 & O2 & O3). cbn [value]. destruct Hi as [[= -> -> ->]|Hi]; [replace (_ && _) with true by lia; auto|].
  assert (q <= a). { clear - O3 Hi. revert q O3. induction l as [|[[s e] z] l IH]; intros q O; [destruct Hi|]. destruct O as (A & B & C). destruct Hi as [[= -> -> ->]|Hi]; [lia|]. specialize (IH Hi _ C). lia. }
  replace (_ && _) with false by lia. eapply IH; eauto.
Qed.
Lemma subseq_values {T} (t : node (sleaf T) unit) l n a b : holds t l n -> a <= b -> b <= n -> exists t' l', subseq sp_ops t a b = Some t' /\ iter t' = Some l' /\ ordered 0 l' (b - a) /\
  forall i, i < b - a -> value l' i = value l (a + i).
Proof.
  intros H Hab Hb. destruct (holds_inv _ _ _ H) as (h & W & -> & -> & _). assert (Hl := wf_len _ _ _ _ h t W).
  destruct (subseq_ok sp_ops uc sV vcut (fun _ => tt) sp_value_spec h t a b W Hab ltac:(lia) Logic.I Logic.I) as (t' & h' & E & W' & C').
  destruct (spans_of_ok h t W) as (_ & _ & Ct). destruct (spans_of_ok h' t' W') as (O' & _ & Ct'). rewrite Ct, Ct' in C'.
  assert (Hn : n_len t' = b - a). { apply (f_equal (@length _)) in C'. unfold slice in C'. rewrite firstn_length, skipn_length, !values_len in C'. lia. }
  exists t', (spans_of t'). split; auto. split; [now apply (iter_ok h')|]. rewrite Hn in O', C'. split; auto. intros i Hi.
  apply (f_equal (fun x => nth_error x i)) in C'. rewrite values_nth, nth_slice, values_nth in C'. replace (i <? b - a) with true in C' by lia. replace (a + i <? n_len t) with true in C' by lia. congruence.
Qed.
Lemma forall2_pieces sm' l : forall r from n, ordered from l n -> Forall2 (fun '(a, b, x) '(a', b', id) => a' = a /\ b' = b /\ In (x, id) (sm_map sm')) l r ->
  pieces_in from (map fst r) n.
Proof.
  induction l as [|[[a b] x] l IH]; intros r from n O F; inversion F as [|u0 y0 u1 r' I F']; subst; [exact O|]. destruct y0 as [[a' b'] id]. destruct I as (-> & -> & I). destruct O as (O1 & O2 & O3). cbn. split; [auto|]. split; [auto|]. now apply IH.
Qed.
Lemma pieces_lt ps : forall from n a b, pieces_in from ps n -> In (a, b) ps -> a < b.
Proof. induction ps as [|[p q] ps IH]; intros from n a b H Hi; [destruct Hi|]. destruct H as (A & B & C). destruct Hi as [[= -> ->]|Hi]; auto. eapply IH; eauto. Qed.
Lemma hls_ok finds a b : Forall disjoint_in_order finds -> a <= b -> exists hls, line_hls finds a b = Some hls /\ Forall2 (fun f ps => shows_selected f a b ps) finds hls.
Proof.
  intros F Hab. induction F as [|f finds Hf F IH]; [exists []; split; auto|]. destruct IH as (hls & E & F2). apply sok_order in Hf. destruct (line_selections_ok f a b Hf Hab) as (ps & Ep & Sp).
  exists (ps :: hls). cbn [line_hls]. rewrite Ep. cbn [bind]. rewrite E. cbn [bind]. split; auto.
Qed.
Theorem line_styles_ok fg sm ms sel finds hl a b t l n : styled fg sm ms -> disjoint_in_order sel -> Forall disjoint_in_order finds -> holds t l n -> (forall p q x, In (p, q, x) l -> style_ok x) -> a <= b -> b <= n ->
  exists out sm' ms' ss hls r, line_styles sm sel finds hl a b t = Some (out, sm', ms') /\ styled fg sm' (ms ++ ms') /\
    read_styles out 0 = Some (numbered 0 hls ++ with_id 0 ss ++ r) /\
    shows_selected sel a b ss /\ Forall2 (fun f ps => shows_selected f a b ps) (if hl then finds else []) hls /\ pieces_in 0 (map fst r) (b - a) /\
    (forall p q id, In (p, q, id) r -> N_RESERVED <= id) /\
    forall i, i < b - a ->
      match value l (a + i) with
      | Some x => exists p q id y, In (p, q, id) r /\ p <= i < q /\ stands_for (ms ++ ms') id = Some y /\ over_default fg x y
      | None => ~ covers (map fst r) i
      end.
Proof.
  intros S Hs Hf Ht Hl Hab Hb. apply sok_order in Hs. destruct (line_selections_ok sel a b Hs Hab) as (ss & Es & Ss).
  assert (Hh : exists hls, (if hl then line_hls finds a b else Some []) = Some hls /\ Forall2 (fun f ps => shows_selected f a b ps) (if hl then finds else []) hls).
  { destruct hl; [now apply hls_ok|]. exists []. auto. }
  destruct Hh as (hls & Eh & Sh). destruct (subseq_values t l n a b Ht Hab Hb) as (t' & l' & E1 & E2 & O & Hv).
  assert (Hl' : forall p q x, In (p, q, x) l' -> p < q /\ style_ok x).
  { intros p q x Hi. pose proof (ordered_in l' 0 _ p q x O Hi) as Hpq. split; auto. pose proof (in_value l' 0 _ p q x p O Hi ltac:(lia)) as Hvp.
    assert (q <= b - a). { clear - O Hi. revert O. generalize 0. induction l' as [|[[s e] z] l' IH]; intros from O; [destruct Hi|]. destruct O as (A & B & C). destruct Hi as [[= -> -> ->]|Hi]; [now apply (ord_le _ _ _ C)|now apply (IH Hi e)]. }
    rewrite Hv in Hvp by lia. apply value_in in Hvp as (p' & q' & Hi' & _). now apply (Hl p' q' x). }
  set (ix2 := snd (encode_pieces ss 0 (snd (encode_hls hls 0 0%Z)))).
  destruct (read_spans fg l' sm ms ix2 S Hl') as (o3 & sm' & ms' & r & E3 & S' & R3 & K & F).
  assert (Hss : forall x y, In (x, y) ss -> x < y) by (intros x y Hi; destruct Ss as [P _]; now apply (pieces_lt ss 0 (b - a))).
  assert (Hhs : forall ps x y, In ps hls -> In (x, y) ps -> x < y). { intros ps x y Hp Hi. clear - Sh Hp Hi. induction Sh as [|f q fs qs [P _] _ IH]; [destruct Hp|]. destruct Hp as [->|Hp]; [now apply (pieces_lt ps 0 (b - a))|auto]. }
  pose proof (read_pieces 0 ss (snd (encode_hls hls 0 0%Z)) o3 r Hss R3) as R2. pose proof (read_hls hls 0 0%Z _ _ Hhs R2) as R1.
  unfold line_styles. rewrite Es. cbn [bind]. rewrite Eh. cbn [bind]. unfold encode_styles, check. replace (a <=? b) with true by lia. rewrite E1. cbn [bind]. rewrite E2. cbn [bind].
  unfold ix2 in *. destruct (encode_hls hls 0 0%Z) as [o1 ix1]. cbn [fst snd] in *. destruct (encode_pieces ss 0 ix1) as [o2 ix3]. cbn [fst snd] in *. rewrite E3. cbn [bind].
  eexists _, sm', ms', ss, hls, r. split; [reflexivity|]. split; auto. split; auto. split; auto. split; auto. split; [now apply (forall2_pieces sm' l' r 0)|].
  pose proof (styled_ok _ _ _ S') as (_ & M1 & _). split.
  - intros p q id Hi. clear - F Hi M1. induction F as [|[[x y] z] [[x' y'] k] l r (-> & -> & I) F IH]; [destruct Hi|]. destruct Hi as [[= -> -> ->]|Hi]; auto. destruct (M1 _ _ I); lia.
  - intros i Hi. rewrite <- (Hv i Hi). destruct (value l' i) as [x|] eqn:Ev.
    + apply value_in in Ev as (p & q & Hin & Hp). clear - F Hin Hp M1. induction F as [|[[x' y] z] [[x'' y'] k] l r (-> & -> & I) F IH]; [destruct Hin|]. destruct Hin as [[= -> -> ->]|Hin].
      * destruct (M1 _ _ I) as (_ & y0 & Ey & Hy). exists p, q, k, y0. split; [now left|]. auto.
      * destruct (IH Hin) as (p' & q' & id & y0 & A & B). exists p', q', id, y0. split; [now right|auto].
    + intros (p & q & Hin & Hp). apply in_map_iff in Hin as ([[p' q'] id] & [= -> ->] & Hin). clear - O Ev F Hin Hp. revert O Ev. generalize 0. induction F as [|[[x' y] z] [[x'' y'] k] l1 r (-> & -> & I) F IH]; [destruct Hin|].
      intros from O Ev. destruct O as (A & B & C). cbn [value] in Ev. destruct (_ && _) eqn:Ex; [discriminate|]. destruct Hin as [[= -> -> ->]|Hin]; [lia|]. eapply IH; eauto.
Qed.
