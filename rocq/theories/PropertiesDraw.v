(** Properties of what is drawn on the lines of a view: C56. *)
From Coq Require Import List Arith ZArith Lia Bool ZifyBool.
From Verif Require Import Base ListLib TreeModel RopeModel RopeSpec RopeProofs SelectionModel SelectionProofs PropertiesSelection LinewrapModel LinewrapSpec LinewrapHist PropertiesLinewrap MovementModel MovementSpec MovementProofs
  PropertiesMovement ShadowModel ShadowSpec ViewModel ViewSpec ViewProofs PropertiesView SpansModel SpansSpec PropertiesSpans DrawModel DrawSpec DrawProofs.
Import ListNotations.
Local Notation region := SelectionModel.region.
Local Notation event_ok := ShadowSpec.event_ok.
Local Notation shown := LinewrapSpec.shown.
Local Open Scope nat_scope.

(** ** A line *)
(** On each visual line the carets drawn are those of the regions that end on it, in order, each once
    and at its column; but see [C56_caret_twice_refuted] for the line before an empty last one. *)
Theorem C56_carets_partial e v l : vreach e v -> l <= last_row (e_st e) ->
  (l + 1 = last_row (e_st e) -> row_start (es e) (e_st e) (last_row (e_st e)) = length (es e) -> forall x, In x (vw_sel v) -> r_end x <> length (es e)) ->
  line_cursors (vw_sel v) (row_start (es e) (e_st e) l) (row_start (es e) (e_st e) (l + 1)) (length (es e)) = Some (carets_on (es e) (e_st e) (vw_sel v) l).
Proof.
  intros R Hl Hq. apply reach_VI in R as (OK & H & _). pose proof (an_visual _ _ _ (eo_lines e OK)) as V.
  rewrite (cursors_flat (es e) (e_st e) V); [|now apply (sound_sok e)|intros; now apply (sound_in e OK (vw_sel v))]. f_equal. apply marks_on; auto. intros. now apply (sound_in e OK (vw_sel v)).
Qed.
Print Assumptions C56_carets_partial.
(** Every caret is on one of the lines, and only one. *)
Theorem C56_caret_place e v x : vreach e v -> In x (vw_sel v) -> exists l, l <= last_row (e_st e) /\ In (r_end x - row_start (es e) (e_st e) l) (carets_on (es e) (e_st e) (vw_sel v) l) /\
  forall k, on_rowb (es e) (e_st e) k (r_end x) = true -> k = l.
Proof.
  intros R Hx. apply reach_VI in R as (OK & (_ & _ & H) & _). pose proof (an_visual _ _ _ (eo_lines e OK)) as V. destruct (H x Hx) as (_ & B & _).
  destruct (an_line _ _ _ (eo_lines e OK) (r_end x) B) as (l & _ & O). exists l. split; [exact (proj1 O)|]. split.
  - unfold carets_on. apply in_map_iff. exists x. split; auto. apply filter_In. split; auto. now apply on_rowb_ok.
  - intros k Hk. apply on_rowb_ok in Hk. now apply (on_row_unique (es e) (e_st e) V k l (r_end x)).
Qed.
Print Assumptions C56_caret_place.
(** The pieces drawn as selected are exactly what is selected of the line, and so for any set of
    regions, as the occurrences of a query. *)
Theorem C56_selection e v l : vreach e v -> exists ps, line_selections (vw_sel v) (row_start (es e) (e_st e) l) (row_start (es e) (e_st e) (l + 1)) = Some ps /\
  shows_selected (vw_sel v) (row_start (es e) (e_st e) l) (row_start (es e) (e_st e) (l + 1)) ps.
Proof.
  intros R. apply reach_VI in R as (OK & H & _). pose proof (an_visual _ _ _ (eo_lines e OK)) as V. apply line_selections_ok; [now apply (sound_sok e)|]. apply (R_mono _ _ V). lia.
Qed.
Print Assumptions C56_selection.

(** ** Styles *)
(** The styles sent with a line, as the protocol has them read: the occurrences of the queries, if they
    are to be highlighted, with numbers from one; then what is selected, with number zero; then the
    styles of the text. Where the text has a style, the client was told what its number stands for,
    before or with this line; where it has none, none is sent. *)
Theorem C56_styles fg e v k finds hl sm ms t l : vreach e v -> styled fg sm ms -> Forall disjoint_in_order finds ->
  holds t l (length (es e)) -> (forall p q x, In (p, q, x) l -> style_ok x) ->
  let a := row_start (es e) (e_st e) k in
  let b := row_start (es e) (e_st e) (k + 1) in
  exists out sm' ms' ss hls r, line_styles sm (vw_sel v) finds hl a b t = Some (out, sm', ms') /\ styled fg sm' (ms ++ ms') /\
    read_styles out 0 = Some (numbered 0 hls ++ with_id 0 ss ++ r) /\
    shows_selected (vw_sel v) a b ss /\ Forall2 (fun f ps => shows_selected f a b ps) (if hl then finds else []) hls /\ pieces_in 0 (map fst r) (b - a) /\
    (forall p q id, In (p, q, id) r -> 8 <= id) /\
    forall i, i < b - a ->
      match value l (a + i) with
      | Some x => exists p q id y, In (p, q, id) r /\ p <= i < q /\ stands_for (ms ++ ms') id = Some y /\ over_default fg x y
      | None => ~ covers (map fst r) i
      end.
Proof.
  intros R S Hf Ht Hl a b. apply reach_VI in R as (OK & H & _). pose proof (an_visual _ _ _ (eo_lines e OK)) as V.
  apply (line_styles_ok fg sm ms (vw_sel v) finds hl a b t l (length (es e))); auto; [apply H|apply (R_mono _ _ V); lia|apply (R_le _ _ V)].
Qed.
Print Assumptions C56_styles.
(** The numbers of styles: two styles never have the same one, a style keeps the one it has, no number
    is given a meaning twice while the theme stays, and what was said of numbers under another theme
    ([old]) does not matter. *)
Theorem C56_style_numbers fg sm ms x y old : styled fg sm ms -> style_ok x -> style_ok y ->
  exists sm1 k ms1 sm2 j ms2, get_or_def_style_id sm x = Some (sm1, k, ms1) /\ get_or_def_style_id sm1 y = Some (sm2, j, ms2) /\
    styled fg sm2 ((ms ++ ms1) ++ ms2) /\ (k = j <-> x = y) /\ lookup sm2 x = Some k /\ NoDup (map fst ((ms ++ ms1) ++ ms2)) /\
    exists x', stands_for (old ++ (ms ++ ms1) ++ ms2) k = Some x' /\ over_default fg x x'.
Proof.
  intros S Hx Hy. destruct (styled_id fg sm ms x S Hx) as (sm1 & k & ms1 & E1 & S1 & I1 & K1). destruct (styled_id fg sm1 (ms ++ ms1) y S1 Hy) as (sm2 & j & ms2 & E2 & S2 & I2 & K2).
  exists sm1, k, ms1, sm2, j, ms2. split; auto. split; auto. split; auto. destruct (styled_ok _ _ _ S2) as (_ & M1 & M2 & M3 & _ & M5). apply K2 in I1. split; [|split; [|split; [exact M5|]]].
  - split; [intros ->; now apply (M2 x y j)|intros ->; now apply (M3 y k j)].
  - unfold lookup. destruct (map_get (sm_map sm2) x) as [i|] eqn:E; [apply map_get_in in E; now rewrite (M3 x i k E I1)|]. exfalso. now apply (map_get_none _ _ E k).
  - destruct (M1 x k I1) as (_ & x' & Ex & Hx'). exists x'. split; auto. rewrite stands_app. now rewrite Ex.
Qed.
Print Assumptions C56_style_numbers.
(** Only eight numbers are kept for selections and queries: with eight queries the highlights of the
    last have the number of the first style. *)
Theorem C56_numbers_refuted : exists fg x t finds out sm' ms', style_ok x /\ Forall disjoint_in_order finds /\ holds t [(0, 1, x)] 2 /\
  line_styles (sm_new fg) [caret 0] finds true 0 2 t = Some (out, sm', ms') /\ lookup sm' x = Some 8 /\
  read_styles out 0 = Some [(1, 2, 8); (0, 1, 8)].
Proof.
  set (x := Style 200 (Some 7) None None None None). destruct (C26_build [(0, 1, x)] 2 ltac:(cbn; lia)) as (sb & t & E1 & E2 & H). exists 1, x, t, (repeat [] 7 ++ [[region_new 1 2]]).
  assert (D : forall z, disjoint_in_order [z]) by (intros z; apply sok_order; cbn; auto). assert (D0 : disjoint_in_order []) by (apply sok_order; exact Logic.I).
  destruct (line_styles (sm_new 1) [caret 0] (repeat [] 7 ++ [[region_new 1 2]]) true 0 2 t) as [[[out sm'] ms']|] eqn:E.
  - exists out, sm', ms'. split; [unfold style_ok, x; cbn [sy_prio]; lia|]. split; [apply Forall_forall; intros f Hf; cbn [repeat app In] in Hf; repeat (destruct Hf as [<-|Hf]; [auto|]); destruct Hf|]. split; [exact H|]. split; [reflexivity|]. clear H. vm_compute in E1. injection E1 as <-. vm_compute in E2. injection E2 as <-. vm_compute in E. injection E as <- <- _. split; reflexivity.
  - exfalso. vm_compute in E1. injection E1 as <-. vm_compute in E2. injection E2 as <-. vm_compute in E. discriminate.
Qed.
Print Assumptions C56_numbers_refuted.

(** ** Repainting *)
(** What a command changes of the carets and selected pieces of the lines is what the shadow of the
    client's cache is told: the change is one (or none) that keeps the client's lines in step (C31).
    It is not for a caret at the end of a text that ends in a line break. *)
Theorem C56_repaint_partial e v ev v' view view' : vreach e v -> sane e v ev -> do_in e v ev = Some v' ->
  quiet_end (es e) (e_st e) (vw_sel v) -> quiet_end (es e) (e_st e) (vw_sel v') ->
  drawn e (vw_sel v) view -> drawn e (vw_sel v') view' ->
  view' = view /\ vw_shadow v' = vw_shadow v \/ repaints (vw_shadow v) (vw_shadow v') view view'.
Proof.
  intros R Hs E Q Q' D D'. pose proof (vr_event _ _ _ _ R Hs E) as R'. apply reach_VI in R as (OK & H & _). apply reach_VI in R' as (_ & H' & _).
  unfold do_in in E. destruct (edit_sets _ _ _ _ _ _ _ E) as [[S1 S2]|(v0 & v1 & s & [A1 A2] & A3 & [A4 A5])].
  - left. split; auto. rewrite S1 in D'. symmetry. now apply (drawn_same e (vw_sel v)).
  - right. rewrite (raw_sel _ _ _ _ A3) in A4. rewrite A4 in *. rewrite <- A1 in H, Q, D. rewrite A5, <- A2. now apply (raw_repaints e OK v0 s v1).
Qed.
Print Assumptions C56_repaint_partial.
(** So the client that was in step is in step after the next update: two changes and an update are
    a history that C31 covers. *)
Theorem C56_repaint_session sh sh' view view' c : repaints sh sh' view view' -> exists evs, events_ok view evs /\ steps true (Session view sh c) evs = Some (Session view' sh' c).
Proof.
  intros (a & b & w & mid & a' & b' & w' & E1 & E2 & ->). exists [Change a b w mid; Change a' b' w' view']. split; [split; [exact E1|split; [exact E2|exact Logic.I]]|reflexivity].
Qed.
Print Assumptions C56_repaint_session.
(** The drawn lines are there for any view. *)
Theorem C56_drawn e v : vreach e v -> exists view, drawn e (vw_sel v) view.
Proof.
  intros R. apply reach_VI in R as (OK & H & _). pose proof (an_visual _ _ _ (eo_lines e OK)) as V. set (R := row_start (es e) (e_st e)).
  exists (map (fun l => VLine (slice (es e) (R l) (R (l + 1))) (flat_map (piece (R l) (R (l + 1))) (vw_sel v)) (flat_map (mark (R l) (R (l + 1)) (length (es e))) (vw_sel v))
    (match shown (es e) (R l) with Some _ => true | None => false end)) (seq 0 (last_row (e_st e) + 1))).
  split; [now rewrite map_length, seq_length|]. intros l x Ex. rewrite nth_error_map in Ex. destruct (nth_error (seq 0 (last_row (e_st e) + 1)) l) as [k|] eqn:Ek; [|discriminate].
  assert (Hl : l < last_row (e_st e) + 1). { rewrite <- (seq_length (last_row (e_st e) + 1) 0). apply nth_error_Some. congruence. }
  rewrite (nth_error_nth' _ 0) in Ek by (rewrite seq_length; lia). rewrite seq_nth in Ek by lia. injection Ek as <-. injection Ex as <-. cbn [vtext vstyle vcur vhard]. cbv zeta. split; auto. split; [|split; auto].
  - apply line_selections_flat; [now apply (sound_sok e)|apply (R_mono _ _ V); lia].
  - apply (cursors_flat _ _ V); [now apply (sound_sok e)|intros; now apply (sound_in e OK (vw_sel v))].
Qed.
Print Assumptions C56_drawn.

(** ** Cases, and where the code does otherwise *)
(** The lines drawn, computed. *)
Fixpoint draw_from (s st : list nat) (sel : list region) (k l : nat) : option (list (vline (list nat) (list (nat * nat)))) :=
  match k with
  | 0 => Some []
  | S k' =>
      let a := row_start s st l in
      let b := row_start s st (l + 1) in
      let? p := line_selections sel a b in
      let? c := line_cursors sel a b (length s) in
      let? r := draw_from s st sel k' (l + 1) in
      Some (VLine (slice s a b) p c (match shown s a with Some _ => true | None => false end) :: r)
  end.
Definition draw (s st : list nat) (sel : list region) := draw_from s st sel (last_row st + 1) 0.
Lemma draw_from_ok s st sel k : forall l view, draw_from s st sel k l = Some view -> length view = k /\ forall i x, nth_error view i = Some x ->
  let a := row_start s st (l + i) in let b := row_start s st (l + i + 1) in
  vtext x = slice s a b /\ line_selections sel a b = Some (vstyle x) /\ line_cursors sel a b (length s) = Some (vcur x) /\ vhard x = match shown s a with Some _ => true | None => false end.
Proof.
  induction k as [|k IH]; intros l view E; cbn [draw_from] in E; [injection E as <-; split; auto; intros [|i] x Ex; discriminate|].
  apply bind_some in E as (p & Ep & E). apply bind_some in E as (c & Ec & E). apply bind_some in E as (r & Er & E). injection E as <-. destruct (IH _ _ Er) as [L H]. split; [cbn; lia|].
  intros [|i] x Ex; cbn [nth_error] in Ex.
  - injection Ex as <-. rewrite Nat.add_0_r. cbn. auto.
  - specialize (H i x Ex). now replace (l + S i) with (l + 1 + i) by lia.
Qed.
Lemma draw_ok e sel view : draw (es e) (e_st e) sel = Some view -> drawn e sel view.
Proof. intros E. apply draw_from_ok in E as [L H]. split; auto. Qed.
(** A view after some commands; its lines are sent to a client with the whole view; a last command is
    done and the client is sent an update: the starts of the lines, the selections before and after, the
    lines, and the client's cache. *)
Definition story_of (s : list nat) (e : env) (evs : list view_event) (ev : view_event) :=
  let? v := do_all e view_new evs in
  let? view := draw s (e_st e) (vw_sel v) in
  let? s1 := step true (session_start view) (Update 0 10) in
  let? v' := do_in e (with_shadow v (s_shadow s1)) ev in
  let? view' := draw s (e_st e) (vw_sel v') in
  let? s2 := step true (Session view' (vw_shadow v') (s_cache s1)) (Update 0 10) in
  Some (e_st e, vw_sel v, vw_sel v', view, view', s_cache s2).
Definition story (tx : list nat) (evs : list view_event) (ev : view_event) :=
  let? t := rope_from tx in
  story_of tx (view_env t (set_wrap_width (F := nat) ln_default t WNone) (every tx)) evs ev.
Lemma story_at tx evs ev st sel sel' view view' c : forallb (fun b => b <? 128) tx = true -> forallb calm evs = true -> story tx evs ev = Some (st, sel, sel', view, view', c) ->
  exists e v v' s1 s2, vreach e v /\ es e = tx /\ e_st e = st /\ vw_sel v = sel /\ vw_sel v' = sel' /\ drawn e sel view /\ drawn e sel' view' /\ step true (session_start view) (Update 0 10) = Some s1 /\
    do_in e (with_shadow v (s_shadow s1)) ev = Some v' /\ step true (Session view' (vw_shadow v') (s_cache s1)) (Update 0 10) = Some s2 /\ s_cache s2 = c.
Proof.
  intros Ha Hc E. unfold story in E. destruct (rope_from tx) as [t|] eqn:Et; [|discriminate]. cbn [bind] in E. destruct (rope_of tx t Ha Et) as (W & A & C).
  set (ln := set_wrap_width ln_default t WNone) in *. assert (Rl : creach t ln) by (apply reach_start; auto).
  assert (OK : env_ok (view_env t ln (every tx))).
  { apply (C55_view_env_partial 0 Nat.add cge cgt (Nat.eqb 0) (fun x => x) cwid copps (100 * 100) concrete_widths ascii cpo concrete_opps ltac:(lia)); auto. rewrite C. apply every_ok. now apply ascii_dec. }
  assert (Es : es (view_env t ln (every tx)) = tx) by exact C. set (e := view_env t ln (every tx)) in *. clearbody e. clear - OK Es E Hc.
  unfold story_of in E. apply bind_some in E as (v & Ev & E). apply bind_some in E as (w & Ew & E). apply bind_some in E as (s1 & E1 & E). apply bind_some in E as (v' & Ev' & E).
  apply bind_some in E as (w' & Ew' & E). apply bind_some in E as (s2 & E2 & E). rewrite <- Es in Ew, Ew'.
  assert (e_st e = st) by congruence. assert (vw_sel v = sel) by congruence. assert (vw_sel v' = sel') by congruence. assert (w = view) by congruence. assert (w' = view') by congruence. assert (s_cache s2 = c) by congruence. subst.
  exists e, v, v', s1, s2. split; [eapply run_reach; eauto; now apply vr_new|]. repeat (split; [auto using draw_ok|]). reflexivity.
Qed.
Ltac at_story tx evs ev :=
  let E := fresh "E" in
  destruct (story tx evs ev) as [[[[[[st sel] sel'] view] view'] c]|] eqn:E; [|vm_compute in E; discriminate];
  let K := fresh in assert (K := E); vm_compute in K; injection K as <- <- <- <- <- <-;
  apply story_at in E as (e & v & v' & s1 & s2 & R & Et & Est & Es & Es' & D & D' & S1 & Ev & S2 & Ec); [|reflexivity|reflexivity].
(** A caret at the end of a text that ends in a line break is drawn twice: on the empty last line and
    behind the line before it. *)
Theorem C56_caret_twice_refuted : exists e v, vreach e v /\ es e = [97; 98; 99; 10] /\ e_st e = [0; 4] /\ vw_sel v = [caret 4] /\
  line_cursors (vw_sel v) 0 4 4 = Some [4] /\ line_cursors (vw_sel v) 4 4 4 = Some [0].
Proof.
  at_story [97; 98; 99; 10] [EGotoLine 1] (EGotoLine 0). exists e, v. rewrite Es. repeat (split; [auto|]). reflexivity.
Qed.
Print Assumptions C56_caret_twice_refuted.
(** And the second one stays with the client when the caret is moved away: the line it is drawn on is
    not told to be stale. *)
Theorem C56_stale_caret_refuted : exists e v v' view view' s1 s2 x c, vreach e v /\ es e = [97; 10; 98; 10; 99; 10] /\ vw_sel v = [caret 6] /\ vw_sel v' = [caret 0] /\
  drawn e (vw_sel v) view /\ drawn e (vw_sel v') view' /\
  step true (session_start view) (Update 0 10) = Some s1 /\ do_in e (with_shadow v (s_shadow s1)) (EGotoLine 0) = Some v' /\ step true (Session view' (vw_shadow v') (s_cache s1)) (Update 0 10) = Some s2 /\
  nth_error view' 2 = Some x /\ nth_error (s_cache s2) 2 = Some (Some c) /\ vcur x = [] /\ ccur c = [2].
Proof.
  at_story [97; 10; 98; 10; 99; 10] [EGotoLine 3] (EGotoLine 0). eexists e, v, v', _, _, s1, s2, _, _. rewrite Es, Es', Ec.
  split; [exact R|]. split; [exact Et|]. split; [reflexivity|]. split; [reflexivity|]. split; [exact D|]. split; [exact D'|]. split; [exact S1|]. split; [exact Ev|]. split; [exact S2|].
  split; [reflexivity|]. split; [reflexivity|]. split; reflexivity.
Qed.
Print Assumptions C56_stale_caret_refuted.
(** A case that meets the hypotheses: three lines, a selection over two of them and a caret, collapsed
    to the caret of the first. *)
Example C56_hyps : exists e v v' view view', vreach e v /\ es e = [97; 10; 98; 99; 10; 100] /\ e_st e = [0; 2; 5] /\ vw_sel v = [region_new 0 3; caret 6] /\ sane e v ECollapse /\
  do_in e v ECollapse = Some v' /\ quiet_end (es e) (e_st e) (vw_sel v) /\ quiet_end (es e) (e_st e) (vw_sel v') /\ drawn e (vw_sel v) view /\ drawn e (vw_sel v') view' /\
  map vstyle view = [[(0, 2)]; [(0, 1)]; []] /\ map vcur view = [[]; [1]; [1]] /\ map vstyle view' = [[]; []; []] /\ map vcur view' = [[]; [1]; []].
Proof.
  at_story [97; 10; 98; 99; 10; 100] [EGesture 0 0 (Select GPoint false); EGesture 1 1 GDrag; EGesture 2 1 (Select GPoint true)] ECollapse.
  destruct (C55_collapse e v R) as (v1 & x & rs & E1 & H1 & H2). assert (x = region_new 0 3) by (unfold region_new; congruence). subst x.
  exists e, v, v1. eexists _, _. rewrite Es, H2, Et, Est. split; [exact R|]. split; [auto|]. split; [auto|]. split; [auto|]. split; [exact Logic.I|]. split; [exact E1|]. split; [left; cbn; lia|]. split; [left; cbn; lia|].
  split; [exact D|]. split; [exact D'|]. repeat split.
Qed.
Example C56_styles_hyps : exists t, holds t [(0, 3, Style 200 (Some 7) None None None None); (5, 6, Style 200 None (Some 1) (Some 700) None None)] 6 /\ styled 1 (sm_new 1) [].
Proof. destruct (C26_build [(0, 3, Style 200 (Some 7) None None None None); (5, 6, Style 200 None (Some 1) (Some 700) None None)] 6 ltac:(cbn; lia)) as (sb & t & _ & _ & H). exists t. split; auto. constructor. Qed.
