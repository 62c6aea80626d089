(** What holds of files and buffers after any events. *)
From Coq Require Import List Arith Bool Lia ZifyBool.
From Verif Require Import Base ListLib RopeModel RopeSpec RopeProofs FindModel FindProofs ConfigModel ConfigProofs FileModel FileSpec FileProofs.
Import ListNotations.
Local Notation concat := List.concat.

Section Run.
Context (chunks : str -> list str) (CH : forall s, concat (chunks s) = s).
Notation ed c := (aget Nat.eqb (k_editors c)).
Notation inf c := (get_info (k_files c)).

Lemma known_app id a b : known id (a ++ b) = match known id b with Some x => Some x | None => known id a end.
Proof.
  unfold known. rewrite fold_left_app.
  assert (G : forall k, fold_left (fun k m => match m with Loaded j b => if j =? id then Some b else k | Wrote j b => if j =? id then Some b else k | _ => k end) b k
     = match fold_left (fun k m => match m with Loaded j b => if j =? id then Some b else k | Wrote j b => if j =? id then Some b else k | _ => k end) b None with Some x => Some x | None => k end).
  { induction b as [|m b IH]; intros k; cbn [fold_left]; auto. destruct m as [j x|j x|j|j|]; try apply IH; (destruct (j =? id); [|apply IH]);
    rewrite (IH (Some x)); now destruct (fold_left _ b None). }
  apply G.
Qed.
Lemma path_info c id p : path_of c id = Some p <-> exists i, inf c id = Some i /\ i_path i = p.
Proof. unfold path_of. destruct (inf c id) as [i|]; split; [intros [= <-]; eauto|intros (j & [= <-] & ->); auto|discriminate|intros (j & H & _); discriminate]. Qed.

(** ** Of every history *)
Record sound (c : core) : Prop := {
  so_key : forall p id, get_editor (k_files c) p = Some id -> path_of c id = Some p;
  so_ed : forall id i, inf c id = Some i -> exists e, ed c id = Some e;
  so_new : forall id, k_next c <= id -> ed c id = None;
  so_clean : forall id e, ed c id = Some e -> e_clean e = true -> e_text e = e_saved e }.
Lemma sound_start d : sound (start d).
Proof. constructor; cbn; intros; try discriminate; auto. Qed.

(** What a save does to the manager. *)
Lemma save_cases fm d p ch id m t o x : let '(fm', d', r) := fm_save fm d p ch id m t o x in
  match r with
  | Written => exists i', get_info fm' id = Some i' /\ i_path i' = p
      /\ (i_changed i' = false)
      /\ i_bom i' = (match get_info fm id with Some i => path_eqb (i_path i) p && i_bom i | None => false end)
      /\ i_time i' = get_mod_time d' p
      /\ (forall j, j <> id -> get_info fm' j = get_info fm j)
      /\ (forall q, get_editor fm' q =
           match get_info fm id with
           | Some i => if path_eqb (i_path i) p then get_editor fm q else if path_eqb (i_path i) q then None else if path_eqb p q then Some id else get_editor fm q
           | None => if path_eqb p q then Some id else get_editor fm q end)
      /\ (exists oi bom, bom = i_bom i' /\ let r := try_save d p ch bom oi m t o in snd r = true /\ d' = meanwhile (fst r) p x /\ oi = get_info fm id)
  | HasChanged => fm' = fm /\ d' = d /\ exists i, get_info fm id = Some i /\ i_path i = p /\ i_changed i = true
  | Failed => fm' = fm /\ exists oi bom, let r := try_save d p ch bom oi m t o in snd r = false /\ d' = fst r
  end.
Proof.
  unfold fm_save. destruct (get_info fm id) as [i|] eqn:I.
  - destruct (path_eqb (i_path i) p) eqn:P; cbn [negb].
    + apply pE in P. destruct (i_changed i) eqn:C; [split; [auto|]; split; [auto|]; eauto|].
      destruct (snd (try_save d p ch (i_bom i) (Some i) m t o)) eqn:S; [|split; [auto|]; exists (Some i), (i_bom i); auto].
      eexists. unfold get_info. cbn [file_info open_files]. rewrite (aget_aset Nat.eqb nE), Nat.eqb_refl. split; [reflexivity|]. cbn [i_path i_changed i_bom i_time].
      split; [auto|]. split; [auto|]. split; [reflexivity|]. split; [reflexivity|]. split; [|split].
      * intros j N. rewrite (aget_aset Nat.eqb nE), (e_neq Nat.eqb nE); auto.
      * reflexivity.
      * exists (Some i), (i_bom i). auto.
    + unfold save_new. rewrite I. destruct (snd (try_save d p ch false (Some i) m t o)) eqn:S; [|split; [auto|]; exists (Some i), false; auto].
      eexists. unfold get_info, get_editor. cbn [file_info open_files]. rewrite (aget_aset Nat.eqb nE), Nat.eqb_refl. split; [reflexivity|]. cbn [i_path i_changed i_bom i_time].
      split; [auto|]. split; [auto|]. split; [reflexivity|]. split; [reflexivity|]. split; [|split].
      * intros j N. rewrite (aget_aset Nat.eqb nE), (e_neq Nat.eqb nE); auto.
      * intros q. rewrite (aget_arem path_eqb pE), (aget_aset path_eqb pE). reflexivity.
      * exists (Some i), false. auto.
  - unfold save_new. rewrite I. destruct (snd (try_save d p ch false None m t o)) eqn:S; [|split; [auto|]; exists None, false; auto].
    eexists. unfold get_info, get_editor. cbn [file_info open_files]. rewrite (aget_aset Nat.eqb nE), Nat.eqb_refl. split; [reflexivity|]. cbn [i_path i_changed i_bom i_time].
    split; [auto|]. split; [auto|]. split; [reflexivity|]. split; [reflexivity|]. split; [|split].
    * intros j N. rewrite (aget_aset Nat.eqb nE), (e_neq Nat.eqb nE); auto.
    * intros q. rewrite (aget_aset path_eqb pE). reflexivity.
    * exists None, false. auto.
Qed.
(** What opening does to it. *)
Lemma open_cases fm d p id x : match fm_open fm d p id x with
  | Some (fm', text, Some b) => exists f i', d p = Some f /\ b = f_bytes f /\ get_info fm' id = Some i' /\ i_path i' = p /\ i_changed i' = false
      /\ b = encoded (i_bom i') text /\ i_time i' = get_mod_time (meanwhile d p x) p
      /\ (forall j, j <> id -> get_info fm' j = get_info fm j)
      /\ (forall q, get_editor fm' q = if path_eqb p q then Some id else get_editor fm q)
  | Some (fm', text, None) => fm' = fm /\ text = [] /\ d p = None
  | None => exists f, d p = Some f /\ ~ utf8 (f_bytes f)
  end.
Proof.
  unfold fm_open. destruct (d p) as [f|] eqn:D; [|auto]. unfold try_load_file. destruct (try_decode (f_bytes f) (guess (f_bytes f))) as [text|] eqn:T; cbn [bind].
  - cbn [fst snd]. eexists f, _. split; [auto|]. split; [auto|]. unfold get_info, get_editor. cbn [file_info open_files]. rewrite (aget_aset Nat.eqb nE), Nat.eqb_refl.
    split; [reflexivity|]. cbn [i_path i_changed i_bom i_time]. split; [auto|]. split; [auto|]. split; [now apply decode_ok in T|]. split; [auto|]. split.
    + intros j N. rewrite (aget_aset Nat.eqb nE), (e_neq Nat.eqb nE); auto.
    + intros q. now rewrite (aget_aset path_eqb pE).
  - exists f. split; auto. unfold try_decode in T. destruct (utf8b (f_bytes f)) eqn:U; [discriminate|]. rewrite <- utf8b_ok, U. discriminate.
Qed.
(** What being told of a change does to it. *)
Lemma check_cases fm d p id fm' ch : check_file fm d p id = (fm', ch) ->
  open_files fm' = open_files fm /\
  (forall j, get_info fm' j = if (id =? j) then match get_info fm id with
       | Some i => Some {| i_bom := i_bom i; i_path := i_path i; i_time := i_time i; i_changed := ch; i_mode := i_mode i |} | None => None end
     else get_info fm j) /\
  (forall i, get_info fm id = Some i -> ch = (if opt_eqb (get_mod_time d p) (i_time i) then i_changed i else true)).
Proof.
  unfold check_file. destruct (get_info fm id) as [i|] eqn:I; intros [= <- <-].
  - split; [auto|]. split; [|now intros i' [= <-]]. intros j. unfold get_info. cbn [file_info]. now rewrite (aget_aset Nat.eqb nE).
  - split; [auto|]. split; [|discriminate]. intros j. destruct (id =? j) eqn:E; auto. apply Nat.eqb_eq in E. now subst.
Qed.

Lemma path_other c c' : (forall j, get_info (k_files c') j = get_info (k_files c) j) -> forall id, path_of c' id = path_of c id.
Proof. intros H id. unfold path_of. now rewrite H. Qed.
Ltac editor_at id j H := rewrite (aget_aset Nat.eqb nE) in H; let Q := fresh "Q" in destruct (id =? j) eqn:Q; [apply Nat.eqb_eq in Q; subst j|].

(** Opening a file in a buffer, new or not. *)
Lemma sound_open c c' id p text b :
  sound c -> (forall q j, get_editor (k_files c) q = Some j -> j = id -> q = p) -> id < k_next c' -> k_next c <= k_next c' ->
  (forall q, get_editor (k_files c') q = if path_eqb p q then Some id else get_editor (k_files c) q) ->
  (forall j, j <> id -> inf c' j = inf c j) -> (exists i', inf c' id = Some i' /\ i_path i' = p) ->
  k_editors c' = aset Nat.eqb (k_editors c) id {| e_text := text; e_saved := text; e_clean := b |} -> sound c'.
Proof.
  intros [K E N C] U L LE G O (i' & I & P) X. constructor.
  - intros q j. rewrite G. destruct (path_eqb p q) eqn:PQ.
    + intros [= <-]. apply pE in PQ. subst. unfold path_of. now rewrite I.
    + intros H. destruct (Nat.eq_dec j id) as [->|NE].
      * rewrite (U q id H eq_refl), p_refl in PQ. discriminate.
      * unfold path_of. rewrite O by auto. now apply K.
  - intros j i H. rewrite X, (aget_aset Nat.eqb nE). destruct (id =? j) eqn:Q; eauto. apply Nat.eqb_neq in Q. rewrite O in H by auto. eauto.
  - intros j H. rewrite X, (aget_aset Nat.eqb nE), (e_neq Nat.eqb nE) by lia. apply N. lia.
  - intros j e H. rewrite X in H. editor_at id j H; [injection H as <-; auto|eauto].
Qed.

Theorem sound_step c e : sound c -> exists r, step chunks c e = Some r /\ sound (fst r).
Proof.
  intros S. pose proof S as [K E N C].
  assert (NI : inf c (k_next c) = None).
  { destruct (inf c (k_next c)) as [i|] eqn:I; auto. destruct (E _ _ I) as (x & X). rewrite N in X by auto. discriminate. }
  destruct e; cbn [step].
  - eexists. split; [reflexivity|]. unfold do_new_view. pose proof (open_cases (k_files c) (k_disk c) p (k_next c) x) as OC.
    destruct (fm_open (k_files c) (k_disk c) p (k_next c) x) as [[[fm' text] [b|]]|]; cbn [fst].
    + destruct OC as (f & i' & _ & _ & I & P & _ & _ & _ & O & G). eapply sound_open with (id := k_next c); eauto; cbn [k_next k_files]; try lia; eauto.
      * intros q j H ->. apply K in H. unfold path_of in H. now rewrite NI in H.
      * reflexivity.
    + destruct OC as (-> & -> & _). constructor; auto; cbn [k_editors k_next k_files].
      * intros j i H. rewrite (aget_aset Nat.eqb nE). destruct (k_next c =? j); eauto.
      * intros j H. rewrite (aget_aset Nat.eqb nE), (e_neq Nat.eqb nE) by lia. apply N. lia.
      * intros j e H. editor_at (k_next c) j H; [injection H as <-; auto|eauto].
    + constructor; auto. cbn [k_editors k_next]. intros j H. apply N. lia.
  - eexists. split; [reflexivity|]. cbn [do_new_view fst]. constructor; auto; cbn [k_editors k_next k_files].
    + intros j i H. rewrite (aget_aset Nat.eqb nE). destruct (k_next c =? j); eauto.
    + intros j H. rewrite (aget_aset Nat.eqb nE), (e_neq Nat.eqb nE) by lia. apply N. lia.
    + intros j e H. editor_at (k_next c) j H; [injection H as <-; auto|eauto].
  - eexists. split; [reflexivity|]. cbn [fst]. destruct (ed c id) as [ed0|] eqn:X; auto. constructor; auto; cbn [k_editors k_next k_files].
    + intros j i H. rewrite (aget_aset Nat.eqb nE). destruct (id =? j); eauto.
    + intros j H. rewrite (aget_aset Nat.eqb nE). destruct (id =? j) eqn:Q; auto. apply Nat.eqb_eq in Q. subst j. now rewrite N in X.
    + intros j e H. editor_at id j H; [injection H as <-; discriminate|eauto].
  - eexists. split; [reflexivity|]. unfold do_save. destruct (ed c id) as [e|] eqn:X; auto.
    pose proof (save_cases (k_files c) (k_disk c) p (chunks (text_for_save (e_text e) newline ending)) id m t o x) as SC.
    destruct (fm_save _ _ _ _ _ _ _ _ _) as [[fm' d'] [| |]]; cbn [fst].
    + destruct SC as (i' & I & P & _ & _ & _ & O & G & _). constructor; cbn [k_editors k_next k_files].
      * intros q j. rewrite G. intros H.
        assert (J : j = id /\ q = p \/ j <> id /\ get_editor (k_files c) q = Some j).
        { destruct (inf c id) as [i|] eqn:I0.
          - destruct (path_eqb (i_path i) p) eqn:Q.
            + destruct (Nat.eq_dec j id) as [->|]; auto. left. split; auto. apply K in H. unfold path_of in H. rewrite I0 in H. apply pE in Q. congruence.
            + destruct (path_eqb (i_path i) q) eqn:Q1; [discriminate|]. destruct (path_eqb p q) eqn:Q2; [apply pE in Q2; injection H as <-; auto|].
              destruct (Nat.eq_dec j id) as [->|]; auto. apply K in H. unfold path_of in H. rewrite I0 in H. injection H as <-. now rewrite p_refl in Q1.
          - destruct (path_eqb p q) eqn:Q2; [apply pE in Q2; injection H as <-; auto|].
            destruct (Nat.eq_dec j id) as [->|]; auto. apply K in H. unfold path_of in H. now rewrite I0 in H. }
        unfold path_of. cbn [k_files]. destruct J as [[-> ->]|[J1 J2]]; [now rewrite I, P|]. rewrite O by auto. now apply K.
      * intros j i H. rewrite (aget_aset Nat.eqb nE). destruct (id =? j) eqn:Q; eauto. apply Nat.eqb_neq in Q. rewrite O in H by auto. eauto.
      * intros j H. rewrite (aget_aset Nat.eqb nE). destruct (id =? j) eqn:Q; auto. apply Nat.eqb_eq in Q. subst j. now rewrite N in X.
      * intros j e0 H. editor_at id j H; [injection H as <-; auto|eauto].
    + destruct SC as (-> & -> & _). constructor; auto.
    + destruct SC as (-> & _). constructor; auto.
  - eexists. split; [reflexivity|]. unfold do_close_view. destruct (ed c id) as [e|] eqn:X; auto. cbn [fst].
    assert (NC : forall fm, (forall p j, get_editor fm p = Some j -> j <> id /\ get_editor (k_files c) p = Some j) -> (forall j, get_info fm j = if id =? j then None else inf c j) ->
       sound {| k_disk := k_disk c; k_files := fm; k_editors := arem Nat.eqb (k_editors c) id; k_next := k_next c |}).
    { intros fm G O. constructor; cbn [k_editors k_next k_files].
      - intros p j H. apply G in H. destruct H as [H1 H2]. unfold path_of. cbn [k_files]. rewrite O, (e_neq Nat.eqb nE) by auto. now apply K.
      - intros j i. rewrite O, (aget_arem Nat.eqb nE). destruct (id =? j); [discriminate|]. apply E.
      - intros j H. rewrite (aget_arem Nat.eqb nE). destruct (id =? j); auto.
      - intros j e0. rewrite (aget_arem Nat.eqb nE). destruct (id =? j); [discriminate|]. apply C. }
    apply NC; unfold fm_close.
    + intros p j H. destruct (inf c id) as [i|] eqn:I.
      * unfold get_editor in *. cbn [open_files] in H. rewrite (aget_arem path_eqb pE) in H. destruct (path_eqb (i_path i) p) eqn:Q; [discriminate|].
        split; auto. intros ->. apply K in H. unfold path_of in H. rewrite I in H. injection H as <-. now rewrite p_refl in Q.
      * split; auto. intros ->. apply K in H. unfold path_of in H. now rewrite I in H.
    + intros j. destruct (inf c id) as [i|] eqn:I.
      * unfold get_info. cbn [file_info]. now rewrite (aget_arem Nat.eqb nE).
      * destruct (id =? j) eqn:Q; auto. apply Nat.eqb_eq in Q. now subst.
  - eexists. split; [reflexivity|]. constructor; auto.
  - unfold handle_open_file_fs_event. destruct (get_editor (k_files c) p) as [id|] eqn:G; [|eauto].
    destruct (check_file (k_files c) (k_disk c) p id) as [fm ch] eqn:CF. destruct (check_cases _ _ _ _ _ _ CF) as (F1 & F2 & F3).
    pose proof (K _ _ G) as PO. apply path_info in PO. destruct PO as (i & I & P). destruct (E _ _ I) as (e & X). rewrite X. cbn [bind].
    assert (S1 : sound {| k_disk := k_disk c; k_files := fm; k_editors := k_editors c; k_next := k_next c |}).
    { constructor; auto; cbn [k_files k_editors].
      - intros q j H. unfold get_editor in H. rewrite F1 in H. apply K in H. unfold path_of in *. cbn [k_files]. rewrite F2. destruct (id =? j) eqn:Q; auto.
        apply Nat.eqb_eq in Q. subst j. rewrite I in *. auto.
      - intros j i0. rewrite F2. destruct (id =? j) eqn:Q; [apply Nat.eqb_eq in Q; subst j; eauto|apply E]. }
    destruct (ch && is_pristine e equivalent); [|eauto].
    pose proof (open_cases fm (k_disk c) p id None) as OC. destruct (fm_open fm (k_disk c) p id None) as [[[fm' text] [b|]]|]; [| |eauto].
    + destruct OC as (f & i' & _ & _ & I' & P' & _ & _ & _ & O & G'). eexists. split; [reflexivity|]. cbn [fst].
      eapply sound_open with (id := id) (1 := S1); cbn [k_next k_files k_editors]; eauto; [| |reflexivity].
      * intros q j H ->. unfold get_editor in H. rewrite F1 in H. apply K in H. unfold path_of in H. rewrite I in H. congruence.
      * destruct (Nat.lt_ge_cases id (k_next c)); auto. rewrite N in X; auto. discriminate.
    + destruct OC as (-> & -> & _). eexists. split; [reflexivity|]. cbn [fst]. destruct S1 as [K1 E1 N1 C1]. cbn [k_files k_editors k_next] in *. constructor; auto; cbn [k_editors k_next k_files].
      * intros j i0 H. rewrite (aget_aset Nat.eqb nE). destruct (id =? j); eauto.
      * intros j H. rewrite (aget_aset Nat.eqb nE). destruct (id =? j) eqn:Q; auto. apply Nat.eqb_eq in Q. subst j. now rewrite N in X.
      * intros j e0 H. editor_at id j H; [injection H as <-; auto|eauto].
Qed.
Theorem sound_run es : forall c, sound c -> exists r, run chunks c es = Some r /\ sound (fst r).
Proof.
  induction es as [|e es IH]; intros c S; cbn [run]; [eauto|]. destruct (sound_step c e S) as (r & -> & S1). cbn [bind].
  destruct (IH _ S1) as (q & -> & S2). cbn [bind]. eauto.
Qed.

(** ** Of careful histories *)
Definition info_fit (d : disk) (w : world) (ms : list output) (id : nat) (i : info) : Prop :=
  exists t, i_time i = Some t /\ In t (w_times w (i_path i)) /\
    (i_changed i = true \/ d (i_path i) = None \/
     exists f, d (i_path i) = Some f /\ if w_unseen w (i_path i) then t <> f_time f else t = f_time f /\ known id ms = Some (f_bytes f)).
Record fit (c : core) (w : world) (ms : list output) : Prop := {
  fi_key : forall id p, path_of c id = Some p -> get_editor (k_files c) p = Some id;
  fi_time : forall p f, k_disk c p = Some f -> In (f_time f) (w_times w p);
  fi_info : forall id i, inf c id = Some i -> info_fit (k_disk c) w ms id i }.
Lemma fit_start d : fit (start d) (w_start d) [].
Proof.
  constructor; cbn; try discriminate. intros p f ->. now left.
Qed.
Lemma info_frame d w ms d' w' ms' id i : info_fit d w ms id i -> d' (i_path i) = d (i_path i) -> w_unseen w' (i_path i) = w_unseen w (i_path i) ->
  incl (w_times w (i_path i)) (w_times w' (i_path i)) -> known id ms' = known id ms -> info_fit d' w' ms' id i.
Proof. intros (t & A & B & C) D U T K. exists t. rewrite D, U, K. auto. Qed.
Lemma times_more w p t q : incl (w q) (add_time w p t q).
Proof. unfold add_time. destruct (path_eqb q p); [apply incl_tl|]; apply incl_refl. Qed.
Lemma times_here w p t : In t (add_time w p t p). Proof. unfold add_time. rewrite p_refl. now left. Qed.
Lemma known_other id ms o : (match o with Loaded j _ | Wrote j _ => j <> id | _ => True end) -> known id (ms ++ [o]) = known id ms.
Proof. intros H. rewrite known_app. destruct o; cbn [known fold_left]; auto; now rewrite (e_neq Nat.eqb nE). Qed.
Lemma known_loaded id ms b : known id (ms ++ [Loaded id b]) = Some b.
Proof. rewrite known_app. cbn [known fold_left]. now rewrite Nat.eqb_refl. Qed.
Lemma known_wrote id ms b : known id (ms ++ [Wrote id b]) = Some b.
Proof. rewrite known_app. cbn [known fold_left]. now rewrite Nat.eqb_refl. Qed.
Lemma fit_unique c w ms a b p : fit c w ms -> path_of c a = Some p -> path_of c b = Some p -> a = b.
Proof. intros F A B. apply (fi_key _ _ _ F) in A, B. congruence. Qed.

Theorem fit_step c w ms e r : sound c -> fit c w ms -> careful c w e -> step chunks c e = Some r ->
  fit (fst r) (w_step w e) (ms ++ snd r).
Proof.
  intros S F CA ST. pose proof S as [K E N C]. pose proof F as [FK FT FI].
  assert (NI : inf c (k_next c) = None).
  { destruct (inf c (k_next c)) as [i|] eqn:I; auto. destruct (E _ _ I) as (x & X). rewrite N in X by auto. discriminate. }
  destruct e; cbn [step] in ST; cbn [careful] in CA.
  - destruct CA as [-> CA]. injection ST as <-. cbn [w_step]. unfold do_new_view. cbv zeta.
    assert (FR : forall ms' j i, inf c j = Some i -> known j ms' = known j ms -> info_fit (k_disk c) {| w_unseen := set_unseen (w_unseen w) p false; w_times := w_times w |} ms' j i).
    { intros ms' j i I KN. assert (i_path i <> p) by (intros <-; apply (CA j); unfold path_of; now rewrite I).
      eapply info_frame; [eauto| | | |]; cbn [w_unseen w_times]; auto; [|apply incl_refl]. unfold set_unseen. rewrite p_neq; auto. }
    match goal with |- context [match k_disk c p with Some _ => ?a | None => ?b end] => replace (match k_disk c p with Some _ => a | None => b end) with (k_disk c) by (destruct (k_disk c p); reflexivity) end.
    pose proof (open_cases (k_files c) (k_disk c) p (k_next c) None) as OC.
    destruct (fm_open (k_files c) (k_disk c) p (k_next c) None) as [[[fm' text] [b|]]|]; cbn [fst snd].
    + destruct OC as (f & i' & D & -> & I & P & CHG & _ & T & O & G). cbn [meanwhile] in T. unfold get_mod_time in T. rewrite D in T. constructor; cbn [k_files k_disk w_times]; auto.
      * intros j q H. rewrite G. unfold path_of in H. cbn [k_files] in H. destruct (Nat.eq_dec j (k_next c)) as [->|NE].
        -- rewrite I in H. injection H as <-. now rewrite P, p_refl.
        -- rewrite O in H by auto. fold (path_of c j) in H. rewrite p_neq; auto. intros <-. now apply CA in H.
      * intros j i H. destruct (Nat.eq_dec j (k_next c)) as [->|NE].
        -- rewrite I in H. injection H as <-. exists (f_time f). split; [auto|]. rewrite P. split; [now apply FT|]. right. right. exists f. split; auto.
           cbn [w_unseen]. unfold set_unseen. rewrite p_refl. split; auto. apply known_loaded.
        -- rewrite O in H by auto. apply FR; auto. apply known_other. auto.
    + destruct OC as (-> & -> & D). rewrite app_nil_r. constructor; cbn [k_files k_disk w_times]; auto.
    + constructor; cbn [k_files k_disk w_times]; auto. intros j i H. apply FR; auto. now apply known_other.
  - injection ST as <-. cbn [do_new_view fst snd]. rewrite app_nil_r. constructor; auto.
  - injection ST as <-. cbn [fst snd]. rewrite app_nil_r. cbn [w_step]. destruct (ed c id); constructor; auto.
  - destruct CA as (-> & CO & CT & CU). injection ST as <-. cbn [w_step].
    set (w' := {| w_unseen := set_unseen (w_unseen w) p false; w_times := add_time (add_time (w_times w) p t) (tmp_path p) t |}).
    assert (TI : forall q, incl (w_times w q) (w_times w' q)). { intros q. eapply incl_tran; [|apply times_more]. apply times_more. }
    assert (FR : forall d' ms' j i, inf c j = Some i -> (i_path i <> p -> d' (i_path i) = k_disk c (i_path i)) -> i_path i <> p -> known j ms' = known j ms -> info_fit d' w' ms' j i).
    { intros d' ms' j i I D NP KN. eapply info_frame; [eauto| | | |]; auto. unfold w'. cbn [w_unseen]. unfold set_unseen. now rewrite p_neq. }
    assert (NT : forall j i, inf c j = Some i -> i_path i <> tmp_path p). { intros j i I H. apply (CT j). unfold path_of. rewrite I. congruence. }
    assert (NP : forall j i, j <> id -> inf c j = Some i -> i_path i <> p). { intros j i J I H. apply (CO j J). unfold path_of. rewrite I. congruence. }
    unfold do_save. destruct (ed c id) as [e|] eqn:X.
    2:{ cbn [fst snd]. rewrite app_nil_r. constructor; auto.
        - intros q f D. apply TI. auto.
        - intros j i I. apply FR; auto. apply (NP j i); auto. intros ->. destruct (E _ _ I) as (e & Y). congruence. }
    pose proof (save_cases (k_files c) (k_disk c) p (chunks (text_for_save (e_text e) newline ending)) id m t o None) as SC.
    destruct (fm_save _ _ _ _ _ _ _ _ _) as [[fm' d'] [| |]]; cbn [fst snd].
    + destruct SC as (i' & I & P & CHG & BM & T & O & G & oi & bom & -> & TS & -> & _). cbn [meanwhile] in *.
      pose proof (try_save_ok (k_disk c) p (chunks (text_for_save (e_text e) newline ending)) (i_bom i') oi m t o) as TO. cbv zeta in TO.
      destruct TO as (T1 & T2 & _). destruct (T2 TS) as (T3 & mode & T4 & _). constructor; cbn [k_files k_disk].
      * intros j q H. rewrite G. unfold path_of in H. cbn [k_files] in H. destruct (Nat.eq_dec j id) as [->|NE].
        -- rewrite I in H. injection H as <-. rewrite P, p_refl. destruct (inf c id) as [i|] eqn:I0; auto. destruct (path_eqb (i_path i) p) eqn:Q; auto.
           apply pE in Q. apply FK. unfold path_of. now rewrite I0, Q.
        -- rewrite O in H by auto. fold (path_of c j) in H. assert (q <> p) by (intros ->; now apply (CO j NE)). pose proof (FK _ _ H) as GE.
           rewrite (p_neq p q) by auto. destruct (inf c id) as [i|] eqn:I0; auto. destruct (path_eqb (i_path i) p); auto.
           destruct (path_eqb (i_path i) q) eqn:Q; auto. apply pE in Q. exfalso. apply NE. apply (fit_unique c w ms j id q F); auto. unfold path_of. now rewrite I0, Q.
      * intros q f D. destruct (path_eqb q p) eqn:Q; [apply pE in Q; subst q; rewrite T4 in D; injection D as <-|].
        -- unfold w'. cbn [w_times f_time]. apply times_more. apply times_here.
        -- destruct (path_eqb q (tmp_path p)) eqn:Q2; [apply pE in Q2; now rewrite T3 in D|].
           rewrite T1 in D; [apply TI; auto|intros ->; now rewrite p_refl in Q|intros ->; now rewrite p_refl in Q2].
      * intros j i H. destruct (Nat.eq_dec j id) as [->|NE].
        -- rewrite I in H. injection H as <-. exists t. unfold get_mod_time in T. rewrite T4 in T. split; [auto|]. rewrite P.
           split; [unfold w'; cbn [w_times]; apply times_more; apply times_here|]. right. right. eexists. split; [exact T4|].
           unfold w'. cbn [w_unseen]. unfold set_unseen. rewrite p_refl. split; [reflexivity|]. cbn [f_bytes]. rewrite known_wrote, BM, CH. reflexivity.
        -- rewrite O in H by auto. apply FR; auto; [|now apply (NP j i)|apply known_other; auto]. intros NP'. apply T1; auto. eauto.
    + destruct SC as (-> & -> & i0 & I0 & P0 & C0). constructor; cbn [k_files k_disk]; auto.
      * intros q f D. apply TI. auto.
      * intros j i H. destruct (Nat.eq_dec j id) as [->|NE].
        -- rewrite I0 in H. injection H as <-. destruct (FI _ _ I0) as (u & U1 & U2 & _). exists u. split; auto. split; [now apply TI|auto].
        -- apply FR; auto; [now apply (NP j i)|now apply known_other].
    + destruct SC as (-> & oi & bom & TS & ->).
      pose proof (try_save_ok (k_disk c) p (chunks (text_for_save (e_text e) newline ending)) bom oi m t o) as TO. cbv zeta in TO.
      destruct TO as (T1 & _ & T3). destruct (T3 TS) as (T4 & T5). constructor; cbn [k_files k_disk]; auto.
      * intros q f D. destruct (path_eqb q (tmp_path p)) eqn:Q.
        -- apply pE in Q. subst q. apply T5 in D. destruct D as [<-|D]; [unfold w'; cbn [w_times]; apply times_here|apply TI; auto].
        -- assert (D' : k_disk c q = Some f). { destruct (path_eqb q p) eqn:Q2; [apply pE in Q2; subst q; congruence|]. rewrite <- D. symmetry. apply T1; intros ->; [now rewrite p_refl in Q2|now rewrite p_refl in Q]. }
           apply TI. auto.
      * intros j i H. destruct (path_eqb (i_path i) p) eqn:Q.
        -- apply pE in Q. assert (j = id) as -> by (destruct (Nat.eq_dec j id); auto; exfalso; eapply NP; eauto).
           eapply info_frame; [eauto| | | |]; auto; [rewrite Q; exact T4| |now apply known_other]. unfold w'. cbn [w_unseen]. unfold set_unseen. rewrite Q, p_refl.
           symmetry. apply CU. unfold path_of. now rewrite H, Q.
        -- assert (i_path i <> p) by (intros X0; rewrite X0, p_refl in Q; discriminate). apply FR; auto; [|now apply known_other]. intros _. apply T1; eauto.
  - injection ST as <-. unfold do_close_view. destruct (ed c id) as [e|] eqn:X; cbn [fst snd]; rewrite app_nil_r; cbn [w_step]; [|exact F].
    assert (GI : forall j, get_info (fm_close (k_files c) id) j = if id =? j then None else inf c j).
    { intros j. unfold fm_close. destruct (inf c id) as [i|] eqn:I.
      - unfold get_info. cbn [file_info]. now rewrite (aget_arem Nat.eqb nE).
      - destruct (id =? j) eqn:Q; auto. apply Nat.eqb_eq in Q. now subst. }
    constructor; cbn [k_files k_disk]; auto.
    + intros j p H. unfold path_of in H. cbn [k_files] in H. rewrite GI in H. destruct (id =? j) eqn:Q; [discriminate|]. fold (path_of c j) in H. apply Nat.eqb_neq in Q.
      pose proof (FK _ _ H) as G. unfold fm_close. destruct (inf c id) as [i|] eqn:I; auto. unfold get_editor in *. cbn [open_files]. rewrite (aget_arem path_eqb pE).
      destruct (path_eqb (i_path i) p) eqn:Q2; auto. apply pE in Q2. exfalso. apply Q. apply (fit_unique c w ms id j p F); auto. unfold path_of. now rewrite I, Q2.
    + intros j i. rewrite GI. destruct (id =? j); [discriminate|apply FI].
  - injection ST as <-. cbn [fst snd]. rewrite app_nil_r. cbn [w_step]. constructor; cbn [k_files k_disk w_times]; auto.
    + intros q g. rewrite put_get. destruct (path_eqb q p) eqn:Q.
      * apply pE in Q. subst q. intros ->. apply times_here.
      * intros D. destruct f as [f|]; [apply times_more|]; auto.
    + intros j i I. destruct (FI _ _ I) as (u & U1 & U2 & U3). destruct (path_eqb (i_path i) p) eqn:Q.
      * apply pE in Q. exists u. split; auto. cbn [w_times]. split; [destruct f; [apply times_more|]; auto|]. right. rewrite put_get, Q, p_refl.
        destruct f as [f|]; [right|now left]. exists f. split; auto. cbn [w_unseen]. unfold set_unseen. rewrite p_refl. intros ->. apply CA. now rewrite <- Q.
      * eapply info_frame; [eauto| | | |]; auto; cbn [w_unseen w_times].
        -- now rewrite put_get, Q.
        -- unfold set_unseen. now rewrite Q.
        -- destruct f; [apply times_more|apply incl_refl].
  - cbn [w_step]. set (w' := {| w_unseen := set_unseen (w_unseen w) p false; w_times := w_times w |}).
    assert (FR : forall ms' j i, inf c j = Some i -> i_path i <> p -> known j ms' = known j ms -> info_fit (k_disk c) w' ms' j i).
    { intros ms' j i I NP KN. eapply info_frame; [eauto| | | |]; auto; cbn [w' w_unseen w_times]; [|apply incl_refl]. unfold set_unseen. now rewrite p_neq. }
    unfold handle_open_file_fs_event in ST. destruct (get_editor (k_files c) p) as [id|] eqn:G.
    2:{ injection ST as <-. cbn [fst snd]. rewrite app_nil_r. constructor; auto. intros j i I. apply FR; auto. intros P.
        assert (H : path_of c j = Some p) by (unfold path_of; now rewrite I, P). apply FK in H. congruence. }
    destruct (check_file (k_files c) (k_disk c) p id) as [fm ch] eqn:CF. destruct (check_cases _ _ _ _ _ _ CF) as (F1 & F2 & F3).
    pose proof (K _ _ G) as PO. pose proof PO as PO'. apply path_info in PO. destruct PO as (i & I & P). destruct (E _ _ I) as (e & X). rewrite X in ST. cbn [bind] in ST.
    specialize (F3 i I). destruct (FI _ _ I) as (u & U1 & U2 & U3).
    assert (NP : forall j i0, j <> id -> inf c j = Some i0 -> i_path i0 <> p).
    { intros j i0 NE J Q. apply NE. apply (fit_unique c w ms j id p F); auto. unfold path_of. now rewrite J, Q. }
    assert (FK1 : forall j q, (match get_info fm j with Some i => Some (i_path i) | None => None end) = Some q -> get_editor fm q = Some j).
    { intros j q. rewrite F2. unfold get_editor. rewrite F1. fold (get_editor (k_files c) q). destruct (id =? j) eqn:Q; [|apply FK].
      apply Nat.eqb_eq in Q. subst j. rewrite I. cbn [i_path]. intros [= <-]. now rewrite P. }
    assert (S1 : forall ms', (forall j, known j ms' = known j ms) -> fit {| k_disk := k_disk c; k_files := fm; k_editors := k_editors c; k_next := k_next c |} w' ms').
    { intros ms' KN. constructor; cbn [k_files k_disk]; auto. intros j i0. rewrite F2. destruct (id =? j) eqn:Q; [|intros J; apply Nat.eqb_neq in Q; apply FR; auto; eapply NP; eauto].
      apply Nat.eqb_eq in Q. subst j. rewrite I. intros [= <-]. exists u. cbn [i_time i_path i_changed]. split; auto. split; [exact U2|]. destruct ch; [auto|right].
      rewrite P in *. unfold get_mod_time in F3. destruct (k_disk c p) as [f|]; [|rewrite U1 in F3; cbn [opt_eqb] in F3; discriminate]. right.
      destruct (opt_eqb _ _) eqn:OE in F3; [|discriminate]. rewrite U1 in OE. cbn [opt_eqb] in OE. apply Nat.eqb_eq in OE.
      exists f. split; auto. unfold w'. cbn [w_unseen]. unfold set_unseen. rewrite p_refl. split; auto. rewrite KN.
      destruct U3 as [U3|[U3|(f' & U3 & U4)]]; try congruence. injection U3 as <-. destruct (w_unseen w p); [congruence|tauto]. }
    destruct (ch && is_pristine e equivalent) eqn:RL.
    + apply andb_true_iff in RL. destruct RL as [-> _].
      pose proof (open_cases fm (k_disk c) p id None) as OC. destruct (fm_open fm (k_disk c) p id None) as [[[fm' text] [b|]]|]; injection ST as <-; cbn [fst snd].
      * destruct OC as (f & i' & D & -> & I' & P' & CHG & _ & T & O & G'). cbn [meanwhile] in T. unfold get_mod_time in T. rewrite D in T. constructor; cbn [k_files k_disk w_times]; auto.
        -- intros j q H. rewrite G'. unfold path_of in H. cbn [k_files] in H. destruct (Nat.eq_dec j id) as [->|NE].
           ++ rewrite I' in H. injection H as <-. now rewrite P', p_refl.
           ++ rewrite O in H by auto. pose proof (FK1 _ _ H) as GE. rewrite p_neq; auto. intros <-. unfold get_editor in GE. rewrite F1 in GE. unfold get_editor in G. congruence.
        -- intros j i0 H. destruct (Nat.eq_dec j id) as [->|NE].
           ++ rewrite I' in H. injection H as <-. exists (f_time f). split; [auto|]. rewrite P'. split; [now apply FT|]. right. right. exists f. split; auto.
              unfold w'. cbn [w_unseen]. unfold set_unseen. rewrite p_refl. split; auto. apply known_loaded.
           ++ rewrite O, F2, (e_neq Nat.eqb nE) in H by auto. apply FR; auto; [eapply NP; eauto|]. apply known_other. auto.
      * destruct OC as (-> & _ & _). rewrite app_nil_r. destruct (S1 ms) as [A1 A2 A3]; auto. constructor; auto.
      * apply S1. intros j. now apply known_other.
    + injection ST as <-. cbn [fst snd]. rewrite app_nil_r. auto.
Qed.
Theorem fit_run es : forall c w ms r, sound c -> fit c w ms -> careful_all chunks c w es -> run chunks c es = Some r -> fit (fst r) (w_run w es) (ms ++ snd r).
Proof.
  induction es as [|e es IH]; intros c w ms r S F CA R; cbn [run careful_all w_run] in *; [injection R as <-; cbn [fst snd]; now rewrite app_nil_r|].
  destruct (sound_step c e S) as (q & Q & S1). rewrite Q in *. cbn [bind] in R. destruct CA as [CA1 CA2].
  destruct (run chunks (fst q) es) as [q'|] eqn:R'; [|discriminate]. cbn [bind] in R. injection R as <-. cbn [fst snd]. rewrite app_assoc. apply (IH (fst q)); auto. now apply (fit_step c w ms e q).
Qed.

(** ** Files that nobody else changes *)
Record calm (c : core) (w : world) (T : path -> Prop) : Prop := {
  ca_unseen : forall p, w_unseen w p = true -> T p;
  ca_changed : forall id i, inf c id = Some i -> i_changed i = true -> T (i_path i);
  ca_gone : forall id i, inf c id = Some i -> k_disk c (i_path i) = None -> T (i_path i) }.
Theorem calm_step c w ms T e r : sound c -> fit c w ms -> calm c w T -> careful c w e -> step chunks c e = Some r ->
  calm (fst r) (w_step w e) (fun p => T p \/ exists f, e = Other p f).
Proof.
  intros S F CL CA ST. pose proof S as [K E N C]. pose proof F as [FK FT FI]. pose proof CL as [C1 C2 C3].
  assert (UN : forall w' p q, set_unseen w' p false q = true -> w' q = true) by (intros w' p q; unfold set_unseen; destruct (path_eqb q p); congruence).
  destruct e; cbn [step] in ST; cbn [careful] in CA.
  - destruct CA as [-> CA]. injection ST as <-. cbn [w_step]. unfold do_new_view. cbv zeta.
    match goal with |- context [match k_disk c p with Some _ => ?a | None => ?b end] => replace (match k_disk c p with Some _ => a | None => b end) with (k_disk c) by (destruct (k_disk c p); reflexivity) end.
    pose proof (open_cases (k_files c) (k_disk c) p (k_next c) None) as OC.
    destruct (fm_open (k_files c) (k_disk c) p (k_next c) None) as [[[fm' text] [b|]]|]; cbn [fst snd]; constructor; cbn [k_files k_disk w_unseen]; eauto.
    + destruct OC as (f & i' & D & -> & I & P & CHG & _ & T1 & O & G). intros j i H. destruct (Nat.eq_dec j (k_next c)) as [->|NE]; [congruence|]. rewrite O in H by auto. eauto.
    + destruct OC as (f & i' & D & -> & I & P & CHG & _ & T1 & O & G). intros j i H. destruct (Nat.eq_dec j (k_next c)) as [->|NE]; [congruence|]. rewrite O in H by auto. eauto.
    + destruct OC as (-> & _). eauto.
    + destruct OC as (-> & _). eauto.
  - injection ST as <-. constructor; cbn [do_new_view fst k_files k_disk w_step]; eauto.
  - injection ST as <-. cbn [w_step fst]. destruct (ed c id); constructor; cbn [k_files k_disk]; eauto.
  - destruct CA as (-> & CO & CT & CU). injection ST as <-. cbn [w_step].
    assert (NT : forall j i, inf c j = Some i -> i_path i <> tmp_path p). { intros j i I H. apply (CT j). unfold path_of. rewrite I. congruence. }
    assert (NP : forall j i, j <> id -> inf c j = Some i -> i_path i <> p). { intros j i J I H. apply (CO j J). unfold path_of. rewrite I. congruence. }
    unfold do_save. destruct (ed c id) as [e|] eqn:X; [|constructor; cbn [fst w_unseen]; eauto].
    pose proof (save_cases (k_files c) (k_disk c) p (chunks (text_for_save (e_text e) newline ending)) id m t o None) as SC.
    destruct (fm_save _ _ _ _ _ _ _ _ _) as [[fm' d'] [| |]]; cbn [fst snd].
    + destruct SC as (i' & I & P & CHG & BM & T1 & O & G & oi & bom & -> & TS & -> & _). cbn [meanwhile] in *.
      pose proof (try_save_ok (k_disk c) p (chunks (text_for_save (e_text e) newline ending)) (i_bom i') oi m t o) as TO. cbv zeta in TO.
      destruct TO as (T2 & T3 & _). destruct (T3 TS) as (_ & mode & T4 & _). constructor; cbn [k_files k_disk w_unseen]; eauto.
      * intros j i H. destruct (Nat.eq_dec j id) as [->|NE]; [congruence|]. rewrite O in H by auto. eauto.
      * intros j i H. destruct (Nat.eq_dec j id) as [->|NE]; [rewrite I in H; injection H as <-; rewrite P; congruence|]. rewrite O in H by auto. rewrite T2; eauto.
    + destruct SC as (-> & -> & _). constructor; cbn [k_files k_disk w_unseen]; eauto.
    + destruct SC as (-> & oi & bom & TS & ->).
      pose proof (try_save_ok (k_disk c) p (chunks (text_for_save (e_text e) newline ending)) bom oi m t o) as TO. cbv zeta in TO.
      destruct TO as (T2 & _ & T3). destruct (T3 TS) as (T4 & _). constructor; cbn [k_files k_disk w_unseen]; eauto.
      intros j i H D. left. eapply C3; [exact H|]. rewrite <- D. destruct (path_eqb (i_path i) p) eqn:Q; [apply pE in Q; now rewrite Q|].
      symmetry. apply T2; eauto. intros Q2. rewrite Q2, p_refl in Q. discriminate.
  - injection ST as <-. cbn [w_step]. unfold do_close_view. destruct (ed c id) as [e|] eqn:X; cbn [fst]; [|constructor; eauto].
    assert (GI : forall j i, get_info (fm_close (k_files c) id) j = Some i -> inf c j = Some i).
    { intros j i. unfold fm_close. destruct (inf c id) as [i0|] eqn:I; auto. unfold get_info. cbn [file_info]. rewrite (aget_arem Nat.eqb nE). destruct (id =? j); [discriminate|auto]. }
    constructor; cbn [k_files k_disk]; eauto.
  - injection ST as <-. cbn [w_step fst]. constructor; cbn [k_files k_disk w_unseen]; eauto.
    + intros q. unfold set_unseen. destruct (path_eqb q p) eqn:Q; eauto. apply pE in Q. subst. eauto.
    + intros j i I. rewrite put_get. destruct (path_eqb (i_path i) p) eqn:Q; eauto. apply pE in Q. rewrite Q. eauto.
  - cbn [w_step]. unfold handle_open_file_fs_event in ST. destruct (get_editor (k_files c) p) as [id|] eqn:G.
    2:{ injection ST as <-. constructor; cbn [fst w_unseen]; eauto. }
    destruct (check_file (k_files c) (k_disk c) p id) as [fm ch] eqn:CF. destruct (check_cases _ _ _ _ _ _ CF) as (F1 & F2 & F3).
    pose proof (K _ _ G) as PO. apply path_info in PO. destruct PO as (i & I & P). destruct (E _ _ I) as (e & X). rewrite X in ST. cbn [bind] in ST.
    specialize (F3 i I). destruct (FI _ _ I) as (u & U1 & U2 & U3).
    assert (TC : ch = true -> T p).
    { intros ->. rewrite <- P. rewrite <- P in F3. rewrite U1 in F3. unfold get_mod_time in F3. destruct (k_disk c (i_path i)) as [f|] eqn:D; [|eauto]. cbn [opt_eqb] in F3.
      destruct (f_time f =? u) eqn:Q; [eauto|]. apply Nat.eqb_neq in Q. destruct U3 as [U3|[U3|(f' & U3 & U4)]]; [eauto|congruence|].
      injection U3 as <-. destruct (w_unseen w (i_path i)) eqn:UN'; [eauto|]. now destruct U4 as [-> _]. }
    assert (D1 : forall j i0, get_info fm j = Some i0 -> i_changed i0 = true -> T (i_path i0)).
    { intros j i0. rewrite F2. destruct (id =? j) eqn:Q; eauto. rewrite I. intros [= <-]. cbn [i_changed i_path]. rewrite P. auto. }
    assert (D2 : forall j i0, get_info fm j = Some i0 -> k_disk c (i_path i0) = None -> T (i_path i0)).
    { intros j i0. rewrite F2. destruct (id =? j) eqn:Q; eauto. rewrite I. intros [= <-]. cbn [i_path]. eauto. }
    destruct (ch && is_pristine e equivalent).
    + pose proof (open_cases fm (k_disk c) p id None) as OC. destruct (fm_open fm (k_disk c) p id None) as [[[fm' text] [b|]]|]; injection ST as <-;
        constructor; cbn [fst w_unseen k_files k_disk]; eauto.
      * destruct OC as (f & i' & D & -> & I' & P' & CHG & _ & T' & O & G'). intros j i0 H. destruct (Nat.eq_dec j id) as [->|NE]; [congruence|]. rewrite O in H by auto. eauto.
      * destruct OC as (f & i' & D & -> & I' & P' & CHG & _ & T' & O & G'). intros j i0 H. destruct (Nat.eq_dec j id) as [->|NE]; [congruence|]. rewrite O in H by auto. eauto.
      * destruct OC as (-> & _). eauto.
      * destruct OC as (-> & _). eauto.
    + injection ST as <-. constructor; cbn [fst w_unseen k_files k_disk]; eauto.
Qed.
Lemma calm_impl c w (T T' : path -> Prop) : (forall p, T p -> T' p) -> calm c w T -> calm c w T'.
Proof. intros H [A B C]. constructor; eauto. Qed.
Theorem calm_run es : forall c w ms T r, sound c -> fit c w ms -> calm c w T -> careful_all chunks c w es -> run chunks c es = Some r ->
  calm (fst r) (w_run w es) (fun p => T p \/ exists f, In (Other p f) es).
Proof.
  induction es as [|e es IH]; intros c w ms T r S F CL CA R; cbn [run careful_all w_run] in *; [injection R as <-; eapply calm_impl; [|exact CL]; auto|].
  destruct (sound_step c e S) as (q & Q & S1). rewrite Q in *. cbn [bind] in R. destruct CA as [CA1 CA2].
  destruct (run chunks (fst q) es) as [q'|] eqn:R'; [|discriminate]. cbn [bind] in R. injection R as <-. cbn [fst snd].
  eapply calm_impl; [|apply (IH (fst q) _ (ms ++ snd q) (fun p => T p \/ exists f, e = Other p f)); auto].
  - cbn [In]. intros p [[H|[f H]]|[f H]]; eauto.
  - now apply (fit_step c w ms e q).
  - now apply (calm_step c w ms T e q).
Qed.

(** ** What a pristine buffer's file holds *)
Definition shows (c : core) (ms : list output) : Prop := forall id i e, inf c id = Some i -> ed c id = Some e ->
  exists newline ending, known id ms = Some (encoded (i_bom i) (text_for_save (e_saved e) newline ending)).
Lemma no_newline s ending : text_for_save s false ending = s.
Proof. unfold text_for_save. cbn [negb]. now rewrite orb_true_r. Qed.
Theorem shows_step c ms e r : sound c -> shows c ms -> present c e -> step chunks c e = Some r -> shows (fst r) (ms ++ snd r).
Proof.
  intros S F CA ST. pose proof S as [K E N C].
  assert (NI : inf c (k_next c) = None).
  { destruct (inf c (k_next c)) as [i|] eqn:I; auto. destruct (E _ _ I) as (x & X). rewrite N in X by auto. discriminate. }
  destruct e; cbn [step] in ST; cbn [present] in CA.
  - injection ST as <-. unfold do_new_view. pose proof (open_cases (k_files c) (k_disk c) p (k_next c) x) as OC.
    destruct (fm_open (k_files c) (k_disk c) p (k_next c) x) as [[[fm' text] [b|]]|]; cbn [fst snd]; intros j i e; cbn [k_files k_editors].
    + destruct OC as (f & i' & D & -> & I & P & CHG & BE & T & O & G). intros H X. editor_at (k_next c) j X.
      * rewrite I in H. injection H as <-. injection X as <-. exists false, []. rewrite no_newline, known_loaded. cbn [e_saved fresh]. now rewrite BE.
      * apply Nat.eqb_neq in Q. rewrite O in H by auto. rewrite known_other by auto. eauto.
    + destruct OC as (-> & -> & D). intros H X. editor_at (k_next c) j X; [congruence|]. rewrite app_nil_r. eauto.
    + intros H X. rewrite known_other by auto. eauto.
  - injection ST as <-. cbn [do_new_view fst snd]. rewrite app_nil_r. intros j i e; cbn [k_files k_editors]. intros H X. editor_at (k_next c) j X; [congruence|eauto].
  - injection ST as <-. cbn [fst snd]. rewrite app_nil_r. destruct (ed c id) as [e0|] eqn:X0; auto. intros j i e; cbn [k_files k_editors]. intros H X.
    editor_at id j X; [|eauto]. injection X as <-. cbn [e_saved]. eauto.
  - injection ST as <-. unfold do_save. destruct (ed c id) as [e|] eqn:X; cbn [fst snd]; [|rewrite app_nil_r; auto].
    pose proof (save_cases (k_files c) (k_disk c) p (chunks (text_for_save (e_text e) newline ending)) id m t o x) as SC.
    destruct (fm_save _ _ _ _ _ _ _ _ _) as [[fm' d'] [| |]]; cbn [fst snd]; intros j i e0; cbn [k_files k_editors].
    + destruct SC as (i' & I & P & CHG & BM & T & O & G & _). intros H Y. editor_at id j Y.
      * rewrite I in H. injection H as <-. injection Y as <-. exists newline, ending. rewrite known_wrote, BM. reflexivity.
      * apply Nat.eqb_neq in Q. rewrite O in H by auto. rewrite known_other by auto. eauto.
    + destruct SC as (-> & _). intros H Y. rewrite known_other by auto. eauto.
    + destruct SC as (-> & _). intros H Y. rewrite known_other by auto. eauto.
  - injection ST as <-. unfold do_close_view. destruct (ed c id) as [e|] eqn:X; cbn [fst snd]; rewrite app_nil_r; auto.
    intros j i e0; cbn [k_files k_editors]. rewrite (aget_arem Nat.eqb nE). unfold fm_close. destruct (inf c id) as [i0|] eqn:I.
    + unfold get_info. cbn [file_info]. rewrite (aget_arem Nat.eqb nE). destruct (id =? j); [discriminate|]. apply F.
    + destruct (id =? j); [discriminate|apply F].
  - injection ST as <-. cbn [fst snd]. rewrite app_nil_r. exact F.
  - unfold handle_open_file_fs_event in ST. destruct (get_editor (k_files c) p) as [id|] eqn:G; [|injection ST as <-; cbn [fst snd]; now rewrite app_nil_r].
    destruct (check_file (k_files c) (k_disk c) p id) as [fm ch] eqn:CF. destruct (check_cases _ _ _ _ _ _ CF) as (F1 & F2 & F3).
    pose proof (K _ _ G) as PO. apply path_info in PO. destruct PO as (i & I & P). destruct (E _ _ I) as (e & X). rewrite X in ST. cbn [bind] in ST.
    assert (S1 : forall ms', (forall j, known j ms' = known j ms) -> shows {| k_disk := k_disk c; k_files := fm; k_editors := k_editors c; k_next := k_next c |} ms').
    { intros ms' KN j i0 e0. cbn [k_files k_editors]. rewrite F2, KN. destruct (id =? j) eqn:Q; [|apply F]. apply Nat.eqb_eq in Q. subst j. rewrite I. intros [= <-] H. cbn [i_bom]. eauto. }
    destruct (ch && is_pristine e equivalent).
    + pose proof (open_cases fm (k_disk c) p id None) as OC. destruct (fm_open fm (k_disk c) p id None) as [[[fm' text] [b|]]|]; injection ST as <-; cbn [fst snd].
      * destruct OC as (f & i' & D & -> & I' & P' & CHG & BE & T & O & G'). intros j i0 e0; cbn [k_files k_editors]. intros H Y. editor_at id j Y.
        -- rewrite I' in H. injection H as <-. injection Y as <-. exists false, []. rewrite no_newline, known_loaded. cbn [e_saved fresh]. now rewrite BE.
        -- apply Nat.eqb_neq in Q. rewrite O, F2, (e_neq Nat.eqb nE) in H by auto. rewrite known_other by auto. eauto.
      * destruct OC as (_ & _ & D). congruence.
      * apply S1. intros j. now apply known_other.
    + injection ST as <-. cbn [fst snd]. rewrite app_nil_r. auto.
Qed.
Theorem shows_run es : forall c ms r, sound c -> shows c ms -> present_all chunks c es -> run chunks c es = Some r -> shows (fst r) (ms ++ snd r).
Proof.
  induction es as [|e es IH]; intros c ms r S F CA R; cbn [run present_all] in *; [injection R as <-; cbn [fst snd]; now rewrite app_nil_r|].
  destruct (sound_step c e S) as (q & Q & S1). rewrite Q in *. cbn [bind] in R. destruct CA as [CA1 CA2].
  destruct (run chunks (fst q) es) as [q'|] eqn:R'; [|discriminate]. cbn [bind] in R. injection R as <-. cbn [fst snd]. rewrite app_assoc. apply (IH (fst q)); auto. now apply (shows_step c ms e q).
Qed.
End Run.
