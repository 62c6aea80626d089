(** C60: a save is all or nothing, what is saved is what is opened again, and nobody's changes
    are lost. *)
From Coq Require Import List Arith Lia Bool ZifyBool.
From Verif Require Import Base ListLib RopeModel RopeSpec RopeProofs FindModel FindProofs ConfigModel ConfigProofs FileModel FileSpec FileProofs FileRun FileRope.
Import ListNotations.
Local Notation concat := List.concat.

(** ** Crashes *)
(** Wherever a save is cut off, in the middle of a write too, the file is as before or holds
    all of the new bytes, and no file changes but this one and the one with [.swp] added to its
    name. *)
Theorem C60_atomic d p chunks bom i m t n k : let d' := exec_upto d (all_steps p chunks bom i m t) n k in
  (d' p = d p \/ exists f, d' p = Some f /\ f_bytes f = encoded bom (concat chunks))
  /\ (forall q, q <> p -> q <> swap p -> d' q = d q).
Proof.
  cbv zeta. rewrite <- tmp_is. unfold all_steps, exec_upto. set (A := save_steps p chunks bom m t).
  destruct (Nat.lt_ge_cases n (length A)) as [L|L].
  - rewrite firstn_app. replace (n - length A) with 0 by lia. cbn [firstn]. rewrite app_nil_r, nth_error_app1 by auto.
    assert (G : forall q, q <> tmp_path p -> exec_upto d A n k q = d q) by (intros q; now apply steps_part).
    split; [left|intros q _]; apply G; auto. apply not_eq_sym, tmp_differs.
  - rewrite firstn_app, (firstn_all2 A) by auto. rewrite nth_error_app2 by auto.
    set (B := firstn (n - length A) (last_step p i) ++ match nth_error (last_step p i) (n - length A) with Some o => part k o | None => [] end).
    assert (HB : B = [] \/ exists m', B = [Chmod p m']).
    { unfold B. destruct i as [i|]; cbn [last_step]; [|left; now destruct (n - length A)]. destruct (n - length A) as [|x]; [now left|right]. eexists. now destruct x. }
    replace ((A ++ firstn (n - length A) (last_step p i)) ++ _) with (A ++ B) by (unfold B; now rewrite app_assoc).
    rewrite exec_all_app. set (d1 := exec_all d A).
    assert (D : forall q, d1 q = if path_eqb q p then Some {| f_bytes := encoded bom (concat chunks); f_time := t; f_mode := new_mode d (tmp_path p) m |}
                                 else if path_eqb q (tmp_path p) then None else d q) by (intros q; apply steps_done).
    assert (DP : exists f, d1 p = Some f /\ f_bytes f = encoded bom (concat chunks)) by (rewrite D, p_refl; eauto).
    assert (DQ : forall q, q <> p -> q <> tmp_path p -> d1 q = d q) by (intros q N1 N2; now rewrite D, !p_neq).
    destruct HB as [-> | (m' & ->)]; cbn [exec_all exec]; [split; auto|]. destruct DP as (f & F & FB). rewrite F.
    split; [right; eexists; rewrite put_get, p_refl; split; [reflexivity|exact FB]|]. intros q N1 N2. rewrite put_get, p_neq; auto.
Qed.
Print Assumptions C60_atomic.

Section Thms.
(** The text of a rope comes in pieces. *)
Context (chunks : str -> list str) (CH : forall s, concat (chunks s) = s).
Notation ed c := (aget Nat.eqb (k_editors c)).
Notation inf c := (get_info (k_files c)).

Lemma text_ed c id : text_of c id = match ed c id with Some e => Some (e_text e) | None => None end.
Proof. unfold text_of. induction (k_editors c) as [|[j e] l IH]; cbn [List.find aget fst]; auto. destruct (j =? id); auto. Qed.
Lemma reached d es c ms : run chunks (start d) es = Some (c, ms) -> sound c.
Proof. intros R. destruct (sound_run chunks es (start d) (sound_start d)) as (r & Q & S). rewrite R in Q. injection Q as <-. exact S. Qed.

(** Nothing panics. *)
Theorem C60_no_panic d es : run chunks (start d) es <> None.
Proof. destruct (sound_run chunks es (start d) (sound_start d)) as (r & -> & _). discriminate. Qed.

(** ** Saves *)
(** After any events, the save of a buffer ends in one of three ways. It is written: the file has
    the text, with the final line ending if that is asked for, no other file changes, and the
    file with [.swp] added is gone. It fails: no file but that one changes, nor do the
    buffers. Or it is refused: nothing changes. *)
Theorem C60_save d es c ms id p newline ending m t o s : run chunks (start d) es = Some (c, ms) -> text_of c id = Some s ->
  exists c' out, step chunks c (Save id p newline ending m t o None) = Some (c', out) /\
  (forall j, text_of c' j = text_of c j) /\ (forall j, j <> id -> path_of c' j = path_of c j) /\
  ((exists bom r f, finished s newline ending r /\ out = [Wrote id (encoded bom r)] /\ (bom = true -> path_of c id = Some p)
      /\ path_of c' id = Some p
      /\ k_disk c' p = Some f /\ f_bytes f = encoded bom r /\ f_time f = t /\ k_disk c' (swap p) = None
      /\ forall q, q <> p -> q <> swap p -> k_disk c' q = k_disk c q)
   \/ (out = [Broken id] /\ (exists n k, o = Stops n k) /\ path_of c' id = path_of c id /\ k_editors c' = k_editors c
       /\ forall q, q <> swap p -> k_disk c' q = k_disk c q)
   \/ (out = [Refused id] /\ path_of c id = Some p /\ c' = c)).
Proof.
  intros R TX. rewrite text_ed in TX. destruct (ed c id) as [e|] eqn:X; [|discriminate]. injection TX as <-. cbn [step]. unfold do_save. rewrite X.
  pose proof (save_cases (k_files c) (k_disk c) p (chunks (text_for_save (e_text e) newline ending)) id m t o None) as SC.
  destruct (fm_save _ _ _ _ _ _ _ _ _) as [[fm' d'] [| |]]; (do 2 eexists; split; [reflexivity|]).
  - destruct SC as (i' & I & P & CHG & BM & T & O & G & oi & bom & -> & TS & -> & _). cbn [meanwhile] in *.
    pose proof (try_save_ok (k_disk c) p (chunks (text_for_save (e_text e) newline ending)) (i_bom i') oi m t o) as TO. cbv zeta in TO.
    destruct TO as (T1 & T2 & _). destruct (T2 TS) as (T3 & mode & T4 & _). rewrite CH in T4. rewrite <- BM.
    split; [|split].
    + intros j. rewrite !text_ed. cbn [k_editors]. rewrite (aget_aset Nat.eqb nE). destruct (id =? j) eqn:Q; auto. apply Nat.eqb_eq in Q. subst j. now rewrite X.
    + intros j N. unfold path_of. cbn [k_files]. now rewrite O.
    + left. exists (i_bom i'), (text_for_save (e_text e) newline ending). eexists. split; [apply finished_ok|]. split; [reflexivity|]. split.
      { intros B. rewrite BM in B. unfold path_of. destruct (inf c id) as [i|]; [|discriminate]. apply andb_prop in B. destruct B as [B _]. apply pE in B. now rewrite B. }
      split; [unfold path_of; cbn [k_files]; now rewrite I, P|]. cbn [k_disk]. split; [exact T4|]. split; [reflexivity|]. split; [reflexivity|].
      rewrite <- tmp_is. split; [now apply T3|exact T1].
  - destruct SC as (-> & -> & i0 & I0 & P0 & C0). split; [auto|]. split; [auto|]. right. right. split; auto. split; [unfold path_of; now rewrite I0, P0|]. destruct c; reflexivity.
  - destruct SC as (-> & oi & bom & TS & ->). split; [auto|]. split; [auto|]. right. left. split; auto. split.
    { destruct o as [b|n k]; [discriminate|eauto]. }
    split; [auto|]. split; [auto|]. cbn [k_disk]. rewrite <- tmp_is.
    pose proof (try_save_ok (k_disk c) p (chunks (text_for_save (e_text e) newline ending)) bom oi m t o) as TO. cbv zeta in TO.
    destruct TO as (T1 & _ & T3). destruct (T3 TS) as (T4 & _). intros q N. destruct (path_eqb q p) eqn:Q; [apply pE in Q; now subst|]. apply T1; auto. intros ->. now rewrite p_refl in Q.
Qed.

(** ** There and back *)
(** A file that is opened has its text shown, unless it is no text; saved again, edited or not,
    it has the bytes of the text it now has, with its byte order mark if it had one, and the
    permissions it had. *)
Theorem C60_round_trip d es c ms p f edit newline ending m t : run chunks (start d) es = Some (c, ms) -> k_disk c p = Some f -> utf8 (f_bytes f) ->
  exists c1 id s bom, step chunks c (Open p None) = Some (c1, [Loaded id (f_bytes f)]) /\ text_of c id = None /\ text_of c1 id = Some s
    /\ f_bytes f = encoded bom s /\ (bom = false -> ~ exists u, s = [239; 187; 191] ++ u)
    /\ k_disk c1 = k_disk c /\ (forall j, j <> id -> text_of c1 j = text_of c j)
    /\ exists c2 ms2, run chunks c1 [Edit id edit; Save id p newline ending m t (Through true) None] = Some (c2, ms2)
       /\ exists r, finished edit newline ending r
       /\ k_disk c2 p = Some {| f_bytes := encoded bom r; f_time := t; f_mode := f_mode f |}.
Proof.
  intros R D U. assert (TD : exists s, try_decode (f_bytes f) (guess (f_bytes f)) = Some s).
  { unfold try_decode. apply utf8b_ok in U. rewrite U. eauto. }
  destruct TD as (s & TD). pose proof (decode_ok _ _ TD) as (EN & US).
  pose proof (reached _ _ _ _ R) as [_ _ N _].
  cbn [step]. unfold do_new_view, fm_open, try_load_file. cbv zeta. rewrite D, TD. cbn [bind fst snd meanwhile].
  unfold get_mod_time, get_permissions. rewrite D. do 4 eexists. split; [reflexivity|].
  assert (NT : text_of c (k_next c) = None) by (rewrite text_ed, N; auto).
  split; [exact NT|]. split; [rewrite text_ed; cbn [k_editors]; rewrite (aget_aset Nat.eqb nE), Nat.eqb_refl; reflexivity|]. cbn [fresh e_text].
  split; [exact EN|]. split.
  { intros G (u & ->). rewrite G in EN. unfold guess in G. assert (Y : starts_with (f_bytes f) BOM = true) by (apply starts_ok; exists u; exact EN). congruence. }
  split; [reflexivity|]. split.
  { intros j NE. rewrite !text_ed. cbn [k_editors]. rewrite (aget_aset Nat.eqb nE), (e_neq Nat.eqb nE); auto. }
  cbn [run step bind fst snd]. cbn [k_editors]. rewrite (aget_aset Nat.eqb nE), Nat.eqb_refl. cbn [k_disk k_files k_next].
  unfold do_save. cbn [k_editors k_files k_disk]. rewrite (aget_aset Nat.eqb nE), Nat.eqb_refl. cbn [e_text].
  unfold fm_save, get_info. cbn [file_info open_files]. rewrite (aget_aset Nat.eqb nE), Nat.eqb_refl. cbn [i_path i_changed i_bom]. rewrite p_refl. cbn [negb try_save snd fst].
  do 2 eexists. split; [reflexivity|]. exists (text_for_save edit newline ending). split; [apply finished_ok|]. cbn [fst k_disk meanwhile].
  rewrite exec_all_app. erewrite last_done by (rewrite steps_done, p_refl; reflexivity). cbn [f_bytes f_time last_mode i_mode]. now rewrite CH.
Qed.
(** Not edited and not given a line ending, it has the bytes it had. *)
Theorem C60_unedited d es c ms p f ending m t : run chunks (start d) es = Some (c, ms) -> k_disk c p = Some f -> utf8 (f_bytes f) ->
  exists c1 id c2, step chunks c (Open p None) = Some (c1, [Loaded id (f_bytes f)])
    /\ step chunks c1 (Save id p false ending m t (Through true) None) = Some (c2, [Wrote id (f_bytes f)])
    /\ k_disk c2 p = Some {| f_bytes := f_bytes f; f_time := t; f_mode := f_mode f |}.
Proof.
  intros R D U. assert (TD : exists s, try_decode (f_bytes f) (guess (f_bytes f)) = Some s).
  { unfold try_decode. apply utf8b_ok in U. rewrite U. eauto. }
  destruct TD as (s & TD). pose proof (decode_ok _ _ TD) as (EN & US).
  cbn [step]. unfold do_new_view, fm_open, try_load_file. cbv zeta. rewrite D, TD. cbn [bind fst snd meanwhile].
  unfold get_mod_time, get_permissions. rewrite D. do 3 eexists. split; [reflexivity|].
  unfold do_save. cbn [k_editors k_files k_disk]. rewrite (aget_aset Nat.eqb nE), Nat.eqb_refl. cbn [e_text fresh]. rewrite no_newline.
  unfold fm_save, get_info. cbn [file_info open_files]. rewrite (aget_aset Nat.eqb nE), Nat.eqb_refl. cbn [i_path i_changed i_bom]. rewrite p_refl. cbn [negb try_save snd fst andb].
  change ((if guess (f_bytes f) then BOM else []) ++ s) with (encoded (guess (f_bytes f)) s). rewrite <- EN. split; [reflexivity|]. cbn [fst k_disk meanwhile].
  rewrite exec_all_app. erewrite last_done by (rewrite steps_done, p_refl; reflexivity). cbn [f_bytes f_time last_mode i_mode]. now rewrite CH, <- EN.
Qed.
(** A buffer that is saved and opened again has its text, unless it begins with a byte order mark
    and the file has none. *)
Theorem C60_reopened_partial d es c ms id p newline ending m t o s c' b : run chunks (start d) es = Some (c, ms) -> text_of c id = Some s -> utf8 s -> utf8 ending ->
  step chunks c (Save id p newline ending m t o None) = Some (c', [Wrote id b]) ->
  exists bom r, b = encoded bom r /\ finished s newline ending r /\
  (bom = true \/ ~ (exists u, r = [239; 187; 191] ++ u) ->
   exists c1 j, step chunks c' (Open p None) = Some (c1, [Loaded j b]) /\ text_of c1 j = Some r).
Proof.
  intros R TX US UE ST. destruct (C60_save d es c ms id p newline ending m t o s R TX) as (c0 & out & ST' & _ & _ & H). rewrite ST in ST'. injection ST' as <- <-.
  destruct H as [(bom & r & f & FI & E & _ & _ & D & FB & _)|[(E & _)|(E & _)]]; try discriminate. injection E as ->.
  exists bom, r. split; auto. split; auto. intros HB.
  assert (UR : utf8 r). { destruct FI as [[-> _]|[-> _]]; auto. now apply utf8_plus. }
  destruct (decode_encoded bom r UR HB) as (DE & _). cbn [step]. unfold do_new_view, fm_open, try_load_file. cbv zeta. rewrite D, FB, DE. cbn [bind fst snd].
  do 2 eexists. split; [reflexivity|]. rewrite text_ed. cbn [k_editors]. rewrite (aget_aset Nat.eqb nE), Nat.eqb_refl. reflexivity.
Qed.

(** ** Nobody's changes are lost *)
(** With care, a buffer that is written to the file it belongs to replaces only bytes that the
    buffer has read or written itself. *)
Theorem C60_no_lost_update_partial d es c ms id p newline ending m t o f c' b :
  careful_all chunks (start d) (w_start d) es -> run chunks (start d) es = Some (c, ms) ->
  path_of c id = Some p -> k_disk c p = Some f ->
  careful c (w_run (w_start d) es) (Save id p newline ending m t o None) ->
  step chunks c (Save id p newline ending m t o None) = Some (c', [Wrote id b]) ->
  known id ms = Some (f_bytes f).
Proof.
  intros CA R P D CS ST. pose proof (fit_run chunks CH es _ _ _ _ (sound_start d) (fit_start d) CA R) as F. cbn [fst snd app] in F.
  apply path_info in P. destruct P as (i & I & P). destruct (fi_info _ _ _ F _ _ I) as (u & U1 & U2 & U3). rewrite P in U3.
  destruct CS as (_ & _ & _ & CU). rewrite CU in U3 by (unfold path_of; now rewrite I, P).
  destruct U3 as [U3|[U3|(f' & U3 & _ & U4)]]; [|congruence|congruence].
  exfalso. cbn [step] in ST. unfold do_save in ST. destruct (ed c id); [|discriminate]. unfold fm_save in ST. rewrite I, P, p_refl, U3 in ST. cbn [negb] in ST. discriminate.
Qed.
(** With care, a save is refused only if others have changed the file. *)
Theorem C60_not_refused d es c ms id p newline ending m t o c' :
  careful_all chunks (start d) (w_start d) es -> run chunks (start d) es = Some (c, ms) ->
  step chunks c (Save id p newline ending m t o None) = Some (c', [Refused id]) ->
  exists f, In (Other p f) es.
Proof.
  intros CA R ST.
  assert (CL : calm (start d) (w_start d) (fun _ => False)) by (constructor; cbn; intros; discriminate).
  pose proof (calm_run chunks CH es _ _ _ _ _ (sound_start d) (fit_start d) CL CA R) as [_ C2 _]. cbn [fst] in C2.
  cbn [step] in ST. unfold do_save in ST. destruct (ed c id) as [e|] eqn:X; [|discriminate].
  pose proof (save_cases (k_files c) (k_disk c) p (chunks (text_for_save (e_text e) newline ending)) id m t o None) as SC.
  destruct (fm_save _ _ _ _ _ _ _ _ _) as [[fm' d'] [| |]]; try discriminate. destruct SC as (_ & _ & i & I & P & CHG).
  destruct (C2 _ _ I CHG) as [[]|H]. now rewrite <- P.
Qed.
(** With care, when the editor is told that others have changed the file of a buffer, it shows
    the new text if nothing was typed since the file was last read or written; if
    something was, the text stays, and the buffer is not written to this file any more. *)
Theorem C60_told_partial d es c ms id e p f equivalent :
  careful_all chunks (start d) (w_start d) es -> run chunks (start d) es = Some (c, ms) ->
  path_of c id = Some p -> k_disk c p = Some f -> w_unseen (w_run (w_start d) es) p = true -> ed c id = Some e ->
  exists c' out, step chunks c (Notified p equivalent) = Some (c', out) /\ k_disk c' = k_disk c /\
    (forall j, j <> id -> text_of c' j = text_of c j) /\
    if is_pristine e equivalent
    then (utf8 (f_bytes f) /\ out = [Loaded id (f_bytes f)] /\ exists bom s, f_bytes f = encoded bom s /\ text_of c' id = Some s)
         \/ (~ utf8 (f_bytes f) /\ out = [NotText] /\ text_of c' id = text_of c id)
    else out = [] /\ text_of c' id = text_of c id /\
         forall newline ending m t o x, step chunks c' (Save id p newline ending m t o x) = Some (c', [Refused id]).
Proof.
  intros CA R P D W X. pose proof (fit_run chunks CH es _ _ _ _ (sound_start d) (fit_start d) CA R) as F. cbn [fst snd app] in F.
  pose proof (fi_key _ _ _ F _ _ P) as G. apply path_info in P. destruct P as (i & I & P). destruct (fi_info _ _ _ F _ _ I) as (u & U1 & U2 & U3).
  rewrite P, W in U3. cbn [step]. unfold handle_open_file_fs_event. rewrite G. destruct (check_file (k_files c) (k_disk c) p id) as [fm ch] eqn:CF.
  destruct (check_cases _ _ _ _ _ _ CF) as (F1 & F2 & F3). rewrite X. cbn [bind].
  assert (CHT : ch = true).
  { rewrite (F3 i I), U1. unfold get_mod_time. rewrite D. cbn [opt_eqb]. destruct (f_time f =? u) eqn:Q; auto. apply Nat.eqb_eq in Q.
    destruct U3 as [U3|[U3|(f' & U3 & U4)]]; congruence. }
  rewrite CHT in *. cbn [andb]. destruct (is_pristine e equivalent).
  - pose proof (open_cases fm (k_disk c) p id None) as OC. destruct (fm_open fm (k_disk c) p id None) as [[[fm' text] [b|]]|] eqn:FO; (do 2 eexists; split; [reflexivity|]).
    + destruct OC as (f' & i' & D' & -> & I' & P' & CHG & BE & _). rewrite D in D'. injection D' as <-. split; [reflexivity|]. split.
      { intros j NE. rewrite !text_ed. cbn [k_editors]. rewrite (aget_aset Nat.eqb nE), (e_neq Nat.eqb nE); auto. }
      left. split; [|split; [reflexivity|]].
      * unfold fm_open in FO. rewrite D in FO. unfold try_load_file, try_decode in FO. destruct (utf8b (f_bytes f)) eqn:UB; [now apply utf8b_ok|discriminate].
      * do 2 eexists. split; [exact BE|]. rewrite text_ed. cbn [k_editors]. rewrite (aget_aset Nat.eqb nE), Nat.eqb_refl. reflexivity.
    + destruct OC as (_ & _ & OC). congruence.
    + destruct OC as (f' & D' & NU). rewrite D in D'. injection D' as <-. split; [reflexivity|]. split; [reflexivity|]. right. auto.
  - do 2 eexists. split; [reflexivity|]. split; [reflexivity|]. split; [reflexivity|]. split; [reflexivity|]. split; [reflexivity|].
    intros newline ending m t o x. cbn [step]. unfold do_save. cbn [k_editors k_files k_disk k_next]. rewrite X. unfold fm_save. rewrite F2, Nat.eqb_refl, I. cbn [i_path i_changed]. rewrite P, p_refl. reflexivity.
Qed.
(** Being told of a change alters no file, and the text of no buffer but one that belongs to the
    file and in which nothing was typed since. *)
Theorem C60_told d es c ms p equivalent : run chunks (start d) es = Some (c, ms) ->
  exists c' out, step chunks c (Notified p equivalent) = Some (c', out) /\ k_disk c' = k_disk c /\
  forall id, text_of c' id = text_of c id \/ (path_of c id = Some p /\ exists e, ed c id = Some e /\ is_pristine e equivalent = true).
Proof.
  intros R. pose proof (reached _ _ _ _ R) as S. pose proof S as [K E N C]. cbn [step]. unfold handle_open_file_fs_event.
  destruct (get_editor (k_files c) p) as [id|] eqn:G; [|eauto 8]. destruct (check_file (k_files c) (k_disk c) p id) as [fm ch].
  pose proof (K _ _ G) as PO. pose proof PO as PO'. apply path_info in PO. destruct PO as (i & I & P). destruct (E _ _ I) as (e & X). rewrite X. cbn [bind].
  destruct (ch && is_pristine e equivalent) eqn:RL; [|do 2 eexists; split; [reflexivity|]; split; [reflexivity|]; auto].
  apply andb_true_iff in RL. destruct RL as [_ PR].
  destruct (fm_open fm (k_disk c) p id None) as [[[fm' text] b]|]; (do 2 eexists; split; [reflexivity|]; split; [reflexivity|]); auto.
  intros j. rewrite !text_ed. cbn [k_editors]. rewrite (aget_aset Nat.eqb nE). destruct (id =? j) eqn:Q; auto. apply Nat.eqb_eq in Q. subst j. right. split; auto. exists e. auto.
Qed.
(** A buffer that belongs to a file and in which nothing was typed since holds what it last read or
    wrote, as long as no file was gone when the editor was told of its change; with care, that is what
    the file holds, unless others have changed it. *)
Theorem C60_pristine_partial d es c ms id p e equivalent : present_all chunks (start d) es -> run chunks (start d) es = Some (c, ms) ->
  path_of c id = Some p -> ed c id = Some e -> is_pristine e equivalent = true ->
  exists s bom r newline ending, text_of c id = Some s /\ finished s newline ending r /\ known id ms = Some (encoded bom r) /\
  (careful_all chunks (start d) (w_start d) es -> (forall f, ~ In (Other p f) es) -> exists f, k_disk c p = Some f /\ f_bytes f = encoded bom r).
Proof.
  intros PA R P X PR. assert (SH : shows (start d) []) by (intros j i e0; cbn; discriminate).
  pose proof (shows_run chunks es _ _ _ (sound_start d) SH PA R) as H. cbn [fst snd app] in H. pose proof P as P'. apply path_info in P. destruct P as (i & I & P).
  destruct (H _ _ _ I X) as (newline & ending & KN). pose proof (reached _ _ _ _ R) as S.
  assert (TS : e_text e = e_saved e).
  { unfold is_pristine in PR. apply orb_prop in PR. destruct PR as [PR|PR]; [now apply (so_clean _ S id e)|]. apply andb_prop in PR. destruct PR as [_ PR]. now apply bytes_eqb_ok in PR. }
  exists (e_text e), (i_bom i), (text_for_save (e_saved e) newline ending), newline, ending. split; [now rewrite text_ed, X|]. split; [rewrite TS; apply finished_ok|]. split; [exact KN|].
  intros CA NO. pose proof (fit_run chunks CH es _ _ _ _ (sound_start d) (fit_start d) CA R) as F. cbn [fst snd app] in F.
  assert (CL : calm (start d) (w_start d) (fun _ => False)) by (constructor; cbn; intros; discriminate).
  pose proof (calm_run chunks CH es _ _ _ _ _ (sound_start d) (fit_start d) CL CA R) as [C1 C2 C3]. cbn [fst] in *.
  destruct (fi_info _ _ _ F _ _ I) as (u & U1 & U2 & U3). rewrite P in U3.
  assert (NT : ~ (False \/ exists f, In (Other p f) es)) by (intros [[]|(f & Y)]; now apply (NO f)).
  destruct U3 as [U3|[U3|(f & U3 & U4)]].
  - exfalso. apply NT. rewrite <- P. now apply (C2 id i).
  - exfalso. apply NT. rewrite <- P. apply (C3 id i); auto. now rewrite P.
  - exists f. split; auto. destruct (w_unseen (w_run (w_start d) es) p) eqn:W; [exfalso; now apply NT, C1|]. destruct U4 as [_ U4]. congruence.
Qed.
End Thms.
Print Assumptions C60_no_panic.
Print Assumptions C60_save.
Print Assumptions C60_round_trip.
Print Assumptions C60_unedited.
Print Assumptions C60_reopened_partial.
Print Assumptions C60_no_lost_update_partial.
Print Assumptions C60_not_refused.
Print Assumptions C60_told_partial.
Print Assumptions C60_told.
Print Assumptions C60_pristine_partial.

(** On the rope: the final line ending is added if and only if the text does not end with it,
    although only the last piece of the rope is looked at. *)
Theorem C60_final_newline h r newline ending : rope_wf h r -> utf8 ending -> length ending <= MIN_LEAF ->
  exists r' h', text_for_save_rope r newline ending = Some r' /\ rope_wf h' r' /\ finished (rcontent r) newline ending (rcontent r').
Proof. intros W U L. destruct (save_rope_ok h r newline ending W U L) as (r' & h' & E & W' & C). exists r', h'. split; auto. split; auto. rewrite C. apply finished_ok. Qed.
Print Assumptions C60_final_newline.

(** ** Cases *)
Definition ch1 (s : str) : list str := [s].
Lemma ch1_ok s : concat (ch1 s) = s. Proof. apply app_nil_r. Qed.
Definition A : path := Path [47] [97].
Definition B : path := Path [47] [98; 46; 114; 115].
Definition F (s : str) (t m : nat) : file := {| f_bytes := s; f_time := t; f_mode := m |}.
(** [/a] is there. *)
Definition D1 : disk := fun q => if path_eqb q A then Some (F [239; 187; 191; 120; 10] 5 384) else None.
Definition ok : outcome := Through true.
(** What is seen of a history: the texts of two buffers, the bytes of some files, and the messages. *)
Definition seen (d : disk) (es : list event) : option (option str * option str * list (option file) * list output) :=
  let? r := run ch1 (start d) es in Some (text_of (fst r) 1, text_of (fst r) 2, map (k_disk (fst r)) [A; swap A; B], snd r).

(** A byte order mark and the permissions are kept, a line ending is added; the file is changed by
    others, and read again; it is changed again after something is typed, and the save is refused,
    but can be made elsewhere. *)
Definition H1 : list event := [Open A None; Edit 1 [120; 121]; Save 1 A true [10] 420 6 (Stops 2 1) None; Save 1 A true [10] 420 6 ok None;
  Other A (Some (F [122] 7 420)); Notified A false; Edit 1 [122; 122]; Other A (Some (F [119] 8 420))].
Example C60_case :
  seen D1 (firstn 3 H1) = Some (Some [120; 121], None, [Some (F [239; 187; 191; 120; 10] 5 384); Some (F [239; 187; 191; 120] 6 420); None],
                                [Loaded 1 [239; 187; 191; 120; 10]; Broken 1])
  /\ seen D1 (firstn 4 H1) = Some (Some [120; 121], None, [Some (F [239; 187; 191; 120; 121; 10] 6 384); None; None],
                                [Loaded 1 [239; 187; 191; 120; 10]; Broken 1; Wrote 1 [239; 187; 191; 120; 121; 10]])
  /\ seen D1 (H1 ++ [Notified A false; Save 1 A false [10] 420 9 ok None; Save 1 B false [10] 420 9 ok None])
     = Some (Some [122; 122], None, [Some (F [119] 8 420); None; Some (F [122; 122] 9 420)],
             [Loaded 1 [239; 187; 191; 120; 10]; Broken 1; Wrote 1 [239; 187; 191; 120; 121; 10]; Loaded 1 [122]; Refused 1; Wrote 1 [122; 122]]).
Proof. vm_compute. auto. Qed.

(** Care, decided. *)
Definition free (c : core) (p : path) (but : option nat) : bool :=
  forallb (fun x => negb (path_eqb (i_path (snd x)) p) || match but with Some id => fst x =? id | None => false end) (file_info (k_files c)).
Lemma free_ok c p but : free c p but = true -> forall j, but <> Some j -> path_of c j <> Some p.
Proof.
  unfold free, path_of, get_info. induction (file_info (k_files c)) as [|[k i] l IH]; cbn [forallb aget fst snd]; intros H j N; [discriminate|].
  apply andb_prop in H. destruct H as [H1 H2]. destruct (k =? j) eqn:Q; [|now apply IH]. intros [= E]. rewrite E, p_refl in H1. cbn [negb orb] in H1.
  destruct but as [id|]; [|discriminate]. apply Nat.eqb_eq in Q, H1. subst. now apply N.
Qed.
Definition careful_b (c : core) (w : world) (e : event) : bool :=
  match e with
  | Open p None => free c p None
  | Open _ _ => false
  | Save id p _ _ _ _ _ None => free c p (Some id) && free c (tmp_path p) None && negb (w_unseen w p)
  | Save _ _ _ _ _ _ _ _ => false
  | Other p (Some f) => negb (existsb (Nat.eqb (f_time f)) (w_times w p))
  | _ => true
  end.
Lemma careful_b_ok c w e : careful_b c w e = true -> careful c w e.
Proof.
  destruct e as [p [x|]| | |id p nl en m t o [x|]| |p [f|]|]; cbn [careful_b careful]; try discriminate; auto.
  - intros H. split; auto. intros j. apply (free_ok c p None H). discriminate.
  - intros H. apply andb_prop in H. destruct H as [H H3]. apply andb_prop in H. destruct H as [H1 H2]. split; auto. split; [|split].
    + intros j N. apply (free_ok c p (Some id) H1). congruence.
    + intros j. apply (free_ok c (tmp_path p) None H2). discriminate.
    + intros _. now apply negb_true_iff in H3.
  - intros H I. apply negb_true_iff in H. rewrite <- not_true_iff_false in H. apply H. apply existsb_exists. exists (f_time f). split; auto. apply Nat.eqb_refl.
Qed.
Fixpoint careful_all_b (c : core) (w : world) (es : list event) : bool :=
  match es with
  | [] => true
  | e :: es' => careful_b c w e && match step ch1 c e with Some r => careful_all_b (fst r) (w_step w e) es' | None => true end
  end.
Lemma careful_all_b_ok es : forall c w, careful_all_b c w es = true -> careful_all ch1 c w es.
Proof.
  induction es as [|e es IH]; intros c w H; cbn [careful_all careful_all_b] in *; auto. apply andb_prop in H. destruct H as [H1 H2]. split; [now apply careful_b_ok|].
  destruct (step ch1 c e); auto.
Qed.
Fixpoint present_all_b (c : core) (es : list event) : bool :=
  match es with
  | [] => true
  | e :: es' => match e with Notified p _ => match k_disk c p with Some _ => true | None => false end | _ => true end
                && match step ch1 c e with Some r => present_all_b (fst r) es' | None => true end
  end.
Lemma present_all_b_ok es : forall c, present_all_b c es = true -> present_all ch1 c es.
Proof.
  induction es as [|e es IH]; intros c H; cbn [present_all present_all_b] in *; auto. apply andb_prop in H. destruct H as [H1 H2]. split.
  - destruct e; cbn [present]; auto. destruct (k_disk c p); [discriminate|congruence].
  - destruct (step ch1 c e); auto.
Qed.
(** The state of buffer 1, which belongs to [/a], at the end of a history: its file, whether that was changed
    by others since the editor was last told, whether something was typed, and what it last read or wrote. *)
Definition ends (es : list event) : option (option path * option file * bool * option bool * option str) :=
  let? r := run ch1 (start D1) es in
  Some (path_of (fst r) 1, k_disk (fst r) A, w_unseen (w_run (w_start D1) es) A,
        match aget Nat.eqb (k_editors (fst r)) 1 with Some e => Some (is_pristine e false) | None => None end, known 1 (snd r)).
(** The hypotheses of the theorems above hold in that history: it is careful, no file is gone, and
    at its end others have changed the file of buffer 1. *)
Example C60_hypotheses : careful_all ch1 (start D1) (w_start D1) H1 /\ present_all ch1 (start D1) H1
  /\ ends H1 = Some (Some A, Some (F [119] 8 420), true, Some false, Some [122]).
Proof. split; [apply careful_all_b_ok; vm_compute; reflexivity|]. split; [apply present_all_b_ok; vm_compute; reflexivity|]. vm_compute. reflexivity. Qed.
(** A history in which a buffer that belongs to a file is written to it: what it replaces is what it
    last wrote; and in which its text is what the file holds. *)
Definition H2 : list event := firstn 4 H1.
Example C60_hypotheses_2 : careful_all ch1 (start D1) (w_start D1) (H2 ++ [Edit 1 [120]; Save 1 A false [10] 420 9 ok None]) /\ present_all ch1 (start D1) H2
  /\ ends H2 = Some (Some A, Some (F [239; 187; 191; 120; 121; 10] 6 384), false, Some true, Some [239; 187; 191; 120; 121; 10])
  /\ ends (H2 ++ [Edit 1 [120]; Save 1 A false [10] 420 9 ok None]) = Some (Some A, Some (F [239; 187; 191; 120] 9 384), false, Some true, Some [239; 187; 191; 120])
  /\ (forall g, ~ In (Other A g) H2).
Proof.
  split; [apply careful_all_b_ok; vm_compute; reflexivity|]. split; [apply present_all_b_ok; vm_compute; reflexivity|]. split; [vm_compute; reflexivity|].
  split; [vm_compute; reflexivity|]. intros g. cbn. intuition discriminate.
Qed.
(** With a line ending of two bytes, on a rope of more than one leaf. *)
Definition twice (s ending : str) : option (str * str) :=
  let? r := rope_from s in let? q := text_for_save_rope r true ending in let? q' := text_for_save_rope q true ending in Some (rcontent q, rcontent q').
Example C60_final_newline_case : twice (repeat 120 1500 ++ [13]) [13; 10] = Some (repeat 120 1500 ++ [13; 13; 10], repeat 120 1500 ++ [13; 13; 10]).
Proof. vm_compute. reflexivity. Qed.

(** ** Where the claim fails *)
(** Saving [/a] destroys a file [/a.swp] that is another one. *)
Theorem C60_swap_refuted : exists d f c ms, d (swap A) = Some f /\ run ch1 (start d) [New; Edit 1 [120]; Save 1 A false [10] 420 6 ok None] = Some (c, ms)
  /\ k_disk c (swap A) = None.
Proof. exists (fun q => if path_eqb q (swap A) then Some (F [119] 1 420) else None). do 3 eexists. split; [reflexivity|]. split; reflexivity. Qed.
Print Assumptions C60_swap_refuted.
(** When the file of a buffer is deleted, the buffer loses its text too, is shown as saved, and can
    not be saved again. *)
Theorem C60_deleted_refuted :
  seen D1 [Open A None; Other A None; Notified A false; Save 1 A false [10] 420 6 ok None] = Some (Some [], None, [None; None; None], [Loaded 1 [239; 187; 191; 120; 10]; Refused 1])
  /\ ends [Open A None; Other A None; Notified A false; Save 1 A false [10] 420 6 ok None] = Some (Some A, None, false, Some true, Some [239; 187; 191; 120; 10]).
Proof. split; vm_compute; reflexivity. Qed.
Print Assumptions C60_deleted_refuted.
(** After the events [es], buffer [id] is saved to [p], and replaces bytes there that it has neither read nor
    written itself. *)
Definition overwrites (es : list event) (id : nat) (p : path) : Prop :=
  exists c ms f c' b, run ch1 (start D1) es = Some (c, ms) /\ k_disk c p = Some f /\ known id ms <> Some (f_bytes f)
    /\ step ch1 c (Save id p false [10] 420 8 ok None) = Some (c', [Wrote id b]).
Definition overwrites_b (es : list event) (id : nat) (p : path) : bool :=
  match run ch1 (start D1) es with
  | Some (c, ms) =>
      match k_disk c p with
      | Some f => match known id ms with Some b => negb (bytes_eqb b (f_bytes f)) | None => true end
                  && match step ch1 c (Save id p false [10] 420 8 ok None) with Some (_, [Wrote j _]) => j =? id | _ => false end
      | None => false end
  | None => false end.
Lemma overwrites_ok es id p : overwrites_b es id p = true -> overwrites es id p.
Proof.
  unfold overwrites_b, overwrites. destruct (run ch1 (start D1) es) as [[c ms]|]; [|discriminate]. destruct (k_disk c p) as [f|] eqn:D; [|discriminate]. intros H.
  apply andb_prop in H. destruct H as [H1 H2]. destruct (step ch1 c (Save id p false [10] 420 8 ok None)) as [[c' [|[j b|j b|j|j|] [|]]]|] eqn:ST; try discriminate.
  apply Nat.eqb_eq in H2. subst j. exists c, ms, f, c', b. split; auto. split; auto. split; auto. destruct (known id ms) as [k|]; [|discriminate]. intros [= ->].
  apply negb_true_iff in H1. rewrite <- not_true_iff_false in H1. apply H1. now apply bytes_eqb_ok.
Qed.
(** Of two buffers with the same file only one is told of a change by others; the other one
    overwrites it. *)
Theorem C60_twice_refuted : overwrites [Open A None; Open A None; Edit 1 [120]; Edit 2 [120]; Other A (Some (F [119] 7 420)); Notified A false] 1 A.
Proof. apply overwrites_ok. vm_compute. reflexivity. Qed.
Print Assumptions C60_twice_refuted.
(** A save does not look at the file: a change that the editor was not told of yet is overwritten. *)
Theorem C60_untold_refuted : overwrites [Open A None; Edit 1 [120]; Other A (Some (F [119] 7 420))] 1 A.
Proof. apply overwrites_ok. vm_compute. reflexivity. Qed.
Print Assumptions C60_untold_refuted.
(** A file that was not there when its name was opened, and is made by others, is overwritten. *)
Theorem C60_created_refuted : overwrites [Open B None; Edit 1 [120]; Other B (Some (F [119] 7 420)); Notified B false] 1 B.
Proof. apply overwrites_ok. vm_compute. reflexivity. Qed.
Print Assumptions C60_created_refuted.
(** A change between the reading of the bytes and the look at the time is not noticed, even when the
    editor is told of it; likewise one in the middle of a save. *)
Theorem C60_race_refuted : overwrites [Open A (Some (Some (F [119] 7 420))); Notified A false; Edit 1 [120]; Notified A false] 1 A
  /\ overwrites [Open A None; Edit 1 [120]; Save 1 A false [10] 420 6 ok (Some (Some (F [119] 7 420))); Notified A false] 1 A.
Proof. split; apply overwrites_ok; vm_compute; reflexivity. Qed.
Print Assumptions C60_race_refuted.
(** So is one that leaves the file's time as it was. *)
Theorem C60_same_time_refuted : overwrites [Open A None; Other A (Some (F [119] 5 420)); Notified A false; Edit 1 [120]] 1 A.
Proof. apply overwrites_ok. vm_compute. reflexivity. Qed.
Print Assumptions C60_same_time_refuted.
(** A text that begins with a byte order mark loses it when it is saved and opened again. *)
Theorem C60_bom_refuted : seen D1 [New; Edit 1 [239; 187; 191; 120]; Save 1 B false [10] 420 6 ok None; Open B None]
  = Some (Some [239; 187; 191; 120], Some [120], [D1 A; None; Some (F [239; 187; 191; 120] 6 420)], [Wrote 1 [239; 187; 191; 120]; Loaded 2 [239; 187; 191; 120]]).
Proof. vm_compute. reflexivity. Qed.
Print Assumptions C60_bom_refuted.
(** A crash after the renaming leaves a private file open to others. *)
Theorem C60_permissions_refuted : exists i n f, get_info (k_files (fst (do_new_view (start D1) (Some A) None))) 1 = Some i
  /\ exec_upto D1 (all_steps A [[120]] true (Some i) 420 6) n 0 A = Some f /\ f_bytes f = [239; 187; 191; 120]
  /\ (exists g, D1 A = Some g /\ f_mode g = 384) /\ f_mode f = 420.
Proof. eexists. exists 4. eexists. split; [vm_compute; reflexivity|]. split; [vm_compute; reflexivity|]. split; [reflexivity|]. split; [eexists; split; reflexivity|reflexivity]. Qed.
Print Assumptions C60_permissions_refuted.
