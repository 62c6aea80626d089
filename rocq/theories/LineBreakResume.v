(** Reading on from a break gives the breaks that follow it, and what that means for line wrapping. *)
From Coq Require Import List Arith NArith ZArith Bool Lia ZifyBool ZifyN ZifyNat.
From Verif Require Import Base ListLib TreeModel TreeSpec RopeModel RopeSpec RopeProofs LinewrapSpec
  LineBreakTables LineBreakModel LineBreakSpec LineBreakRules LineBreakChars LineBreakProofs LineBreakCodes LineBreakRope.
Import ListNotations.
Local Notation concat := List.concat.
Local Notation idl := (fun s : list nat => s).

(** ** States that no text tells apart *)
(** A letter and a combining mark with nothing to combine with: alone, and after a Hebrew letter and a hyphen. *)
Definition same (m m' : N) : bool := (m =? m')%N || existsb (fun p => (fst p =? m)%N && (snd p =? m')%N) [(2, 9); (48, 55)]%N.
Definition same_step (m m' : N) : bool :=
  forallb (fun c => match machine m (class_no c), machine m' (class_no c) with
                    | Some (b, m1), Some (b', m1') => eqb (match b with Some _ => true | None => false end) (match b' with Some _ => true | None => false end)
                        && eqb (match b with Some h => h | None => false end) (match b' with Some h => h | None => false end) && same m1 m1'
                    | _, _ => false end) classes.
Lemma same_checked : same_step 2 9 = true /\ same_step 48 55 = true.
Proof. split; vm_compute; reflexivity. Qed.
Definition fresh_step (m : N) : bool :=
  forallb (fun c => match machine m (class_no c) with
                    | Some (Some _, m2) => cls_eqb c ZWJ || same m2 (class_no c)
                    | _ => true end) classes.
Lemma fresh_checked : forallb (fun n => fresh_step (N.of_nat n)) (seq 0 89) = true.
Proof. vm_compute. reflexivity. Qed.
Lemma fresh_ok m raw c h m2 : inv m raw -> machine m (class_no c) = Some (Some h, m2) -> c <> ZWJ -> same m2 (class_no c) = true.
Proof.
  intros [_ (rows & A & Hp)] E Hc. assert (Hm : N.to_nat m < 89).
  { unfold all_ok in A. apply andb_true_iff in A as [_ A]. apply Nat.eqb_eq in A. destruct (Nat.lt_ge_cases (N.to_nat m) 89) as [|G]; auto.
    unfold present in Hp. rewrite nth_overflow in Hp by lia. discriminate. }
  pose proof fresh_checked as F. rewrite forallb_forall in F. specialize (F (N.to_nat m)). rewrite in_seq, N2Nat.id in F. specialize (F ltac:(lia)).
  unfold fresh_step in F. rewrite forallb_forall in F. specialize (F c (classes_all c)). rewrite E in F. apply orb_true_iff in F as [F|F]; auto.
  exfalso. apply Hc. now apply cls_eqb_eq.
Qed.
Lemma same_ok m m' c b m1 : same m m' = true -> machine m (class_no c) = Some (b, m1) -> exists m1', machine m' (class_no c) = Some (b, m1') /\ same m1 m1' = true.
Proof.
  unfold same. rewrite orb_true_iff. intros [E|E] Em.
  - apply N.eqb_eq in E. subst m'. exists m1. split; auto. now rewrite N.eqb_refl.
  - assert (same_step m m' = true) as Hs.
    { apply existsb_exists in E as ([a a'] & Hin & E). apply andb_true_iff in E as [E1 E2]. apply N.eqb_eq in E1, E2. cbn [fst snd] in *. subst a a'.
      destruct same_checked. destruct Hin as [Hin|[Hin|[]]]; injection Hin as <- <-; auto. }
    unfold same_step in Hs. rewrite forallb_forall in Hs. specialize (Hs c (classes_all c)). rewrite Em in Hs. destruct (machine m' (class_no c)) as [[b' m1']|]; [|discriminate].
    rewrite !andb_true_iff in Hs. destruct Hs as ((H1 & H2) & H3). exists m1'. split; [|exact H3]. apply eqb_prop in H1, H2. destruct b as [[]|], b' as [[]|]; congruence.
Qed.
Lemma scan_same (h : bool) cps : forall m m' raw pos, same m m' = true -> inv m raw -> scan (fun _ => Some h) m pos cps = scan (fun _ => Some h) m' pos cps.
Proof.
  induction cps as [|cp cps IH]; intros m m' raw pos Hs Hi; [reflexivity|]. cbn [scan]. destruct (inv_step m raw (class_of cp) Hi) as (b & m1 & E & Hi' & _).
  destruct (same_ok _ _ _ _ _ Hs E) as (m1' & E' & Hs'). rewrite E, E'. cbn [bind]. now rewrite (IH _ _ _ _ Hs' Hi').
Qed.
(** After a break, all goes on as at the start of a text, but before a joiner. *)
Lemma scan_resume (h : bool) m raw cp h1 m2 pos cps : inv m raw -> machine m (cno cp) = Some (Some h1, m2) -> class_of cp <> ZWJ ->
  scan (fun _ => Some h) m2 pos cps = scan (fun _ => Some h) (cno cp) pos cps.
Proof.
  intros Hi E Hz. destruct (inv_step m raw (class_of cp) Hi) as (b & m2' & E' & Hi' & _). rewrite E in E'. injection E' as <- <-.
  exact (scan_same h cps m2 _ _ pos (fresh_ok m raw (class_of cp) h1 m2 Hi E Hz) Hi').
Qed.

(** ** A text in lines *)
Lemma scan_lines (h : bool) p : forall m raw pos cp rest, inv m raw -> (p = [] -> exists raw', raw = LF :: raw') -> (forall p' y, p = p' ++ [y] -> class_of y = LF) -> class_of cp <> ZWJ ->
  scan (fun _ => Some h) m pos (p ++ cp :: rest) =
  let? b1 := scan (fun _ => Some true) m pos p in let? b2 := scan (fun _ => Some h) (cno cp) (pos + length (text_of p) + length (encode cp)) rest in Some (b1 ++ b2).
Proof.
  induction p as [|x p IH]; intros m raw pos cp rest Hi H0 Hy Hz.
  - cbn [app scan bind text_of flat_map length]. destruct (H0 eq_refl) as (raw' & ->). destruct (inv_step m _ (class_of cp) Hi) as (b & m2 & E & Hi' & _ & Hb).
    assert (b = Some true) as ->. { apply Hb. reflexivity. }
    rewrite E. cbn [bind]. rewrite (scan_resume h _ _ _ _ _ _ _ Hi E Hz), Nat.add_0_r. now destruct (scan _ _ _ rest).
  - cbn [app scan]. destruct (inv_step m raw (class_of x) Hi) as (b & m2 & E & Hi' & _). rewrite E. cbn [bind].
    rewrite (IH m2 _ _ cp rest Hi'); auto.
    + rewrite text_cons, app_length, !Nat.add_assoc. destruct (scan (fun _ => Some true) m2 _ p) as [b1|]; [|reflexivity]. cbn [bind].
      destruct (scan (fun _ => Some h) _ _ rest) as [b2|]; [|reflexivity]. cbn [bind]. now destruct b.
    + intros ->. rewrite (Hy [] x eq_refl). eauto.
    + intros p' y ->. apply (Hy (x :: p') y eq_refl).
Qed.
Lemma breaks_lines (h : bool) p rest pos : p <> [] -> (forall p' y, p = p' ++ [y] -> class_of y = LF) -> (forall cp rest', rest = cp :: rest' -> class_of cp <> ZWJ) ->
  breaks_of (fun _ => Some h) pos (p ++ rest) =
  let? b1 := breaks_of (fun _ => Some (match rest with [] => h | _ => true end)) pos p in let? b2 := breaks_of (fun _ => Some h) (pos + length (text_of p)) rest in Some (b1 ++ b2).
Proof.
  intros Hp Hy Hz. destruct p as [|x p]; [congruence|]. cbn [app breaks_of]. destruct rest as [|cp rest].
  - rewrite !app_nil_r. destruct (scan _ _ _ p) as [b|]; [|reflexivity]. cbn. now rewrite app_nil_r.
  - rewrite (scan_lines h p _ [class_of x]); eauto using inv_start.
    + rewrite text_cons, app_length, !Nat.add_assoc. reflexivity.
    + intros ->. rewrite (Hy [] x eq_refl). eauto.
    + intros p' y ->. apply (Hy (x :: p') y eq_refl).
Qed.

(** ** Line wrapping *)
Ltac Zify.zify_post_hook ::= Z.div_mod_to_equations.
Lemma encode_nl cp i : scalar cp -> nth_error (encode cp) i = Some 10 -> cp = 10%N /\ i = 0.
Proof.
  unfold scalar, encode. intros Hs. destruct (cp <? 0x80)%N eqn:E1; [|destruct (cp <? 0x800)%N eqn:E2; [|destruct (cp <? 0x10000)%N eqn:E3]]; cbn [map].
  all: destruct i as [|[|[|[|i]]]]; cbn [nth_error]; intros H; try discriminate; try (destruct i; discriminate);
    apply (f_equal (fun o => match o with Some x => x | None => 0 end)) in H; cbv beta iota in H; lia.
Qed.
Lemma split_nl cps : forall i, Forall scalar cps -> nth_error (text_of cps) i = Some 10 -> exists c1 c2, cps = c1 ++ 10%N :: c2 /\ length (text_of c1) = i.
Proof.
  induction cps as [|cp cps IH]; intros i Fs H; [destruct i; discriminate|]. inversion Fs as [|? ? Hs Fs']; subst. rewrite text_cons in H.
  destruct (Nat.lt_ge_cases i (length (encode cp))) as [L|G].
  - rewrite nth_error_app1 in H by auto. destruct (encode_nl _ _ Hs H) as [-> ->]. exists [], cps. auto.
  - rewrite nth_error_app2 in H by auto. destruct (IH _ Fs' H) as (c1 & c2 & -> & El). exists (cp :: c1), c2. split; auto. rewrite text_cons, app_length. lia.
Qed.
Lemma text_nl c : text_of (c ++ [10%N]) = text_of c ++ [10].
Proof. now rewrite text_app. Qed.
Lemma para_split s a e : utf8 s -> para s a e -> exists c1 p c2, Forall scalar (c1 ++ p ++ c2) /\ s = text_of (c1 ++ p ++ c2) /\ a = length (text_of c1) /\ e = a + length (text_of p) /\
  p <> [] /\ (c2 = [] \/ exists p', p = p' ++ [10%N]) /\ (c2 <> [] -> c1 ++ p <> []) /\ (nth_error s (e - 1) = Some 10 -> exists p', p = p' ++ [10%N]).
Proof.
  intros U (Hs & Hb & He & _). destruct (utf8_text _ U) as (cps & Fs & ->).
  assert (exists c1 c2, cps = c1 ++ c2 /\ a = length (text_of c1)) as (c1 & c2 & -> & Ea).
  { destruct Hs as [->|[H0 Hn]]; [exists [], cps; auto|]. destruct (split_nl _ _ Fs Hn) as (c1 & c2 & -> & El). exists (c1 ++ [10%N]), c2. rewrite <- app_assoc. split; auto.
    rewrite text_nl, app_length. cbn. lia. }
  assert (Hn : nth_error (text_of (c1 ++ c2)) (e - 1) = Some 10 -> exists p' c3, c2 = p' ++ 10%N :: c3 /\ e = a + length (text_of (p' ++ [10%N]))).
  { intros Hn. rewrite text_app, nth_error_app2 in Hn by lia. apply Forall_app in Fs as [_ Fs]. destruct (split_nl _ _ Fs Hn) as (p' & c3 & -> & El). exists p', c3. split; auto. rewrite text_nl, app_length. cbn. lia. }
  destruct (nth_error (text_of (c1 ++ c2)) (e - 1)) as [b|] eqn:En; [destruct (Nat.eq_dec b 10) as [->|Nb]|].
  - destruct (Hn eq_refl) as (p' & c3 & -> & Ee). exists c1, (p' ++ [10%N]), c3. rewrite <- app_assoc. cbn [app]. repeat split; auto; try (now destruct p'); try (right; eauto); try eauto.
    intros _ H. apply app_eq_nil in H as [_ H]. now destruct p'.
  - destruct He as [He|He]; [congruence|]. exists c1, c2, []. rewrite app_nil_r. repeat split; auto; try congruence. { rewrite He, text_app, app_length. lia. }
    intros ->. rewrite app_nil_r in *. lia.
  - apply nth_error_None in En. lia.
Qed.

Lemma scan_moved fin (h : bool) a cps : forall m pos bs, scan fin m pos cps = Some bs ->
  scan (fun _ => Some h) m (a + pos) cps = Some (map (fun b => (a + fst b, if fst b =? pos + length (text_of cps) then h else snd b)) bs).
Proof.
  induction cps as [|cp cps IH]; intros m pos bs E; cbn [scan] in *.
  - destruct (fin m); [|discriminate]. injection E as <-. cbn. now rewrite Nat.add_0_r, Nat.eqb_refl.
  - destruct (machine m (cno cp)) as [[b m']|]; [|discriminate]. cbn [bind] in *. destruct (scan fin m' _ cps) as [bs'|] eqn:E'; [|discriminate]. cbn [bind] in E. injection E as <-.
    rewrite <- Nat.add_assoc, (IH _ _ _ E'). cbn [bind]. rewrite text_cons, app_length, Nat.add_assoc. destruct b as [g|]; [|reflexivity]. cbn [map fst snd].
    pose proof (encode_len cp). replace (pos =? pos + length (encode cp) + length (text_of cps)) with false by lia. reflexivity.
Qed.
Lemma breaks_moved (h : bool) a cps bs : breaks_of end_hard 0 cps = Some bs ->
  breaks_of (fun _ => Some h) a cps = Some (map (fun b => (a + fst b, if fst b =? length (text_of cps) then h else snd b)) bs).
Proof.
  destruct cps as [|cp cps]; cbn [breaks_of]; [intros E; injection E as <-; reflexivity|]. intros E. apply (scan_moved _ h a) in E. cbn [Nat.add] in E. rewrite E.
  rewrite text_cons, app_length. reflexivity.
Qed.
Lemma breaks_total cps : exists bs, breaks_of end_hard 0 cps = Some bs.
Proof. destruct cps as [|cp cps]; cbn [breaks_of]; [eauto|]. exact (scan_end_total cps _ [class_of cp] _ (inv_start _)). Qed.

(** The breaks of the rest of a text, and of one line. *)
Definition rest_breaks (s : list nat) (a : nat) : list (nat * bool) := match line_breaks (skipn a s) with Some bs => moved s a bs | None => [] end.
Definition line_opps (p : list nat) : list (nat * bool) := rest_breaks p 0.
Definition ends10 (s : list nat) : bool := List.last s 0 =? 10.
Lemma skipn_text c1 c2 : skipn (length (text_of c1)) (text_of (c1 ++ c2)) = text_of c2.
Proof. rewrite text_app, skipn_app, skipn_all, Nat.sub_diag. reflexivity. Qed.
Lemma rest_breaks_ok c1 c2 : Forall scalar (c1 ++ c2) ->
  breaks_of (fun _ => Some (ends10 (text_of (c1 ++ c2)))) (length (text_of c1)) c2 = Some (rest_breaks (text_of (c1 ++ c2)) (length (text_of c1))).
Proof.
  intros Fs. apply Forall_app in Fs as [F1 F2]. unfold rest_breaks. rewrite skipn_text, (line_breaks_ok c2 F2). destruct (breaks_total c2) as [bs E]. rewrite E.
  rewrite (breaks_moved _ _ _ _ E). f_equal. unfold moved. apply map_ext. intros [x g]. cbn [fst snd]. rewrite text_app, app_length. 
  destruct (Nat.eqb_spec x (length (text_of c2))), (Nat.eqb_spec (length (text_of c1) + x) (length (text_of c1) + length (text_of c2))); try lia; reflexivity.
Qed.
Theorem rope_rest r ht a : rope_wf ht r -> is_char_boundary (rcontent r) a = true -> rope_breaks r a = Some (rest_breaks (rcontent r) a).
Proof.
  intros W B. pose proof (rope_utf8 ht r W) as U. destruct (utf8_cut _ _ U B) as [U1 U2]. destruct (utf8_text _ U1) as (c1 & F1 & E1). destruct (utf8_text _ U2) as (c2 & F2 & E2).
  assert (F : Forall scalar (c1 ++ c2)) by (apply Forall_app; auto).
  assert (Es : rcontent r = text_of (c1 ++ c2)). { rewrite text_app, <- E1, <- E2. symmetry. apply firstn_skipn. }
  assert (Ea : a = length (text_of c1)). { rewrite <- E1, firstn_length. apply cb_le in B. lia. }
  subst a. rewrite (rope_breaks_ok r ht W c1 c2 F Es). unfold ends_nl. rewrite Es. exact (rest_breaks_ok c1 c2 F).
Qed.

(** ** The assumptions of line wrapping hold of these breaks *)
Definition wrappable (s : list nat) : Prop := utf8 s /\ no_line_joiner s.
Lemma zwj cp : scalar cp -> class_of cp = ZWJ -> encode cp = [0xE2; 0x80; 0x8D].
Proof.
  intros Hs H. apply (listed_ok ZWJ [(0x200D, 0x200D)%N] cp Hs) in H; [|unfold listed; cbn [In]; tauto].
  destruct H as (a & b & [E|[]] & Hr). injection E as <- <-. assert (cp = 0x200D)%N as -> by lia. reflexivity.
Qed.
Lemma last_text p : List.last (text_of (p ++ [10%N])) 0 = 10.
Proof. rewrite text_nl. apply last_last. Qed.
Lemma ends_app a b : b <> [] -> ends10 (text_of (a ++ b)) = ends10 (text_of b).
Proof.
  intros Hb. unfold ends10. rewrite text_app, last_app_ne; auto. intros E. destruct b as [|x b]; [congruence|]. rewrite text_cons in E. pose proof (encode_len x). apply (f_equal (@length nat)) in E. rewrite app_length in E. cbn in E. lia.
Qed.
Lemma class_lf : class_of 10 = LF.
Proof. vm_compute. reflexivity. Qed.
Lemma line_opps_ok p : Forall scalar p -> breaks_of (fun _ => Some (ends10 (text_of p))) 0 p = Some (line_opps (text_of p)).
Proof. intros F. exact (rest_breaks_ok [] p F). Qed.
Lemma scan_shift (h : bool) a cps : forall m pos, scan (fun _ => Some h) m (a + pos) cps = option_map (map (fun b => (a + fst b, snd b))) (scan (fun _ => Some h) m pos cps).
Proof.
  induction cps as [|cp cps IH]; intros m pos; cbn [scan]; [reflexivity|]. destruct (machine m (cno cp)) as [[b m']|]; [|reflexivity]. cbn [bind]. rewrite <- Nat.add_assoc, IH.
  destruct (scan _ m' _ cps); [|reflexivity]. cbn [option_map bind]. now destruct b.
Qed.
Lemma breaks_shift (h : bool) a p : breaks_of (fun _ => Some h) a p = option_map (map (fun b => (a + fst b, snd b))) (breaks_of (fun _ => Some h) 0 p).
Proof. destruct p as [|cp p]; [reflexivity|]. cbn [breaks_of]. apply (scan_shift h a p _ (length (encode cp))). Qed.
Lemma slice_text c1 p c2 : slice (text_of (c1 ++ p ++ c2)) (length (text_of c1)) (length (text_of c1) + length (text_of p)) = text_of p.
Proof. unfold slice. rewrite skipn_text, Nat.add_comm, Nat.add_sub, text_app, firstn_app, Nat.sub_diag, firstn_all. cbn. apply app_nil_r. Qed.
Lemma app3 {A} (P : A -> Prop) a b c : Forall P (a ++ b ++ c) -> Forall P a /\ Forall P b /\ Forall P c.
Proof. intros H. apply Forall_app in H as [H1 H]. apply Forall_app in H as [H2 H3]. auto. Qed.
Theorem real_opps : opps_laws wrappable rest_breaks line_opps.
Proof.
  split.
  - intros s a e [U J] P. destruct (para_split s a e U P) as (c1 & p & c2 & F & Es & Ea & Ee & Np & Hnl & Hne & _). rewrite Es, Ee, Ea, slice_text. clear Hne.
    pose proof (app3 _ _ _ _ F) as (F1 & Fp & F2). pose proof (rest_breaks_ok c1 (p ++ c2) F) as R1. pose proof (line_opps_ok p Fp) as R2.
    assert (R3 : breaks_of (fun _ => Some (ends10 (text_of (c1 ++ p ++ c2)))) (length (text_of c1) + length (text_of p)) c2 = Some (rest_breaks (text_of (c1 ++ p ++ c2)) (length (text_of c1) + length (text_of p)))).
    { rewrite app_assoc in F |- *. rewrite <- app_length, <- text_app. exact (rest_breaks_ok (c1 ++ p) c2 F). }
    assert (R4 : breaks_of (fun _ => Some (ends10 (text_of p))) (length (text_of c1)) p = Some (map (fun x => (length (text_of c1) + fst x, snd x)) (line_opps (text_of p)))) by now rewrite breaks_shift, R2.
    destruct Hnl as [->|(p' & ->)].
    + rewrite app_nil_r in *. rewrite ends_app in R1 by auto. rewrite R4 in R1. injection R1 as R1. cbn [breaks_of] in R3. injection R3 as R3. rewrite <- R1, <- R3. now rewrite app_nil_r.
    + rewrite breaks_lines in R1; auto.
      * rewrite R3 in R1. assert (El : (match c2 with [] => ends10 (text_of (c1 ++ (p' ++ [10%N]) ++ c2)) | _ => true end) = ends10 (text_of (p' ++ [10%N]))).
        { destruct c2; [now rewrite app_nil_r, ends_app|]. unfold ends10. now rewrite last_text. }
        rewrite El, R4 in R1. cbn [bind] in R1. injection R1 as R1. now rewrite <- R1.
      * intros q y E. apply app_inj_tail in E as [_ <-]. exact class_lf.
      * intros cp rest -> Hz. inversion F2; subst. apply zwj in Hz; auto. apply (J (text_of (c1 ++ p')) (text_of rest)). rewrite app_assoc, app_assoc, text_app, text_nl, text_cons, Hz, <- app_assoc. reflexivity.
  - intros s [U J]. unfold rest_breaks. rewrite skipn_all. reflexivity.
  - intros s a e [U J] P. destruct (para_split s a e U P) as (c1 & p & c2 & F & Es & Ea & Ee & Np & _). rewrite Es, Ee, Ea, slice_text. pose proof (app3 _ _ _ _ F) as (F1 & Fp & F2).
    pose proof (line_opps_ok p Fp) as R. destruct p as [|cp p]; [congruence|]. cbn [breaks_of] in R. apply scan_rise with (lo := 0) in R; [|pose proof (encode_len cp); lia].
    rewrite text_cons, app_length. replace (length (text_of c1) + (length (encode cp) + length (text_of p)) - length (text_of c1)) with (0 + length (encode cp) + length (text_of p)) by lia. exact R.
  - intros s a e x h [U J] P Hx. destruct (para_split s a e U P) as (c1 & p & c2 & F & Es & Ea & Ee & Np & _). rewrite Es, Ee, Ea, slice_text in Hx. pose proof (app3 _ _ _ _ F) as (F1 & Fp & F2).
    pose proof (line_opps_ok p Fp) as R. destruct p as [|cp p]; [congruence|]. cbn [breaks_of] in R.
    assert (exists q1 q2, cp :: p = q1 ++ q2 /\ x = length (text_of q1)) as (q1 & q2 & Eq & Ex).
    { destruct (scan_in _ _ _ _ _ _ (inv_start (class_of cp)) R x h Hx) as [(d1 & d & d2 & m1 & m2 & -> & -> & _)|(-> & _)].
      - exists (cp :: d1), (d :: d2). split; auto. rewrite text_cons, app_length. reflexivity.
      - exists (cp :: p), []. rewrite app_nil_r. split; auto. rewrite text_cons, app_length. reflexivity. }
    rewrite Es, Ea, Ex, Eq, <- app_assoc, app_assoc, <- app_length, <- text_app, text_app. apply text_cut. rewrite Eq in Fp. apply Forall_app in Fp as [_ Fp]. apply Forall_app. auto.
  - intros s a e h [U J] P Hn Hx. destruct (para_split s a e U P) as (c1 & p & c2 & F & Es & Ea & Ee & Np & _ & _ & Hp). destruct (Hp Hn) as (p' & ->). pose proof (app3 _ _ _ _ F) as (F1 & Fp & F2).
    rewrite Es, Ee, Ea, slice_text in Hx. unfold line_opps, rest_breaks in Hx. destruct (line_breaks _) as [bs|]; [|destruct Hx]. apply in_map_iff in Hx as ([y g] & E & _). cbn [fst snd Nat.add] in E.
    injection E as E1 E2. rewrite last_text in E2. subst y. replace (length (text_of c1) + length (text_of (p' ++ [10%N])) - length (text_of c1)) with (length (text_of (p' ++ [10%N]))) in E2 by lia.
    rewrite Nat.eqb_refl in E2. now subst h.
Qed.

(** ** Any break *)
Lemma scan_split (h : bool) p : forall m raw pos cp rest bs g, inv m raw -> scan (fun _ => Some h) m pos (p ++ cp :: rest) = Some bs -> In (pos + length (text_of p), g) bs -> class_of cp <> ZWJ ->
  exists b1 b2, bs = b1 ++ (pos + length (text_of p), g) :: b2 /\ scan (fun _ => Some h) (cno cp) (pos + length (text_of p) + length (encode cp)) rest = Some b2.
Proof.
  induction p as [|x p IH]; intros m raw pos cp rest bs g Hi E Hin Hz.
  - cbn [app scan text_of flat_map length] in *. rewrite Nat.add_0_r in *. destruct (inv_step m raw (class_of cp) Hi) as (b & m2 & Em & Hi' & _). rewrite Em in E. cbn [bind] in E.
    destruct (scan _ m2 _ rest) as [b2|] eqn:E2; [|discriminate]. cbn [bind] in E. pose proof (encode_len cp). pose proof (scan_rise _ _ _ _ pos _ E2 ltac:(lia)) as Hr.
    destruct b as [h1|].
    + injection E as <-. exists [], b2. destruct Hin as [Hin|Hin].
      * injection Hin as ->. split; auto. rewrite <- (scan_resume h _ _ _ _ _ _ _ Hi Em Hz). exact E2.
      * apply (rises_in _ _ _ _ _ Hr) in Hin. lia.
    + injection E as <-. apply (rises_in _ _ _ _ _ Hr) in Hin. lia.
  - cbn [app scan] in E. destruct (inv_step m raw (class_of x) Hi) as (b & m2 & Em & Hi' & _). rewrite Em in E. cbn [bind] in E.
    destruct (scan _ m2 _ (p ++ cp :: rest)) as [bs'|] eqn:E'; [|discriminate]. cbn [bind] in E. rewrite text_cons, app_length, Nat.add_assoc in *. pose proof (encode_len x).
    assert (Hin' : In (pos + length (encode x) + length (text_of p), g) bs').
    { destruct b as [h1|]; injection E as <-; auto. destruct Hin as [Hin|Hin]; auto. injection Hin as Hin _. lia. }
    destruct (IH _ _ _ _ _ _ _ Hi' E' Hin' Hz) as (b1 & b2 & -> & E2). exists (match b with Some h1 => (pos, h1) :: b1 | None => b1 end), b2. split; auto. destruct b; injection E as <-; auto.
Qed.
Lemma resume_at s a x g h bs : utf8 s -> is_char_boundary s a = true -> rest_breaks s a = bs -> In (x, g) bs -> x < length s -> h = ends10 s ->
  (forall b, skipn x s <> [0xE2; 0x80; 0x8D] ++ b) -> exists b1, bs = b1 ++ (x, g) :: rest_breaks s x.
Proof.
  intros U B <- Hin Hx -> J. destruct (utf8_cut _ _ U B) as [U1 U2]. destruct (utf8_text _ U1) as (c1 & F1 & E1). destruct (utf8_text _ U2) as (c2 & F2 & E2).
  assert (F : Forall scalar (c1 ++ c2)) by (apply Forall_app; auto).
  assert (Es : s = text_of (c1 ++ c2)). { rewrite text_app, <- E1, <- E2. symmetry. apply firstn_skipn. }
  assert (Ea : a = length (text_of c1)). { rewrite <- E1, firstn_length. apply cb_le in B. lia. }
  subst a. clear U1 U2 E1 E2. pose proof (rest_breaks_ok c1 c2 F) as R. rewrite <- Es in R. destruct c2 as [|cp c2]. { cbn in R. injection R as R. rewrite <- R in Hin. destruct Hin. }
  cbn [breaks_of] in R. assert (G := R). destruct (scan_in _ _ _ _ _ _ (inv_start (class_of cp)) R x g Hin) as [(d1 & d & d2 & m1 & m2 & Ec & Ex & _)|(Ex & _)].
  - subst c2. assert (Ex' : x = length (text_of (c1 ++ cp :: d1))) by (rewrite text_app, text_cons, !app_length; lia).
    assert (Esx : s = text_of ((c1 ++ cp :: d1) ++ d :: d2)) by (rewrite <- app_assoc; exact Es).
    assert (Fx : Forall scalar ((c1 ++ cp :: d1) ++ d :: d2)) by (rewrite <- app_assoc; exact F).
    assert (Hz : class_of d <> ZWJ).
    { intros Hz. apply Forall_app in Fx as [_ Fx]. inversion Fx; subst. apply zwj in Hz; auto. apply (J (text_of d2)). rewrite Ex', Esx, skipn_text, text_cons, Hz. reflexivity. }
    rewrite Ex in Hin. destruct (scan_split _ _ _ _ _ _ _ _ _ (inv_start (class_of cp)) R Hin Hz) as (b1 & b2 & Eb & Es2). exists b1. rewrite Eb, <- Ex. do 2 f_equal.
    pose proof (rest_breaks_ok _ _ Fx) as R2. rewrite <- Esx, <- Ex' in R2. cbn [breaks_of] in R2. rewrite Ex in R2 at 1. rewrite Es2 in R2. now injection R2.
  - exfalso. rewrite Es, text_app, text_cons, !app_length in Hx. lia.
Qed.
