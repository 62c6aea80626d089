(** Proofs about files: the steps of a save, encodings, and what holds after any events. *)
From Coq Require Import List Arith Bool Lia ZifyBool.
From Verif Require Import Base ListLib RopeModel RopeSpec RopeProofs FindModel FindProofs ConfigModel ConfigProofs FileModel FileSpec.
Import ListNotations.
Local Notation concat := List.concat.

(** ** Paths *)
Lemma pE a b : path_eqb a b = true <-> a = b.
Proof.
  unfold path_eqb. rewrite andb_true_iff, !bytes_eqb_ok. destruct a as [x1 x2], b as [y1 y2]. cbn. split; [intros [-> ->]; auto|intros [= -> ->]; auto].
Qed.
Lemma p_refl a : path_eqb a a = true. Proof. now apply pE. Qed.
Lemma p_neq a b : a <> b -> path_eqb a b = false. Proof. intros H. destruct (path_eqb a b) eqn:X; auto. apply pE in X. congruence. Qed.
Lemma last_dot_at s : match last_dot s with Some i => i < length s /\ s = firstn i s ++ DOT :: skipn (S i) s | None => True end.
Proof.
  induction s as [|b s IH]; cbn [last_dot]; auto. destruct (last_dot s) as [i|].
  - destruct IH as [L E]. split; [cbn [length]; lia|]. cbn [firstn skipn app]. now rewrite E at 1.
  - destruct (b =? DOT) eqn:B; auto. apply Nat.eqb_eq in B. subst. split; [cbn [length]; lia|reflexivity].
Qed.
Lemma tmp_is p : tmp_path p = swap p.
Proof.
  unfold tmp_path, with_extension, swap, extension, file_stem. pose proof (last_dot_at (p_name p)) as H.
  destruct (last_dot (p_name p)) as [[|i]|]; try reflexivity. f_equal. destruct H as [_ H].
  set (x := skipn (S (S i)) (p_name p)) in *. rewrite H at 2. rewrite <- app_assoc. f_equal. cbn [app]. destruct x; reflexivity.
Qed.
Lemma tmp_differs p : tmp_path p <> p.
Proof.
  rewrite tmp_is. unfold swap. destruct p as [d n]. cbn [p_dir p_name]. intros [= H]. apply (f_equal (@length nat)) in H. rewrite app_length in H. cbn in H. lia.
Qed.

(** ** Steps *)
Definition only (q : path) (o : op) : Prop := match o with Create p _ _ | Append p _ _ | Chmod p _ => p = q | Rename _ _ => False end.
Lemma put_get d p f q : put d p f q = if path_eqb q p then f else d q. Proof. reflexivity. Qed.
Lemma exec_only d o q r : only q o -> r <> q -> exec d o r = d r.
Proof.
  destruct o; cbn [only exec]; intros H N; try easy; subst.
  - rewrite put_get, p_neq; auto.
  - destruct (d q); [rewrite put_get, p_neq; auto|auto].
  - destruct (d q); [rewrite put_get, p_neq; auto|auto].
Qed.
Lemma exec_all_only q r os : r <> q -> Forall (only q) os -> forall d, exec_all d os r = d r.
Proof. intros N. induction 1 as [|o os H F IH]; intros d; cbn [exec_all]; auto. rewrite IH. eapply exec_only; eauto. Qed.
Lemma exec_all_app a b d : exec_all d (a ++ b) = exec_all (exec_all d a) b.
Proof. revert d. induction a; intros d; cbn [exec_all app]; auto. Qed.
Definition head_steps p chunks (bom : bool) m t : list op :=
  Create (tmp_path p) m t :: (if bom then [Append (tmp_path p) BOM t] else []) ++ map (fun s => Append (tmp_path p) s t) chunks.
Lemma steps_split p chunks bom m t : save_steps p chunks bom m t = head_steps p chunks bom m t ++ [Rename (tmp_path p) p].
Proof. unfold save_steps, head_steps. cbn [app]. now rewrite <- app_assoc. Qed.
Lemma head_only p chunks bom m t : Forall (only (tmp_path p)) (head_steps p chunks bom m t).
Proof.
  unfold head_steps. constructor; [reflexivity|]. apply Forall_app. split; [destruct bom; repeat constructor|].
  apply Forall_forall. intros o I. apply in_map_iff in I. destruct I as (s & <- & _). reflexivity.
Qed.
Lemma appends q t ss : forall d f, d q = Some f ->
  exists f', exec_all d (map (fun s => Append q s t) ss) q = Some f' /\ f_bytes f' = f_bytes f ++ concat ss /\ f_mode f' = f_mode f /\ (f_time f = t -> f_time f' = t).
Proof.
  induction ss as [|s ss IH]; intros d f H; cbn [map exec_all List.concat].
  - exists f. rewrite app_nil_r. auto.
  - cbn [exec]. rewrite H. destruct (IH (put d q (Some {| f_bytes := f_bytes f ++ s; f_time := t; f_mode := f_mode f |})) {| f_bytes := f_bytes f ++ s; f_time := t; f_mode := f_mode f |}) as (f' & A & B & C & D).
    + rewrite put_get, p_refl. reflexivity.
    + exists f'. rewrite A, B, C. cbn [f_bytes f_mode f_time] in *. rewrite <- app_assoc. auto.
Qed.
Definition new_mode (d : disk) (p : path) (m : nat) : nat := match d p with Some f => f_mode f | None => m end.
Lemma head_done d p chunks bom m t : exec_all d (head_steps p chunks bom m t) (tmp_path p)
  = Some {| f_bytes := encoded bom (concat chunks); f_time := t; f_mode := new_mode d (tmp_path p) m |}.
Proof.
  unfold head_steps. cbn [exec_all].
  set (d1 := exec d (Create (tmp_path p) m t)).
  assert (H : d1 (tmp_path p) = Some {| f_bytes := []; f_time := t; f_mode := new_mode d (tmp_path p) m |}).
  { unfold d1. cbn [exec]. rewrite put_get, p_refl. reflexivity. }
  replace ((if bom then [Append (tmp_path p) BOM t] else []) ++ map (fun s => Append (tmp_path p) s t) chunks)
    with (map (fun s => Append (tmp_path p) s t) ((if bom then [BOM] else []) ++ chunks)) by (destruct bom; reflexivity).
  destruct (appends (tmp_path p) t ((if bom then [BOM] else []) ++ chunks) d1 _ H) as ([b u o] & A & B & C & D). cbn [f_bytes f_time f_mode] in *.
  rewrite A, B, C, D by auto. unfold encoded. rewrite concat_app. destruct bom; reflexivity.
Qed.
(** A save that goes through. *)
Lemma steps_done d p chunks bom m t q : exec_all d (save_steps p chunks bom m t) q
  = if path_eqb q p then Some {| f_bytes := encoded bom (concat chunks); f_time := t; f_mode := new_mode d (tmp_path p) m |}
    else if path_eqb q (tmp_path p) then None else d q.
Proof.
  rewrite steps_split, exec_all_app. cbn [exec_all exec]. rewrite head_done, !put_get.
  destruct (path_eqb q (tmp_path p)) eqn:T.
  - apply pE in T. subst q. rewrite p_neq; auto. apply tmp_differs.
  - destruct (path_eqb q p); auto. apply exec_all_only with (q := tmp_path p); [intros ->; now rewrite p_refl in T|apply head_only].
Qed.
(** One that does not. *)
Lemma steps_part d p chunks bom m t n k q : n < length (save_steps p chunks bom m t) -> q <> tmp_path p ->
  exec_upto d (save_steps p chunks bom m t) n k q = d q.
Proof.
  intros L N. rewrite steps_split in *. unfold exec_upto. rewrite app_length in L. cbn [length] in L.
  assert (O : Forall (only (tmp_path p)) (firstn n (head_steps p chunks bom m t))).
  { pose proof (head_only p chunks bom m t) as H. rewrite <- (firstn_skipn n) in H. apply Forall_app in H. tauto. }
  rewrite firstn_app. replace (n - length (head_steps p chunks bom m t)) with 0 by lia. cbn [firstn]. rewrite app_nil_r.
  apply exec_all_only with (q := tmp_path p); auto. apply Forall_app. split; auto.
  destruct (nth_error _ n) as [o|] eqn:E; [|constructor]. destruct (Nat.eq_dec n (length (head_steps p chunks bom m t))) as [->|NE].
  - rewrite nth_error_app2, Nat.sub_diag in E by auto. injection E as <-. constructor.
  - rewrite nth_error_app1 in E by lia. apply nth_error_In in E. pose proof (head_only p chunks bom m t) as H. rewrite Forall_forall in H. apply H in E.
    destruct o; cbn [part]; repeat constructor. exact E.
Qed.
Lemma last_only p i : Forall (only p) (last_step p i). Proof. destruct i; repeat constructor. Qed.
Definition last_mode (i : option info) (m : nat) : nat := match i with Some i => match i_mode i with Some m => m | None => 420 end | None => m end.
Lemma last_done d p i f : d p = Some f -> exec_all d (last_step p i) p = Some {| f_bytes := f_bytes f; f_time := f_time f; f_mode := last_mode i (f_mode f) |}.
Proof.
  intros H. destruct i as [i|]; cbn [last_step exec_all exec]; rewrite H; [|destruct f; reflexivity]. rewrite put_get, p_refl. reflexivity.
Qed.
(** Everything [try_save] can do. *)
Lemma try_save_ok d p chunks bom i m t o : let r := try_save d p chunks bom i m t o in
  (forall q, q <> p -> q <> tmp_path p -> fst r q = d q)
  /\ (snd r = true -> (forall q, q = tmp_path p -> fst r q = None) /\
        exists mode, fst r p = Some {| f_bytes := encoded bom (concat chunks); f_time := t; f_mode := mode |}
          /\ (o <> Through false -> mode = last_mode i (new_mode d (tmp_path p) m)))
  /\ (snd r = false -> fst r p = d p /\ forall f, fst r (tmp_path p) = Some f -> f_time f = t \/ d (tmp_path p) = Some f).
Proof.
  cbv zeta. unfold try_save. set (ss := save_steps p chunks bom m t).
  assert (D : forall perms, let d' := exec_all d (ss ++ if perms : bool then last_step p i else []) in
     (forall q, q <> p -> q <> tmp_path p -> d' q = d q) /\ (forall q, q = tmp_path p -> d' q = None) /\
     exists mode, d' p = Some {| f_bytes := encoded bom (concat chunks); f_time := t; f_mode := mode |}
        /\ (perms = true -> mode = last_mode i (new_mode d (tmp_path p) m))).
  { intros perms d'. unfold d'. rewrite exec_all_app.
    assert (X : forall q, q <> p -> exec_all (exec_all d ss) (if perms then last_step p i else []) q = exec_all d ss q).
    { intros q N. apply exec_all_only with (q := p); auto. destruct perms; [apply last_only|constructor]. }
    split; [|split].
    - intros q N1 N2. rewrite X by auto. unfold ss. rewrite steps_done, !p_neq; auto.
    - intros q ->. pose proof (tmp_differs p). rewrite X by auto. unfold ss. rewrite steps_done, p_neq, p_refl; auto.
    - assert (Y : exec_all d ss p = Some {| f_bytes := encoded bom (concat chunks); f_time := t; f_mode := new_mode d (tmp_path p) m |}).
      { unfold ss. now rewrite steps_done, p_refl. }
      destruct perms; [rewrite (last_done _ _ _ _ Y)|cbn [exec_all]; rewrite Y]; cbn [f_bytes f_time f_mode]; eexists; split; auto. discriminate. }
  destruct o as [perms|n k].
  - cbn [fst snd]. destruct (D perms) as (D1 & D2 & mode & D3 & D4). split; [auto|]. split; [|discriminate]. intros _. split; [auto|].
    exists mode. split; auto. intros N. apply D4. destruct perms; congruence.
  - destruct (n <? length ss) eqn:L; cbn [fst snd].
    + apply Nat.ltb_lt in L. split; [intros; now apply steps_part|]. split; [discriminate|]. intros _.
      split; [apply steps_part; auto; intros H; symmetry in H; now apply tmp_differs in H|].
      unfold exec_upto, ss. set (os := firstn n _ ++ _). assert (O : Forall (fun o => match o with Create _ _ u | Append _ _ u => u = t | Rename _ q => q <> tmp_path p | Chmod _ _ => False end) os).
      { assert (AL : Forall (fun o => match o with Create _ _ u | Append _ _ u => u = t | Rename _ q => q <> tmp_path p | Chmod _ _ => False end) (save_steps p chunks bom m t)).
        { unfold save_steps. constructor; auto. apply Forall_app. split; [destruct bom; repeat constructor|]. apply Forall_app. split.
          - apply Forall_forall. intros o I. apply in_map_iff in I. destruct I as (s & <- & _). reflexivity.
          - repeat constructor. intros H. symmetry in H. now apply tmp_differs in H. }
        unfold os. apply Forall_app. split.
        - rewrite <- (firstn_skipn n) in AL. apply Forall_app in AL. tauto.
        - destruct (nth_error _ n) as [o|] eqn:E; [|constructor]. apply nth_error_In in E. rewrite Forall_forall in AL. apply AL in E. destruct o; cbn [part]; repeat constructor. exact E. }
      clear -O. revert d. induction O as [|o os H O IH]; intros d f; cbn [exec_all]; [auto|]. intros E. apply IH in E. destruct E as [E|E]; auto.
      destruct o; cbn [exec] in E; subst; try easy.
      * rewrite put_get in E. destruct (path_eqb _ _); auto. injection E as <-. auto.
      * destruct (d p0); auto. rewrite put_get in E. destruct (path_eqb _ _); auto. injection E as <-. auto.
      * destruct (d p0); auto. rewrite !put_get in E. destruct (path_eqb _ p0); [discriminate|]. rewrite p_neq in E; auto.
    + destruct (D true) as (D1 & D2 & mode & D3 & D4). split; [auto|]. split; [|discriminate]. intros _. split; auto. exists mode. auto.
Qed.

(** ** Encodings *)
Lemma chars_f_concat f : forall s, length s <= f -> concat (chars_f f s) = s.
Proof.
  induction f as [|f IH]; intros [|b s] L; cbn [chars_f List.concat length] in *; auto; [lia|].
  rewrite IH; [apply firstn_skipn|]. rewrite skipn_length. cbn [length].
  assert (0 < len_utf8_from_first_byte b) by (unfold len_utf8_from_first_byte; repeat destruct (_ <? _); lia). lia.
Qed.
Lemma utf8b_ok s : utf8b s = true <-> utf8 s.
Proof.
  unfold utf8b. rewrite forallb_forall. split.
  - intros H. exists (chars s). split; [now apply Forall_forall|]. symmetry. unfold chars. now apply chars_f_concat.
  - intros U. apply chars_is in U. destruct U as [F _]. now apply Forall_forall.
Qed.
Lemma bom_text : utf8 BOM. Proof. exists [BOM]. split; [repeat constructor|reflexivity]. Qed.
Lemma utf8_plus a b : utf8 a -> utf8 b -> utf8 (a ++ b).
Proof. intros (x & A) (y & B). exists (x ++ y). now apply chars_of_app. Qed.
Lemma starts_ok s pre : starts_with s pre = true <-> exists r, s = pre ++ r.
Proof.
  revert s. induction pre as [|x pre IH]; intros s; cbn [app]; [split; [now exists s|now destruct s]|].
  destruct s as [|y s]; cbn [starts_with]; [split; [discriminate|intros [r H]; discriminate]|]. rewrite andb_true_iff, Nat.eqb_eq, IH.
  split; [intros [-> [r ->]]; now exists r|intros [r [= -> ->]]; eauto].
Qed.
(** Reading a file, and then writing the text, gives the bytes back. *)
Lemma decode_ok s text : try_decode s (guess s) = Some text -> s = encoded (guess s) text /\ utf8 text.
Proof.
  unfold try_decode. destruct (utf8b s) eqn:U; [|discriminate]. apply utf8b_ok in U. intros [= <-]. unfold guess in *. destruct (starts_with s BOM) eqn:B.
  - apply starts_ok in B. destruct B as [r ->]. split; [reflexivity|]. cbn [skipn length BOM app]. apply (utf8_rest BOM); auto. apply bom_text.
  - auto.
Qed.
Lemma decode_encoded bom s : utf8 s -> bom = true \/ ~ (exists r, s = BOM ++ r) ->
  try_decode (encoded bom s) (guess (encoded bom s)) = Some s /\ guess (encoded bom s) = bom.
Proof.
  intros U H. assert (G : guess (encoded bom s) = bom).
  { unfold guess. destruct bom; [apply starts_ok; now exists s|]. destruct H as [H|H]; [discriminate|]. cbn [encoded app].
    destruct (starts_with s BOM) eqn:B; auto. apply starts_ok in B. tauto. }
  split; auto. rewrite G. unfold try_decode. assert (V : utf8b (encoded bom s) = true).
  { apply utf8b_ok. destruct bom; cbn [encoded]; [apply (utf8_plus BOM); auto; apply bom_text|exact U]. }
  rewrite V. destruct bom; reflexivity.
Qed.
Lemma ends_ok s suffix : ends_with s suffix = true <-> exists u, s = u ++ suffix.
Proof.
  induction s as [|x s IH]; cbn [ends_with]; rewrite orb_true_iff, bytes_eqb_ok.
  - split; [intros [<-|H]; [now exists []|discriminate]|intros [u H]]. symmetry in H. apply app_eq_nil in H. left. now destruct H as [_ ->].
  - rewrite IH. split.
    + intros [<-|[u ->]]; [now exists []|now exists (x :: u)].
    + intros [[|y u] H]; [now left|]. right. injection H as -> ->. now exists u.
Qed.
Lemma finished_ok s newline ending : finished s newline ending (text_for_save s newline ending).
Proof.
  unfold text_for_save, finished. destruct s as [|x s]; [cbn; left; auto|]. destruct newline; cbn [length Nat.ltb Nat.leb negb orb]; [|left; split; [auto|discriminate]].
  destruct (ends_with (x :: s) ending) eqn:E.
  - left. split; auto. intros _. right. now apply ends_ok.
  - right. split; auto. split; auto. split; [discriminate|]. rewrite <- ends_ok, E. discriminate.
Qed.
