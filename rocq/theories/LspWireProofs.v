(** Proofs about the reading and writing of messages. *)
From Coq Require Import List Arith Lia Bool ZifyBool String.
From Verif Require Import Base ListLib RopeModel RopeSpec FileModel FileProofs PropertiesPluginCache LspWireModel LspWireSpec.
Import ListNotations.
Open Scope list_scope.
Local Notation length := List.length.

Lemma read_line_cat s : forall l r, read_line s = (l, r) -> s = l ++ r.
Proof.
  induction s as [|b s IH]; cbn; intros l r; [now intros [= <- <-]|]. destruct (b =? 10) eqn:E; [intros [= <- <-]; apply Nat.eqb_eq in E; now subst|]. destruct (read_line s) as [l' r']. intros [= <- <-]. cbn. f_equal. now apply IH.
Qed.
Lemma read_line_one l r : ~ In 10 l -> read_line (l ++ 10 :: r) = (l ++ [10], r).
Proof.
  induction l as [|b l IH]; intros N; cbn; auto. destruct (Nat.eqb_spec b 10); [exfalso; apply N; now left|]. rewrite IH; auto. intros I. apply N. now right.
Qed.
Definition black (s : list nat) : Prop := Forall (fun b => is_space b = false) s.
Lemma trim_start_black s u : black s -> s <> [] -> trim_start (s ++ u) = s ++ u.
Proof. intros [|b l E F] N; [easy|]. cbn. now rewrite E. Qed.
Lemma trim_start_white s u : Forall (fun b => is_space b = true) s -> trim_start (s ++ u) = trim_start u.
Proof. induction 1 as [|b l E F IH]; cbn; auto. now rewrite E. Qed.
Lemma trim_black s u : black s -> s <> [] -> Forall (fun b => is_space b = true) u -> trim (s ++ u) = s.
Proof.
  intros B N W. unfold trim. rewrite trim_start_black by auto. rewrite rev_app_distr, trim_start_white by now apply Forall_rev. rewrite <- (app_nil_r (rev s)), trim_start_black, app_nil_r; [apply rev_involutive|now apply Forall_rev|]. intros E. apply N. now rewrite <- (rev_involutive s), E.
Qed.
Lemma trim_nonempty b s : is_space b = false -> trim (b :: s) <> [].
Proof.
  intros E. unfold trim. cbn [trim_start]. rewrite E. cbn [rev]. intros H. assert (G : forall u, trim_start (u ++ [b]) <> []). { induction u as [|x u IH]; cbn; [now rewrite E|]. destruct (is_space x); [auto|discriminate]. }
  apply (G (rev s)). now rewrite <- (rev_involutive (trim_start _)), H.
Qed.
Lemma split_colon_at k v : ~ In 58 k -> split_colon (k ++ 58 :: 32 :: v) = Some (k, v).
Proof.
  induction k as [|b k IH]; intros N; [reflexivity|]. cbn [app]. assert (X : split_colon (k ++ 58 :: 32 :: v) = Some (k, v)) by (apply IH; intros I; apply N; now right).
  cbn [split_colon]. destruct (k ++ 58 :: 32 :: v) as [|c u] eqn:E; [now destruct k|]. destruct (Nat.eqb_spec b 58); [exfalso; apply N; now left|]. cbn [andb]. rewrite X. reflexivity.
Qed.
Lemma name_lower k name : same_name k name -> to_lowercase k = bytes name \/ exists b, In b (bytes name) /\ 65 <= b <= 90.
Proof.
  unfold same_name. induction 1 as [|b c l u S F IH]; [now left|]. destruct S as [->|[S ->]].
  - destruct IH as [IH|(x & I & H)]; [|right; exists x; split; auto; now right]. destruct ((65 <=? c) && (c <=? 90)) eqn:E; [right; exists c; split; [now left|lia]|left]. unfold to_lowercase in *. cbn [map]. rewrite E. now f_equal.
  - destruct IH as [IH|(x & I & H)]; [|right; exists x; split; auto; now right]. left. unfold to_lowercase in *. cbn [map]. replace ((65 <=? b) && (b <=? 90)) with true by lia. now f_equal.
Qed.
Definition plain (s : list nat) : bool := forallb (fun c => (33 <=? c) && (c <? 128) && negb (c =? 58) && negb ((65 <=? c) && (c <=? 90))) s.
Lemma name_plain k name : same_name k name -> plain (bytes name) = true ->
  to_lowercase k = bytes name /\ black k /\ ~ In 58 k /\ ~ In 10 k /\ Forall (fun b => b < 128) k.
Proof.
  intros S P. unfold plain in P. rewrite forallb_forall in P. split.
  - destruct (name_lower k name S) as [|(b & I & H)]; auto. specialize (P b I). lia.
  - unfold same_name in S. induction S as [|b c l u S F IH]; [repeat split; [constructor|easy|easy|constructor]|].
    destruct IH as (I1 & I2 & I3 & I4); [intros x I; apply P; now right|]. specialize (P c (or_introl eq_refl)). assert (X : is_space b = false /\ b <> 58 /\ b <> 10 /\ b < 128) by (unfold is_space; destruct S as [->|[S ->]]; lia). destruct X as (X1 & X2 & X3 & X4).
    split; [now constructor|]. split; [intros [E|E]; auto|]. split; [intros [E|E]; auto|now constructor].
Qed.
Lemma digits_number d : Forall (fun b => 48 <= b <= 57) d -> forall acc, digits acc d = Some (fold_left (fun a b => 10 * a + (b - 48)) d acc).
Proof. induction 1 as [|b l H F IH]; intros acc; cbn [digits fold_left]; auto. replace ((48 <=? b) && (b <=? 57)) with true by lia. rewrite IH. do 2 f_equal. lia. Qed.
Lemma digits_black d : Forall (fun b => 48 <= b <= 57) d -> black d /\ to_lowercase d = d /\ ~ In 10 d /\ Forall (fun b => b < 128) d.
Proof.
  induction 1 as [|b l H F (I1 & I2 & I3 & I4)]; [repeat split; auto; constructor|]. split; [constructor; auto; unfold is_space; lia|]. split; [|split; [intros [E|E]; [lia|auto]|constructor; auto; lia]].
  unfold to_lowercase in *. cbn [map]. replace ((65 <=? b) && (b <=? 90)) with false by lia. now f_equal.
Qed.
Lemma list_eqb_refl s : list_eqb s s = true. Proof. unfold list_eqb. now destruct (list_eq_dec _ s s). Qed.
Lemma parse_length n l : length_field n l -> parse_header (l ++ [13; 10]) = Some (ContentLength n) /\ ~ In 10 l /\ Forall (fun b => b < 128) l /\ exists b u, l = b :: u /\ is_space b = false.
Proof.
  intros (k & d & K & Nd & D & <- & ->). destruct (name_plain _ _ K eq_refl) as (L & B & N58 & N10 & A). destruct (digits_black d D) as (B' & L' & N10' & A').
  assert (Nk : k <> []) by (intros ->; inversion K). split.
  - unfold parse_header. rewrite <- !app_assoc. cbn [app]. rewrite split_colon_at by auto. cbn [bind]. rewrite <- (app_nil_r k), trim_black, L by auto. rewrite (trim_black d [13; 10]), L' by (auto; repeat constructor).
    replace (list_eqb (bytes "content-length") (bytes "content-type")) with false by reflexivity. rewrite list_eqb_refl. destruct d as [|b d]; [easy|]. unfold parse_number. inversion D as [|? ? Hb D']; subst. replace (b =? 43) with false by lia. rewrite digits_number by auto. reflexivity.
  - split; [rewrite !in_app_iff; intros [I|[I|I]]; auto; cbn in I; lia|]. split; [apply Forall_app; split; auto; apply Forall_app; split; auto; repeat constructor; lia|]. destruct k as [|b u]; [easy|]. exists b, (u ++ [58; 32] ++ d). split; auto. now inversion B.
Qed.
Lemma parse_type l : type_field l -> parse_header (l ++ [13; 10]) = Some ContentType /\ ~ In 10 l /\ Forall (fun b => b < 128) l /\ exists b u, l = b :: u /\ is_space b = false.
Proof.
  intros (k & v & K & D & ->). destruct (name_plain _ _ K eq_refl) as (L & B & N58 & N10 & A). assert (Nk : k <> []) by (intros ->; inversion K). split.
  - unfold parse_header. rewrite <- !app_assoc. cbn [app]. rewrite split_colon_at by auto. cbn [bind]. rewrite <- (app_nil_r k), trim_black, L by auto. now rewrite list_eqb_refl.
  - assert (Fv : Forall (fun b => b < 128) v /\ ~ In 10 v). { rewrite Forall_forall in D. split; [apply Forall_forall; intros x I; now apply D|]. intros I. now apply D in I. } destruct Fv.
    split; [rewrite !in_app_iff; intros [I|[I|I]]; auto; cbn in I; lia|]. split; [apply Forall_app; split; auto; apply Forall_app; split; auto; repeat constructor; lia|]. destruct k as [|b u]; [easy|]. exists b, (u ++ [58; 32] ++ v). split; auto. now inversion B.
Qed.
Lemma line_step f l r len h : parse_header (l ++ [13; 10]) = Some h -> ~ In 10 l -> Forall (fun b => b < 128) l -> (exists b u, l = b :: u /\ is_space b = false) ->
  read_headers (S f) (l ++ [13; 10] ++ r) len = match h with ContentType => read_headers f r len | ContentLength n => read_headers f r (Some n) end.
Proof.
  intros P N A (b & u & E & Hb). cbn [read_headers]. replace (l ++ [13; 10] ++ r) with ((l ++ [13]) ++ 10 :: r) by (rewrite <- app_assoc; reflexivity).
  rewrite read_line_one by (rewrite in_app_iff; intros [I|[I|[]]]; [auto|lia]). rewrite <- app_assoc. cbn [app]. replace (utf8b (l ++ [13; 10])) with true; [|symmetry; apply utf8b_ok, ascii_utf8, Forall_app; split; auto; repeat constructor; lia].
  destruct (trim (l ++ [13; 10])) eqn:T; [exfalso; subst l; revert T; now apply trim_nonempty|]. rewrite P. now destruct h.
Qed.
Lemma headers_ok n fields : Forall (fun l => length_field n l \/ type_field l) fields -> forall fuel len rest, length fields < fuel -> len = Some n \/ Exists (length_field n) fields ->
  read_headers fuel (flat_map (fun l => l ++ [13; 10]) fields ++ [13; 10] ++ rest) len = (Some (Some n), rest).
Proof.
  induction 1 as [|l fields H F IH]; intros fuel len rest Hf Hl; (destruct fuel as [|fuel]; [cbn in Hf; lia|]); cbn [length] in Hf.
  - destruct Hl as [->|Hl]; [reflexivity|inversion Hl].
  - cbn [flat_map]. rewrite <- !app_assoc. assert (G : length_field n l -> read_headers (S fuel) (l ++ [13; 10] ++ flat_map (fun l => l ++ [13; 10]) fields ++ [13; 10] ++ rest) len = (Some (Some n), rest)).
    { intros L. destruct (parse_length n l L) as (P & N & A & X). rewrite (line_step fuel l _ len _ P N A X). apply IH; [lia|now left]. }
    destruct H as [H|H]; [now apply G|]. destruct Hl as [->|Hl].
    + destruct (parse_type l H) as (P & N & A & X). rewrite (line_step fuel l _ _ _ P N A X). apply IH; [lia|now left].
    + inversion Hl as [? ? L|? ? L]; subst; [now apply G|]. destruct (parse_type l H) as (P & N & A & X). rewrite (line_step fuel l _ _ _ P N A X). apply IH; [lia|now right].
Qed.
Lemma fields_length fields (u : list nat) : length fields <= length (flat_map (fun l => l ++ [13; 10]) fields ++ u).
Proof. induction fields as [|l fields IH]; cbn; [lia|]. rewrite app_length in *. rewrite !app_length in *. cbn. lia. Qed.
Lemma read_frame m s rest : utf8 m -> framed m s -> read_message (s ++ rest) = (Some m, rest).
Proof.
  intros U (fields & F & X & ->). unfold read_message. rewrite <- !app_assoc. rewrite (headers_ok (length m) fields F); [|pose proof (fields_length fields ([13; 10] ++ m ++ rest)); lia|now right].
  rewrite app_length. replace (length m <=? length m + length rest) with true by lia. rewrite firstn_app_exact, skipn_app_exact by auto. apply utf8b_ok in U. now rewrite U.
Qed.
Lemma read_cut m s k : framed m s -> k < length m -> read_message (firstn (length s - length m + k) s) = (None, []).
Proof.
  intros (fields & F & X & ->) Hk. set (hs := flat_map _ _). rewrite !app_length. replace (length hs + (length [13; 10] + length m) - length m + k) with (length (hs ++ [13; 10]) + k) by (rewrite app_length; cbn; lia).
  rewrite app_assoc, firstn_app_2. unfold read_message. rewrite <- app_assoc. unfold hs. rewrite (headers_ok (length m) fields F); [|pose proof (fields_length fields ([13; 10] ++ firstn k m)); lia|now right].
  replace (length m <=? length (firstn k m)) with false by (rewrite firstn_length; lia). reflexivity.
Qed.
Lemma headers_cat fuel : forall s len x r, read_headers fuel s len = (x, r) -> exists h, s = h ++ r.
Proof.
  induction fuel as [|f IH]; intros s len x r; cbn [read_headers]; [intros [= <- <-]; now exists []|]. destruct (read_line s) as [l r'] eqn:E. apply read_line_cat in E. subst s.
  assert (G : forall len', read_headers f r' len' = (x, r) -> exists h, l ++ r' = h ++ r) by (intros len' H; destruct (IH _ _ _ _ H) as [h ->]; exists (l ++ h); now rewrite app_assoc).
  destruct (trim _); [intros [= <- <-]; now exists l|]. destruct (parse_header _) as [[|len1]|]; [apply G|apply G|intros [= <- <-]; now exists l].
Qed.
Lemma display_ok fuel : forall n, n < fuel -> number (display fuel n) = n /\ Forall (fun b => 48 <= b <= 57) (display fuel n) /\ display fuel n <> [].
Proof.
  induction fuel as [|f IH]; intros n H; [lia|]. cbn [display]. destruct (Nat.ltb_spec n 10).
  - split; [unfold number; cbn; lia|]. split; [constructor; auto; lia|discriminate].
  - pose proof (Nat.div_lt n 10 ltac:(lia) ltac:(lia)). pose proof (Nat.div_mod n 10 ltac:(lia)). pose proof (Nat.mod_upper_bound n 10 ltac:(lia)). set (q := n / 10) in *. set (m := n mod 10) in *. destruct (IH q ltac:(lia)) as (I1 & I2 & I3).
    split; [unfold number in *; rewrite fold_left_app, I1; cbn [fold_left]; lia|]. split; [apply Forall_app; split; auto; constructor; auto; lia|]. intros E. now apply app_eq_nil in E.
Qed.
Lemma prepare_framed m : framed m (prepare_lsp_json m).
Proof.
  destruct (display_ok (S (length m)) (length m) ltac:(lia)) as (D1 & D2 & D3).
  assert (L : length_field (length m) (bytes "Content-Length: " ++ display (S (length m)) (length m))).
  { exists (bytes "Content-Length"), (display (S (length m)) (length m)). split; [|repeat split; auto]. unfold same_name. vm_compute bytes. repeat (constructor; [unfold same_letter; lia|]). constructor. }
  eexists [_]. split; [constructor; [left; exact L|constructor]|]. split; [now constructor|]. unfold prepare_lsp_json. cbn [flat_map]. rewrite app_nil_r, <- !app_assoc. reflexivity.
Qed.
