(** C67: messages to and from a language server. *)
From Coq Require Import List Arith Lia Bool String.
From Verif Require Import Base ListLib RopeModel RopeSpec FileModel FileProofs PropertiesPluginCache LspWireModel LspWireSpec LspWireProofs.
Import ListNotations.
Open Scope list_scope.
Local Notation length := List.length.

(** What is written is a message of the protocol. *)
Theorem C67_write : forall m, framed m (prepare_lsp_json m).
Proof. exact prepare_framed. Qed.
Print Assumptions C67_write.
(** A message of the protocol is read whole, and nothing of what follows it: with fields in any order, with names in any case. *)
Theorem C67_read : forall m s rest, utf8 m -> framed m s -> read_message (s ++ rest) = (Some m, rest).
Proof. exact read_frame. Qed.
Print Assumptions C67_read.
(** So all messages of a stream are read, in order. *)
Theorem C67_stream : forall ms ss rest, Forall utf8 ms -> Forall2 framed ms ss -> rounds (length ms) (List.concat ss ++ rest) = (map Some ms, rest).
Proof.
  intros ms ss rest U F. induction F as [|m s ms ss H F IH]; [reflexivity|]. inversion U as [|? ? Um Us]; subst. cbn [length rounds List.concat map]. rewrite <- app_assoc, (read_frame m s _ Um H), IH by auto. reflexivity.
Qed.
Print Assumptions C67_stream.
(** A stream that ends inside a message gives no part of it. *)
Theorem C67_cut : forall m s k, framed m s -> k < length m -> read_message (firstn (length s - length m + k) s) = (None, []).
Proof. exact read_cut. Qed.
Print Assumptions C67_cut.
(** Whatever a stream has, a message read is text that is in the stream right before what is left of it. *)
Theorem C67_any : forall s m r, read_message s = (Some m, r) -> utf8 m /\ exists h, s = h ++ m ++ r.
Proof.
  intros s m r. unfold read_message. destruct (read_headers _ s None) as [x r'] eqn:E. destruct (headers_cat _ _ _ _ _ E) as [h ->]. destruct x as [[n|]|]; try discriminate. destruct (n <=? length r'); [|discriminate]. destruct (utf8b (firstn n r')) eqn:U; [|discriminate]. intros [= <- <-]. split; [now apply utf8b_ok|]. exists h. now rewrite firstn_skipn.
Qed.
Print Assumptions C67_any.
(** When the stream has ended the thread that reads it does not stop: each round gives an error, at once. *)
Theorem C67_end_refuted : forall n, rounds n [] = (repeat None n, []).
Proof. induction n as [|n IH]; [reflexivity|]. cbn [rounds repeat]. replace (read_message []) with (@None (list nat), @nil nat) by reflexivity. now rewrite IH. Qed.
Print Assumptions C67_end_refuted.
(** After a field it does not know the content of a message is taken for fields, and the next message is lost too: *)
Theorem C67_field_refuted : exists m m' s' ms r, utf8 m /\ utf8 m' /\ framed m' s' /\
  rounds 9 (bytes "Content-Length: 2" ++ [13; 10] ++ bytes "X-Server: 1" ++ [13; 10; 13; 10] ++ m ++ s') = (ms, r) /\ ~ In (Some m') ms /\ r = [] /\ length m = 2.
Proof.
  exists (bytes "{}"), (bytes "[1]"), (prepare_lsp_json (bytes "[1]")). eexists _, _. split; [apply ascii_utf8; vm_compute bytes; repeat constructor; lia|]. split; [apply ascii_utf8; vm_compute bytes; repeat constructor; lia|]. split; [apply prepare_framed|].
  split; [vm_compute; reflexivity|]. split; [|split; reflexivity]. cbn [In]. intuition discriminate.
Qed.
Print Assumptions C67_field_refuted.
(** A line that is not text is taken for the empty line at the end of the header, so that what comes after it is handed on as the
    content: *)
Theorem C67_line_refuted : forall n l m rest, length_field n l -> n = length m -> utf8 m -> read_message (l ++ [13; 10] ++ [255; 10] ++ m ++ rest) = (Some m, rest).
Proof.
  intros n l m rest L -> U. destruct (parse_length _ l L) as (P & N & A & X). unfold read_message. rewrite (line_step _ l _ None _ P N A X).
  assert (E : forall f r, read_headers (S f) ([255; 10] ++ r) (Some (length m)) = (Some (Some (length m)), r)) by reflexivity. destruct (length (l ++ [13; 10] ++ [255; 10] ++ m ++ rest)) as [|f] eqn:Z; [rewrite app_length in Z; cbn in Z; lia|]. rewrite E.
  rewrite app_length. replace (length m <=? length m + length rest) with true by (symmetry; apply Nat.leb_le; lia). rewrite firstn_app_exact, skipn_app_exact by auto. apply utf8b_ok in U. now rewrite U.
Qed.
Print Assumptions C67_line_refuted.

(** ** Cases *)
Definition ex_m1 : list nat := bytes "{""id"":1}".
Definition ex_m2 : list nat := [34; 195; 169; 10; 34].
Definition ex_s2 : list nat := bytes "content-TYPE: utf-8" ++ [13; 10] ++ bytes "CONTENT-length: 005" ++ [13; 10; 13; 10] ++ ex_m2.
Lemma ex_framed : framed ex_m1 (prepare_lsp_json ex_m1) /\ framed ex_m2 ex_s2 /\ utf8 ex_m1 /\ utf8 ex_m2.
Proof.
  split; [apply prepare_framed|]. split; [|split; [apply ascii_utf8; vm_compute ex_m1; repeat constructor; lia|exists [[34]; [195; 169]; [10]; [34]]; split; [repeat constructor|reflexivity]]].
  assert (L : length_field 5 (bytes "CONTENT-length: 005")).
  { exists (bytes "CONTENT-length"), [48; 48; 53]. split; [unfold same_name; vm_compute bytes; repeat (constructor; [unfold same_letter; lia|]); constructor|]. split; [discriminate|]. split; [repeat constructor; lia|]. split; reflexivity. }
  assert (Ty : type_field (bytes "content-TYPE: utf-8")).
  { exists (bytes "content-TYPE"), (bytes "utf-8"). split; [unfold same_name; vm_compute bytes; repeat (constructor; [unfold same_letter; lia|]); constructor|]. split; [vm_compute bytes; repeat constructor; lia|reflexivity]. }
  exists [bytes "content-TYPE: utf-8"; bytes "CONTENT-length: 005"]. split; [constructor; [now right|]; constructor; [now left|constructor]|]. split; [apply Exists_cons_tl; now constructor|reflexivity].
Qed.
Example ex_stream : rounds 2 (prepare_lsp_json ex_m1 ++ ex_s2 ++ [67]) = ([Some ex_m1; Some ex_m2], [67]).
Proof.
  destruct ex_framed as (F1 & F2 & U1 & U2). pose proof (C67_stream [ex_m1; ex_m2] [prepare_lsp_json ex_m1; ex_s2] [67]) as H. cbn [List.concat length map] in H. rewrite app_nil_r, <- app_assoc in H. apply H; auto.
Qed.
Example ex_cut : read_message (firstn (length (prepare_lsp_json ex_m1) - length ex_m1 + 3) (prepare_lsp_json ex_m1)) = (None, []).
Proof. apply C67_cut; [apply prepare_framed|vm_compute; lia]. Qed.
Example ex_write : prepare_lsp_json ex_m1 = bytes "Content-Length: 8" ++ [13; 10; 13; 10] ++ bytes "{""id"":1}".
Proof. vm_compute. reflexivity. Qed.
