(** The final newline, on the rope. *)
From Coq Require Import List Arith Lia Bool ZifyBool.
From Verif Require Import Base ListLib TreeModel TreeSpec TreeProofs MetricProofs CursorModel CursorProofs RopeModel RopeSpec RopeProofs RopeIterProofs
  FindModel FileModel FileSpec FileProofs.
Import ListNotations.
Local Notation concat := List.concat.
Local Notation idl := (fun s : list nat => s).

(** Looking at the last leaf is enough. *)
Lemma ends_leaf (a l ending : str) : length ending <= length l \/ a = [] -> ends_with (a ++ l) ending = ends_with l ending.
Proof.
  intros H. destruct H as [H|H]; [|now rewrite H]. apply eq_true_iff_eq. rewrite !ends_ok. split.
  - intros (u & E). pose proof (f_equal (@length nat) E) as LE. rewrite !app_length in LE. exists (skipn (length a) u). apply (f_equal (skipn (length a))) in E. rewrite skipn_app, skipn_all, Nat.sub_diag in E. cbn [skipn app] in E.
    rewrite E, skipn_app. replace (length a - length u) with 0 by lia. reflexivity.
  - intros (u & ->). exists (a ++ u). now rewrite app_assoc.
Qed.
Theorem save_rope_ok h r newline ending : rope_wf h r -> utf8 ending -> length ending <= MIN_LEAF ->
  exists r' h', text_for_save_rope r newline ending = Some r' /\ rope_wf h' r' /\ rcontent r' = text_for_save (rcontent r) newline ending.
Proof.
  intros W U B. unfold text_for_save_rope. rewrite (len_r r h W). unfold text_for_save.
  destruct ((length (rcontent r) <? 1) || negb newline); [exists r, h; auto|].
  destruct (new_ok rope_ops idl leafV compute_info r h W (length (rcontent r))) as (c & l & pre & post & -> & P & (p & R & CL & CO & _) & G1 & G2); [auto|].
  cbn [bind]. unfold c_get_leaf. rewrite CL. replace (c_pos c <? c_off c) with false by lia. cbn [bind fst].
  pose proof (route_total rope_ops idl leafV compute_info r h W p l pre post R) as T.
  assert (PO : post = []). { destruct G2 as [G2|[_ G2]]; auto. exfalso. unfold rcontent in *. lia. }
  pose proof (route_content rope_ops idl leafV compute_info r h W p l pre post R) as E. subst post. cbn [flat_map] in E. rewrite app_nil_r in E.
  assert (EW : ends_with (rcontent r) ending = ends_with l ending).
  { change (rcontent r) with (content idl r). rewrite E. apply ends_leaf. pose proof (route_leaves r p l pre [] R) as RL.
    destruct pre as [|x pre]; [now right|]. left.
    assert (H : Forall (fun l => MIN_LEAF <= length l) (leaves r)).
    { apply (leaves_big h r W). destruct h as [|h]; [|right; lia]. destruct r; [|destruct W]. cbn [leaves] in RL. injection RL as _ RL. symmetry in RL. now apply app_eq_nil in RL as [_ RL]. }
    rewrite RL in H. apply Forall_app in H. destruct H as [_ H]. inversion H; subst. lia. }
  rewrite EW. destruct (ends_with l ending); [exists r, h; auto|].
  destruct (rope_edit_ok h r (length (rcontent r)) (length (rcontent r)) ending W U (le_n _) (cb_len _) (cb_len _)) as (r' & h' & -> & W' & C).
  exists r', h'. split; auto. split; auto. now rewrite C, firstn_all, skipn_all, app_nil_r.
Qed.
