(** What is expected of opening and saving files. *)
From Coq Require Import List Arith Bool.
From Verif Require Import Base RopeModel RopeSpec FileModel.
Import ListNotations.

(** The bytes of a text in a file, with or without a byte order mark. *)
Definition encoded (bom : bool) (s : str) : str := (if bom then [239; 187; 191] else []) ++ s.
(** The text that is saved: [s], with the line ending added if asked for and if [s] is not empty
    and does not end with it. *)
Definition finished (s : str) (newline : bool) (ending r : str) : Prop :=
  (r = s /\ (newline = true -> s = [] \/ exists u, s = u ++ ending))
  \/ (r = s ++ ending /\ newline = true /\ s <> [] /\ ~ exists u, s = u ++ ending).
(** The name [.swp] is added to. *)
Definition swap (p : path) : path := Path (p_dir p) (p_name p ++ [46; 115; 119; 112]).

(** The file a buffer belongs to, and its text. *)
Definition path_of (c : core) (id : nat) : option path :=
  match get_info (k_files c) id with Some i => Some (i_path i) | None => None end.
Definition text_of (c : core) (id : nat) : option str :=
  match List.find (fun p => fst p =? id) (k_editors c) with Some (_, e) => Some (e_text e) | None => None end.
(** The bytes that were last read from, or written to, the file of a buffer. *)
Definition known (id : nat) (ms : list output) : option str :=
  fold_left (fun k m => match m with
                        | Loaded j b => if j =? id then Some b else k
                        | Wrote j b => if j =? id then Some b else k
                        | _ => k end) ms None.

(** Beside the core: which files others have changed since they were last opened or saved, or the
    editor was last told of a change of them, and the times that files have had. *)
Record world := { w_unseen : path -> bool; w_times : path -> list nat }.
Definition add_time (w : path -> list nat) (p : path) (t : nat) : path -> list nat :=
  fun q => if path_eqb q p then t :: w q else w q.
Definition set_unseen (w : path -> bool) (p : path) (b : bool) : path -> bool := fun q => if path_eqb q p then b else w q.
Definition w_step (w : world) (e : event) : world :=
  match e with
  | Open p _ => {| w_unseen := set_unseen (w_unseen w) p false; w_times := w_times w |}
  | Save _ p _ _ _ t _ _ => {| w_unseen := set_unseen (w_unseen w) p false; w_times := add_time (add_time (w_times w) p t) (tmp_path p) t |}
  | Other p f => {| w_unseen := set_unseen (w_unseen w) p true;
                    w_times := match f with Some f => add_time (w_times w) p (f_time f) | None => w_times w end |}
  | Notified p _ => {| w_unseen := set_unseen (w_unseen w) p false; w_times := w_times w |}
  | _ => w
  end.
Definition w_start (d : disk) : world :=
  {| w_unseen := fun _ => false; w_times := fun p => match d p with Some f => [f_time f] | None => [] end |}.

(** With care: a file is open in one buffer only, nobody changes it in the middle of its being
    read or written, or gives it a time it had before, a buffer is saved to its own file only
    when the editor has been told of every change of that, and no open file has the name of a
    temporary one. *)
Definition careful (c : core) (w : world) (e : event) : Prop :=
  match e with
  | Open p x => x = None /\ forall id, path_of c id <> Some p
  | Save id p _ _ _ _ _ x =>
      x = None /\ (forall j, j <> id -> path_of c j <> Some p) /\ (forall j, path_of c j <> Some (tmp_path p))
      /\ (path_of c id = Some p -> w_unseen w p = false)
  | Other p (Some f) => ~ In (f_time f) (w_times w p)
  | _ => True
  end.
Section Careful.
Context (chunks : str -> list str).
Fixpoint careful_all (c : core) (w : world) (es : list event) : Prop :=
  match es with
  | [] => True
  | e :: es' => careful c w e /\ match step chunks c e with Some r => careful_all (fst r) (w_step w e) es' | None => True end
  end.
(** No file is gone when the editor is told of a change of it. *)
Definition present (c : core) (e : event) : Prop := match e with Notified p _ => k_disk c p <> None | _ => True end.
Fixpoint present_all (c : core) (es : list event) : Prop :=
  match es with
  | [] => True
  | e :: es' => present c e /\ match step chunks c e with Some r => present_all (fst r) es' | None => True end
  end.
Fixpoint w_run (w : world) (es : list event) : world := match es with [] => w | e :: es' => w_run (w_step w e) es' end.
End Careful.
