(** Model of [get_workspace_root_uri] of rust/lsp-lib/src/utils.rs. *)
From Coq Require Import List Arith Bool.
Import ListNotations.

(** An absolute path: the names from the root on. *)
Definition path : Type := list nat.
(** [Path::parent]. *)
Definition parent (p : path) : option path := match p with [] => None | _ => Some (removelast p) end.
(** What [read_dir] gives: an error, or entries, each of which may be an error. *)
Definition tree : Type := path -> option (list (option nat)).
(** [Error::PathError], and an error of [read_dir]. That an absolute path has no URL is left out. *)
Inductive found := Root (p : path) | PathError | IoError.
(** utils.rs 140-146, the loop over the entries of a folder. *)
Fixpoint has_entry (name : nat) (l : list (option nat)) : bool :=
  match l with
  | [] => false
  | Some n :: l' => if n =? name then true else has_entry name l'
  | None :: l' => has_entry name l'
  end.
(** utils.rs 127-152, [get_workspace_root_uri]. [fuel] bounds the folders. *)
Fixpoint climb (fuel : nat) (t : tree) (name : nat) (current : path) : found :=
  match fuel with
  | 0 => PathError
  | S f =>
      match parent current with
      | Some p => match t p with None => IoError | Some l => if has_entry name l then Root p else climb f t name p end
      | None => PathError
      end
  end.
Definition get_workspace_root (t : tree) (name : nat) (doc : path) : found := climb (S (length doc)) t name doc.
