(** Messages as the language server protocol has them: header fields, each on a line, an empty line, and the content. *)
From Coq Require Import List Arith.
From Verif Require Import Base RopeSpec LspWireModel.
From Coq Require Import String.
Import ListNotations.
Open Scope list_scope.

(** The number a sequence of decimal digits stands for. *)
Definition number (s : list nat) : nat := fold_left (fun a b => 10 * a + (b - 48)) s 0.
(** The same but for the case of letters. *)
Definition same_letter (b c : nat) : Prop := b = c \/ 65 <= b <= 90 /\ c = b + 32.
Definition same_name (s : list nat) (name : string) : Prop := Forall2 same_letter s (bytes name).
(** A field with the length of the content, and one with its type, in ASCII. *)
Definition length_field (n : nat) (l : list nat) : Prop :=
  exists k d, same_name k "content-length" /\ d <> [] /\ Forall (fun b => 48 <= b <= 57) d /\ number d = n /\ l = k ++ [58; 32] ++ d.
Definition type_field (l : list nat) : Prop :=
  exists k v, same_name k "content-type" /\ Forall (fun b => b < 128 /\ b <> 10) v /\ l = k ++ [58; 32] ++ v.
Definition framed (m s : list nat) : Prop :=
  exists fields, Forall (fun l => length_field (List.length m) l \/ type_field l) fields /\ Exists (length_field (List.length m)) fields /\
    s = flat_map (fun l => l ++ [13; 10]) fields ++ [13; 10] ++ m.
