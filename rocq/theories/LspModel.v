(** Model of what rust/lsp-lib tells a language server of a text and its edits: conversion_utils.rs and utils.rs. The
    text is asked for through the cache of the plugin, see [PluginCacheModel]. *)
From Coq Require Import List Arith Bool.
From Verif Require Import Base RopeModel DeltaModel PluginCacheModel.
Import ListNotations.

(** [lsp_types::Position]: a line, and UTF-16 code units in it. *)
Definition position : Type := nat * nat.
(** [lsp_types::TextDocumentContentChangeEvent]; [range_length] follows from the delta and is left out. *)
Record change := Change { c_range : option (position * position); c_text : str }.

(** What asks the cache: it may panic, and may give an error; the cache is changed in any case. *)
Definition asks (X : Type) : Type := chunk_cache -> option (chunk_cache * result X).
Definition ret {X} (x : X) : asks X := fun c => Some (c, Ok x).
(** The operator [?]. *)
Definition try {X Y} (m : asks X) (k : X -> asks Y) : asks Y :=
  fun c => let? (c1, r) := m c in match r with Ok x => k x c1 | Err => Some (c1, Err) end.
Definition or_panic {X} (o : option X) : asks X := fun c => let? x := o in Some (c, Ok x).

(** conversion_utils.rs 61-72, [get_position_of_offset]. [count_utf16] of lines 47-59 is that of rope.rs. *)
Definition get_position_of_offset (fuel : nat) (src : source) (offset : nat) : asks position :=
  try (fun c => cc_line_of_offset src c offset) (fun line_num =>
  try (fun c => cc_offset_of_line 1 src c line_num) (fun line_offset =>
  try (fun c => get_line fuel src c line_num) (fun line =>
  try (or_panic (check (line_offset <=? offset) (str_slice line 0 (offset - line_offset)))) (fun s =>
  ret (line_num, count_utf16 s))))).
(** conversion_utils.rs 74-92, [offset_of_position]. The loop over the characters is that of rope.rs 283-305. That there
    is no such line is found out before it, not after. *)
Definition offset_of_position (fuel : nat) (src : source) (p : position) : asks nat :=
  try (fun c => cc_offset_of_line 1 src c (fst p)) (fun line_offset =>
  try (fun c => get_line fuel src c (fst p)) (fun line =>
  try (or_panic (utf16_to_base (length line) line (snd p) 0 0)) (fun n => ret (n + line_offset)))).

(** conversion_utils.rs 94-102, [core_range_from_range]. *)
Definition core_range_from_range (fuel : nat) (src : source) (r : position * position) : asks (nat * nat) :=
  try (offset_of_position fuel src (fst r)) (fun s => try (offset_of_position fuel src (snd r)) (fun e => ret (s, e))).

(** utils.rs 32-93, [get_document_content_changes]. *)
Definition whole (fuel : nat) (src : source) : asks (list change) :=
  try (fun c => get_document fuel src c) (fun text => ret [Change None text]).
Definition get_document_content_changes (fuel : nat) (src : source) (d : option (delta nat)) : asks (list change) :=
  match d with
  | Some d =>
      let '((start, end_), _) := summary d in
      match as_simple_insert d with
      | Some text =>
          try (get_position_of_offset fuel src start) (fun p =>
          try (get_position_of_offset fuel src end_) (fun q => ret [Change (Some (p, q)) text]))
      | None =>
          if is_simple_delete d then
            try (get_position_of_offset fuel src end_) (fun q =>
            try (if snd q =? 0 then
                   try (or_panic (check (1 <=? end_) (Some (end_ - 1)))) (fun before =>
                   try (get_position_of_offset fuel src before) (fun ep => ret (fst ep, snd ep + 1)))
                 else ret q) (fun q' =>
            try (get_position_of_offset fuel src start) (fun p => ret [Change (Some (p, q')) []])))
          else whole fuel src
      end
  | None => whole fuel src
  end.

(** [lsp_types::TextDocumentSyncKind]. *)
Inductive sync := NoSync | FullSync | Incremental.
(** utils.rs 95-125, [get_change_for_sync_kind]; an [unwrap] of an error is a panic. *)
Definition unwrap_whole (fuel : nat) (src : source) (c : chunk_cache) : option (chunk_cache * option (list change)) :=
  let? (c1, r) := whole fuel src c in match r with Ok l => Some (c1, Some l) | Err => None end.
Definition get_change_for_sync_kind (fuel : nat) (src : source) (k : sync) (d : option (delta nat)) (c : chunk_cache) : option (chunk_cache * option (list change)) :=
  match k with
  | NoSync => Some (c, None)
  | FullSync => unwrap_whole fuel src c
  | Incremental =>
      let? (c1, r) := get_document_content_changes fuel src d c in
      match r with Ok l => Some (c1, Some l) | Err => unwrap_whole fuel src c1 end
  end.
