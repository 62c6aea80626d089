(** Model of rust/unicode/src/lib.rs 203-264: what kind of character a character is. Characters are code
    points; [decode] is for the characters of a text, which other models have as their bytes. *)
From Coq Require Import List Arith NArith Bool.
From Verif Require Import Base EmojiTables EditOpsModel.
Import ListNotations.
Local Open Scope N_scope.

(** lib.rs 203-218, [is_in_asc_list], for characters; each call halves the range. An index that is out of
    bounds and a subtraction that would wrap are panics. *)
Fixpoint is_in_asc_list (fuel : nat) (c : N) (l : list N) (start stop : nat) : option bool :=
  match fuel with
  | O => None
  | S f =>
      let? a := nth_error l start in
      if c =? a then Some true
      else
        let? b := nth_error l stop in
        if c =? b then Some true
        else if (stop <? start)%nat then None
        else if (stop - start <=? 1)%nat then Some false
        else
          let mid := ((start + stop) / 2)%nat in
          let? m := nth_error l mid in
          if m <=? c then is_in_asc_list f c l mid stop else is_in_asc_list f c l start mid
  end.
(** The calls in lib.rs 245-250: [list.len() - 1] panics for an empty list. *)
Definition is_in_table (l : list N) (c : N) : option bool :=
  if (length l =? 0)%nat then None else is_in_asc_list (length l) c l 0 (length l - 1).

(** lib.rs 220-222, [is_variation_selector]. *)
Definition variation_selector (c : N) : bool := (0xFE00 <=? c) && (c <=? 0xFE0F) || (0xE0100 <=? c) && (c <=? 0xE01EF).
(** lib.rs 236-238, [is_regional_indicator_symbol]. *)
Definition regional_indicator (c : N) : bool := (0x1F1E6 <=? c) && (c <=? 0x1F1FF).
(** lib.rs 239-241, [is_emoji_modifier]. *)
Definition emoji_modifier (c : N) : bool := (0x1F3FB <=? c) && (c <=? 0x1F3FF).
(** lib.rs 242-244, [is_emoji_combining_enclosing_keycap]. *)
Definition enclosing_keycap (c : N) : bool := c =? 0x20E3.
(** lib.rs 245-247, [is_emoji]. *)
Definition emoji (c : N) : option bool := is_in_table EMOJI_TABLE c.
(** lib.rs 248-250, [is_emoji_modifier_base]. *)
Definition emoji_modifier_base (c : N) : option bool := is_in_table EMOJI_MODIFIER_BASE_TABLE c.
(** lib.rs 251-253, [is_tag_spec_char]. *)
Definition tag_spec_char (c : N) : bool := (0xE0020 <=? c) && (c <=? 0xE007E).
(** lib.rs 254-256, [is_emoji_cancel_tag]. *)
Definition emoji_cancel_tag (c : N) : bool := c =? 0xE007F.
(** lib.rs 257-259, [is_zwj]. *)
Definition zwj (c : N) : bool := c =? 0x200D.
(** lib.rs 262-264, [is_keycap_base]. *)
Definition keycap_base (c : N) : bool := (0x30 <=? c) && (c <=? 0x39) || (c =? 0x23) || (c =? 0x2A).

(** The code point of a character given by its bytes. *)
Definition decode (c : list nat) : N :=
  match map N.of_nat c with
  | [a] => a
  | [a; b] => (a - 0xC0) * 64 + (b - 0x80)
  | [a; b; c] => (a - 0xE0) * 4096 + (b - 0x80) * 64 + (c - 0x80)
  | [a; b; c; d] => (a - 0xF0) * 262144 + (b - 0x80) * 4096 + (c - 0x80) * 64 + (d - 0x80)
  | _ => 0
  end.
(** What backspace (backspace.rs 24-197) asks of characters, with the functions above. The two that could
    panic do not ([C63_search]); [false] stands for a panic. *)
Definition sure (o : option bool) : bool := match o with Some b => b | None => false end.
Definition real_props : emoji_props :=
  EmojiProps (fun c => variation_selector (decode c)) (fun c => regional_indicator (decode c)) (fun c => emoji_modifier (decode c))
    (fun c => enclosing_keycap (decode c)) (fun c => sure (emoji (decode c))) (fun c => emoji_cancel_tag (decode c))
    (fun c => keycap_base (decode c)) (fun c => sure (emoji_modifier_base (decode c))) (fun c => zwj (decode c)) (fun c => tag_spec_char (decode c)).
