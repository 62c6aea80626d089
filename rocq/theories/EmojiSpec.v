(** Emoji, by code points: characters and sequences of characters that are seen as one (UTS 51). *)
From Coq Require Import List Arith NArith.
From Verif Require Import EmojiTables.
Import ListNotations.
Local Open Scope N_scope.

(** The characters that are emoji, and those that take a skin tone. *)
Definition is_emoji_char (c : N) : Prop := In c EMOJI_TABLE.
Definition takes_tone (c : N) : Prop := In c EMOJI_MODIFIER_BASE_TABLE.
Definition tone (c : N) : Prop := 0x1F3FB <= c <= 0x1F3FF.
Definition indicator (c : N) : Prop := 0x1F1E6 <= c <= 0x1F1FF.
Definition selector (c : N) : Prop := 0xFE00 <= c <= 0xFE0F \/ 0xE0100 <= c <= 0xE01EF.
Definition JOINER : N := 0x200D.
(** A picture: an emoji that is not a half of a flag or a skin tone. *)
Definition picture (c : N) : Prop := is_emoji_char c /\ ~ indicator c /\ ~ tone c.

(** An element of an emoji sequence: a picture, perhaps with a variation selector; or a picture with a skin tone. *)
Inductive plain : list N -> Prop :=
| plain_char e : picture e -> plain [e]
| plain_selected e v : picture e -> selector v -> plain [e; v].
Inductive toned : list N -> Prop :=
| toned_char b m : takes_tone b -> tone m -> toned [b; m]
| toned_selected b v m : takes_tone b -> selector v -> tone m -> toned [b; v; m].
Definition element (x : list N) : Prop := plain x \/ toned x.
(** Elements joined by zero width joiners. *)
Fixpoint joined (els : list (list N)) : list N :=
  match els with [] => [] | [x] => x | x :: els' => x ++ JOINER :: joined els' end.

(** The characters are one emoji, standing after [a]; [later] is what an element after the first can be: [element],
    or, where no element but the first has a skin tone, [plain]. *)
Inductive one_emoji (later : list N -> Prop) (a : list N) : list N -> Prop :=
| one_joined x els : element x -> Forall later els -> (plain x -> forall a', a <> a' ++ [JOINER]) -> one_emoji later a (joined (x :: els))
| one_flag a0 fs x y : a = a0 ++ fs -> (forall a' c, a0 = a' ++ [c] -> ~ indicator c) -> Forall indicator fs -> Nat.Even (length fs) ->
    indicator x -> indicator y -> one_emoji later a [x; y]
| one_keycap b : In b [0x23; 0x2A; 0x30; 0x31; 0x32; 0x33; 0x34; 0x35; 0x36; 0x37; 0x38; 0x39] -> one_emoji later a [b; 0x20E3]
| one_keycap_selected b v : In b [0x23; 0x2A; 0x30; 0x31; 0x32; 0x33; 0x34; 0x35; 0x36; 0x37; 0x38; 0x39] -> selector v -> one_emoji later a [b; v; 0x20E3]
| one_tagged e ts : picture e -> Forall (fun t => 0xE0020 <= t <= 0xE007E) ts -> one_emoji later a (e :: ts ++ [0xE007F]).
