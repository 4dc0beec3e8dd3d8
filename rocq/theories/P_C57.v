(** C57: VHDL character literals keep their character. *)
From Verif Require Import Base AstModel LitModel LitProofs.

(** Characters of one byte. *)
Theorem C57_ascii_partial c :
  visit_character ["'"%char; c; "'"%char] = Ok (EInt (-1) (Digits [c] 256)) /\
  visit_enum_char ["'"%char; c; "'"%char] = Ok (EInt 8 (Digits [c] 256)).
Proof. exact (character_law c). Qed.
Print Assumptions C57_ascii_partial.
Theorem C57_injective_partial c d : visit_character ["'"%char; c; "'"%char] = visit_character ["'"%char; d; "'"%char] -> c = d.
Proof. exact (character_injective c d). Qed.
Print Assumptions C57_injective_partial.
Example C57_ex : visit_character $"'a'" = Ok (EInt (-1) (Digits $"a" 256)).
Proof. reflexivity. Qed.
(** The text of a token is UTF-8.  A character of two bytes loses its second byte, so that
    characters which share the first byte are merged. *)
Theorem C57_utf8_refuted b1 b2 b2' :
  visit_character ["'"%char; b1; b2; "'"%char] = visit_character ["'"%char; b1; b2'; "'"%char] /\
  visit_character ["'"%char; b1; b2; "'"%char] = Ok (EInt (-1) (Digits [b1] 256)).
Proof. exact (character_two_bytes b1 b2 b2'). Qed.
Print Assumptions C57_utf8_refuted.
