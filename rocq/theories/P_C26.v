(** C26: VHDL string literals are unescaped exactly. *)
From Verif Require Import Base AstModel LitModel LitSpec LitProofs.

Theorem C26_unescaped s : visit_vhdl_string (spell_string s) = Ok (EStr s).
Proof. exact (string_law s). Qed.
Print Assumptions C26_unescaped.
Theorem C26_injective s t : visit_vhdl_string (spell_string s) = visit_vhdl_string (spell_string t) -> s = t.
Proof. exact (string_injective s t). Qed.
Print Assumptions C26_injective.
Example C26_ex : spell_string ($"a" ++ [dq; dq] ++ $"b") = [dq] ++ $"a" ++ [dq; dq; dq; dq] ++ $"b" ++ [dq] /\
  visit_vhdl_string ([dq] ++ $"a" ++ [dq; dq; dq; dq] ++ $"b" ++ [dq]) = Ok (EStr ($"a" ++ [dq; dq] ++ $"b")).
Proof. vm_compute. split; reflexivity. Qed.
