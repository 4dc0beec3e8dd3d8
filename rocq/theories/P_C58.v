(** C58: Verilog string literals reach the user verbatim. *)
From Verif Require Import Base AstModel LitModel LitProofs.

Theorem C58_verbatim s : visit_string (dq :: s ++ [dq]) = Ok (EStr s).
Proof. exact (sv_string_law s). Qed.
Print Assumptions C58_verbatim.
Theorem C58_injective s t : visit_string (dq :: s ++ [dq]) = visit_string (dq :: t ++ [dq]) -> s = t.
Proof. exact (sv_string_injective s t). Qed.
Print Assumptions C58_injective.
Example C58_ex : visit_string $"""a\""b""" = Ok (EStr $"a\""b").
Proof. vm_compute. reflexivity. Qed.
