(** C56: escaped identifiers are the same wherever they are written. *)
From Verif Require Import Base AstModel LitModel LitProofs.

(** The name is the token without the backslash; it includes the white space that ends the token. *)
Theorem C56_text_partial name w : visit_escaped_id (bs :: name ++ w) = Ok (name ++ w).
Proof. exact (escaped_id_law name w). Qed.
Print Assumptions C56_text_partial.
(** Hence every two uses followed by different white space have different names. *)
Theorem C56_white_space_refuted name w w' : w <> w' -> visit_escaped_id (bs :: name ++ w) <> visit_escaped_id (bs :: name ++ w').
Proof. exact (escaped_id_differ name w w'). Qed.
Print Assumptions C56_white_space_refuted.
Example C56_ex : visit_escaped_id (bs :: $"a+b ") = Ok $"a+b " /\ visit_escaped_id (bs :: $"a+b" ++ [nl]) = Ok ($"a+b" ++ [nl]).
Proof. vm_compute. split; reflexivity. Qed.
