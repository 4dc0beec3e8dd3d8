(** C25: VHDL abstract literals keep their value. *)
From Verif Require Import Base AstModel LitModel LitSpec LitProofs.

(** Decimal integers without underscore and exponent that fit an int. *)
Theorem C25_decimal_partial s : Forall (fun c => is_digit c = true) s -> (value 10 s <= 2147483647)%Z ->
  visit_decimal s = Ok (EInt (-1) (Val (value 10 s))).
Proof. exact (decimal_value s). Qed.
Print Assumptions C25_decimal_partial.
Example C25_ex : visit_decimal $"0042" = Ok (EInt (-1) (Val 42)).
Proof. vm_compute. reflexivity. Qed.

(** Larger integers are undefined behaviour, an underscore cuts the literal, based literals keep the
    hash sign in front of their digits and lose the exponent: for every such literal. *)
Theorem C25_large_refuted s : Forall (fun c => is_digit c = true) s -> (2147483647 < value 10 s)%Z -> exists w, visit_decimal s = UB w.
Proof. exact (decimal_large s). Qed.
Print Assumptions C25_large_refuted.
Theorem C25_underscore_refuted s r : Forall (fun c => is_digit c = true) s -> Forall (fun c => is_digit c = true \/ c = "_"%char) r ->
  (value 10 s <= 2147483647)%Z -> visit_decimal (s ++ "_"%char :: r) = Ok (EInt (-1) (Val (value 10 s))).
Proof. exact (decimal_underscore_law s r). Qed.
Print Assumptions C25_underscore_refuted.
Theorem C25_based_refuted b d e : Forall (fun c => is_digit c = true) b -> (value 10 b <= 2147483647)%Z -> ~ In "#"%char d ->
  visit_based_literal (b ++ "#"%char :: d ++ "#"%char :: e) = Ok (EInt (-1) (Digits ("#"%char :: d) (value 10 b))).
Proof. exact (based_literal_law b d e). Qed.
Print Assumptions C25_based_refuted.
Example C25_cases : visit_decimal $"1_000" = Ok (EInt (-1) (Val 1)) /\ value 10 $"1_000" = 1000%Z /\
  visit_based_literal $"16#FF#" = Ok (EInt (-1) (Digits $"#FF" 16)) /\
  visit_based_literal $"16#FF#E2" = visit_based_literal $"16#FF#" /\
  visit_decimal $"1E2" = Ok (EFloat $"1E2").
Proof. vm_compute. repeat split. Qed.
