(** C24: VHDL bit-string literals have the width and value the standard gives them. *)
From Verif Require Import Base AstModel LitModel LitSpec LitProofs.

(** Binary and hexadecimal bit strings with a non-zero length or with no length and no S. *)
Theorem C24_bin_hex_partial l : bitlit_ok l -> bl_base l = BB \/ bl_base l = BX ->
  match bl_len l with
  | Some s => value 10 s <> 0%Z
  | None => match bl_sign l with SSign _ => False | _ => True end
  end ->
  visit_bit_string (spell_bit l) = Ok (EInt (std_width l) (Digits (plain (bl_digits l)) (bradix (bl_base l)))).
Proof. exact (bit_string_bin_hex l). Qed.
Print Assumptions C24_bin_hex_partial.
(** Octal bit strings with a non-zero length. *)
Theorem C24_oct_partial l s : bitlit_ok l -> bl_base l = BO -> bl_len l = Some s -> value 10 s <> 0%Z ->
  visit_bit_string (spell_bit l) = Ok (EInt (std_width l) (Digits (plain (bl_digits l)) (bradix (bl_base l)))).
Proof. exact (bit_string_oct l s). Qed.
Print Assumptions C24_oct_partial.
Example C24_ex : let l := mkBit (Some $"12") (USign "U") "x" BX $"F_1" in
  bitlit_ok l /\ spell_bit l = $"12Ux""F_1""" /\ visit_bit_string $"12Ux""F_1""" = Ok (EInt 12 (Digits $"f1" 16)) /\
  visit_bit_string $"B""0101_1""" = Ok (EInt 5 (Digits $"01011" 2)).
Proof. vm_compute. repeat split; try discriminate; auto; repeat constructor; try discriminate; auto. Qed.

(** Every octal literal without length gets 2 bits per digit, every decimal one is read as
    hexadecimal, every S literal without length is rejected. *)
Theorem C24_oct_width_refuted l : bitlit_ok l -> bl_base l = BO -> bl_len l = None ->
  match bl_sign l with SSign _ => False | _ => True end ->
  visit_bit_string (spell_bit l) = Ok (EInt (2 * Z.of_nat (length (plain (bl_digits l)))) (Digits (plain (bl_digits l)) 8)).
Proof. exact (bit_string_oct_width l). Qed.
Print Assumptions C24_oct_width_refuted.
Theorem C24_decimal_refuted l : bitlit_ok l -> bl_base l = BD ->
  match bl_len l, bl_sign l with None, SSign _ => False | _, _ => True end ->
  exists w, visit_bit_string (spell_bit l) = Ok (EInt w (Digits (plain (bl_digits l)) 16)).
Proof. exact (bit_string_decimal l). Qed.
Print Assumptions C24_decimal_refuted.
Theorem C24_signed_refuted l c : bitlit_ok l -> bl_len l = None -> bl_sign l = SSign c ->
  visit_bit_string (spell_bit l) = Throw (InvalidArgument $"stoi").
Proof. exact (bit_string_signed l c). Qed.
Print Assumptions C24_signed_refuted.
Example C24_cases : visit_bit_string $"o""17""" = Ok (EInt 4 (Digits $"17" 8)) /\
  visit_bit_string $"8d""12""" = Ok (EInt 8 (Digits $"12" 16)) /\
  visit_bit_string $"sx""F""" = Throw (InvalidArgument $"stoi").
Proof. vm_compute. repeat split. Qed.
(** An underscore in the length shifts the text: both the width and the digits are wrong. *)
Theorem C24_length_refuted : visit_bit_string $"1_2x""F01""" = Ok (EInt 1 (Digits $"01" 16)).
Proof. vm_compute. reflexivity. Qed.
Print Assumptions C24_length_refuted.
