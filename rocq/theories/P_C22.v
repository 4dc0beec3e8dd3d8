(** C22: Verilog integer literals keep digits, base and width. *)
From Verif Require Import Base AstModel LitModel LitSpec LitProofs.

(** A sized literal, as one token or as two tokens. *)
Theorem C22_sized l s : vlit_ok l -> vl_size l = Some s ->
  visit_integral (TokSized (s ++ spell_based l)) = Ok (EInt (width (vl_size l)) (Digits (plain (vl_digits l)) (radix (vl_base l)))) /\
  visit_integral (TokBased (vl_size l) (spell_based l)) = Ok (EInt (width (vl_size l)) (Digits (plain (vl_digits l)) (radix (vl_base l)))).
Proof. intros H E. rewrite E. exact (sized_law l s H E). Qed.
Print Assumptions C22_sized.
(** A based literal without size: no width (-1). *)
Theorem C22_unsized l : vlit_ok l -> vl_size l = None ->
  visit_integral (TokBased (vl_size l) (spell_based l)) = Ok (EInt (width (vl_size l)) (Digits (plain (vl_digits l)) (radix (vl_base l)))).
Proof. intros H E. rewrite E. exact (unsized_law l H E). Qed.
Print Assumptions C22_unsized.
Theorem C22_decimal s : decimal s -> visit_integral (TokUnsigned s) = Ok (EInt (-1) (Digits (plain s) 10)).
Proof. exact (unsigned_law s). Qed.
Print Assumptions C22_decimal.
(** Cleaning the digits does not change their value, so literals merged by the conversion have equal
    base, width and value. *)
Theorem C22_value b s : value b (plain s) = value b s.
Proof. exact (plain_value b s 0%Z). Qed.
Print Assumptions C22_value.
Theorem C22_not_merged l1 l2 : vlit_ok l1 -> vlit_ok l2 ->
  visit_integral (TokBased (vl_size l1) (spell_based l1)) = visit_integral (TokBased (vl_size l2) (spell_based l2)) ->
  width (vl_size l1) = width (vl_size l2) /\ radix (vl_base l1) = radix (vl_base l2) /\
  plain (vl_digits l1) = plain (vl_digits l2) /\ forall b, value b (vl_digits l1) = value b (vl_digits l2).
Proof. exact (literals_not_merged l1 l2). Qed.
Print Assumptions C22_not_merged.
Example C22_ex :
  let l := mkVlit (Some $"1_2") (Some "S"%char) "H" Hex $"a_Fx" in
  vlit_ok l /\ spell_based l = $"'SHa_Fx" /\ visit_integral (TokSized $"1_2'SHa_Fx") = Ok (EInt 12 (Digits $"afx" 16)) /\
  value 16 $"1_F" = 31%Z.
Proof. vm_compute. repeat split; try discriminate; auto; repeat constructor; auto. Qed.

(** White space between the parts of a literal, which the lexer accepts (sv2017Lexer.g4:599-606), is
    taken for the base or stays in the digits; the fill literal '1 is converted to the number 1; a size
    out of the range of int is undefined behaviour. *)
Theorem C22_space_refuted :
  visit_integral (TokSized $"4' d5") = Throw (RuntimeError $"Unknown number base: ") /\
  visit_integral (TokSized $"4'd 5") = Ok (EInt 4 (Digits $" 5" 10)).
Proof. vm_compute. split; reflexivity. Qed.
Print Assumptions C22_space_refuted.
Theorem C22_fill_refuted : visit_unbased $"'1" = visit_integral (TokUnsigned $"1").
Proof. reflexivity. Qed.
Print Assumptions C22_fill_refuted.
Theorem C22_size_refuted : exists w, visit_integral (TokSized $"2147483648'd5") = UB w.
Proof. eexists. vm_compute. reflexivity. Qed.
Print Assumptions C22_size_refuted.
