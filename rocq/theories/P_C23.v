(** C23: Verilog signed literals stay signed.  Violated by every based literal. *)
From Verif Require Import Base AstModel LitModel LitSpec LitProofs.

(** Adding or removing the signedness marker never changes the converted literal. *)
Theorem C23_signedness_lost l c : vlit_ok l -> In c $"sS" ->
  let signed := mkVlit (vl_size l) (Some c) (vl_letter l) (vl_base l) (vl_digits l) in
  let unsigned := mkVlit (vl_size l) None (vl_letter l) (vl_base l) (vl_digits l) in
  visit_integral (TokBased (vl_size l) (spell_based signed)) = visit_integral (TokBased (vl_size l) (spell_based unsigned)).
Proof. exact (signedness_lost l c). Qed.
Print Assumptions C23_signedness_lost.
Theorem C23_signed_refuted : visit_integral (TokSized $"4'sd1") = visit_integral (TokSized $"4'd1") /\
  visit_integral (TokSized $"4'd1") = Ok (EInt 4 (Digits $"1" 10)).
Proof. vm_compute. split; reflexivity. Qed.
Print Assumptions C23_signed_refuted.
Example C23_ex : vlit_ok (mkVlit (Some $"4") None "d" Dec $"1").
Proof. vm_compute. repeat split; try discriminate; auto; repeat constructor; auto. Qed.
