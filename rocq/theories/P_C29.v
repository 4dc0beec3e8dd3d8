(** C29: operator kinds are identified faithfully. *)
From Verif Require Import Base AstModel LitModel SvExprModel SvExprSpec VhdlExprModel VhdlExprSpec OpModel OpSpec.

(** Every operator has its own name; the lookup neither throws nor leaves the table. *)
Theorem C29_names o : op_to_string o = Ok (op_name o).
Proof. destruct o; vm_compute; reflexivity. Qed.
Print Assumptions C29_names.
Theorem C29_names_distinct o1 o2 : op_to_string o1 = op_to_string o2 -> o1 = o2.
Proof.
  rewrite !C29_names. intros H. injection H as H.
  assert (L : forall o, List.find (fun p => String.eqb (op_name p) (op_name o)) op_enum = Some o) by (intros o; destruct o; vm_compute; reflexivity).
  pose proof (L o1) as L1. rewrite H, L in L1. congruence.
Qed.
Print Assumptions C29_names_distinct.
(** VHDL: two binary operators with one AST operator are the same operator. *)
Inductive vhdl_binary := VB_log (o : hlog) | VB_rel (o : hrel) | VB_shift (o : hshift) | VB_add (o : hadd) | VB_mul (o : hmul) | VB_pow.
Definition vhdl_op (o : vhdl_binary) : op :=
  match o with VB_log o => log_op o | VB_rel o => rel_op o | VB_shift o => shift_op o | VB_add o => add_op o | VB_mul o => mul_op o | VB_pow => POW end.
Theorem C29_vhdl_binary o1 o2 : vhdl_op o1 = vhdl_op o2 -> o1 = o2.
Proof. destruct o1 as [[]|[]|[]|[]|[]|], o2 as [[]|[]|[]|[]|[]|]; intros H; try reflexivity; discriminate. Qed.
Print Assumptions C29_vhdl_binary.
Theorem C29_vhdl_unary o1 o2 : un_op o1 = un_op o2 -> o1 = o2.
Proof. destruct o1 as [| |[]|[]], o2 as [| |[]|[]]; intros H; try reflexivity; discriminate. Qed.
Print Assumptions C29_vhdl_unary.
(** Each unary operator gets the operator kind of the AST documentation, but for xnor. *)
Theorem C29_vhdl_unary_kind_partial o : o <> O_ULOG O_XNOR -> exists k, un_op o = Ok k /\ hm_un k = Some (hv_un o).
Proof. destruct o as [| |[]|[]]; intros N; try (eexists; split; reflexivity). contradiction. Qed.
Print Assumptions C29_vhdl_unary_kind_partial.
(** The reduction xnor gets the kind of the binary operator. *)
Theorem C29_vhdl_xnor_refuted : un_op (O_ULOG O_XNOR) = Ok (log_op O_XNOR).
Proof. reflexivity. Qed.
Print Assumptions C29_vhdl_xnor_refuted.
(** Verilog: operators with one AST operator have one meaning, but for <->. *)
Theorem C29_sv_unary o1 o2 : visit_unop o1 = visit_unop o2 -> v_unop o1 = v_unop o2.
Proof. destruct o1, o2; intros H; try reflexivity; discriminate. Qed.
Print Assumptions C29_sv_unary.
Theorem C29_sv_unary_kind o : m_unop (visit_unop o) = Some (v_unop o).
Proof. destruct o; reflexivity. Qed.
Print Assumptions C29_sv_unary_kind.
Theorem C29_sv_binary_partial o1 o2 : o1 <> B_BI_DIR_ARROW -> o2 <> B_BI_DIR_ARROW -> visit_binop o1 = visit_binop o2 -> v_binop o1 = v_binop o2.
Proof. destruct o1, o2; intros N1 N2 H; try reflexivity; try discriminate; contradiction. Qed.
Print Assumptions C29_sv_binary_partial.
Theorem C29_sv_equivalence_refuted : visit_binop B_BI_DIR_ARROW = visit_binop B_ARROW.
Proof. reflexivity. Qed.
Print Assumptions C29_sv_equivalence_refuted.
Theorem C29_sv_step p1 i1 p2 i2 : visit_incdec p1 i1 = visit_incdec p2 i2 -> p1 = p2 /\ i1 = i2.
Proof. destruct p1, i1, p2, i2; intros H; try discriminate; auto. Qed.
Print Assumptions C29_sv_step.
Theorem C29_sv_assignment o1 o2 : visit_asgop o1 = visit_asgop o2 -> o1 = o2.
Proof. destruct o1, o2; intros H; try reflexivity; discriminate. Qed.
Print Assumptions C29_sv_assignment.
(** The names of the symbols: all but one. *)
Theorem C29_symbols_partial s1 s2 : s1 <> symb_T_SUBTYPE -> s2 <> symb_T_SUBTYPE ->
  (exists n, symb_to_string s1 = Ok n) /\ (symb_to_string s1 = symb_to_string s2 -> s1 = s2).
Proof. destruct s1, s2; intros N1 N2; try contradiction; (split; [eexists; reflexivity|]); intros H; try reflexivity; discriminate. Qed.
Print Assumptions C29_symbols_partial.
Theorem C29_symbols_refuted : symb_to_string symb_T_SUBTYPE = Throw (OutOfRange $"array::at").
Proof. reflexivity. Qed.
Print Assumptions C29_symbols_refuted.
Example C29_ex : op_to_string ARITH_SHIFT_LEFT_ASSIGN = Ok "ARITH_SHIFT_LEFT_ASSIGN"%string /\ length op_table = length op_enum.
Proof. vm_compute. split; reflexivity. Qed.
