(** C64: VHDL component instances keep their label, their unit and all associations. *)
From Verif Require Import Base AstModel StmModel SvExprModel SvExprSpec SvDeclModel VhdlExprModel VhdlExprSpec VhdlStmModel VhdlStmDemo VhdlDeclModel VhdlDeclSpec VhdlDecl2Proofs.

(** For every interpretation of the expressions: formals and actuals, open included, in order.  Missing: the
    name of the architecture and the kind of the unit (refuted below). *)
Theorem C64_instance_partial (A : halgebra) l u gm pm (i : vinstance A) :
  s_vinst A l u gm pm = Some i -> exists o, conv_vinst l u gm pm = Ok o /\ m_vinst A o = Some i.
Proof. exact (vinst_sim A l u gm pm i). Qed.
Print Assumptions C64_instance_partial.
(** entity work.e(rtl), entity work.e, component work.e and configuration work.e have one AST. *)
Theorem C64_unit_refuted l n a a' k gm pm :
  conv_vinst l (IU_entity n a) gm pm = conv_vinst l (IU_entity n a') gm pm /\ conv_vinst l (IU_entity n a) gm pm = conv_vinst l (IU_component k n) gm pm /\
  conv_vinst l (IU_entity n a) gm pm = conv_vinst l (IU_configuration n) gm pm.
Proof. repeat split. Qed.
Print Assumptions C64_unit_refuted.

(** u1: entity work.e generic map (8, W => 3) port map (a => x, b => open, y); *)
Definition pos_ (e : hexpr) : hassoc hexpr := Assoc None (Act (D_expr false e)).
Definition named_ (n : string) (e : hexpr) : hassoc hexpr := Assoc (Some (hid n, None)) (Act (D_expr false e)).
Definition ex_gm := Some [pos_ (hnum "8"); named_ "W" (hnum "3")].
Definition ex_pm := Some [named_ "a" (hid "x"); Assoc (Some (hid "b", None)) (Act D_open); pos_ (hid "y")].
Definition ex_unit := IU_entity (HDot (hid "work") (NL_id $"e")) (Some $"rtl").
Example C64_ex : conv_vinst $"u1" ex_unit ex_gm ex_pm =
  Ok (O_inst (mk_compinst (EId $"u1") (EOp DOT [EId $"work"; EId $"e"]) [EInt (-1) (Val 8); EOp ARROW [EId $"W"; EInt (-1) (Val 3)]]
     [EOp ARROW [EId $"a"; EId $"x"]; EOp ARROW [EId $"b"; ESym symb_OPEN]; EId $"y"])).
Proof. vm_compute. reflexivity. Qed.
Example C64_ex_hyp (A : halgebra) : s_vinst A $"u1" ex_unit ex_gm ex_pm =
  Some (mk_vinstance A $"u1" (h_member A (h_name A $"work") (h_name A $"e")) [(None, HaVal (h_int A 8)); (Some (h_name A $"W"), HaVal (h_int A 3))]
    [(Some (h_name A $"a"), HaVal (h_name A $"x")); (Some (h_name A $"b"), HaOpen); (None, HaVal (h_name A $"y"))]).
Proof. reflexivity. Qed.
