(** C63: entities and components keep their generics and ports. *)
From Verif Require Import Base AstModel StmModel SvExprModel SvExprSpec SvDeclModel VhdlExprModel VhdlExprSpec VhdlStmModel VhdlStmDemo VhdlDeclModel VhdlDeclSpec VhdlDecl2Proofs.

(** Name, class, mode, type and default of every generic and port, in order.  Missing: generics without the
    keyword constant (refuted below); bus; interface files, types, subprograms and packages. *)
Theorem C63_component_partial (A : halgebra) (c : component) (i : interface A) :
  keyworded_clause (cp_generics c) = true -> s_interface A (cp_name c) (cp_generics c) (cp_ports c) = Some i ->
  exists o, conv_component false c = Ok o /\ m_interface A o = Some i.
Proof. exact (component_sim A c i). Qed.
Print Assumptions C63_component_partial.
Theorem C63_entity_partial (A : halgebra) n g p ds ss (i : interface A) :
  keyworded_clause g = true -> s_interface A n g p = Some i -> (exists r, conv_decls false ds = Ok r) ->
  exists o, conv_lunit false (LU_entity n g p ds ss) = Ok [o] /\ m_interface A o = Some i.
Proof. exact (entity_sim A n g p ds ss i). Qed.
Print Assumptions C63_entity_partial.
(** generic (N : T)  is a constant in the source and a signal in the AST. *)
Theorem C63_generic_refuted (A : halgebra) n t x : hvmeaning A t = Some x ->
  let i := IF_signal false [n] None t false None in
  s_iface A Const_obj i = Some [mk_port A n Const_obj Md_in x None] /\
  exists d, conv_iface i = Ok [d] /\ m_port A d = Some (mk_port A n Signal_obj Md_in x None).
Proof.
  intros H i. split; [unfold i; cbn [s_iface]; rewrite H; reflexivity|].
  destruct (iface_sim A Signal_obj i [mk_port A n Signal_obj Md_in x None]) as (l & Hl & Ml); [left; reflexivity|unfold i; cbn [s_iface]; rewrite H; reflexivity|].
  destruct l as [|d [|d' l]]; [discriminate| |].
  - exists d. split; [exact Hl|]. cbn in Ml. destruct (m_port A d) as [q|]; [|discriminate]. injection Ml as ->. reflexivity.
  - exfalso. cbn in Ml. destruct (m_port A d); [|discriminate]. cbn in Ml. destruct (m_port A d'); [|discriminate]. cbn in Ml. destruct (omapM (m_port A) l); discriminate.
Qed.
Print Assumptions C63_generic_refuted.
(** The keyword signal and bus make no difference; other interface elements are dropped. *)
Theorem C63_bus_refuted k k' ns m t b b' v : conv_iface (IF_signal k ns m t b v) = conv_iface (IF_signal k' ns m t b' v).
Proof. reflexivity. Qed.
Print Assumptions C63_bus_refuted.
Theorem C63_dropped_refuted ns t n : conv_iface (IF_file ns t) = Ok [] /\ conv_iface (IF_type n) = Ok [] /\ conv_iface (IF_subprogram n) = Ok [] /\ conv_iface (IF_package n) = Ok [].
Proof. repeat split. Qed.
Print Assumptions C63_dropped_refuted.
(** The statements of an entity are dropped. *)
Theorem C63_entity_statements_refuted ho n g p ds ss : conv_lunit ho (LU_entity n g p ds ss) = conv_lunit ho (LU_entity n g p ds []).
Proof. reflexivity. Qed.
Print Assumptions C63_entity_statements_refuted.

(** entity e is generic (constant W, V : T := 8); port (a, b : in bit; c : out bit; signal d : inout T := x; e : buffer bit); end; *)
Definition ex_entity : lunit :=
  LU_entity $"e" (Some [IF_constant [$"W"; $"V"] (hid "T") (Some (hnum "8"))])
    (Some [IF_signal false [$"a"; $"b"] (Some Md_in) (hid "bit") false None; IF_signal false [$"c"] (Some Md_out) (hid "bit") false None;
           IF_signal true [$"d"] (Some Md_inout) (hid "T") false (Some (hid "x")); IF_signal false [$"e"] (Some Md_buffer) (hid "bit") false None]) [] [].
Example C63_ex :
  match conv_lunit false ex_entity with
  | Ok [O_module_dec n g p []] =>
      n = $"e" /\ map d_name g = [$"W"; $"V"] /\ forallb d_const g = true /\ map d_value g = [Some (EInt (-1) (Val 8)); Some (EInt (-1) (Val 8))] /\
      map d_name p = [$"a"; $"b"; $"c"; $"d"; $"e"] /\ map d_dir p = [DIR_IN; DIR_IN; DIR_OUT; DIR_INOUT; DIR_BUFFER] /\
      map d_type p = [EId $"bit"; EId $"bit"; EId $"bit"; EId $"T"; EId $"bit"]
  | _ => False
  end.
Proof. vm_compute. repeat split. Qed.
Example C63_ex_hyp : forall A : halgebra, exists i, s_interface A $"e" (Some [IF_constant [$"W"; $"V"] (hid "T") (Some (hnum "8"))]) (Some [IF_signal false [$"a"; $"b"] (Some Md_in) (hid "bit") false None]) = Some i /\
  map (p_name A) (if_generics A i) = [$"W"; $"V"].
Proof. intros A. eexists. split; reflexivity. Qed.
