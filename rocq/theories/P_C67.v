(** C67: VHDL subprograms keep their profile and their body. *)
From Verif Require Import Base AstModel StmModel LitModel SvExprModel SvExprSpec SvDeclModel SvDeclProofs VhdlExprModel VhdlExprSpec VhdlStmModel VhdlStmSpec VhdlStmProofs VhdlStmDemo VhdlDeclModel VhdlDeclSpec VhdlDeclProofs VhdlDecl2Proofs.

(** Declarations: name, parameters, result, pure / impure.  Missing: parameters without constant, signal or
    variable (refuted below). *)
Theorem C67_declaration_partial (A : halgebra) (ho : bool) (dflt : oclass) (s : subprog) (p : profile A) :
  keyworded_clause (sp_params s) = true -> s_profile A dflt s = Some p ->
  exists n op ret ps imp, conv_decl ho (DC_subprogram s) = Ok [O_func n op ret ps true imp []] /\ m_profile A (O_func n op ret ps true imp []) = Some p.
Proof.
  intros K H. destruct (subprog_sim A false dflt s [] p (or_intror K) H) as (o & Ho & Mo & Q). destruct o; try contradiction. destruct Q as (-> & ->).
  cbn [conv_decl]. rewrite Ho. cbn [bind]. do 5 eexists. split; [reflexivity|exact Mo].
Qed.
Print Assumptions C67_declaration_partial.
(** Bodies: also the declarations, then the statements, which behave like the source. *)
Theorem C67_body_partial (A : halgebra) (M : hmachine A) (i : nat) (ho : bool) (dflt : oclass) (s : subprog) ds ss (p : profile A) r ks :
  keyworded_clause (sp_params s) = true -> s_profile A dflt s = Some p -> conv_decls ho ds = Ok r -> omapM (hv_stm A M i) ss = Some ks ->
  exists n op ret ps imp os ks', conv_decl ho (DC_body s ds ss) = Ok [O_func n op ret ps false imp (r ++ map O_stm os)] /\
    m_profile A (O_func n op ret ps false imp (r ++ map O_stm os)) = Some p /\
    omapM (mh_stm A M i) os = Some ks' /\ Forall2 (fun k' k => forall x, k' x = k x) ks' ks.
Proof.
  intros K H Hr Hs. destruct (stms_sim A M i ss ks Hs) as (os & ks' & Ho & Hk & E).
  destruct (subprog_sim A true dflt s [] p (or_intror K) H) as (o1 & H1 & _ & _). destruct (subprog_sim A true dflt s (r ++ map O_stm os) p (or_intror K) H) as (o & H2 & Mo & Q).
  destruct o; try contradiction. destruct Q as (-> & ->). do 7 eexists. split; [|split; [exact Mo|split; [exact Hk|exact E]]].
  cbn [conv_decl]. rewrite H1. cbn [bind]. unfold conv_decls in Hr. rewrite Hr. cbn [bind]. rewrite Ho. cbn [bind]. rewrite H2. reflexivity.
Qed.
Print Assumptions C67_body_partial.
(** procedure p (x : out T) and procedure p (signal x : out T) have one AST. *)
Theorem C67_parameter_class_refuted ho d ns m t v :
  conv_decl ho (DC_subprogram (SP_procedure d (Some [IF_signal false ns m t false v]))) = conv_decl ho (DC_subprogram (SP_procedure d (Some [IF_signal true ns m t false v]))).
Proof. reflexivity. Qed.
Print Assumptions C67_parameter_class_refuted.
(** A body without parameter list has a null pointer instead of an empty list. *)
Theorem C67_null_parameters ho d : conv_decl ho (DC_body (SP_procedure d None) [] []) = Ok [O_func (desig_text d) (is_op_desig d) None None false false []].
Proof. reflexivity. Qed.
Print Assumptions C67_null_parameters.

(** impure function "+" (constant a, b : T; variable c : inout T) return T is variable v : T; begin v := 3; return v; end; *)
Definition ex_sub : subprog := SP_function (Some false) (Ds_op $"plus") (Some [IF_constant [$"a"; $"b"] (hid "T") None; IF_variable [$"c"] (Some Md_inout) (hid "T") None]) (hid "T").
Example C67_ex : match conv_decl false (DC_body ex_sub [DC_variable false [$"v"] (hid "T") None] [hset "v" "3"; hst (J_return (Some (hid "v")))]) with
  | Ok [O_func n true (Some (EId t)) (Some [a; b; c]) false true [O_id v; O_stm _; O_stm (SReturn _ (Some (EId w)))]] =>
      t = $"T" /\ map d_name [a; b; c; v] = [$"a"; $"b"; $"c"; $"v"] /\ map d_const [a; b; c] = [true; true; false] /\ d_dir c = DIR_INOUT /\ w = $"v"
  | _ => False
  end.
Proof. vm_compute. repeat split. Qed.
Example C67_ex_hyp (A : halgebra) : keyworded_clause (sp_params ex_sub) = true /\
  s_profile A Const_obj ex_sub = Some (mk_profile A $"plus" true false [mk_port A $"a" Const_obj Md_in (h_name A $"T") None; mk_port A $"b" Const_obj Md_in (h_name A $"T") None; mk_port A $"c" Variable_obj Md_inout (h_name A $"T") None] (Some (h_name A $"T"))).
Proof. split; reflexivity. Qed.
