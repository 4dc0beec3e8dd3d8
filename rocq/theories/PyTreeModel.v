(** The results of the two converters as objects of the AST, and the conversion of a VHDL file from its parse tree to
    the Python object: src/hdlConvertor.cpp, hdlConvertor/_hdlConvertor.pyx. *)
From Verif Require Import Base AstModel StmModel PyModel PyObjModel.
From Verif Require SvExprModel SvDeclModel SvTfModel SvGenModel VhdlDeclModel.
Import SvDeclModel(compinst) SvTfModel(sfunc, sf_name, sf_ret, sf_params, sf_task, sf_static, sf_body)
  SvGenModel(sobj, SO_id, SO_inst, SO_func, SO_stm, SO_block, SO_for, SO_if, SO_case)
  VhdlDeclModel(hobj, O_id, O_type, O_func, O_module_dec, O_module_def, O_space, O_inst, O_import, O_library, O_process, O_block, O_for, O_if, O_case, O_stm,
    dunit, conv_file, tval, TV_expr, TV_enum, TV_physical, TV_record).

(** The constructors of named objects leave __doc__ empty: named.h:12-47; the documentation of VHDL objects is not
    modelled. *)
Definition plain (n : str) : nhdr := mk_nhdr n [] [].
(** The objects of the VHDL converter.  [O_type]: HdlIdDef with the type T or T_SUBTYPE, typeDeclarationParser.cpp:31-84, 296-306; the body of
    a process is a HdlStmBlock, processParser.cpp:23-50; the variable of a for generate is a HdlStmExpr, hdlStmFor.cpp:29-38;
    VHDL functions are neither static nor virtual nor tasks, hdlFunctionDef.cpp:6-24. *)
Fixpoint of_hobj (o : hobj) : obj :=
  match o with
  | O_id d => B_id d
  | O_type n t None => B_id (new_iddef n (ESym t) None DIR_INTERNAL false)
  | O_type n t (Some (TV_expr e)) => B_id (new_iddef n (ESym t) (Some e) DIR_INTERNAL false)
  | O_type n t (Some v) => B_type (new_iddef n (ESym t) None DIR_INTERNAL false) v
  | O_func n op ret ps decl_only impure body => B_func (plain n) (mk_fflags decl_only op false false false impure) ps ret (map of_hobj body)
  | O_module_dec n gs ps l => B_dec (plain n) gs ps (map of_hobj l)
  | O_module_def n e l => B_def (plain n) (Some e) None (map of_hobj l)
  | O_space n defs_only l => B_space (plain n) defs_only (map of_hobj l)
  | O_inst c => B_inst c [] []
  | O_import l => B_import hdr0 l
  | O_library n => B_library (plain n)
  | O_process h se l => B_process h se ALWAYS_NONE (B_block hdr0 SEQ (map of_hobj l))
  | O_block h l => B_block h SEQ (map of_hobj l)
  | O_for h i r b => B_forin h [B_stm (SExpr hdr0 i)] r (of_hobj b)
  | O_if h c t l f => B_if h c (of_hobj t) (map (fun p => match p with (e, b) => (e, of_hobj b) end) l) (match f with Some b => Some (of_hobj b) | None => None end)
  | O_case h e l d => B_case h CASE_UNIQ_NONE CASE e (map (fun p => match p with (e, b) => (e, of_hobj b) end) l) (match d with Some b => Some (of_hobj b) | None => None end)
  | O_stm s => of_stm s
  end.
(** The objects of the SystemVerilog converter; the first part of a generate loop is a HdlStmBlock, generateParser.cpp:493-523. *)
Fixpoint of_sobj (o : sobj) : obj :=
  match o with
  | SO_id d => B_id d
  | SO_inst c => B_inst c [] []
  | SO_func f => B_func (plain (sf_name f)) (mk_fflags false false (sf_static f) (sf_task f) false false) (Some (sf_params f)) (Some (sf_ret f)) (map of_stm (sf_body f))
  | SO_stm s => of_stm s
  | SO_block h l => B_block h SEQ (map of_sobj l)
  | SO_for h i c st b => B_for h (B_block hdr0 SEQ (map of_sobj i)) c (of_stm st) (of_sobj b)
  | SO_if h c t l f => B_if h c (of_sobj t) (map (fun p => match p with (e, b) => (e, of_sobj b) end) l) (match f with Some b => Some (of_sobj b) | None => None end)
  | SO_case h e l d => B_case h CASE_UNIQ_NONE CASE e (map (fun p => match p with (e, b) => (e, of_sobj b) end) l) (match d with Some b => Some (of_sobj b) | None => None end)
  end.
(** HdlConvertor.parse for one VHDL file, from the parse tree on: HdlConvertor::parse, hdlConvertor.cpp:91-151, and the
    conversion of the context to Python, _hdlConvertor.pyx:171-183 *)
Definition vhdl_to_python (ho : bool) (l : list dunit) : outcome pyval := r <- conv_file ho l ;; py_context (map of_hobj r).
