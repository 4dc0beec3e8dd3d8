(** Model of the conversion of VHDL declarations, concurrent statements and design units:
    src/vhdlConvertor/{interfaceParser,constantParser,signalParser,variableParser,directionParser,
    typeDeclarationParser,aliasParser,subProgramDeclarationParser,subProgramParser,processParser,
    blockDeclarationParser,entityParser,archParser,packageParser,packageHeaderParser,compInstanceParser,
    blockParser,generateStatementParser,designFileParser}.cpp.  The input is the parse tree.  Positions and
    doc comments are not modelled.  Messages of NotImplementedLogger are not modelled. *)
From Verif Require Import Base AstModel StmModel LitModel SvExprModel SvStmModel SvTypeModel SvDeclModel VhdlExprModel VhdlStmModel.

(** ** Parse trees.  Subtype indications are written [HSubtype ...]. *)
(** signal_mode, vhdlParser.g4:455 *)
Inductive smode := Md_in | Md_out | Md_inout | Md_buffer | Md_linkage.
(** interface_declaration, vhdlParser.g4:432-485.  [IF_signal]: also without the keyword signal. *)
Inductive iface :=
| IF_constant (ns : list str) (t : hexpr) (v : option hexpr)
| IF_signal (keyword : bool) (ns : list str) (m : option smode) (t : hexpr) (bus : bool) (v : option hexpr)
| IF_variable (ns : list str) (m : option smode) (t : hexpr) (v : option hexpr)
| IF_file (ns : list str) (t : hexpr)
| IF_type (n : str)
| IF_subprogram (n : str)
| IF_package (n : str).
(** enumeration_literal *)
Inductive elit := El_id (s : str) | El_char (t : str).
(** type_definition *)
Inductive tdef :=
| TD_enum (l : list elit)
| TD_integer (r : hrange hexpr)
| TD_floating (r : hrange hexpr)
| TD_physical (r : hrange hexpr) (primary : str) (l : list (str * (option (bool * str) * hexpr)))   (* name = [based, literal] unit *)
| TD_unbounded (marks : list hexpr) (elem : hexpr)
| TD_constrained (l : list (hrange hexpr)) (elem : hexpr)
| TD_record (l : list (list str * hexpr))
| TD_access (t : hexpr)
| TD_file (t : hexpr)
| TD_protected.
(** designator, alias_designator *)
Inductive desig := Ds_id (s : str) | Ds_op (t : str).
(** subprogram_specification; the header with generics is dropped *)
Inductive subprog :=
| SP_procedure (d : desig) (ps : option (list iface))
| SP_function (pure_ : option bool) (d : desig) (ps : option (list iface)) (ret : hexpr).
(** component_declaration *)
Record component := mk_component { cp_name : str; cp_generics : option (list iface); cp_ports : option (list iface) }.
(** Declarations which are dropped with a message. *)
Inductive dropped := DR_file | DR_attribute | DR_attribute_spec | DR_group_template | DR_group | DR_disconnection | DR_configuration_spec
  | DR_subprogram_instance | DR_package_instance.
Inductive decl :=
| DC_constant (ns : list str) (t : hexpr) (v : option hexpr)
| DC_signal (ns : list str) (t : hexpr) (kind : option str) (v : option hexpr)     (* register, bus *)
| DC_variable (shared : bool) (ns : list str) (t : hexpr) (v : option hexpr)
| DC_type (n : str) (t : option tdef)
| DC_subtype (n : str) (t : hexpr)
| DC_alias (d : str) (t : option hexpr) (n : hexpr) (signature : option str)
| DC_subprogram (s : subprog)
| DC_body (s : subprog) (ds : list decl) (ss : list hstm)
| DC_package (n : str) (generics : option (list iface)) (ds : list decl)
| DC_package_body (n : str) (ds : list decl)
| DC_component (c : component)
| DC_use (l : list hexpr)                                                          (* selected_name: HDot, HAll over HLit (NL_id _) *)
| DC_dropped (d : dropped).
(** instantiated_unit *)
Inductive iunit := IU_component (keyword : bool) (n : hexpr) | IU_entity (n : hexpr) (arch : option str) | IU_configuration (n : hexpr).
(** concurrent_statement_with_optional_label, vhdlParser.g4:874-879 *)
Inductive csimple :=
| CP_process (sens : hsens) (ds : list decl) (ss : list hstm) (end_ : option str)
| CP_call (n : hexpr)
| CP_assert (c : hexpr) (report severity : option hexpr)
| CP_assign (c : hconc).
(** generate_statement_body and ..._with_begin_end, vhdlParser.g4:993-1007: [begin_] is the keyword *)
Inductive gbody (S : Type) := GB (begin_ : bool) (ds : list decl) (ss : list S).
Arguments GB {S}.
(** concurrent_statement, vhdlParser.g4:880-1000 *)
Inductive cstm :=
| CS_block (l : str) (guard : option hexpr) (generics ports : option (list iface)) (ds : list decl) (ss : list cstm) (end_ : option str)
| CS_inst (l : str) (u : iunit) (gm pm : option (list (hassoc hexpr)))
| CS_for (l : str) (i : str) (r : hrange hexpr) (b : gbody cstm) (end_ : option str)
| CS_if (l : str) (a : option str) (c : hexpr) (b : gbody cstm) (elifs : list (option str * hexpr * gbody cstm)) (else_ : option (option str * gbody cstm)) (end_ : option str)
| CS_case (l : str) (sel : hexpr) (alts : list (option str * list (hchoice hexpr) * gbody cstm)) (end_ : option str)
| CS_simple (l : option str) (postponed : bool) (s : csimple).
(** context_item, library_unit: vhdlParser.g4:1013-1045 *)
Inductive citem := CI_library (l : list str) | CI_use (l : list hexpr) | CI_context (l : list hexpr).
Inductive lunit :=
| LU_entity (n : str) (generics ports : option (list iface)) (ds : list decl) (ss : list csimple)
| LU_arch (n : str) (of_ : hexpr) (ds : list decl) (ss : list cstm)
| LU_package (n : str) (generics : option (list iface)) (ds : list decl)
| LU_package_body (n : str) (ds : list decl)
| LU_configuration (n : str)
| LU_package_instance (n : str)
| LU_context (n : str).
Definition dunit : Type := list citem * lunit.

(** ** The AST *)
(** Values of type definitions: HdlEnumDef, HdlPhysicalDef, HdlClassDef (STRUCT) or an expression. *)
Inductive tval := TV_expr (e : expr) | TV_enum (l : list (option str * option expr)) | TV_physical (r : expr) (l : list (str * option expr)) | TV_record (l : list iddef).
(** The objects of the AST made of declarations, statements and design units. *)
Inductive hobj :=
| O_id (d : iddef)
| O_type (n : str) (t : symb) (v : option tval)                                    (* HdlIdDef with the type T or T_SUBTYPE *)
| O_func (n : str) (is_operator : bool) (ret : option expr) (ps : option (list iddef)) (decl_only impure : bool) (body : list hobj)
| O_module_dec (n : str) (generics ports : list iddef) (objs : list hobj)
| O_module_def (n : str) (of_ : expr) (objs : list hobj)
| O_space (n : str) (defs_only : bool) (objs : list hobj)
| O_inst (c : compinst)
| O_import (l : list expr)
| O_library (n : str)
| O_process (h : hdr) (sens : option (list expr)) (objs : list hobj)
| O_block (h : hdr) (objs : list hobj)
| O_for (h : hdr) (i : expr) (r : expr) (b : hobj)
| O_if (h : hdr) (c : expr) (t : hobj) (elifs : list (expr * hobj)) (f : option hobj)
| O_case (h : hdr) (sel : expr) (l : list (expr * hobj)) (dflt : option hobj)
| O_stm (s : stm).

(** ** Declarations *)
(** extractVariables, interfaceParser.cpp:15-50: later identifiers copy the type and the value of the first *)
Definition extract (ns : list str) (t : hexpr) (v : option hexpr) : outcome (list iddef) :=
  ty <- hconv t ;;
  e <- match v with Some v => x <- hconv v ;; Ok (Some x) | None => Ok None end ;;
  match ns with
  | [] => Ok []
  | n :: ns' =>
      r <- mapM (fun n => ty' <- clone_e ty ;; e' <- match e with Some x => y <- clone_e x ;; Ok (Some y) | None => Ok None end ;;
                          Ok (new_iddef n ty' e' DIR_INTERNAL false)) ns' ;;
      Ok (new_iddef n ty e DIR_INTERNAL false :: r)
  end.
(** the assignments to is_const, direction, is_latched and is_shared *)
Definition set_const (d : iddef) : iddef := mk_iddef (d_name d) (d_type d) (d_value d) (d_dir d) (d_latched d) true (d_static d) (d_shared d) (d_alias d) (d_doc d) (d_attrs d).
Definition set_dir (m : direction) (d : iddef) : iddef := mk_iddef (d_name d) (d_type d) (d_value d) m (d_latched d) (d_const d) (d_static d) (d_shared d) (d_alias d) (d_doc d) (d_attrs d).
Definition set_latched (d : iddef) : iddef := mk_iddef (d_name d) (d_type d) (d_value d) (d_dir d) true (d_const d) (d_static d) (d_shared d) (d_alias d) (d_doc d) (d_attrs d).
Definition set_shared (b : bool) (d : iddef) : iddef := mk_iddef (d_name d) (d_type d) (d_value d) (d_dir d) (d_latched d) (d_const d) (d_static d) b (d_alias d) (d_doc d) (d_attrs d).
Definition set_alias (d : iddef) : iddef := mk_iddef (d_name d) (d_type d) (d_value d) (d_dir d) (d_latched d) (d_const d) (d_static d) (d_shared d) true (d_doc d) (d_attrs d).
(** visitSignalMode, directionParser.cpp:8-25 *)
Definition conv_mode (m : option smode) : direction :=
  match m with
  | None | Some Md_in => DIR_IN | Some Md_out => DIR_OUT | Some Md_inout => DIR_INOUT | Some Md_buffer => DIR_BUFFER | Some Md_linkage => DIR_LINKAGE
  end.
(** visitInterface_declaration and the functions it calls, interfaceParser.cpp:53-175 *)
Definition conv_iface (i : iface) : outcome (list iddef) :=
  match i with
  | IF_constant ns t v => l <- extract ns t v ;; Ok (map set_const l)
  | IF_signal _ ns m t _ v => l <- extract ns t v ;; Ok (map (set_dir (conv_mode m)) l)
  | IF_variable ns m t v => l <- extract ns t v ;; Ok (map (fun d => set_latched (set_dir (conv_mode m) d)) l)
  | IF_file _ _ | IF_type _ | IF_subprogram _ | IF_package _ => Ok []
  end.
(** visitInterface_list, interfaceParser.cpp:176-189; visitGeneric_clause, visitPort_clause, entityParser.cpp:74-110 *)
Definition conv_ifaces (l : list iface) : outcome (list iddef) := concatM conv_iface l.
Definition conv_clause (ho : bool) (c : option (list iface)) : outcome (list iddef) :=
  if ho then Ok [] else match c with Some l => conv_ifaces l | None => Ok [] end.
(** visitEnumeration_type_definition, typeDeclarationParser.cpp:144-165 *)
Definition conv_elit (e : elit) : outcome (option str * option expr) :=
  match e with El_id s => Ok (Some s, None) | El_char t => x <- conv_nlit (NL_char t) ;; Ok (None, Some x) end.
(** visitPhysical_literal, literalParser.cpp:92-113 *)
Definition conv_physical (p : option (bool * str) * hexpr) : outcome expr :=
  n <- hconv (snd p) ;;
  match fst p with
  | Some (based, t) => v <- (if based then visit_based_literal t else visit_decimal t) ;; Ok (op2 UNIT_SPEC v n)
  | None => Ok n
  end.
(** visitType_definition and the functions it calls, typeDeclarationParser.cpp:49-294 *)
Definition conv_tdef (t : tdef) : outcome tval :=
  match t with
  | TD_enum l => r <- mapM conv_elit l ;; Ok (TV_enum r)
  | TD_integer r | TD_floating r => x <- conv_range hconv r ;; Ok (TV_expr (op1 RANGE x))
  | TD_physical r p l =>
      x <- conv_range hconv r ;;
      us <- mapM (fun u : str * (option (bool * str) * hexpr) => y <- conv_physical (snd u) ;; Ok (fst u, Some y)) l ;;
      Ok (TV_physical (op1 RANGE x) ((p, None) :: us))
  | TD_unbounded ms e =>
      x <- hconv e ;; r <- mapM (fun m => y <- hconv m ;; Ok (op2 RANGE y (ESym symb_OPEN))) ms ;; Ok (TV_expr (EOp INDEX (x :: r)))
  | TD_constrained l e => x <- hconv e ;; r <- conv_array_constraint hconv x (Some l) ;; Ok (TV_expr r)
  | TD_record l => r <- concatM (fun p : list str * hexpr => extract (fst p) (snd p) None) l ;; Ok (TV_record r)
  | TD_access _ | TD_file _ | TD_protected => Ok (TV_expr ENotImpl)
  end.
(** visitDesignator, isStrDesignator, literalParser.cpp: the text with the quotes *)
Definition desig_text (d : desig) : str := match d with Ds_id s | Ds_op s => s end.
Definition is_op_desig (d : desig) : bool := match d with Ds_op _ => true | Ds_id _ => false end.
(** visitSubprogram_specification, subProgramDeclarationParser.cpp:20-90 and subProgramParser.cpp:36-100.
    HdlFunctionDef, hdlFunctionDef.cpp:6-17: the constructor tests its parameter, which was moved from, so
    that a null pointer of the body stays null; a declaration always has a list. *)
Definition conv_params (body : bool) (ps : option (list iface)) : outcome (option (list iddef)) :=
  match ps with Some l => r <- conv_ifaces l ;; Ok (Some r) | None => Ok (if body then None else Some []) end.
Definition conv_subprog (body : bool) (s : subprog) (objs : list hobj) : outcome hobj :=
  match s with
  | SP_procedure d ps => r <- conv_params body ps ;; Ok (O_func (desig_text d) (is_op_desig d) None r (negb body) false objs)
  | SP_function pure_ d ps ret =>
      t <- hconv ret ;; r <- conv_params body ps ;;
      Ok (O_func (desig_text d) (is_op_desig d) (Some t) r (negb body) (match pure_ with Some b => negb b | None => false end) objs)
  end.
(** visitComponent_declaration, blockDeclarationParser.cpp:50-72, packageHeaderParser.cpp:82-104 *)
Definition conv_component (ho : bool) (c : component) : outcome hobj :=
  g <- conv_clause ho (cp_generics c) ;; p <- conv_clause ho (cp_ports c) ;; Ok (O_module_dec (cp_name c) g p []).
(** flatten_doted_expr, visitUse_clause, designFileParser.cpp:171-199 *)
Fixpoint flatten (e : expr) : list expr := match e with EOp DOT l => flat_map flatten l | _ => [e] end.
Definition conv_use (n : hexpr) : outcome hobj := x <- hconv n ;; Ok (O_import (flatten x)).
(** visitProcess_declarative_item, visitProcess_or_package_declarative_item, processParser.cpp:69-209;
    visitEntity_declarative_item, entityParser.cpp:47-73; visitBlock_declarative_item,
    blockDeclarationParser.cpp:23-48; visitPackage_declarative_item, packageHeaderParser.cpp:50-80;
    visitAlias_declaration, aliasParser.cpp:12-46; visitType_declaration, visitSubtype_declaration,
    typeDeclarationParser.cpp:17-47, 296-306; visitPackage_declaration, packageHeaderParser.cpp:20-49;
    visitPackage_body, packageParser.cpp:15-36; visitSubprogram_body, subProgramParser.cpp:14-35.
    [ho] is hierarchyOnly. *)
Fixpoint conv_decl (ho : bool) (d : decl) : outcome (list hobj) :=
  match d with
  | DC_constant ns t v => l <- extract ns t v ;; Ok (map (fun d => O_id (set_const d)) l)
  | DC_signal ns t _ v => l <- extract ns t v ;; Ok (map O_id l)
  | DC_variable shared ns t v => l <- extract ns t v ;; Ok (map (fun d => O_id (set_shared shared (set_latched d))) l)
  | DC_type n None => Ok [O_type n symb_T None]
  | DC_type n (Some t) => v <- conv_tdef t ;; Ok [O_type n symb_T (Some v)]
  | DC_subtype n t => x <- hconv t ;; Ok [O_type n symb_T_SUBTYPE (Some (TV_expr x))]
  | DC_alias n t e _ =>
      ty <- match t with Some t => hconv t | None => Ok ENull end ;;
      x <- hconv e ;; Ok [O_id (set_alias (new_iddef n ty (Some x) DIR_INTERNAL false))]
  | DC_subprogram s => f <- conv_subprog false s [] ;; Ok [f]
  | DC_body s ds ss =>
      f <- conv_subprog true s [] ;;
      r <- concatM (conv_decl ho) ds ;; b <- mapM conv_hstm ss ;;
      g <- conv_subprog true s (r ++ map O_stm b) ;; Ok [g]
  | DC_package n _ ds => r <- (if ho then Ok [] else concatM (conv_decl ho) ds) ;; Ok [O_space n true r]
  | DC_package_body n ds => r <- (if ho then Ok [] else concatM (conv_decl ho) ds) ;; Ok [O_space n false r]
  | DC_component c => o <- conv_component ho c ;; Ok [o]
  | DC_use l => mapM conv_use l
  | DC_dropped _ => Ok []
  end.
Definition conv_decls (ho : bool) (l : list decl) : outcome (list hobj) := concatM (conv_decl ho) l.

(** ** Concurrent statements *)
(** visitInstantiated_unit, compInstanceParser.cpp:44-59 *)
Definition conv_iunit (u : iunit) : outcome expr := match u with IU_component _ n | IU_entity n _ | IU_configuration n => hconv n end.
(** visitComponent_instantiation_statement, compInstanceParser.cpp:16-42 *)
Definition conv_map (m : option (list (hassoc hexpr))) : outcome (list expr) := match m with Some l => mapM (conv_assoc hconv) l | None => Ok [] end.
Definition conv_vinst (l : str) (u : iunit) (gm pm : option (list (hassoc hexpr))) : outcome hobj :=
  e <- conv_iunit u ;; g <- conv_map gm ;; p <- conv_map pm ;; Ok (O_inst (mk_compinst (EId l) e g p)).
(** visitConcurrent_statement_with_optional_label, statementParser.cpp:759-790; visitProcess_statement,
    processParser.cpp:23-50.  postponed and the label behind end process are dropped. *)
Definition conv_csimple (ho : bool) (s : csimple) : outcome hobj :=
  match s with
  | CP_process sens ds ss _ =>
      se <- match sens with
            | HSens_none => Ok None | HSens_all => Ok (Some [ESym symb_ALL])
            | HSens l => r <- mapM hconv l ;; Ok (Some r)
            end ;;
      r <- conv_decls ho ds ;; b <- mapM conv_hstm ss ;; Ok (O_process hdr0 se (r ++ map O_stm b))
  | CP_call n => x <- conv_procedure_call n ;; Ok (O_stm (SExpr hdr0 x))
  | CP_assert c r s => x <- conv_hstm (HS None (J_assert c r s)) ;; Ok (O_stm x)
  | CP_assign c => x <- conv_conc c ;; Ok (O_stm x)
  end.
(** labels.insert(labels.begin(), label) *)
Definition label_obj (l : str) (o : hobj) : hobj :=
  match o with
  | O_process h s b => O_process (push_label l h) s b
  | O_block h b => O_block (push_label l h) b
  | O_for h i r b => O_for (push_label l h) i r b
  | O_if h c t e f => O_if (push_label l h) c t e f
  | O_case h s c d => O_case (push_label l h) s c d
  | O_stm s => O_stm (set_hdr (push_label l) s)
  | _ => o
  end.
Definition gen_hdr (ls : list str) : hdr := mk_hdr ls [] [] true.
Definition opt_list {A} (o : option A) : list A := match o with Some x => [x] | None => [] end.
(** the labels of if_generate_statement in the order of the text: those of the alternatives, that behind end *)
Definition if_labels (a : option str) (elifs : list (option str)) (else_ : option (option str)) (end_ : option str) : list str :=
  opt_list a ++ flat_map opt_list elifs ++ (match else_ with Some o => opt_list o | None => [] end) ++ opt_list end_.
Section Loops.
Context (ho : bool) (f : cstm -> outcome (list hobj)).
(** visitGenerate_statement_body, generateStatementParser.cpp:166-197 *)
Definition conv_gbody (b : gbody cstm) : outcome hobj :=
  match b with
  | GB begin_ ds ss =>
      r <- conv_decls ho ds ;; s <- concatM f ss ;;
      Ok (match ds, begin_, r ++ s with [], false, [o] => o | _, _, l => O_block (gen_hdr []) l end)
  end.
(** one alternative of visitCase_generate_statement, generateStatementParser.cpp:139-157: the body is
    converted once for every choice *)
Definition conv_galt (p : option str * list (hchoice hexpr) * gbody cstm) : outcome (list (expr * hobj)) :=
  cs <- mapM (conv_choice hconv) (snd (fst p)) ;;
  mapM (fun c => b <- conv_gbody (snd p) ;; Ok (c, b)) cs.
End Loops.
(** visitConcurrent_statement, statementParser.cpp:792-843; visitGenerate_statement and the functions it
    calls, generateStatementParser.cpp:29-164; visitBlock_statement, blockParser.cpp:27-52.  The test of the
    choices for null pointers in visitCase_generate_statement never holds, as conv_choice gives expressions,
    so there is no default; the labels collected there are not used. *)
Fixpoint conv_cstm (ho : bool) (s : cstm) : outcome (list hobj) :=
  match s with
  | CS_block l _ _ _ ds ss _ =>
      r <- conv_decls ho ds ;; b <- concatM (conv_cstm ho) ss ;; Ok [label_obj l (O_block (gen_hdr []) (r ++ b))]
  | CS_inst l u gm pm => o <- conv_vinst l u gm pm ;; Ok [o]
  | CS_for l i r b end_ =>
      x <- conv_range hconv r ;; o <- conv_gbody ho (conv_cstm ho) b ;;
      Ok [label_obj l (O_for (gen_hdr (opt_list end_)) (EId i) x o)]
  | CS_if l a c b elifs else_ end_ =>
      x <- hconv c ;; t <- conv_gbody ho (conv_cstm ho) b ;;
      es <- mapM (fun p : option str * hexpr * gbody cstm => y <- hconv (snd (fst p)) ;; o <- conv_gbody ho (conv_cstm ho) (snd p) ;; Ok (y, o)) elifs ;;
      e <- match else_ with Some p => o <- conv_gbody ho (conv_cstm ho) (snd p) ;; Ok (Some o) | None => Ok None end ;;
      let ls := if_labels a (map (fun p => fst (fst p)) elifs) (option_map fst else_) end_ in
      Ok [label_obj l (O_if (gen_hdr (firstn 1 ls)) x t es e)]
  | CS_case l sel alts _ =>
      x <- hconv sel ;; r <- concatM (conv_galt ho (conv_cstm ho)) alts ;;
      Ok [label_obj l (O_case (gen_hdr []) x r None)]
  | CS_simple l _ s => o <- conv_csimple ho s ;; Ok [match l with Some l => label_obj l o | None => o end]
  end.

(** ** Design units *)
(** visitLibrary_unit, designFileParser.cpp:33-121; visitEntity_declaration, entityParser.cpp:13-45;
    visitArchitecture_body, archParser.cpp:13-44 *)
Definition conv_lunit (ho : bool) (u : lunit) : outcome (list hobj) :=
  match u with
  | LU_entity n g p ds _ =>
      gs <- conv_clause ho g ;; ps <- conv_clause ho p ;; r <- (if ho then Ok [] else conv_decls ho ds) ;; Ok [O_module_dec n gs ps r]
  | LU_arch n of_ ds ss =>
      e <- hconv of_ ;; r <- (if ho then Ok [] else conv_decls ho ds) ;; b <- concatM (conv_cstm ho) ss ;; Ok [O_module_def n e (r ++ b)]
  | LU_package n g ds => conv_decl ho (DC_package n g ds)
  | LU_package_body n ds => conv_decl ho (DC_package_body n ds)
  | LU_configuration _ | LU_package_instance _ | LU_context _ => Ok []
  end.
(** visitContext_item, visitLibrary_clause, visitUse_clause, designFileParser.cpp:122-199; context
    references are skipped *)
Definition conv_citem (c : citem) : outcome (list hobj) :=
  match c with CI_library l => Ok (map O_library l) | CI_use l => mapM conv_use l | CI_context _ => Ok [] end.
(** visitDesign_file, visitDesign_unit, designFileParser.cpp:13-32 *)
Definition conv_dunit (ho : bool) (u : dunit) : outcome (list hobj) :=
  c <- concatM conv_citem (fst u) ;; o <- conv_lunit ho (snd u) ;; Ok (c ++ o).
Definition conv_file (ho : bool) (l : list dunit) : outcome (list hobj) := concatM (conv_dunit ho) l.
