(** Model of the conversion of Verilog functions and tasks: src/svConvertor/programParser.cpp and the subroutine
    ports of portParser.cpp.  The input is the parse tree (sv2017Parser.g4:754-785, 1794-1840).  Attributes,
    documentation comments and positions are not modelled; of the data declarations in a subroutine only
    those of variables are ([data_decl]). *)
From Verif Require Import Base AstModel StmModel LitModel SvExprModel SvStmModel SvTypeModel SvDeclModel.

(** tf_port_direction: const ref or a port direction *)
Inductive tfdir := TD_const_ref | TD (d : vdir).
(** visitTf_port_direction, portParser.cpp:461-474 *)
Definition visit_tfdir (d : tfdir) : direction := match d with TD_const_ref => DIR_LINKAGE | TD d => visit_dir d end.
(** tf_port_item *)
Record tfport := mk_tfport { tp_dir : option tfdir; tp_var : bool; tp_type : option doi; tp_name : option ident; tp_dims : list vdim; tp_value : option vexpr }.
(** visitTf_port_item, portParser.cpp:414-441: the direction is not read *)
Definition conv_tfport (p : tfport) : outcome iddef :=
  t <- conv_doi (tp_type p) None ;;
  ds <- conv_vdims (tp_dims p) ;;
  n <- match tp_name p with Some i => ident_str i | None => Ok [] end ;;
  v <- conv_opt conv (tp_value p) ;;
  Ok (new_iddef n (snd (apply_dims t ds)) v DIR_IN (tp_var p)).
(** block_item_declaration *)
Inductive bitem := BI_data (d : data_decl) | BI_local (b : pbody) | BI_param (b : pbody) | BI_let.
(** visitBlock_item_declaration, statementParser.cpp:652-688 *)
Definition conv_bitem (b : bitem) : outcome (list iddef) :=
  match b with BI_data d => conv_data d | BI_local b => conv_local b | BI_param b => conv_pbody b | BI_let => Ok [] end.
(** tf_item_declaration *)
Inductive tfitem := TI_block (b : bitem) | TI_port (d : tfdir) (var : bool) (t : option doi) (l : list vitem).
(** visitTf_port_declaration, programParser.cpp:62-84: var replaces the direction *)
Definition conv_tfdecl (d : tfdir) (var : bool) (t : option doi) (l : list vitem) : outcome (list iddef) :=
  x <- conv_doi t None ;; conv_idlist x false (if var then DIR_LINKAGE else visit_tfdir d) l.
(** The loop over the objects of a block item, programParser.cpp:33-54: an object with the name of a port that
    is already there replaces the type and the value of the (first) port.  The iterator given to erase is used
    afterwards; as in the usual implementations of vector it stands for the same position. *)
Definition with_type_value (o p : iddef) : iddef :=
  mk_iddef (d_name p) (d_type o) (d_value o) (d_dir p) (d_latched p) (d_const p) (d_static p) (d_shared p) (d_alias p) (d_doc p) (d_attrs p).
Fixpoint merge_objs (ports : list iddef) (objs : list iddef) : list iddef * list iddef :=
  match objs with
  | [] => (ports, [])
  | o :: l =>
      match update_port (d_name o) (with_type_value o) ports with
      | Some ports' => merge_objs ports' l
      | None => let '(p, r) := merge_objs ports l in (p, o :: r)
      end
  end.
(** visitTf_item_declaration, programParser.cpp:23-60; the state is (objects of the body, ports) *)
Definition run_tfitem (st : list iddef * list iddef) (i : tfitem) : outcome (list iddef * list iddef) :=
  match i with
  | TI_block b => l <- conv_bitem b ;; let '(ports, rest) := merge_objs (snd st) l in Ok (fst st ++ rest, ports)
  | TI_port d v t l => r <- conv_tfdecl d v t l ;; Ok (fst st, snd st ++ r)
  end.
(** task_and_function_declaration_common *)
Inductive thead := TH_ansi (l : list tfport) (decls : list bitem) | TH_items (l : list tfitem).
Inductive rtype := RT_void | RT_type (t : dtype) | RT_implicit (i : itype).
(** function_declaration or task_declaration; [tf_scoped]: the name has a scope in front *)
Record tf := mk_tf { tf_task : bool; tf_automatic : bool; tf_ret : option rtype; tf_scoped : bool; tf_name : ident; tf_head : thead; tf_body : list vstm }.
(** HdlFunctionDef, hdlFunctionDef.h; is_operator, is_virtual, is_declaration_only are false *)
Record sfunc := mk_sfunc { sf_name : str; sf_ret : expr; sf_params : list iddef; sf_task : bool; sf_static : bool; sf_body : list stm }.
(** visitFunction_data_type_or_implicit, visitData_type_or_void, typeParser.cpp:435-446, 487-504; the result of a
    task, programParser.cpp:151 *)
Definition conv_ret (task : bool) (r : option rtype) : outcome expr :=
  if task then Ok (EId $"void") else
  match r with None => Ok type_auto | Some RT_void => Ok (EId $"void") | Some (RT_type t) => conv_dtype t | Some (RT_implicit i) => conv_itype i None end.
(** visitTask_and_function_declaration_common, visitTask_declaration, visitFunction_declaration,
    programParser.cpp:86-173; visitLifetime, typeParser.cpp:427-433.  The parameters given to the constructor are not
    a null pointer, so they are there afterwards (hdlFunctionDef.cpp:6-16). *)
Definition conv_tf (f : tf) : outcome sfunc :=
  ret <- conv_ret (tf_task f) (tf_ret f) ;;
  name <- ident_str (tf_name f) ;;
  st <- match tf_head f with
        | TH_ansi l ds => ps <- mapM conv_tfport l ;; os <- concatM conv_bitem ds ;; Ok (os, ps)
        | TH_items l => foldM run_tfitem ([], []) l
        end ;;
  b <- mapM conv_stm (tf_body f) ;;
  Ok (mk_sfunc name ret (snd st) (tf_task f) (negb (tf_automatic f)) (map SDef (fst st) ++ b)).
