(** Model of declarations in Verilog modules: src/svConvertor/{paramDefParser,moduleInstanceParser,
    gateParser,portParser,declrParser,moduleParser}.cpp.  Code positions, documentation strings and
    attributes are not modelled here. *)
From Verif Require Import Base AstModel LitModel SvExprModel StmModel SvTypeModel.

(** ** Parameters: paramDefParser.cpp *)
(** param_expression: mintypmax_expression or data_type *)
Inductive pexp := PE_expr (e : vexpr) | PE_type (t : dtype).
(** param_assignment: identifier, unpacked dimensions, default *)
Inductive passign := PA (i : ident) (ds : list vrange) (v : option pexp).
(** what follows the keyword parameter or localparam *)
Inductive pbody := PB_types (l : list (ident * option dtype)) | PB_values (t : option doi) (l : list passign).
(** parameter_port_declaration *)
Inductive pdecl := PD_types (l : list (ident * option dtype)) | PD_param (b : pbody) | PD_local (b : pbody) | PD_typed (t : dtype) (l : list passign).
(** parameter_port_list, sv2017Parser.g4:1615-1619 *)
Inductive plist := PL_empty | PL_bare (l : list passign) (tail : list pdecl) | PL_decls (l : list pdecl).

(** HdlIdDef(id, type, value), hdlIdDef.cpp:11-17 *)
Definition new_var (name : str) (t : expr) (v : option expr) : iddef := new_iddef name t v DIR_INTERNAL false.
Definition set_type (d : iddef) (t : expr) : iddef :=
  mk_iddef (d_name d) t (d_value d) (d_dir d) (d_latched d) (d_const d) (d_static d) (d_shared d) (d_alias d) (d_doc d) (d_attrs d).
Definition set_const (d : iddef) (b : bool) : iddef :=
  mk_iddef (d_name d) (d_type d) (d_value d) (d_dir d) (d_latched d) b (d_static d) (d_shared d) (d_alias d) (d_doc d) (d_attrs d).
Definition set_flags (d : iddef) (c st : bool) : iddef :=
  mk_iddef (d_name d) (d_type d) (d_value d) (d_dir d) (d_latched d) c st (d_shared d) (d_alias d) (d_doc d) (d_attrs d).
Definition set_port (d : iddef) (dir : direction) (lat : bool) : iddef :=
  mk_iddef (d_name d) (d_type d) (d_value d) dir lat (d_const d) (d_static d) (d_shared d) (d_alias d) (d_doc d) (d_attrs d).

(** visitParam_expression, paramDefParser.cpp:103-118 *)
Definition conv_pexp (p : pexp) : outcome expr := match p with PE_expr e => conv e | PE_type t => conv_dtype t end.
Definition conv_opt {A B} (f : A -> outcome B) (x : option A) : outcome (option B) :=
  match x with Some a => b <- f a ;; Ok (Some b) | None => Ok None end.
(** visitParam_assignment, paramDefParser.cpp:145-162: the dimensions are not read *)
Definition conv_passign (p : passign) : outcome iddef :=
  match p with PA i _ v => x <- conv_opt conv_pexp v ;; n <- ident_str i ;; Ok (new_var n type_auto x) end.
(** visitTyped_list_of_param_assignments, paramDefParser.cpp:73-91 *)
Definition conv_typed (t : expr) (l : list passign) : outcome (list iddef) :=
  xs <- mapM conv_passign l ;;
  match xs with
  | [] => Ok []
  | x :: xs' => r <- mapM (fun y => t' <- clone_e t ;; Ok (set_type y t')) xs' ;; Ok (set_type x t :: r)
  end.
(** visitList_of_type_assignments, paramDefParser.cpp:120-143 *)
Definition conv_types (l : list (ident * option dtype)) : outcome (list iddef) :=
  mapM (fun p => n <- ident_str (fst p) ;; v <- conv_opt conv_dtype (snd p) ;; Ok (new_var n (ESym symb_T) v)) l.
(** visitParameter_declaration, paramDefParser.cpp:163-189 *)
Definition conv_pbody (b : pbody) : outcome (list iddef) :=
  match b with
  | PB_types l => conv_types l
  | PB_values t l => x <- conv_doi t None ;; conv_typed x l
  end.
(** visitLocal_parameter_declaration, paramDefParser.cpp:191-224 *)
Definition conv_local (b : pbody) : outcome (list iddef) := l <- conv_pbody b ;; Ok (map (fun d => set_const d true) l).
(** visitParameter_port_declaration, paramDefParser.cpp:38-71 *)
Definition conv_pdecl (d : pdecl) : outcome (list iddef) :=
  match d with
  | PD_types l => conv_types l
  | PD_param b => conv_pbody b
  | PD_local b => conv_local b
  | PD_typed t l => x <- conv_dtype t ;; conv_typed x l
  end.
Definition concatM {A B} (f : A -> outcome (list B)) : list A -> outcome (list B) :=
  fix go l := match l with [] => Ok [] | x :: l' => a <- f x ;; r <- go l' ;; Ok (a ++ r) end.
(** visitParameter_port_list, paramDefParser.cpp:18-36: after a list of assignments nothing else is read *)
Definition conv_plist (p : plist) : outcome (list iddef) :=
  match p with
  | PL_empty => Ok []
  | PL_bare l _ => mapM conv_passign l
  | PL_decls l => concatM conv_pdecl l
  end.

(** ** Instances: moduleInstanceParser.cpp *)
(** named_port_connection: [.*], [.name], [.name()], [.name(e)] *)
Inductive nconn := NC_star | NC_name (i : ident) | NC_conn (i : ident) (e : option vexpr).
Inductive conns := CO_ordered (l : list (option vexpr)) | CO_named (l : list nconn).
(** hierarchical_instance *)
Record hinst := mk_hinst { hi_name : ident; hi_dims : list vrange; hi_conns : conns }.
Inductive gvalues := GV_ordered (l : list pexp) | GV_named (l : list (ident * option pexp)).
(** module_or_interface_or_program_or_udp_instantiation *)
Record inst := mk_inst { in_module : ident; in_params : option gvalues; in_list : list hinst }.
(** HdlCompInst, hdlCompInst.h *)
Record compinst := mk_compinst { ci_name : expr; ci_module : expr; ci_generics : list expr; ci_ports : list expr }.

(** getText() of the identifier *)
Definition raw_text (i : ident) : str := match i with IdPlain s => s | IdEsc t => t end.
Definition assoc (i : ident) (v : expr) : outcome expr := k <- visit_ident i ;; Ok (mk2 k MAP_ASSOCIATION v).
Definition conv_or_null {A} (f : A -> outcome expr) (x : option A) : outcome expr :=
  match x with Some a => f a | None => Ok null_sym end.
(** visitList_of_parameter_value_assignments, moduleInstanceParser.cpp:50-87 *)
Definition conv_gvalues (g : gvalues) : outcome (list expr) :=
  match g with
  | GV_ordered l => mapM conv_pexp l
  | GV_named l => mapM (fun p => k <- visit_ident (fst p) ;; v <- conv_or_null conv_pexp (snd p) ;; Ok (mk2 k MAP_ASSOCIATION v)) l
  end.
(** visitList_of_port_connections, moduleInstanceParser.cpp:113-171; [.name] has no expression and is
    treated like [.name()]. *)
Definition conv_nconn (c : nconn) : outcome expr :=
  match c with
  | NC_star => Ok (op2 MAP_ASSOCIATION (ESym symb_ALL) null_sym)
  | NC_name i => k <- visit_ident i ;; Ok (mk2 k MAP_ASSOCIATION null_sym)
  | NC_conn i e => k <- visit_ident i ;; v <- conv_or_null conv e ;; Ok (mk2 k MAP_ASSOCIATION v)
  end.
Definition conv_conns (c : conns) : outcome (list expr) :=
  match c with CO_ordered l => mapM (conv_or_null conv) l | CO_named l => mapM conv_nconn l end.
(** visitHierarchical_instance, moduleInstanceParser.cpp:89-111 *)
Definition conv_hinst (module_name : str) (generics : list expr) (h : hinst) : outcome compinst :=
  n <- visit_ident (hi_name h) ;;
  n <- apply_udims n (hi_dims h) ;;
  p <- conv_conns (hi_conns h) ;;
  Ok (mk_compinst n (EId module_name) generics p).
(** visitModule_or_interface_or_program_or_udp_instantiation, moduleInstanceParser.cpp:15-48: the second and
    later instances copy the parameters of the first one. *)
Definition conv_inst (s : inst) : outcome (list compinst) :=
  g <- match in_params s with Some g => conv_gvalues g | None => Ok [] end ;;
  match in_list s with
  | [] => Ok []
  | h :: l =>
      c <- conv_hinst (raw_text (in_module s)) g h ;;
      r <- mapM (fun h' => g' <- clone_es (ci_generics c) ;; conv_hinst (raw_text (in_module s)) g' h') l ;;
      Ok (c :: r)
  end.

(** ** Gates: gateParser.cpp *)
Inductive ogate := G_BUF | G_NOT.
Inductive igate := G_AND | G_NAND | G_OR | G_NOR | G_XOR | G_XNOR.
(** gate_instantiation: the instances with their optional names (and dimensions); strengths and delays are
    not read *)
Inductive gates :=
| GT_out (t : ogate) (l : list (option (ident * list vrange) * list vexpr * vexpr))   (* name, outputs, input *)
| GT_in (t : igate) (l : list (option (ident * list vrange) * vexpr * list vexpr))    (* name, output, inputs *)
| GT_other.
Inductive gobj := GO_assign (dst src : expr) | GO_inst (c : compinst).
(** visitN_input_gatetype and the switch in visitGate_instantiation, gateParser.cpp:60-84, 197-224 *)
Definition gate_name (t : igate) : str :=
  match t with G_AND => $"and" | G_NAND => $"nand" | G_OR => $"or" | G_NOR => $"nor" | G_XOR => $"xor" | G_XNOR => $"xnor" end.
(** visitN_output_gate_instance and its use, gateParser.cpp:86-111, 148-177; HdlStmAssign throws on null
    pointers, which conv does not give here. *)
Definition conv_ogate (t : ogate) (g : option (ident * list vrange) * list vexpr * vexpr) : outcome gobj :=
  let '(_, outs, inp) := g in
  os <- mapM conv outs ;;
  i <- conv inp ;;
  match os with
  | [] => UB "outputs[0] of an empty vector"
  | _ => Ok (GO_assign (reduce os CONCAT) (match t with G_BUF => i | G_NOT => op1 NEG i end))
  end.
(** visitN_input_gate_instance and its use, gateParser.cpp:113-133, 178-234 *)
Definition conv_igate (t : igate) (g : option (ident * list vrange) * vexpr * list vexpr) : outcome gobj :=
  let '(nm, out, ins) := g in
  o <- conv out ;;
  is <- mapM conv ins ;;
  n <- match nm with Some (i, _) => visit_ident i | None => Ok (EId $" ") end ;;
  Ok (GO_inst (mk_compinst n (EId (gate_name t)) [] (o :: is))).
Definition conv_gates (g : gates) : outcome (list gobj) :=
  match g with
  | GT_out t l => mapM (conv_ogate t) l
  | GT_in t l => mapM (conv_igate t) l
  | GT_other => Ok []
  end.

(** ** Lists of identifiers *)
(** A name with its dimensions and initial value. *)
Record vitem := mk_vitem { vi_name : ident; vi_dims : list vdim; vi_value : option vexpr }.
Definition conv_vitem (t : expr) (v : vitem) (d : direction) (lat : bool) : outcome iddef :=
  n <- ident_str (vi_name v) ;; x <- conv_opt conv (vi_value v) ;; Ok (set_port (new_var n t x) d lat).
(** visitList_of_tf_variable_identifiers, visitList_of_variable_identifiers, portParser.cpp:322-398 (the
    second one has no values): the first name uses the type object itself, the others copy it afterwards. *)
Definition conv_idlist (base : expr) (lat : bool) (d : direction) (l : list vitem) : outcome (list iddef) :=
  match l with
  | [] => Ok []
  | v :: l' =>
      ds <- conv_vdims (vi_dims v) ;;
      let '(b, t) := apply_dims base ds in
      x <- conv_vitem t v d lat ;;
      r <- mapM (fun v' => c <- clone_e b ;; ds' <- conv_vdims (vi_dims v') ;; conv_vitem (snd (apply_dims c ds')) v' d lat) l' ;;
      Ok (x :: r)
  end.
(** visitList_of_variable_decl_assignments, declrParser.cpp:84-135: first is never true, every name copies the
    type.  A value made by new is dropped ([vi_value] is None then). *)
Definition conv_decl_assignments (base : expr) (l : list vitem) : outcome (list iddef) :=
  mapM (fun v => c <- clone_e base ;; ds <- conv_vdims (vi_dims v) ;; conv_vitem (snd (apply_dims c ds)) v DIR_INTERNAL false) l.
(** data_declaration with a list of variables: const, lifetime (None or static / automatic), type *)
Record data_decl := mk_data { dd_const : bool; dd_automatic : bool; dd_type : option doi; dd_list : list vitem }.
(** visitData_declaration, declrParser.cpp:17-60; visitLifetime, typeParser.cpp:427-433 *)
Definition conv_data (d : data_decl) : outcome (list iddef) :=
  t <- conv_doi (dd_type d) None ;;
  l <- conv_decl_assignments t (dd_list d) ;;
  Ok (map (fun v => set_flags v (dd_const d) (negb (dd_automatic d))) l).
(** net_decl_assignment: name, unpacked dimensions, value *)
Record nitem := mk_nitem { ni_name : ident; ni_dims : list vrange; ni_value : option vexpr }.
(** net_type, or an identifier in its place.  The second one is also how  t x;  with a type t defined by the user is
    read: net_declaration comes before data_declaration (sv2017Parser.g4:1891-1892, 1933-1934, 2200-2201) and both
    match. *)
Inductive netkind := NK_net (kw : str) | NK_user (i : ident).
Record net_decl := mk_net { nd_net : netkind; nd_special : bool; nd_type : option doi; nd_list : list nitem }.
(** visitNet_declaration, visitList_of_net_decl_assignments, moduleParser.cpp:283-392; [nd_special]: there is a
    strength, vectored, scalared or interconnect, then nothing is returned.  An identifier in place of the net type
    is not read. *)
Definition conv_net_decl (n : net_decl) : outcome (list iddef) :=
  if nd_special n then Ok [] else
  t <- conv_doi (nd_type n) (match nd_net n with NK_net kw => Some (EId kw) | NK_user _ => None end) ;;
  let one (v : nitem) (t : expr) :=
    nm <- ident_str (ni_name v) ;; x <- conv_opt conv (ni_value v) ;; t' <- apply_udims t (ni_dims v) ;; Ok (new_var nm t' x) in
  match nd_list n with
  | [] => Ok []
  | v :: l => x <- one v t ;; r <- mapM (fun v' => c <- clone_e t ;; one v' c) l ;; Ok (x :: r)
  end.

(** ** Ports: portParser.cpp *)
Inductive vdir := V_INPUT | V_OUTPUT | V_INOUT | V_REF.
(** visitPort_direction, portParser.cpp:442-458 *)
Definition visit_dir (d : vdir) : direction :=
  match d with V_INPUT => DIR_IN | V_OUTPUT => DIR_OUT | V_INOUT => DIR_INOUT | V_REF => DIR_LINKAGE end.
(** The header of an ANSI port: net or variable type, or interface ([None] for the keyword interface). *)
Inductive ptype := T_nv (t : nvtype) | T_iface (i : option ident) (modport : option ident).
Inductive ansi :=
| AN_port (d : option vdir) (t : option ptype) (v : vitem)
| AN_expr (d : option vdir) (i : ident) (e : option vexpr).            (* .name(expression) *)
(** visitAnsi_port_declaration, portParser.cpp:129-197.  The state is the direction of the previous port and
    the object its base type pointer points to (None for a null pointer). *)
Definition conv_ptype (t : ptype) : outcome (expr * bool) :=
  match t with
  | T_nv t => conv_nvtype (Some t)
  | T_iface i m =>
      x <- match i with Some i => visit_ident i | None => Ok (EId $"interface") end ;;
      match m with Some j => y <- visit_ident j ;; Ok (op2 DOT x y, false) | None => Ok (x, false) end
  end.
Definition conv_ansi (prev_d : direction) (prev_t : option expr) (p : ansi) : outcome (iddef * direction * option expr) :=
  match p with
  | AN_expr d i e =>
      let dir := match d with Some d => visit_dir d | None => prev_d end in
      n <- ident_str i ;; x <- conv_opt conv e ;; Ok (set_port (new_var n type_auto x) dir false, dir, None)
  | AN_port d t v =>
      let dir := match d with Some d => visit_dir d | None => prev_d end in
      let prev_t := match d with Some _ => None | None => prev_t end in
      bl <- match t with
            | Some t => conv_ptype t
            | None => match prev_t with Some b => c <- clone_e b ;; Ok (c, false) | None => Ok (EId $"wire", false) end
            end ;;
      ds <- conv_vdims (vi_dims v) ;;
      let '(b, ty) := apply_dims (fst bl) ds in
      x <- conv_vitem ty v dir (snd bl) ;;
      Ok (x, dir, Some b)
  end.
(** visitList_of_port_declarations, portParser.cpp:101-127 *)
Fixpoint conv_ansi_list (prev_d : direction) (prev_t : option expr) (l : list ansi) : outcome (list iddef) :=
  match l with
  | [] => Ok []
  | p :: l' =>
      r <- conv_ansi prev_d prev_t p ;;
      let '(x, d, b) := r in
      xs <- conv_ansi_list d b l' ;; Ok (x :: xs)
  end.
Definition conv_ansi_ports (l : list ansi) : outcome (list iddef) := conv_ansi_list DIR_UNKNOWN None l.

(** nonansi_port__expr: names with member and dimensions; between braces or not *)
Record dotted := mk_dotted { do_name : ident; do_member : option ident; do_dims : list vrange }.
Inductive naexpr := NE_one (d : dotted) | NE_concat (l : list dotted).
Inductive naport := NA_expr (e : naexpr) | NA_named (i : ident) (e : option naexpr).
(** visitIdentifier_doted_index_at_end, exprParser.cpp:107-122 *)
Definition conv_dotted (d : dotted) : outcome expr :=
  x <- visit_ident (do_name d) ;;
  x <- match do_member d with Some m => y <- visit_ident m ;; Ok (op2 DOT x y) | None => Ok x end ;;
  (fix go t ds := match ds with [] => Ok t | r :: ds' => y <- conv_range r ;; go (append_expr (Some t) INDEX y) ds' end) x (do_dims d).
(** visitNonansi_port__expr_as_expr, portParser.cpp:82-100 *)
Definition conv_naexpr (e : naexpr) : outcome expr :=
  match e with
  | NE_one d => conv_dotted d
  | NE_concat l => r <- mapM conv_dotted l ;; Ok (reduce r CONCAT)
  end.
(** split_type_base_name_and_array_size, portParser.cpp:27-48: the leftmost name is replaced by wire *)
Fixpoint split_name (e : expr) : outcome (str * expr) :=
  match e with
  | EId s => Ok (s, EId $"wire")
  | EOp o (x :: l) => r <- split_name x ;; Ok (fst r, EOp o (snd r :: l))
  | EOp _ [] => Throw (OutOfRange $"vector::at")
  | _ => Throw (RuntimeError $"Expr::extractStr called on expression which is not string or id")
  end.
Definition set_no_type (d : iddef) : iddef := set_type d ENull.
(** visitNonansi_port, visitNonansi_port__expr_as_var, portParser.cpp:50-81; a missing type is a null pointer *)
Definition conv_naport (p : naport) : outcome iddef :=
  match p with
  | NA_named i e => n <- ident_str i ;; v <- conv_opt conv_naexpr e ;; Ok (new_var n ENull v)
  | NA_expr (NE_concat l) => v <- conv_naexpr (NE_concat l) ;; Ok (new_var [] ENull (Some v))
  | NA_expr (NE_one d) =>
      e <- conv_dotted d ;;
      match e with
      | EId s => Ok (new_var s ENull None)
      | _ => r <- split_name e ;; Ok (new_var (fst r) (snd r) None)
      end
  end.
(** nonansi_port_declaration, sv2017Parser.g4:1638-1646 *)
Inductive nadecl :=
| ND_inout (t : option nvtype) (l : list vitem) | ND_input (t : option nvtype) (l : list vitem)
| ND_output (t : option nvtype) (l : list vitem) | ND_iface (i : ident) (m : option ident) (l : list vitem)
| ND_ref (t : option doi) (l : list vitem).
(** visitNonansi_port_declaration, portParser.cpp:198-254; visitVar_data_type, typeParser.cpp:447-465 *)
Definition conv_nadecl (n : nadecl) : outcome (list iddef) :=
  match n with
  | ND_inout t l => x <- conv_npt t ;; conv_idlist x false DIR_INOUT l
  | ND_input t l => x <- conv_nvtype t ;; conv_idlist (fst x) (snd x) DIR_IN l
  | ND_output t l => x <- conv_nvtype t ;; conv_idlist (fst x) (snd x) DIR_OUT l
  | ND_iface i m l =>
      x <- visit_ident i ;;
      x <- match m with Some j => y <- visit_ident j ;; Ok (op2 DOT x y) | None => Ok x end ;;
      conv_idlist x false DIR_LINKAGE l
  | ND_ref t l => x <- conv_doi t None ;; conv_idlist x false DIR_LINKAGE l
  end.

(** ** Modules: moduleParser.cpp *)
(** An object of the module body; HdlIdDef or anything else. *)
Inductive mobj (X : Type) := MO_id (d : iddef) | MO_other (x : X).
Arguments MO_id {X}. Arguments MO_other {X}.
(** A module item, already converted: a non-ANSI port declaration or objects of the body. *)
Inductive mitem (X : Type) := MI_ports (l : list iddef) | MI_objs (l : list (mobj X)).
Arguments MI_ports {X}. Arguments MI_objs {X}.
(** getPortByName, hdlModuleDec.cpp:9-15, together with an update of the port found *)
Fixpoint update_port (n : str) (f : iddef -> iddef) (l : list iddef) : option (list iddef) :=
  match l with
  | [] => None
  | p :: l' => if seqb (d_name p) n then Some (f p :: l') else match update_port n f l' with Some r => Some (p :: r) | None => None end
  end.
Definition find_port (n : str) (l : list iddef) : option iddef := List.find (fun p => seqb (d_name p) n) l.
(** The loop of visitModule_item over the declarations, moduleParser.cpp:247-281; the documentation of the item is
    that of the first declaration *)
Definition merge_decl (p d : iddef) : iddef :=
  mk_iddef (d_name p) (d_type d) (match d_value d with Some v => Some v | None => d_value p end) (d_dir d)
    (d_latched p || d_latched d) (d_const p || d_const d) (d_static p) (d_shared p) (d_alias p) (d_doc p ++ d_doc d) (d_attrs p).
Fixpoint insert_port (d : iddef) (l : list iddef) : list iddef :=
  match l with
  | [] => [d]
  | [p] => if seqb (d_name p) $".*" then [d; p] else [p; d]
  | p :: l' => p :: insert_port d l'
  end.
Definition add_decl (ports : list iddef) (d : iddef) : outcome (list iddef) :=
  match find_port (d_name d) ports with
  | Some p =>
      match d_value d, d_value p with
      | Some _, Some _ => UB "assert(p->value == nullptr)"
      | _, _ => match update_port (d_name d) (fun p => merge_decl p d) ports with Some r => Ok r | None => UB "unreachable" end
      end
  | None => Ok (insert_port d ports)
  end.
Definition foldM {A B} (f : A -> B -> outcome A) : A -> list B -> outcome A :=
  fix go a l := match l with [] => Ok a | b :: l' => a' <- f a b ;; go a' l' end.
Definition run_item {X} (st : list iddef * list (mobj X)) (i : mitem X) : outcome (list iddef * list (mobj X)) :=
  match i with
  | MI_ports l => p <- foldM add_decl (fst st) l ;; Ok (p, snd st)
  | MI_objs l => Ok (fst st, snd st ++ l)
  end.
(** consume_nonansi_ports_vars, moduleParser.cpp:113-135 *)
Definition merge_var (p v : iddef) : iddef :=
  mk_iddef (d_name p) (d_type v) (match d_value v with Some x => Some x | None => d_value p end) (d_dir p)
    (d_latched p || d_latched v) (d_const p || d_const v) (d_static p || d_static v) (d_shared p) (d_alias p) (d_doc p ++ d_doc v) (d_attrs p).
Fixpoint consume {X} (ports : list iddef) (objs : list (mobj X)) : list iddef * list (mobj X) :=
  match objs with
  | [] => (ports, [])
  | MO_id v :: l =>
      match update_port (d_name v) (fun p => merge_var p v) ports with
      | Some ports' => consume ports' l
      | None => let '(p, o) := consume ports l in (p, MO_id v :: o)
      end
  | o :: l => let '(p, os) := consume ports l in (p, o :: os)
  end.
(** The last loops, moduleParser.cpp:136-153 *)
Definition fill_type (d : iddef) : iddef := match d_type d with ENull => set_type d type_auto | _ => d end.
Definition is_unknown (d : direction) : bool := match d with DIR_UNKNOWN => true | _ => false end.
Fixpoint fill_dirs (prev : direction) (l : list iddef) : list iddef :=
  match l with
  | [] => []
  | p :: l' =>
      if is_unknown (d_dir p) then set_port (fill_type p) prev (d_latched p) :: fill_dirs prev l'
      else fill_type p :: fill_dirs (d_dir p) l'
  end.
(** visitModule_declaration, moduleParser.cpp:52-155, for a module with body: header ports, items.
    convert_non_ansi_ports_to_ansi, portParser.cpp:287-332, prints a message and changes nothing. *)
Definition conv_module {X} (header : list iddef) (items : list (mitem X)) : outcome (list iddef * list (mobj X)) :=
  st <- foldM run_item (header, []) items ;;
  let '(ports, objs) := consume (fst st) (snd st) in
  Ok (fill_dirs DIR_INOUT ports, objs).
