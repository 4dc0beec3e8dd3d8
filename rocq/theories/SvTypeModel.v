(** Model of the conversion of Verilog data types: src/svConvertor/typeParser.cpp and the wire types of
    utils.cpp.  The input is the parse tree made by the generated parser (sv2017Parser.g4:1181-1202,
    1453-1467).  Code positions are not modelled. *)
From Verif Require Import Base AstModel LitModel SvExprModel StmModel.

(** range_expression and array_range_expression: e, a : b, a +: b, a -: b (range_expression has the first
    two only). *)
Inductive vrange := RG_one (e : vexpr) | RG_two (k : rangekind) (a b : vexpr).
(** visitRange_expression, exprParser.cpp:27-42; visitArray_range_expression, exprParser.cpp:81-106 *)
Definition conv_range (r : vrange) : outcome expr :=
  match r with
  | RG_one e => conv e
  | RG_two k a b => x <- conv a ;; y <- conv b ;; Ok (mk2 x (visit_rangekind k) y)
  end.

(** integer_vector_type, integer_atom_type and non_integer_type; the text of the keyword is kept *)
Inductive prim := P_vector (kw : str) | P_atom (kw : str) | P_nonint (kw : str).
Inductive signing := Signed | Unsigned.
Inductive dtype :=
| D_string | D_chandle | D_event
| D_virtual (i : ident) (p : option (pva vexpr)) (sub : option ident)
| D_typeref_expr (e : vexpr) | D_typeref_type (t : dtype)
| D_prim (k : prim) (s : option signing) (ds : list vdim)
| D_enum (ds : list vdim) | D_struct (ds : list vdim)          (* the members are not converted *)
| D_named (p : vpath vexpr) (ds : list vdim)
with vdim := VD_star | VD_open | VD_type (t : dtype) | VD_range (r : vrange).
(** packed_dimension *)
Definition pdim := option vrange.
(** implicit_data_type, data_type_or_implicit, net_or_var_data_type (without interconnect, see below),
    net_port_type, var_data_type *)
Inductive itype := I_type (s : option signing) (ds : list pdim).
Inductive doi := DI_type (t : dtype) | DI_implicit (i : itype).
Inductive nvtype := N_interconnect (i : option itype) | N_var (t : option doi) | N_net (kw : str) (t : option doi) | N_plain (t : doi).

(** HdlOp::HdlOp(op, op0) with op0 not null *)
Definition null_sym : expr := ESym symb_NULL.
Definition type_auto : expr := ESym symb_T_AUTO.
(** Utils::signing, utils.cpp:34-40 *)
Definition mk_signing (s : option signing) : expr :=
  match s with None => null_sym | Some Signed => EInt (-1) (Val 1) | Some Unsigned => EInt (-1) (Val 0) end.
(** Utils::mkWireT, utils.cpp:26-49 *)
Definition wire_t (net : option expr) (range : expr) (s : option signing) : expr :=
  call_op PARAMETRIZATION (match net with Some n => n | None => EId $"wire" end) [range; mk_signing s].

(** applyVariable_dimension, typeParser.cpp:205-243: the first dimension of a parametrized type without
    width is written into the type object itself.  The pair holds the object the base type pointer points to
    afterwards and the resulting type. *)
Definition is_par (o : op) : bool := if op_eq_dec o PARAMETRIZATION then true else false.
Definition open_wire (e : expr) : bool :=
  match e with EOp o [_; ESym symb_NULL; _] => is_par o | _ => false end.
Definition set_width (e w : expr) : expr :=
  match e with EOp o [t; _; s] => EOp o [t; w; s] | _ => e end.
(** visitVariable_dimension, typeParser.cpp:340-350 *)
Definition index_dim (t : expr) (d : option expr) : expr :=
  match d with Some x => mk2 t INDEX x | None => op1 INDEX t end.
Definition apply_dims (base : expr) (ds : list (option expr)) : expr * expr :=
  match ds with
  | [] => (base, base)
  | d :: ds' =>
      if open_wire base
      then let b := set_width base (match d with Some x => x | None => null_sym end) in (b, fold_left index_dim ds' b)
      else (base, fold_left index_dim ds base)
  end.

(** The part of visitData_type_primitive that adds the sign, typeParser.cpp:83-118 *)
Definition set_sign (t : expr) (s : option signing) : expr :=
  match s with
  | None => t
  | Some _ =>
      let named := call_op PARAMETRIZATION t [mk2 (EId $"signed") MAP_ASSOCIATION (mk_signing s)] in
      match t with EOp o [a; b; _] => if is_par o then EOp o [a; b; mk_signing s] else named | _ => named end
  end.
(** visitInteger_vector_type, visitInteger_atom_type, visitNon_integer_type, typeParser.cpp:52-81 *)
Definition conv_prim (k : prim) (s : option signing) : expr :=
  match k with
  | P_vector kw => set_sign (wire_t (Some (EId kw)) null_sym None) s
  | P_atom kw => set_sign (EId kw) s
  | P_nonint kw => EId kw
  end.

(** visitData_type, visitType_reference, _visitVariable_dimension, typeParser.cpp:19-37, 120-189, 312-339;
    null operands are dropped by mk2. *)
Fixpoint conv_dtype (t : dtype) : outcome expr :=
  let conv_vdim (d : vdim) : outcome (option expr) :=
    match d with
    | VD_star | VD_open => Ok None
    | VD_type t => x <- conv_dtype t ;; Ok (Some x)
    | VD_range r => x <- conv_range r ;; Ok (Some x)
    end in
  let dims b ds := l <- mapM conv_vdim ds ;; Ok (snd (apply_dims b l)) in
  match t with
  | D_string => Ok (EId $"string") | D_chandle => Ok (EId $"chandle") | D_event => Ok (EId $"event")
  | D_virtual i p sub =>
      x <- visit_ident i ;;
      x <- match p with Some v => l <- conv_pva conv v ;; Ok (call_op PARAMETRIZATION x l) | None => Ok x end ;;
      match sub with Some j => y <- visit_ident j ;; Ok (op2 DOT x y) | None => Ok x end
  | D_typeref_expr e => x <- conv e ;; Ok (op1 TYPE_OF x)
  | D_typeref_type t => x <- conv_dtype t ;; Ok (op1 TYPE_OF x)
  | D_prim k s ds => dims (conv_prim k s) ds
  | D_enum ds | D_struct ds => dims ENotImpl ds
  | D_named p ds => x <- conv_path conv p ;; dims x ds
  end.
(** _visitVariable_dimension, typeParser.cpp:312-339 *)
Definition conv_vdim (d : vdim) : outcome (option expr) :=
  match d with
  | VD_star | VD_open => Ok None
  | VD_type t => x <- conv_dtype t ;; Ok (Some x)
  | VD_range r => x <- conv_range r ;; Ok (Some x)
  end.
Definition conv_vdims (ds : list vdim) : outcome (list (option expr)) := mapM conv_vdim ds.
(** visitPacked_dimension, typeParser.cpp:245-253 *)
Definition conv_pdim (d : pdim) : outcome (option expr) :=
  match d with Some r => x <- conv_range r ;; Ok (Some x) | None => Ok None end.
(** applyUnpacked_dimension, typeParser.cpp:194-203 *)
Definition apply_udims : expr -> list vrange -> outcome expr :=
  fix go t ds := match ds with [] => Ok t | d :: ds' => x <- conv_range d ;; go (mk2 t INDEX x) ds' end.
(** visitImplicit_data_type, typeParser.cpp:268-311; the net type is lost when there is no dimension
    (line 298 calls the overload without net type). *)
Definition conv_itype (i : itype) (net : option expr) : outcome expr :=
  match i with
  | I_type s [] => Ok (wire_t None null_sym s)
  | I_type s (d :: ds) =>
      r <- conv_pdim d ;;
      l <- mapM conv_pdim ds ;;
      Ok (fold_left index_dim l (wire_t net (match r with Some x => x | None => null_sym end) s))
  end.
(** visitData_type_or_implicit, typeParser.cpp:170-184 *)
Definition conv_doi (t : option doi) (net : option expr) : outcome expr :=
  match t with
  | None => Ok type_auto
  | Some (DI_type t) => conv_dtype t
  | Some (DI_implicit i) => conv_itype i net
  end.
(** visitNet_or_var_data_type, typeParser.cpp:388-425, with is_latched *)
Definition conv_nvtype (t : option nvtype) : outcome (expr * bool) :=
  match t with
  | None => Ok (type_auto, false)
  | Some (N_interconnect i) =>
      x <- match i with Some i => conv_itype i None | None => Ok type_auto end ;; Ok (x, false)
  | Some (N_var t) => x <- conv_doi t None ;; Ok (x, true)
  | Some (N_net kw t) => x <- conv_doi t (Some (EId kw)) ;; Ok (x, false)
  | Some (N_plain t) => x <- conv_doi (Some t) None ;; Ok (x, false)
  end.
(** visitNet_port_type, typeParser.cpp:367-387: the same without var *)
Definition conv_npt (t : option nvtype) : outcome expr :=
  match t with Some (N_var _) => UB "not in the grammar" | _ => r <- conv_nvtype t ;; Ok (fst r) end.

(** clone_uniq() of a type, on the values of the AST (CloneModel.v has the objects with their addresses):
    null operands are dereferenced, everything else is copied. *)
Fixpoint clone_e (e : expr) : outcome expr :=
  match e with
  | ENull => UB "clone of a null pointer"
  | EArr l => r <- mapM clone_e l ;; Ok (EArr r)
  | EOp o l => r <- mapM clone_e l ;; Ok (EOp o r)
  | _ => Ok e
  end.
(** clone_unique_ptr_vector, iHdlObj.h *)
Definition clone_es (l : list expr) : outcome (list expr) := mapM clone_e l.
