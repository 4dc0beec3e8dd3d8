(** What lists of declarations mean: every list equals several declarations written out one by one
    (IEEE 1800 clauses 6.5-6.8, 6.20, 23.2.2).  The functions here rewrite source text; they do not refer to
    the conversion of lists. *)
From Verif Require Import Base AstModel LitModel SvExprModel StmModel SvTypeModel SvDeclModel.

(** ** Parameters *)
(** One parameter: localparam or parameter; its type; its name and default value. *)
Inductive ptyp := PT_type                        (* a type parameter *)
  | PT_of (t : option doi) | PT_dtype (t : dtype).
Inductive pone := POne (local : bool) (t : ptyp) (i : ident) (ds : list vrange) (v : option pexp).
Definition one_value local t (p : passign) : pone := match p with PA i ds v => POne local t i ds v end.
Definition one_type local (p : ident * option dtype) : pone :=
  POne local PT_type (fst p) [] (match snd p with Some t => Some (PE_type t) | None => None end).
Definition body_ones local (b : pbody) : list pone :=
  match b with PB_types l => map (one_type local) l | PB_values t l => map (one_value local (PT_of t)) l end.
Definition decl_ones (d : pdecl) : list pone :=
  match d with
  | PD_types l => map (one_type false) l
  | PD_param b => body_ones false b
  | PD_local b => body_ones true b
  | PD_typed t l => map (one_value false (PT_dtype t)) l
  end.
Definition list_ones (p : plist) : list pone :=
  match p with
  | PL_empty => []
  | PL_bare l tail => map (one_value false (PT_of None)) l ++ flat_map decl_ones tail
  | PL_decls l => flat_map decl_ones l
  end.
(** The definition of one parameter. *)
Definition type_is (t : ptyp) (x : expr) : Prop :=
  match t with
  | PT_type => x = ESym symb_T
  | PT_of t => conv_doi t None = Ok x
  | PT_dtype t => conv_dtype t = Ok x
  end.
Definition value_is {S} (f : S -> outcome expr) (v : option S) (x : option expr) : Prop :=
  match v, x with Some v, Some e => f v = Ok e | None, None => True | _, _ => False end.
Definition defines (p : pone) (d : iddef) : Prop :=
  match p with
  | POne local t i _ v =>
      ident_str i = Ok (d_name d) /\ type_is t (d_type d) /\ value_is conv_pexp v (d_value d) /\ d_const d = local /\ d_dir d = DIR_INTERNAL
  end.

(** ** Variables and nets *)
Definition data_one (d : data_decl) (v : vitem) : data_decl := mk_data (dd_const d) (dd_automatic d) (dd_type d) [v].
Definition net_one (n : net_decl) (v : nitem) : net_decl := mk_net (nd_net n) (nd_special n) (nd_type n) [v].
Definition set_list (n : nadecl) (l : list vitem) : nadecl :=
  match n with
  | ND_inout t _ => ND_inout t l | ND_input t _ => ND_input t l | ND_output t _ => ND_output t l
  | ND_iface i m _ => ND_iface i m l | ND_ref t _ => ND_ref t l
  end.
Definition names_of (n : nadecl) : list vitem :=
  match n with ND_inout _ l | ND_input _ l | ND_output _ l | ND_iface _ _ l | ND_ref _ l => l end.

(** ** ANSI ports (23.2.2.3) *)
(** The type has its width written down (or has no width), so that a dimension after the name is not taken
    for the width: no vector type without range, no class with parameters. *)
Definition two_bounds (r : vrange) : bool := match r with RG_two _ _ _ => true | RG_one _ => false end.
Definition plain_path (p : vpath vexpr) : bool :=
  match p with VPathOf _ _ items => match rev items with (_, Some _) :: _ => false | _ => true end end.
Definition sized_dtype (t : dtype) : bool :=
  match t with
  | D_virtual _ (Some _) None => false
  | D_prim (P_vector _) _ [] => false
  | D_prim (P_vector _) _ [VD_range r] => two_bounds r
  | D_prim (P_vector _) _ [VD_type _] => false
  | D_prim (P_vector _) _ [_] => false
  | D_named p _ => plain_path p
  | _ => true
  end.
Definition sized_itype (i : itype) : bool :=
  match i with
  | I_type _ [] => false
  | I_type _ [Some r] => two_bounds r
  | I_type _ [None] => false
  | _ => true
  end.
Definition sized_doi (t : option doi) : bool :=
  match t with None => true | Some (DI_type t) => sized_dtype t | Some (DI_implicit i) => sized_itype i end.
Definition sized_nv (t : option nvtype) : bool :=
  match t with
  | None => true
  | Some (N_interconnect (Some i)) => sized_itype i
  | Some (N_interconnect None) => true
  | Some (N_var t) | Some (N_net _ t) => sized_doi t
  | Some (N_plain t) => sized_doi (Some t)
  end.
Definition sized (t : option ptype) : bool :=
  match t with None => true | Some (T_nv t) => sized_nv (Some t) | Some (T_iface _ _) => true end.
Definition sized_decl (n : nadecl) : bool :=
  match n with
  | ND_inout t _ | ND_input t _ | ND_output t _ => sized_nv t
  | ND_iface _ _ _ => true
  | ND_ref t _ => sized_doi t
  end.
(** The port list with every direction and every type written down.  [d] and [t] are those of the port
    before; a list starts with inout and the default net type, a direction without type means the default
    net type. *)
Fixpoint spell_out (d : vdir) (t : option ptype) (l : list ansi) : list ansi :=
  match l with
  | [] => []
  | AN_port (Some d') t' v :: l' => AN_port (Some d') t' v :: spell_out d' t' l'
  | AN_port None (Some t') v :: l' => AN_port (Some d) (Some t') v :: spell_out d (Some t') l'
  | AN_port None None v :: l' => AN_port (Some d) t v :: spell_out d t l'
  | AN_expr od i e :: l' => let d' := match od with Some x => x | None => d end in AN_expr (Some d') i e :: spell_out d' None l'
  end.
Definition is_var (t : option ptype) : bool := match t with Some (T_nv (N_var _)) => true | _ => false end.
Definition is_iface (t : option ptype) : bool := match t with Some (T_iface _ _) => true | _ => false end.
(** No interface port; no variable (var) type is inherited; a name with dimensions has a sized type. *)
Fixpoint plain_ports (t : option ptype) (l : list ansi) : bool :=
  match l with
  | [] => true
  | AN_port od t' v :: l' =>
      let inherits := match od, t' with None, None => true | _, _ => false end in
      let ty := if inherits then t else t' in
      negb (is_iface ty) && (negb inherits || negb (is_var ty)) && (match vi_dims v with [] => true | _ => sized ty end) && plain_ports ty l'
  | AN_expr _ _ _ :: l' => plain_ports None l'
  end.
(** The ports of  module m (l); endmodule *)
Definition header_ports (l : list ansi) : outcome (list iddef) :=
  ps <- conv_ansi_ports l ;; r <- conv_module (X := nat) ps [] ;; Ok (fst r).
