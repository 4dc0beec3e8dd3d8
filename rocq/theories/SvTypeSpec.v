(** What types and declarations of Verilog mean (IEEE 1800 clauses 6, 7, 23.2.2), and what types and definitions of the
    AST mean, over an arbitrary interpretation of expressions.  Nothing here refers to the conversion. *)
From Verif Require Import Base AstModel LitModel SvExprModel SvExprSpec StmModel SvTypeModel SvDeclModel SvDeclSpec SvInstSpec.

(** The words of the language that are kinds of nets or types. *)
Definition net_words : list str := map s2l ["wire"; "tri"; "tri0"; "tri1"; "triand"; "trior"; "trireg"; "uwire"; "wand"; "wor"; "supply0"; "supply1"]%string.
Definition vector_words : list str := map s2l ["bit"; "logic"; "reg"]%string.
Definition atom_words : list str := map s2l ["byte"; "shortint"; "int"; "longint"; "integer"; "time"]%string.
Definition other_words : list str := map s2l ["shortreal"; "real"; "realtime"; "string"; "chandle"; "event"; "genvar"]%string.
Definition isin (s : str) (l : list str) : bool := existsb (seqb s) l.
Definition word (s : str) : bool := isin s (net_words ++ vector_words ++ atom_words ++ other_words).

Section Spec.
Context (A : algebra).
(** A type: what it is made of, its sign, the packed and the unpacked dimensions in the order of the text.
    [FromValue]: the type of the value (of a parameter); [IsType]: the parameter is a type. *)
Inductive typ := Typ (b : base) (s : option signing) (packed unpacked : list dim)
with base := Word (kw : str) | Named (v : V A) | TypeOf (v : V A) | TypeOfType (t : typ) | FromValue | IsType
with dim := Dim (d : dimension A) | Unsized | AnyKey | Key (t : typ).
Definition plain (b : base) : typ := Typ b None [] [].
Definition add_dims (t : typ) (ds : list dim) : typ := match t with Typ b s p u => Typ b s p (u ++ ds) end.
Inductive value := ValOf (v : V A) | TypeVal (t : typ).
(** What is declared: a name with its type, value, direction and flags ([ob_var]: declared with the word var). *)
Record object := mk_object { ob_name : str; ob_type : typ; ob_value : option value; ob_dir : direction; ob_var : bool; ob_const : bool; ob_static : bool }.

(** ** The AST *)
Definition is_op (o o' : op) : bool := if op_eq_dec o o' then true else false.
(** A type and no value: a word, or made of one. *)
Fixpoint type_like (e : expr) : bool :=
  match e with
  | EId s => word s
  | EOp o (x :: _) => if is_op o INDEX || is_op o PARAMETRIZATION then type_like x else is_op o TYPE_OF
  | _ => false
  end.
Definition m_sign (e : expr) : option (option signing) :=
  match e with
  | ESym symb_NULL => Some None
  | EInt (-1) (Val 1) => Some (Some Signed)
  | EInt (-1) (Val 0) => Some (Some Unsigned)
  | _ => None
  end%Z.
Definition m_named (e : expr) : option typ := v <~ meaning A e ;; Some (plain (Named v)).
Definition m_tdim (f : expr -> option typ) (d : expr) : option dim :=
  if type_like d then t <~ f d ;; Some (Key t) else x <~ m_dim A d ;; Some (Dim x).
(** word #(width, sign): a vector, the width NULL stands for a single bit *)
Definition m_vector (f : expr -> option typ) (kw : str) (w s : expr) : option typ :=
  sg <~ m_sign s ;; if is_null w then Some (Typ (Word kw) sg [] []) else d <~ m_tdim f w ;; Some (Typ (Word kw) sg [d] []).
(** word #(signed => 1) *)
Definition m_atom (kw : str) (x : expr) : option typ :=
  match x with
  | EOp o [EId k; s] => if is_op o MAP_ASSOCIATION && seqb k $"signed" then sg <~ m_sign s ;; Some (Typ (Word kw) sg [] []) else None
  | _ => None
  end.
(** [dflt]: what the symbol T_AUTO stands for *)
Section Type_.
Context (dflt : base).
Fixpoint m_typ (e : expr) : option typ :=
  match e with
  | ESym symb_T_AUTO => Some (plain dflt)
  | ESym symb_T => Some (plain IsType)
  | EId s => if word s then Some (plain (Word s)) else m_named e
  | EOp o l =>
      if is_op o INDEX then
        match l with
        | [x] => t <~ m_typ x ;; Some (add_dims t [Unsized])
        | [x; d] => t <~ m_typ x ;; dm <~ m_tdim m_typ d ;; Some (add_dims t [dm])
        | _ => None
        end
      else if is_op o PARAMETRIZATION then
        match l with
        | [EId kw; w; s] => if word kw then m_vector m_typ kw w s else m_named e
        | [EId kw; s] => if word kw then m_atom kw s else m_named e
        | _ => m_named e
        end
      else if is_op o TYPE_OF then
        match l with
        | [x] => if type_like x then t <~ m_typ x ;; Some (plain (TypeOfType t)) else v <~ meaning A x ;; Some (plain (TypeOf v))
        | _ => None
        end
      else m_named e
  | _ => None
  end.
End Type_.
(** Nothing is said about the type: a parameter has the type of its value, a variable is of type logic, everything else
    is a wire. *)
Definition default_base (param : bool) (d : iddef) : base := if param || d_const d then FromValue else if d_latched d then Word $"logic" else Word $"wire".
Definition m_object (param : bool) (d : iddef) : option object :=
  t <~ m_typ (default_base param d) (d_type d) ;;
  v <~ match d_value d, t with
       | None, _ => Some None
       | Some e, Typ IsType _ _ _ => x <~ m_typ FromValue e ;; Some (Some (TypeVal x))
       | Some e, _ => x <~ meaning A e ;; Some (Some (ValOf x))
       end ;;
  Some (mk_object (d_name d) t v (d_dir d) (d_latched d) (d_const d) (d_static d)).

(** ** The source.  None: outside of the fragment of SvExprSpec.v, an escaped identifier, an enumeration, a structure, a
    virtual interface or an interconnect. *)
Definition v_word (s : str) : option base := if word s then Some (Word s) else None.
(** a name that is no word of the language *)
Definition no_word (i : ident) : bool := match i with IdPlain s => negb (word s) | IdEsc _ => false end.
Definition v_named (p : vpath vexpr) : option (V A) :=
  match p with VPathOf _ _ items => if forallb (fun it => no_word (fst it)) items then v_path A (vmeaning A) p else None end.
Fixpoint v_dtype (t : dtype) : option typ :=
  let v_vdim (d : vdim) :=
    match d with
    | VD_star => Some AnyKey | VD_open => Some Unsized
    | VD_type t => x <~ v_dtype t ;; Some (Key x)
    | VD_range r => x <~ v_dim A r ;; Some (Dim x)
    end in
  match t with
  | D_string => Some (plain (Word $"string")) | D_chandle => Some (plain (Word $"chandle")) | D_event => Some (plain (Word $"event"))
  | D_typeref_expr e => v <~ vmeaning A e ;; Some (plain (TypeOf v))
  | D_typeref_type t => x <~ v_dtype t ;; Some (plain (TypeOfType x))
  | D_prim (P_vector kw) s ds => b <~ v_word kw ;; p <~ omapM v_vdim ds ;; Some (Typ b s p [])
  | D_prim (P_atom kw) s [] => b <~ v_word kw ;; Some (Typ b s [] [])
  | D_prim (P_nonint kw) None [] => b <~ v_word kw ;; Some (plain b)
  | D_named p ds => v <~ v_named p ;; l <~ omapM v_vdim ds ;; Some (Typ (Named v) None l [])
  | D_prim _ _ _ | D_virtual _ _ _ | D_enum _ | D_struct _ => None
  end.
Definition v_vdim (d : vdim) : option dim :=
  match d with
  | VD_star => Some AnyKey | VD_open => Some Unsized
  | VD_type t => x <~ v_dtype t ;; Some (Key x)
  | VD_range r => x <~ v_dim A r ;; Some (Dim x)
  end.
Definition v_pdim (d : pdim) : option dim := match d with Some r => x <~ v_dim A r ;; Some (Dim x) | None => Some Unsized end.
(** What is declared decides about what is not written: nets of a kind, ports (nets of the default kind), variables,
    parameters. *)
Inductive role := R_net (kw : str) | R_port | R_var | R_param.
Definition silent (r : role) : base := match r with R_net kw => Word kw | R_port => Word $"wire" | R_var => Word $"logic" | R_param => FromValue end.
Definition ranged (r : role) : base := match r with R_param => Word $"logic" | _ => silent r end.
Definition role_ok (r : role) : bool := match r with R_net kw => isin kw net_words | _ => true end.
Definition v_doi (r : role) (t : option doi) : option typ :=
  if role_ok r then
    match t with
    | None => Some (plain (silent r))
    | Some (DI_implicit (I_type s [])) => Some (Typ (silent r) s [] [])
    | Some (DI_implicit (I_type s ds)) => l <~ omapM v_pdim ds ;; Some (Typ (ranged r) s l [])
    | Some (DI_type t) => match r with R_net _ => None | _ => v_dtype t end
    end
  else None.
Definition v_nvtype (t : option nvtype) : option (typ * bool) :=
  match t with
  | None => x <~ v_doi R_port None ;; Some (x, false)
  | Some (N_interconnect _) => None
  | Some (N_var t) => x <~ v_doi R_var t ;; Some (x, true)
  | Some (N_net kw t) => x <~ v_doi (R_net kw) t ;; Some (x, false)
  | Some (N_plain t) => x <~ v_doi R_port (Some t) ;; Some (x, false)
  end.
Definition v_val (e : option vexpr) : option (option value) := match e with Some e => x <~ vmeaning A e ;; Some (Some (ValOf x)) | None => Some None end.
(** One name of a list. *)
Definition v_vitem (t : typ) (dir : direction) (var const static : bool) (v : vitem) : option object :=
  n <~ v_ident (vi_name v) ;; ds <~ omapM v_vdim (vi_dims v) ;; x <~ v_val (vi_value v) ;; Some (mk_object n (add_dims t ds) x dir var const static).
Definition v_nitem (t : typ) (v : nitem) : option object :=
  n <~ v_ident (ni_name v) ;; ds <~ omapM (fun r => x <~ v_dim A r ;; Some (Dim x)) (ni_dims v) ;; x <~ v_val (ni_value v) ;;
  Some (mk_object n (add_dims t ds) x DIR_INTERNAL false false false).
Definition v_data (d : data_decl) : option (list object) :=
  t <~ v_doi R_var (dd_type d) ;; omapM (v_vitem t DIR_INTERNAL false (dd_const d) (negb (dd_automatic d))) (dd_list d).
Definition v_net_decl (n : net_decl) : option (list object) :=
  if nd_special n then None else
  t <~ match nd_net n with
       | NK_net kw => v_doi (R_net kw) (nd_type n)
       | NK_user i => match nd_type n with None => s <~ v_ident i ;; Some (plain (Named (a_name A s))) | Some _ => None end
       end ;;
  omapM (v_nitem t) (nd_list n).
Definition v_genvar (i : ident) : option object :=
  n <~ v_ident i ;; Some (mk_object n (plain (Word $"genvar")) None DIR_INTERNAL false false false).
(** Ports.  References and interfaces have the direction LINKAGE. *)
Definition v_nadecl (n : nadecl) : option (list object) :=
  match n with
  | ND_inout t l => x <~ v_nvtype t ;; omapM (v_vitem (fst x) DIR_INOUT (snd x) false false) l
  | ND_input t l => x <~ v_nvtype t ;; omapM (v_vitem (fst x) DIR_IN (snd x) false false) l
  | ND_output t l => x <~ v_nvtype t ;; omapM (v_vitem (fst x) DIR_OUT (snd x) false false) l
  | ND_iface i m l =>
      s <~ (if no_word i then v_ident i else None) ;;
      t <~ match m with Some j => k <~ v_ident j ;; Some (a_member A (a_name A s) k) | None => Some (a_name A s) end ;;
      omapM (v_vitem (plain (Named t)) DIR_LINKAGE false false false) l
  | ND_ref t l => x <~ v_doi R_var t ;; omapM (v_vitem x DIR_LINKAGE false false false) l
  end.
Definition v_dir (d : vdir) : direction := match d with V_INPUT => DIR_IN | V_OUTPUT => DIR_OUT | V_INOUT => DIR_INOUT | V_REF => DIR_LINKAGE end.
(** A port of an ANSI header with its direction written down. *)
Definition v_ansi (p : ansi) : option object :=
  match p with
  | AN_port (Some d) None v => x <~ v_nvtype None ;; v_vitem (fst x) (v_dir d) (snd x) false false v
  | AN_port (Some d) (Some (T_nv t)) v => x <~ v_nvtype (Some t) ;; v_vitem (fst x) (v_dir d) (snd x) false false v
  | _ => None
  end.
(** A parameter. *)
Definition v_pone (p : pone) : option object :=
  match p with
  | POne local t i ds v =>
      n <~ v_ident i ;;
      ty <~ match t with PT_type => Some (plain IsType) | PT_of t => v_doi R_param t | PT_dtype t => v_dtype t end ;;
      l <~ omapM (fun r => x <~ v_dim A r ;; Some (Dim x)) ds ;;
      x <~ match v, t with
           | None, _ => Some None
           | Some (PE_type d), PT_type => y <~ v_dtype d ;; Some (Some (TypeVal y))
           | Some (PE_expr e), PT_of _ | Some (PE_expr e), PT_dtype _ => y <~ vmeaning A e ;; Some (Some (ValOf y))
           | _, _ => None
           end ;;
      Some (mk_object n (add_dims ty l) x DIR_INTERNAL false local false)
  end.
End Spec.
Arguments plain {A}. Arguments Typ {A}. Arguments Word {A}. Arguments FromValue {A}. Arguments IsType {A}.

(** ** What is kept *)
(** A size that is not taken for a type: a literal, a name, an operation. *)
Fixpoint size_ok (e : vexpr) : bool :=
  match e with
  | VLit _ | VDot _ _ | VUnary _ _ | VBinary _ _ _ | VTernary _ _ _ | VTfCall _ None _ => true
  | VPath (VPathOf false H_none [(i, None)]) => no_word i
  | VPar e None => size_ok e
  | _ => false
  end.
Definition range_ok (r : vrange) : bool := match r with RG_one e => size_ok e | RG_two _ _ _ => true end.
(** A type that begins with a word. *)
Definition wordy (t : dtype) : bool := match t with D_named _ _ | D_virtual _ _ _ | D_enum _ | D_struct _ => false | _ => true end.
(** At most one packed dimension, with both bounds; no packed dimensions of types that have a name; no [*]. *)
Fixpoint kept_dtype (t : dtype) : bool :=
  match t with
  | D_string | D_chandle | D_event => true
  | D_typeref_expr e => size_ok e
  | D_typeref_type t => kept_dtype t && wordy t
  | D_prim _ _ [] => true
  | D_prim (P_vector _) _ [VD_range r] => two_bounds r
  | D_named _ [] => true
  | _ => false
  end.
Definition kept_vdim (d : vdim) : bool :=
  match d with VD_star => false | VD_open => true | VD_type t => kept_dtype t && wordy t | VD_range r => range_ok r end.
(** The kind of a net is kept if it is wire or there is a width; the types [var [3:0]] and [parameter [3:0]] are not kept. *)
Definition kept_doi (r : role) (t : option doi) : bool :=
  match r, t with
  | R_net kw, None | R_net kw, Some (DI_implicit (I_type _ [])) => seqb kw $"wire"
  | R_net _, Some (DI_implicit (I_type _ [Some w])) => two_bounds w
  | R_port, Some (DI_implicit (I_type _ [])) => true
  | R_port, Some (DI_implicit (I_type _ [Some w])) => two_bounds w
  | _, Some (DI_implicit _) => false
  | _, None => true
  | _, Some (DI_type t) => kept_dtype t
  end.
Definition kept_nvtype (t : option nvtype) : bool :=
  match t with
  | None => true
  | Some (N_interconnect _) => false
  | Some (N_var t) => kept_doi R_var t
  | Some (N_net kw t) => kept_doi (R_net kw) t
  | Some (N_plain t) => kept_doi R_port (Some t)
  end.
(** A type without width has no dimensions after the name. *)
Definition kept_vitem (sized : bool) (v : vitem) : bool := forallb kept_vdim (vi_dims v) && (sized || match vi_dims v with [] => true | _ => false end).
Definition kept_data (d : data_decl) : bool :=
  match dd_type d with Some (DI_type t) => kept_dtype t && forallb (kept_vitem (sized_dtype t)) (dd_list d) | _ => false end.
Definition kept_net_decl (n : net_decl) : bool :=
  match nd_net n with NK_net kw => kept_doi (R_net kw) (nd_type n) | NK_user _ => false end && forallb (fun v => forallb range_ok (ni_dims v)) (nd_list n).
Definition kept_nadecl (n : nadecl) : bool :=
  match n with
  | ND_inout t l => kept_nvtype t && forallb (kept_vitem (sized_nv t)) l && match t with Some (N_var _) => false | _ => true end
  | ND_input t l | ND_output t l => kept_nvtype t && forallb (kept_vitem (sized_nv t)) l
  | ND_iface _ _ l => forallb (kept_vitem true) l
  | ND_ref t l => match t with Some (DI_type d) => kept_dtype d && forallb (kept_vitem (sized_dtype d)) l | _ => false end
  end.
Definition kept_ansi (p : ansi) : bool :=
  match p with
  | AN_port (Some d) None v => forallb kept_vdim (vi_dims v)
  | AN_port (Some d) (Some (T_nv t)) v => kept_nvtype (Some t) && kept_vitem (sized_nv (Some t)) v
  | _ => false
  end.
Definition kept_pone (p : pone) : bool :=
  match p with
  | POne _ t _ ds v =>
      match t with PT_type => true | PT_of t => kept_doi R_param t | PT_dtype t => kept_dtype t end &&
      match ds with [] => true | _ => false end &&
      match v, t with Some (PE_type d), PT_type => kept_dtype d | _, _ => true end
  end.
(** No list of names is empty: the grammar has none. *)
Definition full {X} (l : list X) : bool := match l with [] => false | _ => true end.
Definition full_body (b : pbody) : bool := match b with PB_types l => full l | PB_values _ l => full l end.
Definition full_params (p : plist) : bool :=
  match p with
  | PL_decls l => forallb (fun d => match d with PD_types l => full l | PD_param b | PD_local b => full_body b | PD_typed _ l => full l end) l
  | _ => true
  end.
