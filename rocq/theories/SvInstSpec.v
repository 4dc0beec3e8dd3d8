(** What instantiations and gates mean (IEEE 1800 clauses 23.3.2 and 28), over an arbitrary interpretation of
    expressions.  Nothing here refers to the conversion. *)
From Verif Require Import Base AstModel LitModel SvExprModel SvExprSpec SvTypeModel SvDeclModel.

Section Spec.
Context (A : algebra).
(** A dimension of an array of instances: [n] or [a : b]. *)
Inductive dimension := One (v : V A) | Two (k : slicing) (a b : V A).
(** A connection of a port: positional or named, to an expression or to nothing; or all remaining ports. *)
Inductive connection := Conn (port : option str) (v : option (V A)) | ConnAll.
Record instance := mk_instance {
  i_module : str; i_params : list (argument (V A)); i_name : str; i_dims : list dimension; i_conns : list connection }.

(** ** The AST *)
Definition m_dim (e : expr) : option dimension :=
  match e with
  | EOp o [a; b] =>
      match m_slicing o with
      | Some k => x <~ meaning A a ;; y <~ meaning A b ;; Some (Two k x y)
      | None => x <~ meaning A e ;; Some (One x)
      end
  | _ => x <~ meaning A e ;; Some (One x)
  end.
Definition is_index (o : op) : bool := if op_eq_dec o INDEX then true else false.
Fixpoint m_name (e : expr) : option (str * list dimension) :=
  match e with
  | EId s => Some (s, [])
  | EOp o [x; d] => if is_index o then r <~ m_name x ;; dm <~ m_dim d ;; Some (fst r, snd r ++ [dm]) else None
  | _ => None
  end.
Definition is_all (e : expr) : bool :=
  match e with EOp o [ESym symb_ALL; ESym symb_NULL] => if op_eq_dec o MAP_ASSOCIATION then true else false | _ => false end.
Definition m_conn (e : expr) : option connection :=
  if is_all e then Some ConnAll else a <~ m_arg A is_null (meaning A) e ;; Some (Conn (fst a) (snd a)).
Definition m_inst (c : compinst) : option instance :=
  match ci_module c with
  | EId m =>
      p <~ omapM (m_arg A is_null (meaning A)) (ci_generics c) ;;
      n <~ m_name (ci_name c) ;;
      l <~ omapM m_conn (ci_ports c) ;;
      Some (mk_instance m p (fst n) (snd n) l)
  | _ => None
  end.

(** ** The source.  None: outside of the fragment of SvExprSpec.v, or a type as parameter value, or an
    escaped identifier. *)
Definition v_dim (r : vrange) : option dimension :=
  match r with
  | RG_one e => x <~ vmeaning A e ;; Some (One x)
  | RG_two k a b => x <~ vmeaning A a ;; y <~ vmeaning A b ;; Some (Two (v_slicing k) x y)
  end.
(** an expression that is not the literal null, which means no connection in the AST *)
Definition v_value (e : vexpr) : option (V A) := if null_like e then None else vmeaning A e.
Definition v_pexp (p : pexp) : option (V A) := match p with PE_expr e => v_value e | PE_type _ => None end.
Definition v_gvalues (g : gvalues) : option (list (argument (V A))) :=
  match g with
  | GV_ordered l => omapM (fun p => x <~ v_pexp p ;; Some (None, Some x)) l
  | GV_named l => omapM (fun p : ident * option pexp => k <~ v_ident (fst p) ;;
      match snd p with Some e => x <~ v_pexp e ;; Some (Some k, Some x) | None => Some (Some k, None) end) l
  end.
(** [shorthand]: what .name without parentheses means; in the language it is .name(name) *)
Definition v_nconn (shorthand : str -> option (V A)) (c : nconn) : option connection :=
  match c with
  | NC_star => Some ConnAll
  | NC_name i => k <~ v_ident i ;; Some (Conn (Some k) (shorthand k))
  | NC_conn i None => k <~ v_ident i ;; Some (Conn (Some k) None)
  | NC_conn i (Some e) => k <~ v_ident i ;; x <~ v_value e ;; Some (Conn (Some k) (Some x))
  end.
Definition v_conns sh (c : conns) : option (list connection) :=
  match c with
  | CO_ordered l => omapM (fun o => match o with Some e => x <~ v_value e ;; Some (Conn None (Some x)) | None => Some (Conn None None) end) l
  | CO_named l => omapM (v_nconn sh) l
  end.
(** Every instance has the module, the parameters, its own name and its own connections. *)
Definition v_hinst sh (s : inst) (h : hinst) : option instance :=
  m <~ v_ident (in_module s) ;;
  p <~ match in_params s with Some g => v_gvalues g | None => Some [] end ;;
  n <~ v_ident (hi_name h) ;;
  d <~ omapM v_dim (hi_dims h) ;;
  c <~ v_conns sh (hi_conns h) ;;
  Some (mk_instance m p n d c).
Definition v_inst sh (s : inst) : option (list instance) := omapM (v_hinst sh s) (in_list s).
(** The language. *)
Definition by_name (k : str) : option (V A) := Some (a_name A k).
(** Some connection is written .name *)
Definition uses_shorthand (s : inst) : bool :=
  existsb (fun h => match hi_conns h with CO_named l => existsb (fun c => match c with NC_name _ => true | _ => false end) l | _ => false end) (in_list s).

(** ** Gates *)
(** buf and not drive every output with the (inverted) input; the others are instances of a primitive with
    the output first. *)
Inductive gate := Drive (dst src : V A) | Prim (k : igate) (name : option str) (out : V A) (ins : list (V A)).
Definition v_ogate (t : ogate) (g : option (ident * list vrange) * list vexpr * vexpr) : option (list gate) :=
  let '(_, outs, inp) := g in
  os <~ omapM (vmeaning A) outs ;; i <~ vmeaning A inp ;;
  Some (map (fun o => Drive o (match t with G_BUF => i | G_NOT => a_unary A BitNot i end)) os).
Definition v_igate (t : igate) (g : option (ident * list vrange) * vexpr * list vexpr) : option (list gate) :=
  let '(nm, out, ins) := g in
  n <~ match nm with Some (i, []) => k <~ v_ident i ;; if seqb k $" " then None else Some (Some k) | Some _ => None | None => Some None end ;;
  o <~ vmeaning A out ;; is <~ omapM (vmeaning A) ins ;;
  Some [Prim t n o is].
Definition v_gates (g : gates) : option (list gate) :=
  match g with
  | GT_out t l => r <~ omapM (v_ogate t) l ;; Some (List.concat r)
  | GT_in t l => r <~ omapM (v_igate t) l ;; Some (List.concat r)
  | GT_other => None
  end.
Definition m_gkind (s : str) : option igate :=
  if seqb s $"and" then Some G_AND else if seqb s $"nand" then Some G_NAND else if seqb s $"or" then Some G_OR
  else if seqb s $"nor" then Some G_NOR else if seqb s $"xor" then Some G_XOR else if seqb s $"xnor" then Some G_XNOR else None.
Definition m_gobj (g : gobj) : option gate :=
  match g with
  | GO_assign d s => x <~ meaning A d ;; y <~ meaning A s ;; Some (Drive x y)
  | GO_inst c =>
      match ci_name c, ci_module c, ci_generics c, ci_ports c with
      | EId n, EId m, [], o :: is =>
          k <~ m_gkind m ;; x <~ meaning A o ;; l <~ omapM (meaning A) is ;;
          Some (Prim k (if seqb n $" " then None else Some n) x l)
      | _, _, _, _ => None
      end
  end.
Definition single_outputs (g : gates) : bool :=
  match g with GT_out _ l => forallb (fun i => match i with (_, [_], _) => true | _ => false end) l | _ => true end.
End Spec.
(** The statement with one of its instances only. *)
Definition only (s : inst) (h : hinst) : inst := mk_inst (in_module s) (in_params s) [h].
