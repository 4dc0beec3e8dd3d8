(** What the declaration of a function or task declares (IEEE 1800 clauses 13.3, 13.4).  Types and values are
    those of the conversion of one type or value; nothing here refers to the conversion of lists of arguments. *)
From Verif Require Import Base AstModel StmModel LitModel SvExprModel SvStmModel SvTypeModel SvDeclModel SvDeclSpec SvTfModel.

(** ** Arguments in parentheses *)
(** One argument with everything written down. *)
Inductive arg := Arg (d : tfdir) (t : option doi) (i : ident) (ds : list vdim) (v : option vexpr).
(** [d] and [t]: direction and type of the argument before.  Without a direction the argument has that of the
    one before; without a direction and a type also its type.  The first one is an input.  None: a name is missing. *)
Fixpoint full_args (d : tfdir) (t : option doi) (l : list tfport) : option (list arg) :=
  match l with
  | [] => Some []
  | p :: l' =>
      let d' := match tp_dir p with Some x => x | None => d end in
      let t' := match tp_type p, tp_dir p with Some x, _ => Some x | None, Some _ => None | None, None => t end in
      match tp_name p, full_args d' t' l' with Some i, Some r => Some (Arg d' t' i (tp_dims p) (tp_value p) :: r) | _, _ => None end
  end.
Definition args (l : list tfport) : option (list arg) := full_args (TD V_INPUT) None l.
(** References have the direction LINKAGE in the AST. *)
Definition dir_of (d : tfdir) : direction :=
  match d with TD V_INPUT => DIR_IN | TD V_OUTPUT => DIR_OUT | TD V_INOUT => DIR_INOUT | TD V_REF | TD_const_ref => DIR_LINKAGE end.
Definition arg_is (a : arg) (x : iddef) : Prop :=
  match a with
  | Arg d t i ds v =>
      ident_str i = Ok (d_name x) /\ d_dir x = dir_of d /\ value_is conv v (d_value x) /\
      exists b ls, conv_doi t None = Ok b /\ conv_vdims ds = Ok ls /\ d_type x = snd (apply_dims b ls)
  end.
(** Only inputs, and no type is taken over from the argument before. *)
Fixpoint plain_args (t : option doi) (l : list tfport) : bool :=
  match l with
  | [] => true
  | p :: l' =>
      let t' := match tp_type p, tp_dir p with Some x, _ => Some x | None, Some _ => None | None, None => t end in
      match tp_dir p with None | Some (TD V_INPUT) => true | Some _ => false end &&
      match tp_type p, tp_dir p, t with None, None, Some _ => false | _, _, _ => true end && plain_args t' l'
  end.

(** ** Arguments declared in the body *)
(** What the items declare one by one: an argument or something else. *)
Inductive ditem := DP (x : iddef) | DB (x : iddef).
Definition declares (i : tfitem) : outcome (list ditem) :=
  match i with
  | TI_block b => l <- conv_bitem b ;; Ok (map DB l)
  | TI_port d v t l => r <- conv_tfdecl d v t l ;; Ok (map DP r)
  end.
Definition ports_of (l : list ditem) : list iddef := flat_map (fun i => match i with DP x => [x] | DB _ => [] end) l.
Definition others_of (l : list ditem) : list iddef := flat_map (fun i => match i with DP _ => [] | DB x => [x] end) l.
Definition has (n : str) (x : iddef) : bool := seqb (d_name x) n.
(** Another declaration of an argument comes after it. *)
Fixpoint ordered (l : list ditem) : bool :=
  match l with
  | [] => true
  | DP _ :: l' => ordered l'
  | DB x :: l' => negb (existsb (has (d_name x)) (ports_of l')) && ordered l'
  end.
(** An argument has the type (and value) of its last other declaration if there is one. *)
Definition last_of (n : str) (l : list ditem) (x : iddef) : iddef := List.last (filter (has n) (others_of l)) x.
Definition port_is (l : list ditem) (p x : iddef) : Prop :=
  d_name x = d_name p /\ d_dir x = d_dir p /\ d_latched x = d_latched p /\
  d_type x = d_type (last_of (d_name p) l p) /\ d_value x = d_value (last_of (d_name p) l p).
Definition is_arg (l : list ditem) (x : iddef) : bool := existsb (has (d_name x)) (ports_of l).
(** A declaration of arguments: the type has its width written down or there are no dimensions after the names. *)
Definition plain_decl (t : option doi) (l : list vitem) : bool := sized_doi t || forallb (fun v => match vi_dims v with [] => true | _ => false end) l.
