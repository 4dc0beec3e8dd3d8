(** Trees of files that the clauses of SvModSyntaxSpec.v can write down.  Left out are the two readings of the parser that
    these clauses do not have: a name in the brackets of a variable that is taken for a type, and an instance that is
    taken for primitives and skipped (C85). *)
From Verif Require Import Base SvExprModel SvStmModel SvTypeModel SvDeclModel SvTfModel SvGenModel SvFileModel.

Definition tidy_dim (d : vdim) : bool := match d with VD_range _ => true | _ => false end.
Definition tidy_type (t : doi) : bool := match t with DI_type (D_prim _ _ ds) => forallb tidy_dim ds | DI_type _ => false | DI_implicit _ => true end.
Definition tidy_otype (t : option doi) : bool := match t with Some t => tidy_type t | None => true end.
Definition tidy_nvtype (t : option nvtype) : bool := match t with Some (N_net _ t) => tidy_otype t | Some (N_plain t) => tidy_type t | _ => true end.
Definition tidy_item (v : vitem) : bool := forallb tidy_dim (vi_dims v).
Definition tidy_pbody (b : pbody) : bool := match b with PB_values t _ => tidy_otype t | _ => true end.
Definition tidy_pdecl (p : pdecl) : bool := match p with PD_param b | PD_local b => tidy_pbody b | PD_typed t _ => tidy_type (DI_type t) | _ => true end.
Definition tidy_plist (p : option plist) : bool := match p with Some (PL_bare _ l) | Some (PL_decls l) => forallb tidy_pdecl l | _ => true end.
Definition tidy_ansi (p : str * list attr * ansi) : bool := match snd p with AN_port _ (Some (T_nv t)) v => tidy_nvtype (Some t) && tidy_item v | AN_port _ _ v => tidy_item v | _ => true end.
Definition tidy_ports (p : hports) : bool := match p with HP_ansi l => forallb tidy_ansi l | _ => true end.
Definition tidy_nadecl (n : nadecl) : bool := match n with ND_inout t l | ND_input t l | ND_output t l => tidy_nvtype t && forallb tidy_item l | _ => true end.
Definition tidy_leaf (l : gleaf) : bool :=
  match l with
  | GL_skipped => false
  | GL_local b | GL_param b => tidy_pbody b
  | GL_net n => tidy_otype (nd_type n)
  | GL_data d => tidy_otype (dd_type d) && forallb tidy_item (dd_list d)
  | _ => true
  end.
Fixpoint tidy_gen (g : gitem) : bool :=
  match g with
  | GI_leaf l => tidy_leaf l
  | GI_block _ _ _ l | GI_region l => forallb tidy_gen l
  | GI_for _ _ _ b => tidy_gen b
  | GI_if _ _ t e => tidy_gen t && match e with Some e => tidy_gen e | None => true end
  | GI_case _ _ l => forallb (fun x => tidy_gen (snd x)) l
  end.
Fixpoint tidy_module (m : mdecl) : bool :=
  let '(MD _ h p l) := m in
  tidy_plist (mh_params h) && tidy_ports p
  && forallb (fun i => match i with MT_region l => forallb tidy_gen l | MT_item _ _ g => tidy_gen g | MT_ports _ _ n => tidy_nadecl n | MT_module m => tidy_module m | MT_skipped => true end) l.
Definition tidy (f : list description) : bool := forallb (fun d => match d with DE_module m => tidy_module m | DE_skipped => true end) f.
