(** What type declarations of SystemVerilog mean (IEEE 1800 clause 6.18), and what the definitions of the AST mean.
    Nothing here refers to the conversion. *)
From Verif Require Import Base AstModel LitModel SvExprModel SvExprSpec StmModel SvTypeModel SvDeclModel SvDeclSpec SvInstSpec SvTypeSpec SvTypedefModel.

Section Spec.
Context (A : algebra).
(** A type definition gives a name to a type; a forward declaration says only that the name is that of a type. *)
Definition named_type (n : str) (t : option (typ A)) : object A :=
  mk_object A n (plain IsType) (match t with Some t => Some (TypeVal A t) | None => None end) DIR_INTERNAL false false false.
(** The source.  None: outside of the fragment of SvTypeSpec.v *)
Definition v_typedef (t : typedef) : option (object A) :=
  match t with
  | TY_type t i ds => T <~ v_dtype A t ;; l <~ omapM (v_vdim A) ds ;; n <~ v_ident i ;; Some (named_type n (Some (add_dims A T l)))
  | TY_forward _ i | TY_plain i => n <~ v_ident i ;; Some (named_type n None)
  | TY_member x sel m i =>
      s <~ v_ident x ;; v <~ v_selects A (vmeaning A) (a_name A s) sel ;; k <~ v_ident m ;; n <~ v_ident i ;;
      Some (named_type n (Some (plain (Named A (a_member A v k)))))
  end.
(** The AST: NULL as the value of a type says that the type is not given. *)
Definition m_typedef (d : iddef) : option (object A) :=
  match d_type d, d_value d with
  | ESym symb_T, Some (ESym symb_NULL) => m_object A false (mk_iddef (d_name d) (ESym symb_T) None (d_dir d) (d_latched d) (d_const d) (d_static d) (d_shared d) (d_alias d) (d_doc d) (d_attrs d))
  | _, _ => m_object A false d
  end.
End Spec.
(** The types that are kept (SvTypeSpec.v), not the form without a word. *)
Definition kept_typedef (t : typedef) : bool :=
  match t with
  | TY_type t i ds => kept_dtype t && forallb kept_vdim ds && (sized_dtype t || match ds with [] => true | _ => false end)
  | TY_forward _ _ | TY_member _ _ _ _ => true
  | TY_plain _ => false
  end.
