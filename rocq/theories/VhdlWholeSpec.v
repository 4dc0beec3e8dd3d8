(** VHDL files in which every part has a meaning (VhdlFileSpec.v), also in the branches of generate statements that are
    not elaborated.  Nothing here refers to the conversion. *)
From Verif Require Import Base AstModel StmModel SvExprSpec VhdlExprModel VhdlExprSpec VhdlStmModel VhdlStmSpec VhdlDeclModel VhdlDeclSpec VhdlFileSpec.

Section Whole.
Context (A : halgebra) (M : hmachine A) (fuel : nat).
Notation hv := (hvmeaning A).
Definition defined {X : Type} (o : option X) : bool := match o with Some _ => true | None => false end.
Definition whole_choice (c : hchoice hexpr) : bool := match c with Ch_others => true | Ch r => defined (hv_range A hv r) end.
Section Body.
Context (f : cstm -> bool).
Definition whole_body (b : gbody cstm) : bool := match b with GB _ ds ss => defined (s_decls A M fuel ds) && forallb f ss end.
End Body.
Fixpoint whole_cstm (s : cstm) : bool :=
  match s with
  | CS_block _ _ _ _ ds ss _ => defined (s_decls A M fuel ds) && forallb whole_cstm ss
  | CS_inst l u g p => defined (s_vinst A l u g p)
  | CS_for _ _ r b _ => defined (hv_range A hv r) && whole_body whole_cstm b
  | CS_if _ _ c b es el _ =>
      defined (hv c) && whole_body whole_cstm b && forallb (fun p => defined (hv (snd (fst p))) && whole_body whole_cstm (snd p)) es
      && match el with Some p => whole_body whole_cstm (snd p) | None => true end
  | CS_case _ c alts _ => defined (hv c) && forallb (fun p => forallb whole_choice (snd (fst p)) && whole_body whole_cstm (snd p)) alts
  | CS_simple l _ s => defined (s_simple A M fuel l s)
  end.
Definition whole_citem (c : citem) : bool := match c with CI_library _ => true | CI_use l => defined (omapM s_path l) | CI_context _ => false end.
Definition whole_lunit (u : lunit) : bool :=
  match u with
  | LU_entity n g p ds [] => defined (s_unit_interface A n g p) && defined (s_decls A M fuel ds)
  | LU_arch _ e ds ss => defined (hv e) && defined (s_decls A M fuel ds) && forallb whole_cstm ss
  | LU_package _ None ds | LU_package_body _ ds => defined (s_decls A M fuel ds)
  | _ => false
  end.
Definition whole_dunit (u : dunit) : bool := forallb whole_citem (fst u) && whole_lunit (snd u).
Definition whole_file (l : list dunit) : bool := forallb whole_dunit l.
End Whole.
