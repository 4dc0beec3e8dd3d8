(** What a VHDL design in Python means: the objects of the AST that Python shows (PyObjSpec.v) are read as design units with
    their declarations and statements, and these have the meaning of VhdlFileSpec.v. *)
From Verif Require Import Base BaseFacts AstModel StmModel SvExprModel SvExprSpec SvDeclModel VhdlExprSpec VhdlStmSpec VhdlDeclModel VhdlDeclSpec VhdlFileSpec PyModel PyObjModel SvReadSpec.

(** A definition of the type T or T_SUBTYPE defines a type or a subtype. *)
Definition type_symb (e : expr) : option symb := match e with ESym symb_T => Some symb_T | ESym symb_T_SUBTYPE => Some symb_T_SUBTYPE | _ => None end.
(** Blocks, loops, if and case with in_preproc are generate and block statements; the others are statements that are executed. *)
Fixpoint read_hobj (o : obj) : option hobj :=
  let part (x : option obj) : option (option hobj) := match x with Some b => r <~ read_hobj b ;; Some (Some r) | None => Some None end in
  let stm := s <~ read_stm o ;; Some (O_stm s) in
  match o with
  | B_id d => Some (match type_symb (d_type d) with Some t => O_type (d_name d) t (option_map TV_expr (d_value d)) | None => O_id d end)
  | B_type d v => t <~ type_symb (d_type d) ;; Some (O_type (d_name d) t (Some v))
  | B_func h f ps ret l => r <~ omapM read_hobj l ;; Some (O_func (n_name h) (f_operator f) ret ps (f_decl_only f) (f_impure f) r)
  | B_dec h gs ps l => r <~ omapM read_hobj l ;; Some (O_module_dec (n_name h) gs ps r)
  | B_def h (Some e) None l => r <~ omapM read_hobj l ;; Some (O_module_def (n_name h) e r)
  | B_space h x l => r <~ omapM read_hobj l ;; Some (O_space (n_name h) x r)
  | B_inst c _ _ => Some (O_inst c)
  | B_import _ l => Some (O_import l)
  | B_library h => Some (O_library (n_name h))
  | B_process h se _ (B_block _ SEQ l) => r <~ omapM read_hobj l ;; Some (O_process h se r)
  | B_block h SEQ l => if in_preproc h then r <~ omapM read_hobj l ;; Some (O_block h r) else stm
  | B_forin h [B_stm (SExpr _ i)] c b => if in_preproc h then r <~ read_hobj b ;; Some (O_for h i c r) else stm
  | B_if h c t l f =>
      if in_preproc h then t' <~ read_hobj t ;; l' <~ omapM (fun p => match p with (e, b) => r <~ read_hobj b ;; Some (e, r) end) l ;; f' <~ part f ;; Some (O_if h c t' l' f') else stm
  | B_case h _ _ e l d =>
      if in_preproc h then l' <~ omapM (fun p => match p with (e, b) => r <~ read_hobj b ;; Some (e, r) end) l ;; d' <~ part d ;; Some (O_case h e l' d') else stm
  | _ => stm
  end.
Definition python_means (A : halgebra) (M : hmachine A) (fuel : nat) (N : Type) test range matches (l : list obj) : option (list (umean A M N)) :=
  r <~ omapM read_hobj l ;; m_file A M fuel N test range matches r.
