(** The tokens of a VHDL parse tree whose texts become part of the AST, and which of them Python can store. *)
From Verif Require Import Base AstModel EncodingSpec PyModel PySpec VhdlExprModel VhdlStmModel VhdlDeclModel.

(** [W_select] stands for a selected signal assignment inside of a process or a subprogram. *)
Inductive word := W_name (s : str) | W_number (s : str) | W_string (s : str) | W_char (s : str) | W_select.
(** Printable: identifiers and strings are UTF-8 without NUL, identifiers are not empty, strings are in quotes; numbers
    and character literals are ASCII. *)
Definition plain_text (s : str) : bool := forallb (fun c => (N_of_ascii c <? 128)%N && negb (ceqb c c0)) s.
Definition in_quotes (s : str) : Prop := exists b, s = dq :: b ++ [dq].
Definition printable (w : word) : Prop :=
  match w with
  | W_name s => s <> [] /\ sendable_text s = true
  | W_number s | W_char s => plain_text s = true
  | W_string s => in_quotes s /\ sendable_text s = true
  | W_select => False
  end.

Definition nlit_words (l : nlit) : list word := match l with NL_id s => [W_name s] | NL_op t => [W_string t] | NL_char t => [W_char t] end.
Definition opt_words {A} (f : A -> list word) (o : option A) : list word := match o with Some x => f x | None => [] end.
Section Parts.
Context (f : hexpr -> list word).
Definition range_words (r : hrange hexpr) : list word := match r with R_name e => f e | R_explicit a _ b => f a ++ f b end.
Definition choice_words (c : hchoice hexpr) : list word := match c with Ch_others => [] | Ch r => range_words r end.
Definition element_words (p : list (hchoice hexpr) * hexpr) : list word := flat_map choice_words (fst p) ++ f (snd p).
Definition desig_words (d : hdesig hexpr) : list word := match d with D_expr _ e => f e | D_open => [] end.
Definition actual_words (a : hactual hexpr) : list word := match a with Act d => desig_words d | Act_conv n d => f n ++ desig_words d end.
Definition formal_words (p : hexpr * option hexpr) : list word := f (fst p) ++ opt_words f (snd p).
Definition assoc_words (a : hassoc hexpr) : list word := match a with Assoc fp ac => opt_words formal_words fp ++ actual_words ac end.
Definition res_words (r : hres hexpr) : list word := match r with Res_name n => f n | Res_elem => [] end.
Definition constr_words (c : hconstr hexpr) : list word :=
  match c with Con_range r => range_words r | Con_array l _ => flat_map (opt_words (flat_map range_words)) l end.
End Parts.
Fixpoint words (e : hexpr) : list word :=
  match e with
  | HLit l => nlit_words l
  | HSlice n a _ b => words n ++ words a ++ words b
  | HAttr n _ a => words n ++ [W_name a]
  | HDot n l => words n ++ nlit_words l
  | HAll n | HNew n | HUn _ n | HCondOp n => words n
  | HApply n l => words n ++ flat_map (assoc_words words) l
  | HExternal | HNull => []
  | HNum _ t u => W_number t :: opt_words words u
  | HBits t => [W_number t]
  | HAgg l => flat_map (element_words words) l
  | HQual tm l => words tm ++ flat_map (element_words words) l
  | HPow a b | HMul _ a b | HAdd _ a b | HShift _ a b | HRel _ a b | HLog _ a b => words a ++ words b
  | HSubtype ri tm c => opt_words (res_words words) ri ++ words tm ++ opt_words (constr_words words) c
  end.
(** ** Statements *)
Definition wave_words (w : wave) : list word := match w with W_elems p l => flat_map (fun p => words (fst p)) (p :: l) | W_unaffected => [] end.
Definition condwave_words (c : condwave) : list word :=
  match c with CW p l e => flat_map (fun q => wave_words (fst q) ++ words (snd q)) (p :: l) ++ opt_words wave_words e end.
Definition selwave_words (p : selwave) : list word := wave_words (fst p) ++ flat_map (choice_words words) (snd p).
Definition label_words (l : option str) : list word := opt_words (fun s => [W_name s]) l.
Section Body.
Context (f : hstm -> list word).
Definition item_words (i : hitem hstm) : list word :=
  match i with
  | J_wait on until for_ => flat_map words on ++ opt_words words until ++ opt_words words for_
  | J_assert c r s => words c ++ opt_words words r ++ opt_words words s
  | J_report e s => words e ++ opt_words words s
  | J_signal t _ w => words t ++ wave_words w
  | J_force t _ e => words t ++ words e
  | J_release t _ => words t
  | J_signal_cond t _ w => words t ++ condwave_words w
  | J_force_cond t _ _ => words t
  | J_signal_select _ _ _ => [W_select]
  | J_variable t e => words t ++ words e
  | J_variable_cond t _ _ => words t
  | J_variable_select sel _ _ => words sel
  | J_call n => words n
  | J_if c b l e end_ =>
      words c ++ flat_map f b ++ flat_map (fun p => words (fst p) ++ flat_map f (snd p)) l ++ opt_words (flat_map f) e ++ label_words end_
  | J_case _ sel l end_ => words sel ++ flat_map (fun p => flat_map (choice_words words) (fst p) ++ flat_map f (snd p)) l ++ label_words end_
  | J_while c b end_ => words c ++ flat_map f b ++ label_words end_
  | J_for i r b end_ => W_name i :: range_words words r ++ flat_map f b ++ label_words end_
  | J_loop b end_ => flat_map f b ++ label_words end_
  | J_next l c | J_exit l c => label_words l ++ opt_words words c
  | J_return e => opt_words words e
  | J_null => []
  end.
End Body.
Fixpoint stm_words (s : hstm) : list word := match s with HS l i => label_words l ++ item_words stm_words i end.
Definition sens_words (s : hsens) : list word := match s with HSens l => flat_map words l | _ => [] end.
Definition conc_words (c : hconc) : list word :=
  match c with
  | CC_wave t w => words t ++ wave_words w
  | CC_cond t w => words t ++ condwave_words w
  | CC_select _ sel t l => words sel ++ words t ++ flat_map selwave_words l
  end.
(** ** Declarations *)
Definition iface_words (i : iface) : list word :=
  match i with
  | IF_constant ns t v | IF_signal _ ns _ t _ v | IF_variable ns _ t v => map W_name ns ++ words t ++ opt_words words v
  | _ => []
  end.
Definition elit_words (e : elit) : list word := match e with El_id s => [W_name s] | El_char t => [W_char t] end.
Definition physical_words (p : option (bool * str) * hexpr) : list word := opt_words (fun q => [W_number (snd q)]) (fst p) ++ words (snd p).
Definition tdef_words (t : tdef) : list word :=
  match t with
  | TD_enum l => flat_map elit_words l
  | TD_integer r | TD_floating r => range_words words r
  | TD_physical r p l => range_words words r ++ W_name p :: flat_map (fun u : str * (option (bool * str) * hexpr) => W_name (fst u) :: physical_words (snd u)) l
  | TD_unbounded ms e => flat_map words ms ++ words e
  | TD_constrained l e => flat_map (range_words words) l ++ words e
  | TD_record l => flat_map (fun p : list str * hexpr => map W_name (fst p) ++ words (snd p)) l
  | TD_access _ | TD_file _ | TD_protected => []
  end.
Definition params_words (ps : option (list iface)) : list word := opt_words (flat_map iface_words) ps.
Definition subprog_words (s : subprog) : list word :=
  match s with
  | SP_procedure d ps => W_name (desig_text d) :: params_words ps
  | SP_function _ d ps ret => W_name (desig_text d) :: params_words ps ++ words ret
  end.
Fixpoint decl_words (d : decl) : list word :=
  match d with
  | DC_constant ns t v | DC_signal ns t _ v | DC_variable _ ns t v => map W_name ns ++ words t ++ opt_words words v
  | DC_type n t => W_name n :: opt_words tdef_words t
  | DC_subtype n t => W_name n :: words t
  | DC_alias n t e _ => W_name n :: opt_words words t ++ words e
  | DC_subprogram s => subprog_words s
  | DC_body s ds ss => subprog_words s ++ flat_map decl_words ds ++ flat_map stm_words ss
  | DC_package n _ ds | DC_package_body n ds => W_name n :: flat_map decl_words ds
  | DC_component c => W_name (cp_name c) :: params_words (cp_generics c) ++ params_words (cp_ports c)
  | DC_use l => flat_map words l
  | DC_dropped _ => []
  end.
(** ** Concurrent statements and design units *)
Definition iunit_words (u : iunit) : list word := match u with IU_component _ n | IU_entity n _ | IU_configuration n => words n end.
Definition map_words (m : option (list (hassoc hexpr))) : list word := opt_words (flat_map (assoc_words words)) m.
Definition csimple_words (s : csimple) : list word :=
  match s with
  | CP_process sens ds ss _ => sens_words sens ++ flat_map decl_words ds ++ flat_map stm_words ss
  | CP_call n => words n
  | CP_assert c r s => words c ++ opt_words words r ++ opt_words words s
  | CP_assign c => conc_words c
  end.
Section Gen.
Context (f : cstm -> list word).
Definition gbody_words (b : gbody cstm) : list word := match b with GB _ ds ss => flat_map decl_words ds ++ flat_map f ss end.
End Gen.
Fixpoint cstm_words (s : cstm) : list word :=
  match s with
  | CS_block l _ _ _ ds ss _ => W_name l :: flat_map decl_words ds ++ flat_map cstm_words ss
  | CS_inst l u gm pm => W_name l :: iunit_words u ++ map_words gm ++ map_words pm
  | CS_for l i r b end_ => W_name l :: W_name i :: range_words words r ++ gbody_words cstm_words b ++ label_words end_
  | CS_if l a c b elifs else_ end_ =>
      W_name l :: label_words a ++ words c ++ gbody_words cstm_words b ++
      flat_map (fun p : option str * hexpr * gbody cstm => label_words (fst (fst p)) ++ words (snd (fst p)) ++ gbody_words cstm_words (snd p)) elifs ++
      opt_words (fun p : option str * gbody cstm => label_words (fst p) ++ gbody_words cstm_words (snd p)) else_ ++ label_words end_
  | CS_case l sel alts _ =>
      W_name l :: words sel ++ flat_map (fun p : option str * list (hchoice hexpr) * gbody cstm => flat_map (choice_words words) (snd (fst p)) ++ gbody_words cstm_words (snd p)) alts
  | CS_simple l _ s => label_words l ++ csimple_words s
  end.
Definition citem_words (c : citem) : list word := match c with CI_library l => map W_name l | CI_use l => flat_map words l | CI_context _ => [] end.
Definition lunit_words (u : lunit) : list word :=
  match u with
  | LU_entity n g p ds _ => W_name n :: params_words g ++ params_words p ++ flat_map decl_words ds
  | LU_arch n of_ ds ss => W_name n :: words of_ ++ flat_map decl_words ds ++ flat_map cstm_words ss
  | LU_package n _ ds | LU_package_body n ds => W_name n :: flat_map decl_words ds
  | LU_configuration _ | LU_package_instance _ | LU_context _ => []
  end.
Definition dunit_words (u : dunit) : list word := flat_map citem_words (fst u) ++ lunit_words (snd u).
(** All of a file. *)
Definition file_words (l : list dunit) : list word := flat_map dunit_words l.
