(** What VHDL declarations, instances, types and generate statements mean (IEEE 1076 clauses 4 - 6, 11),
    over an arbitrary interpretation of expressions.  Nothing here refers to the conversion. *)
From Verif Require Import Base AstModel StmModel LitModel SvExprModel SvExprSpec SvDeclModel VhdlExprModel VhdlExprSpec VhdlStmModel VhdlDeclModel.

(** ** Lists of identifiers: one declaration per identifier *)
Definition decl_ones (d : decl) : list decl :=
  match d with
  | DC_constant ns t v => map (fun n => DC_constant [n] t v) ns
  | DC_signal ns t k v => map (fun n => DC_signal [n] t k v) ns
  | DC_variable s ns t v => map (fun n => DC_variable s [n] t v) ns
  | DC_type n (Some (TD_record l)) => [DC_type n (Some (TD_record (flat_map (fun p : list str * hexpr => map (fun n => ([n], snd p)) (fst p)) l)))]
  | DC_use l => map (fun n => DC_use [n]) l
  | d => [d]
  end.
Definition iface_ones (i : iface) : list iface :=
  match i with
  | IF_constant ns t v => map (fun n => IF_constant [n] t v) ns
  | IF_signal k ns m t b v => map (fun n => IF_signal k [n] m t b v) ns
  | IF_variable ns m t v => map (fun n => IF_variable [n] m t v) ns
  | IF_file ns t => map (fun n => IF_file [n] t) ns
  | i => [i]
  end.

Section Meaning.
Context (A : halgebra).
Notation hv := (hvmeaning A). Notation hm := (hmeaning A).
Definition om (o : option expr) : option (option (HV A)) := match o with Some e => v <~ hm e ;; Some (Some v) | None => Some None end.
Definition os (o : option hexpr) : option (option (HV A)) := match o with Some e => v <~ hv e ;; Some (Some v) | None => Some None end.

(** ** Interface objects *)
Inductive oclass := Const_obj | Signal_obj | Variable_obj.
Record port := mk_port { p_name : str; p_class : oclass; p_mode : smode; p_type : HV A; p_default : option (HV A) }.
Definition m_mode (d : direction) : option smode :=
  match d with DIR_IN => Some Md_in | DIR_OUT => Some Md_out | DIR_INOUT => Some Md_inout | DIR_BUFFER => Some Md_buffer | DIR_LINKAGE => Some Md_linkage | _ => None end.
Definition m_port (d : iddef) : option port :=
  t <~ hm (d_type d) ;; v <~ om (d_value d) ;;
  if d_const d then match d_dir d with DIR_INTERNAL => Some (mk_port (d_name d) Const_obj Md_in t v) | _ => None end
  else m <~ m_mode (d_dir d) ;; Some (mk_port (d_name d) (if d_latched d then Variable_obj else Signal_obj) m t v).
(** [dflt]: the class of objects declared without keyword: Signal_obj for ports, Const_obj for generics.  None: a
    file, type, subprogram or package, or bus. *)
Definition s_iface (dflt : oclass) (i : iface) : option (list port) :=
  let mode m := match m with Some m => m | None => Md_in end in
  match i with
  | IF_constant ns t v => x <~ hv t ;; y <~ os v ;; Some (map (fun n => mk_port n Const_obj Md_in x y) ns)
  | IF_signal k ns m t false v => x <~ hv t ;; y <~ os v ;; Some (map (fun n => mk_port n (if k then Signal_obj else dflt) (mode m) x y) ns)
  | IF_variable ns m t v => x <~ hv t ;; y <~ os v ;; Some (map (fun n => mk_port n Variable_obj (mode m) x y) ns)
  | _ => None
  end.
Definition s_ifaces (dflt : oclass) (l : option (list iface)) : option (list port) :=
  match l with Some l => r <~ omapM (s_iface dflt) l ;; Some (List.concat r) | None => Some [] end.
(** Entities and components. *)
Record interface := mk_interface { if_name : str; if_generics : list port; if_ports : list port }.
Definition m_interface (o : hobj) : option interface :=
  match o with O_module_dec n g p _ => x <~ omapM m_port g ;; y <~ omapM m_port p ;; Some (mk_interface n x y) | _ => None end.
Definition s_interface (n : str) (g p : option (list iface)) : option interface :=
  x <~ s_ifaces Const_obj g ;; y <~ s_ifaces Signal_obj p ;; Some (mk_interface n x y).
(** Every generic is written with a keyword. *)
Definition keyworded (i : iface) : bool := match i with IF_signal false _ _ _ _ _ => false | _ => true end.
Definition keyworded_clause (c : option (list iface)) : bool := match c with Some l => forallb keyworded l | None => true end.
Definition sp_params (s : subprog) : option (list iface) := match s with SP_procedure _ ps | SP_function _ _ ps _ => ps end.

(** ** Component instances *)
Record vinstance := mk_vinstance { vi_label : str; vi_unit : HV A; vi_gmap : list (option (HV A) * hact (HV A)); vi_pmap : list (option (HV A) * hact (HV A)) }.
Definition m_vinst (o : hobj) : option vinstance :=
  match o with
  | O_inst c =>
      match ci_name c with
      | EId l => u <~ hm (ci_module c) ;; g <~ omapM (hm_assoc A hm) (ci_generics c) ;; p <~ omapM (hm_assoc A hm) (ci_ports c) ;; Some (mk_vinstance l u g p)
      | _ => None
      end
  | _ => None
  end.
Definition unit_name (u : iunit) : hexpr := match u with IU_component _ n | IU_entity n _ | IU_configuration n => n end.
Definition s_map (m : option (list (hassoc hexpr))) : option (list (option (HV A) * hact (HV A))) := match m with Some l => omapM (hv_assoc A hv) l | None => Some [] end.
Definition s_vinst (l : str) (u : iunit) gm pm : option vinstance :=
  x <~ hv (unit_name u) ;; g <~ s_map gm ;; p <~ s_map pm ;; Some (mk_vinstance l x g p).

(** ** Types *)
Inductive tmean :=
| T_enum (l : list (str + HV A))
| T_number (r : HV A)                                                  (* integer or floating *)
| T_physical (r : HV A) (primary : str) (l : list (str * HV A))
| T_unbounded (index : list (HV A)) (elem : HV A)
| T_array (index : list (HV A)) (elem : HV A)
| T_record (l : list (str * HV A)).
Inductive tdecl := D_incomplete | D_type (t : tmean) | D_subtype (t : HV A).
Definition open_index (e : expr) : option expr := match e with EOp RANGE [x; ESym symb_OPEN] => Some x | _ => None end.
Definition m_array (e : expr) (l : list expr) : option tmean :=
  x <~ hm e ;;
  match omapM open_index l with
  | Some ms => r <~ omapM hm ms ;; Some (T_unbounded r x)
  | None => r <~ omapM hm l ;; Some (T_array r x)
  end.
Definition m_tval (v : tval) : option tmean :=
  match v with
  | TV_enum l => r <~ omapM (fun p : option str * option expr => match p with (Some s, None) => Some (inl s) | (None, Some e) => x <~ hm e ;; Some (inr x) | _ => None end) l ;; Some (T_enum r)
  | TV_expr (EOp RANGE [r]) => x <~ hm r ;; Some (T_number x)
  | TV_expr (EOp INDEX (e :: l)) => m_array e l
  | TV_physical (EOp RANGE [r]) ((p, None) :: l) =>
      x <~ hm r ;; us <~ omapM (fun u : str * option expr => match snd u with Some e => y <~ hm e ;; Some (fst u, y) | None => None end) l ;; Some (T_physical x p us)
  | TV_record l => r <~ omapM (fun d => match d_value d with None => x <~ hm (d_type d) ;; Some (d_name d, x) | Some _ => None end) l ;; Some (T_record r)
  | _ => None
  end.
Definition m_tdecl (o : hobj) : option (str * tdecl) :=
  match o with
  | O_type n symb_T None => Some (n, D_incomplete)
  | O_type n symb_T (Some v) => x <~ m_tval v ;; Some (n, D_type x)
  | O_type n symb_T_SUBTYPE (Some (TV_expr e)) => x <~ hm e ;; Some (n, D_subtype x)
  | _ => None
  end.
(** None: access, file and protected types. *)
Definition s_tdef (t : tdef) : option tmean :=
  match t with
  | TD_enum l => r <~ omapM (fun e => match e with El_id s => Some (inl s) | El_char t => c <~ hv_char t ;; Some (inr (h_char A c)) end) l ;; Some (T_enum r)
  | TD_integer r | TD_floating r => x <~ hv_range A hv r ;; Some (T_number x)
  | TD_physical r p l =>
      x <~ hv_range A hv r ;;
      us <~ omapM (fun u : str * (option (bool * str) * hexpr) =>
              match fst (snd u) with
              | Some (false, t) => a <~ hv_decimal A t ;; b <~ hv (snd (snd u)) ;; Some (fst u, h_unit A a b)
              | Some (true, _) => None
              | None => b <~ hv (snd (snd u)) ;; Some (fst u, b)
              end) l ;; Some (T_physical x p us)
  | TD_unbounded ms e => match ms with [] => None | _ => x <~ hv e ;; r <~ omapM hv ms ;; Some (T_unbounded r x) end
  | TD_constrained l e => match l with [] => None | _ => x <~ hv e ;; r <~ omapM (hv_range A hv) l ;; Some (T_array r x) end
  | TD_record l => r <~ omapM (fun p : list str * hexpr => x <~ hv (snd p) ;; Some (map (fun n => (n, x)) (fst p))) l ;; Some (T_record (List.concat r))
  | TD_access _ | TD_file _ | TD_protected => None
  end.
Definition s_tdecl (d : decl) : option (str * tdecl) :=
  match d with
  | DC_type n None => Some (n, D_incomplete)
  | DC_type n (Some t) => x <~ s_tdef t ;; Some (n, D_type x)
  | DC_subtype n t => x <~ hv t ;; Some (n, D_subtype x)
  | _ => None
  end.

(** ** Subprograms *)
Record profile := mk_profile { pr_name : str; pr_operator : bool; pr_pure : bool; pr_params : list port; pr_return : option (HV A) }.
Definition m_profile (o : hobj) : option profile :=
  match o with
  | O_func n op ret ps _ impure _ =>
      r <~ om ret ;; l <~ match ps with Some l => omapM m_port l | None => Some [] end ;; Some (mk_profile n op (negb impure) l r)
  | _ => None
  end.
(** Procedures are not impure in the AST.  [dflt] is the class of parameters without keyword. *)
Definition s_profile (dflt : oclass) (s : subprog) : option profile :=
  match s with
  | SP_procedure d ps => l <~ s_ifaces dflt ps ;; Some (mk_profile (desig_text d) (is_op_desig d) true l None)
  | SP_function p d ps ret =>
      x <~ hv ret ;; l <~ s_ifaces dflt ps ;; Some (mk_profile (desig_text d) (is_op_desig d) (match p with Some b => b | None => true end) l (Some x))
  end.

(** ** Elaboration of blocks and generate statements *)
Section Elab.
Context (N : Type).                                                    (* values of generate parameters *)
Definition env := list (str * N).
Definition path := list (str * option N).                              (* names of blocks; with a value for every step of a for-generate *)
Context (test : env -> HV A -> bool) (range : env -> HV A -> list N) (matches : env -> HV A -> HV A -> bool).
Definition item (L : Type) : Type := path * env * L.
(** The source: declarations, processes, instances and concurrent statements are the leaves. *)
Inductive leaf := Lf_decl (d : decl) | Lf_stm (s : cstm).
Section Parts.
Context (p : path) (e : env) (f : cstm -> option (list (item leaf))).
Definition s_body (b : gbody cstm) : option (list (item leaf)) :=
  match b with GB _ ds ss => r <~ omapM f ss ;; Some (map (fun d => (p, e, Lf_decl d)) ds ++ List.concat r) end.
Fixpoint s_choose (w : HV A) (cs : list (hchoice hexpr)) : option bool :=
  match cs with
  | [] => Some false
  | Ch_others :: _ => Some true
  | Ch r :: cs' => x <~ hv_range A hv r ;; if matches e w x then Some true else s_choose w cs'
  end.
End Parts.
(** An alternative with a label of its own is outside of the fragment. *)
Definition unlabelled {X} (a : option str) (x : option X) : option X := match a with None => x | Some _ => None end.
Fixpoint s_elab (s : cstm) (p : path) (e : env) : option (list (item leaf)) :=
  match s with
  | CS_block l _ _ _ ds ss _ => s_body (p ++ [(l, None)]) e (fun s => s_elab s (p ++ [(l, None)]) e) (GB true ds ss)
  | CS_for l i r b _ =>
      v <~ hv_range A hv r ;;
      rs <~ omapM (fun n => s_body (p ++ [(l, Some n)]) ((i, n) :: e) (fun s => s_elab s (p ++ [(l, Some n)]) ((i, n) :: e)) b) (range e v) ;;
      Some (List.concat rs)
  | CS_if l a c b elifs else_ _ =>
      let q := p ++ [(l, None)] in
      v <~ hv c ;;
      if test e v then unlabelled a (s_body q e (fun s => s_elab s q e) b)
      else (fix go es := match es with
            | [] => match else_ with Some (a, b) => unlabelled a (s_body q e (fun s => s_elab s q e) b) | None => Some [] end
            | (a, c, b) :: es' => v <~ hv c ;; if test e v then unlabelled a (s_body q e (fun s => s_elab s q e) b) else go es'
            end) elifs
  | CS_case l sel alts _ =>
      let q := p ++ [(l, None)] in
      w <~ hv sel ;;
      (fix go es := match es with
       | [] => Some []
       | (a, cs, b) :: es' => t <~ s_choose e w cs ;; if t then unlabelled a (s_body q e (fun s => s_elab s q e) b) else go es'
       end) alts
  | CS_inst _ _ _ _ | CS_simple _ _ _ => Some [(p, e, Lf_stm s)]
  end.
Definition s_elabs (p : path) (e : env) (l : list cstm) : option (list (item leaf)) := r <~ omapM (fun s => s_elab s p e) l ;; Some (List.concat r).
(** The AST.  The first label names the scope; a block without label is none.  A choice OTHERS matches all. *)
Definition scope (h : hdr) (n : option N) : path := match labels h with l :: _ => [(l, n)] | [] => [] end.
Fixpoint a_elab (o : hobj) (p : path) (e : env) : option (list (item hobj)) :=
  match o with
  | O_block h l => r <~ omapM (fun o => a_elab o (p ++ scope h None) e) l ;; Some (List.concat r)
  | O_for h (EId i) r b =>
      v <~ hm r ;; rs <~ omapM (fun n => a_elab b (p ++ scope h (Some n)) ((i, n) :: e)) (range e v) ;; Some (List.concat rs)
  | O_if h c t elifs f =>
      let q := p ++ scope h None in
      v <~ hm c ;;
      if test e v then a_elab t q e
      else (fix go es := match es with
            | [] => match f with Some o => a_elab o q e | None => Some [] end
            | (c, o) :: es' => v <~ hm c ;; if test e v then a_elab o q e else go es'
            end) elifs
  | O_case h sel l d =>
      let q := p ++ scope h None in
      w <~ hm sel ;;
      (fix go es := match es with
       | [] => match d with Some o => a_elab o q e | None => Some [] end
       | (c, o) :: es' =>
           t <~ (if is_others c then Some true else x <~ hm c ;; Some (matches e w x)) ;;
           if t then a_elab o q e else go es'
       end) l
  | O_for _ _ _ _ => None
  | o => Some [(p, e, o)]
  end.
Definition a_elabs (p : path) (e : env) (l : list hobj) : option (list (item hobj)) := r <~ omapM (fun o => a_elab o p e) l ;; Some (List.concat r).
End Elab.
End Meaning.
Arguments Lf_decl : clear implicits. Arguments Lf_stm : clear implicits.
Arguments D_incomplete {A}. Arguments D_type {A}. Arguments D_subtype {A}.

(** ** Hierarchy only *)
(** Statements and instances, as opposed to declarations. *)
Definition is_statement (o : hobj) : bool :=
  match o with O_inst _ | O_process _ _ _ | O_block _ _ | O_for _ _ _ _ | O_if _ _ _ _ _ | O_case _ _ _ _ | O_stm _ => true | _ => false end.
(** What is left of an AST: packages and entities without content, architectures without declarations. *)
Fixpoint thin (o : hobj) : hobj :=
  match o with
  | O_module_dec n _ _ _ => O_module_dec n [] [] []
  | O_module_def n e l => O_module_def n e (filter is_statement (map thin l))
  | O_space n b _ => O_space n b []
  | O_func n op ret ps d i l => O_func n op ret ps d i (map thin l)
  | O_process h s l => O_process h s (map thin l)
  | O_block h l => O_block h (map thin l)
  | O_for h i r b => O_for h i r (thin b)
  | O_if h c t l f => O_if h c (thin t) (map (fun p : expr * hobj => (fst p, thin (snd p))) l) (option_map thin f)
  | O_case h s l d => O_case h s (map (fun p : expr * hobj => (fst p, thin (snd p))) l) (option_map thin d)
  | o => o
  end.
(** The instances of a statement in the order of the text, with the labels around them. *)
Fixpoint instances (q : list (list str)) (o : hobj) : list (list (list str) * compinst) :=
  match o with
  | O_inst c => [(q, c)]
  | O_block h l => flat_map (instances (q ++ [labels h])) l
  | O_for h _ _ b => instances (q ++ [labels h]) b
  | O_if h _ t l f =>
      instances (q ++ [labels h]) t ++ flat_map (fun p : expr * hobj => instances (q ++ [labels h]) (snd p)) l ++
      match f with Some o => instances (q ++ [labels h]) o | None => [] end
  | O_case h _ l d => flat_map (fun p : expr * hobj => instances (q ++ [labels h]) (snd p)) l ++ match d with Some o => instances (q ++ [labels h]) o | None => [] end
  | _ => []
  end.
Definition unit_instances (o : hobj) : list (list (list str) * compinst) := match o with O_module_def _ _ l => flat_map (instances []) l | _ => [] end.
(** The names of the design units, libraries and imports. *)
Inductive unit_head := H_entity (n : str) | H_arch (n : str) (of_ : expr) | H_package (n : str) (body : bool) | H_import (l : list expr) | H_library (n : str) | H_other.
Definition head_of (o : hobj) : unit_head :=
  match o with
  | O_module_dec n _ _ _ => H_entity n | O_module_def n e _ => H_arch n e | O_space n b _ => H_package n (negb b)
  | O_import l => H_import l | O_library n => H_library n | _ => H_other
  end.
