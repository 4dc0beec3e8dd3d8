(** What a whole VHDL file declares: libraries, use clauses, design units with their declarations, and the items an
    architecture elaborates to (IEEE 1076 clauses 3, 4, 6, 11, 13), over an arbitrary interpretation of expressions, an
    arbitrary machine for statements and arbitrary values of generate parameters.  The first part is about the
    source, the second about the AST.  Nothing here refers to the conversion. *)
From Verif Require Import Base AstModel StmModel LitModel SvExprModel SvExprSpec SvDeclModel VhdlExprModel VhdlExprSpec VhdlStmModel VhdlStmSpec VhdlDeclModel VhdlDeclSpec.

(** A part of the path of a use clause. *)
Inductive upart := Up_id (s : str) | Up_operator (s : str) | Up_char (s : str) | Up_all.

Section Meaning.
Context (A : halgebra) (M : hmachine A) (fuel : nat).
Notation hv := (hvmeaning A). Notation hm := (hmeaning A).
Inductive okind := K_constant | K_signal | K_variable (shared : bool).
Inductive dmean :=
| M_object (n : str) (k : okind) (t : HV A) (v : option (HV A))
| M_alias (n : str) (t : option (HV A)) (x : HV A)
| M_type (n : str) (t : tdecl A)
| M_subprogram (p : profile A)
| M_body (p : profile A) (ds : list dmean) (ks : list (hbeh A M))
| M_package (n : str) (body : bool) (ds : list dmean)
| M_component (i : interface A)
| M_use (l : list upart).
(** Equal but for the representation of what statements do. *)
Definition does_same (k k' : hbeh A M) : Prop := forall s, k s = k' s.
Inductive dsame : dmean -> dmean -> Prop :=
| ds_object n k t v : dsame (M_object n k t v) (M_object n k t v)
| ds_alias n t x : dsame (M_alias n t x) (M_alias n t x)
| ds_type n t : dsame (M_type n t) (M_type n t)
| ds_subprogram p : dsame (M_subprogram p) (M_subprogram p)
| ds_body p ds ds' ks ks' : Forall2 dsame ds ds' -> Forall2 does_same ks ks' -> dsame (M_body p ds ks) (M_body p ds' ks')
| ds_package n b ds ds' : Forall2 dsame ds ds' -> dsame (M_package n b ds) (M_package n b ds')
| ds_component i : dsame (M_component i) (M_component i)
| ds_use l : dsame (M_use l) (M_use l).

(** ** The source.  None: outside of the supported fragment. *)
Definition s_part (l : nlit) : option upart :=
  match l with NL_id s => Some (Up_id s) | NL_op t => s <~ hv_string t ;; Some (Up_operator s) | NL_char t => s <~ hv_char t ;; Some (Up_char s) end.
Fixpoint s_path (n : hexpr) : option (list upart) :=
  match n with
  | HLit l => x <~ s_part l ;; Some [x]
  | HDot n l => p <~ s_path n ;; x <~ s_part l ;; Some (p ++ [x])
  | HAll n => p <~ s_path n ;; Some (p ++ [Up_all])
  | _ => None
  end.
Definition s_objects (ns : list str) (k : okind) (t : hexpr) (v : option hexpr) : option (list dmean) :=
  x <~ hv t ;; y <~ os A v ;; Some (map (fun n => M_object n k x y) ns).
(** Parameters and generics are written with constant, signal or variable (C63, C67). *)
Definition s_sub (s : subprog) : option (profile A) := if keyworded_clause (sp_params s) then s_profile A Const_obj s else None.
Definition s_unit_interface (n : str) (g p : option (list iface)) : option (interface A) := if keyworded_clause g then s_interface A n g p else None.
Fixpoint s_decl (d : decl) : option (list dmean) :=
  match d with
  | DC_constant ns t v => s_objects ns K_constant t v
  | DC_signal ns t None v => s_objects ns K_signal t v
  | DC_variable sh ns t v => s_objects ns (K_variable sh) t v
  | DC_type _ _ | DC_subtype _ _ => x <~ s_tdecl A d ;; Some [M_type (fst x) (snd x)]
  | DC_alias n t e None => ty <~ os A t ;; x <~ hv e ;; Some [M_alias n ty x]
  | DC_subprogram s => p <~ s_sub s ;; Some [M_subprogram p]
  | DC_body s ds ss => p <~ s_sub s ;; l <~ omapM s_decl ds ;; ks <~ omapM (hv_stm A M fuel) ss ;; Some [M_body p (List.concat l) ks]
  | DC_package n None ds => l <~ omapM s_decl ds ;; Some [M_package n false (List.concat l)]
  | DC_package_body n ds => l <~ omapM s_decl ds ;; Some [M_package n true (List.concat l)]
  | DC_component c => i <~ s_unit_interface (cp_name c) (cp_generics c) (cp_ports c) ;; Some [M_component i]
  | DC_use l => r <~ omapM s_path l ;; Some (map M_use r)
  | DC_signal _ _ (Some _) _ | DC_alias _ _ _ (Some _) | DC_package _ (Some _) _ | DC_dropped _ => None
  end.
Definition s_decls (l : list decl) : option (list dmean) := r <~ omapM s_decl l ;; Some (List.concat r).

(** ** The AST *)
Definition m_part (e : expr) : option upart :=
  match e with EId s => Some (Up_id s) | EStr s => Some (Up_operator s) | EInt _ (Digits s 256) => Some (Up_char s) | ESym symb_ALL => Some Up_all | _ => None end.
Definition m_kind (d : iddef) : okind := if d_const d then K_constant else if d_latched d then K_variable (d_shared d) else K_signal.
Definition m_object (d : iddef) : option dmean :=
  if d_alias d then
    t <~ om A (match d_type d with ENull => None | e => Some e end) ;; match d_value d with Some e => x <~ hm e ;; Some (M_alias (d_name d) t x) | None => None end
  else t <~ hm (d_type d) ;; v <~ om A (d_value d) ;; Some (M_object (d_name d) (m_kind d) t v).
(** The declarations of a body, and behind them its statements. *)
Fixpoint stms_of (l : list hobj) : option (list stm) := match l with [] => Some [] | O_stm s :: l' => r <~ stms_of l' ;; Some (s :: r) | _ => None end.
Section Split.
Context (f : hobj -> option dmean).
Fixpoint m_split (l : list hobj) : option (list dmean * list (hbeh A M)) :=
  match l with
  | [] => Some ([], [])
  | O_stm _ :: _ => ss <~ stms_of l ;; ks <~ omapM (mh_stm A M fuel) ss ;; Some ([], ks)
  | o :: l' => d <~ f o ;; r <~ m_split l' ;; Some (d :: fst r, snd r)
  end.
End Split.
Fixpoint m_decl (o : hobj) : option dmean :=
  match o with
  | O_id d => m_object d
  | O_type _ _ _ => x <~ m_tdecl A o ;; Some (M_type (fst x) (snd x))
  | O_func _ _ _ _ true _ [] => p <~ m_profile A o ;; Some (M_subprogram p)
  | O_func _ _ _ _ false _ l => p <~ m_profile A o ;; b <~ m_split m_decl l ;; Some (M_body p (fst b) (snd b))
  | O_space n defs_only l => r <~ omapM m_decl l ;; Some (M_package n (negb defs_only) r)
  | O_module_dec _ _ _ [] => i <~ m_interface A o ;; Some (M_component i)
  | O_import l => r <~ omapM m_part l ;; Some (M_use r)
  | _ => None
  end.

(** ** Architectures *)
(** A declaration, an instance, a process with its declarations and statements, or a concurrent statement with what
    one execution of it does. *)
Inductive cmean :=
| C_decl (d : dmean)
| C_instance (v : vinstance A)
| C_process (l : option str) (s : sens_ A) (ds : list dmean) (ks : list (hbeh A M))
| C_stm (l : option str) (k : hbeh A M).
Inductive csame : cmean -> cmean -> Prop :=
| cs_decl d d' : dsame d d' -> csame (C_decl d) (C_decl d')
| cs_instance v : csame (C_instance v) (C_instance v)
| cs_process l s ds ds' ks ks' : Forall2 dsame ds ds' -> Forall2 does_same ks ks' -> csame (C_process l s ds ks) (C_process l s ds' ks')
| cs_stm l k k' : does_same k k' -> csame (C_stm l k) (C_stm l k').
Definition s_simple (l : option str) (s : csimple) : option cmean :=
  match s with
  | CP_process se ds ss _ => x <~ hv_sens A se ;; d <~ s_decls ds ;; ks <~ omapM (hv_stm A M fuel) ss ;; Some (C_process l x d ks)
  | CP_call n => v <~ hv_pcall A n ;; Some (C_stm l (hact_ A M (hp_call M v)))
  | CP_assert c r s => k <~ hv_stm A M fuel (HS None (J_assert c r s)) ;; Some (C_stm l k)
  | CP_assign c => k <~ hv_conc A M c ;; Some (C_stm l k)
  end.
Definition s_leaf (l : leaf) : option (list cmean) :=
  match l with
  | Lf_decl d => r <~ s_decl d ;; Some (map C_decl r)
  | Lf_stm (CS_inst l u g p) => v <~ s_vinst A l u g p ;; Some [C_instance v]
  | Lf_stm (CS_simple l false s) => x <~ s_simple l s ;; Some [x]
  | Lf_stm _ => None
  end.
Definition hd_label (h : hdr) : option str := match labels h with l :: _ => Some l | [] => None end.
Definition stm_hdr (s : stm) : hdr :=
  match s with
  | SNop h | SExpr h _ | SAssign h _ _ _ _ _ | SIf h _ _ _ _ | SCase h _ _ _ _ _ | SWhile h _ _ | SDoWhile h _ _ | SFor h _ _ _ _ | SForIn h _ _ _
  | SRepeat h _ _ | SBlock h _ _ | SProcess h _ _ _ | SWait h _ | SReturn h _ | SBreak h | SContinue h => h
  | SDef _ | SNull => hdr0
  end.
Definition m_leaf (o : hobj) : option cmean :=
  match o with
  | O_inst _ => v <~ m_vinst A o ;; Some (C_instance v)
  | O_process h se l => x <~ m_sens A se ;; b <~ m_split m_decl l ;; Some (C_process (hd_label h) x (fst b) (snd b))
  | O_stm s => k <~ mh_stm A M fuel s ;; Some (C_stm (hd_label (stm_hdr s)) k)
  | _ => d <~ m_decl o ;; Some (C_decl d)
  end.

(** ** Files *)
Section Files.
Context (N : Type) (test : env N -> HV A -> bool) (range : env N -> HV A -> list N) (matches : env N -> HV A -> HV A -> bool).
Inductive umean :=
| U_library (n : str)
| U_use (l : list upart)
| U_entity (i : interface A) (ds : list dmean)
| U_arch (n : str) (of_ : HV A) (l : list (path N * env N * cmean))
| U_package (n : str) (body : bool) (ds : list dmean).
Definition item_same (x y : path N * env N * cmean) : Prop := fst x = fst y /\ csame (snd x) (snd y).
Inductive usame : umean -> umean -> Prop :=
| us_library n : usame (U_library n) (U_library n)
| us_use l : usame (U_use l) (U_use l)
| us_entity i ds ds' : Forall2 dsame ds ds' -> usame (U_entity i ds) (U_entity i ds')
| us_arch n o l l' : Forall2 item_same l l' -> usame (U_arch n o l) (U_arch n o l')
| us_package n b ds ds' : Forall2 dsame ds ds' -> usame (U_package n b ds) (U_package n b ds').
(** The source. *)
Definition s_item (it : path N * env N * leaf) : option (list (path N * env N * cmean)) := r <~ s_leaf (snd it) ;; Some (map (fun x => (fst it, x)) r).
Definition s_context (c : citem) : option (list umean) :=
  match c with CI_library l => Some (map U_library l) | CI_use l => r <~ omapM s_path l ;; Some (map U_use r) | CI_context _ => None end.
Definition s_unit (u : lunit) : option umean :=
  match u with
  | LU_entity n g p ds [] => i <~ s_unit_interface n g p ;; d <~ s_decls ds ;; Some (U_entity i d)
  | LU_arch n of_ ds ss =>
      v <~ hv of_ ;; its <~ s_elabs A N test range matches [] [] ss ;;
      r <~ omapM s_item (map (fun d => ([], [], Lf_decl d)) ds ++ its) ;; Some (U_arch n v (List.concat r))
  | LU_package n None ds => d <~ s_decls ds ;; Some (U_package n false d)
  | LU_package_body n ds => d <~ s_decls ds ;; Some (U_package n true d)
  | _ => None
  end.
Definition s_dunit (u : dunit) : option (list umean) := c <~ omapM s_context (fst u) ;; x <~ s_unit (snd u) ;; Some (List.concat c ++ [x]).
Definition s_file (l : list dunit) : option (list umean) := r <~ omapM s_dunit l ;; Some (List.concat r).
(** The AST. *)
Definition m_item (it : path N * env N * hobj) : option (path N * env N * cmean) := x <~ m_leaf (snd it) ;; Some (fst it, x).
Definition m_unit (o : hobj) : option umean :=
  match o with
  | O_library n => Some (U_library n)
  | O_import l => r <~ omapM m_part l ;; Some (U_use r)
  | O_module_dec _ _ _ l => i <~ m_interface A o ;; d <~ omapM m_decl l ;; Some (U_entity i d)
  | O_module_def n e l => v <~ hm e ;; its <~ a_elabs A N test range matches [] [] l ;; r <~ omapM m_item its ;; Some (U_arch n v r)
  | O_space n defs_only l => d <~ omapM m_decl l ;; Some (U_package n (negb defs_only) d)
  | _ => None
  end.
Definition m_file (l : list hobj) : option (list umean) := omapM m_unit l.
End Files.
End Meaning.
Arguments M_object {A M}. Arguments M_alias {A M}. Arguments M_type {A M}. Arguments M_subprogram {A M}. Arguments M_body {A M}. Arguments M_package {A M}. Arguments M_component {A M}. Arguments M_use {A M}.
Arguments C_decl {A M}. Arguments C_instance {A M}. Arguments C_process {A M}. Arguments C_stm {A M}.
Arguments U_library {A M N}. Arguments U_use {A M N}. Arguments U_entity {A M N}. Arguments U_arch {A M N}. Arguments U_package {A M N}.
