(** What a Verilog file means (IEEE 1800 clauses 3, 13, 23): its modules with their parameters, ports and the items that
    are there after elaboration; for the source and for the AST.  Nothing here refers to the conversion. *)
From Verif Require Import Base AstModel LitModel SvExprModel SvExprSpec StmModel SvStmModel SvStmSpec SvTypeModel SvDeclModel SvDeclSpec SvInstSpec SvTfModel SvTfSpec SvGenModel SvGenSpec SvProcProofs SvTypeSpec SvFileModel.

Definition mem (s : str) (l : list str) : bool := existsb (seqb s) l.
Fixpoint distinct (l : list str) : bool := match l with [] => true | s :: l' => negb (mem s l') && distinct l' end.

Section File.
Context (A : algebra) (M : machine A).
Context (N : Type) (num : genv N -> V A -> N) (test : genv N -> V A -> bool) (matches : genv N -> V A -> V A -> bool) (arith : asgop -> N -> N -> N) (one_more : bool -> N -> N).
(** [n]: number of steps of a loop that are considered *)
Context (n : nat).
Notation beh := (beh A M).
Notation object := (object A). Notation typ := (typ A).

(** A function or task: its result (None for a task and void), its arguments, the objects declared in it and its
    statements. *)
Record subroutine := mk_sub { su_name : str; su_task : bool; su_static : bool; su_ret : option typ; su_args : list object; su_locals : list object; su_body : list beh }.
(** What is in the body of a module. *)
Inductive litem :=
| LObj (o : object) | LInst (i : instance A) | LGate (k : igate) (name : option str) (out : V A) (ins : list (V A))
| LDrive (dst src : V A)                                           (* continuous assignment *)
| LProc (ok : St M -> Prop) (k : beh)                              (* a process that starts in a state with [ok] *)
| LCall (v : V A)                                                  (* elaboration system task *)
| LSub (f : subroutine).
(** A module; [ext]: without body.  The items have their scopes and the values of the genvars. *)
Inductive smodule := Mod (name : str) (ext : bool) (params ports : list object) (items : list (gpath N * genv N * litem)) (subs : list smodule).

(** ** Subroutines.  What has no type in a subroutine is of type logic. *)
Definition as_logic (t : typ) : typ :=
  match t with Typ (Word kw) s p u => Typ (Word (if seqb kw $"wire" then $"logic" else kw)) s p u | _ => t end.
Definition logical (o : object) : object := mk_object A (ob_name A o) (as_logic (ob_type A o)) (ob_value A o) (ob_dir A o) (ob_var A o) (ob_const A o) (ob_static A o).
Definition not_wire (t : dtype) : bool := match t with D_prim (P_vector kw | P_atom kw | P_nonint kw) _ _ => negb (seqb kw $"wire") | _ => true end.
Definition kept_sdoi (t : option doi) : bool := kept_doi R_port t && match t with Some (DI_type d) => not_wire d | _ => true end.

Definition v_arg (a : arg) : option object :=
  match a with
  | Arg d t i ds v => m <~ v_ident i ;; x <~ v_doi A R_var t ;; l <~ omapM (v_vdim A) ds ;; y <~ v_val A v ;; Some (mk_object A m (add_dims A x l) y (dir_of d) false false false)
  end.
Definition v_bitem (b : bitem) : option (list object) :=
  match b with BI_data d => v_data A d | BI_local b => omapM (v_pone A) (body_ones true b) | BI_param _ | BI_let => None end.
(** Arguments and local objects of the declarations in front of the statements. *)
Definition v_tfitem (i : tfitem) : option (list object * list object) :=
  match i with
  | TI_block b => l <~ v_bitem b ;; Some ([], l)
  | TI_port d _ t l => x <~ v_doi A R_var t ;; r <~ omapM (v_vitem A x (dir_of d) false false false) l ;; Some (r, [])
  end.
Definition v_thead (h : thead) : option (list object * list object) :=
  match h with
  | TH_ansi l ds => a <~ args l ;; r <~ omapM v_arg a ;; o <~ omapM v_bitem ds ;; Some (r, List.concat o)
  | TH_items l => r <~ omapM v_tfitem l ;; Some (List.concat (map fst r), List.concat (map snd r))
  end.
Definition v_ret (task : bool) (r : option rtype) : option (option typ) :=
  if task then Some None else
  match r with
  | None => x <~ v_doi A R_var None ;; Some (Some x)
  | Some RT_void => Some None
  | Some (RT_type t) => x <~ v_dtype A t ;; Some (Some x)
  | Some (RT_implicit i) => x <~ v_doi A R_var (Some (DI_implicit i)) ;; Some (Some x)
  end.
Definition v_tf (f : tf) : option subroutine :=
  if tf_scoped f then None else
  m <~ v_ident (tf_name f) ;; r <~ v_ret (tf_task f) (tf_ret f) ;; h <~ v_thead (tf_head f) ;; b <~ omapM (v_stm A M n) (tf_body f) ;;
  Some (mk_sub m (tf_task f) (negb (tf_automatic f)) r (fst h) (snd h) b).
(** What is kept of subroutines: C70, C75. *)
Definition kept_bitem (b : bitem) : bool :=
  match b with BI_data d => kept_data d | BI_local b => full_body b && forallb kept_pone (body_ones true b) | BI_param _ | BI_let => false end.
Definition kept_tfport (p : tfport) : bool :=
  negb (tp_var p) && kept_sdoi (tp_type p) && forallb kept_vdim (tp_dims p) && match tp_dims p with [] => true | _ => sized_doi (tp_type p) end.
Definition kept_tfitem (i : tfitem) : bool :=
  match i with TI_block b => kept_bitem b | TI_port _ var t l => negb var && kept_sdoi t && forallb (kept_vitem (sized_doi t)) l end.
Definition kept_thead (h : thead) : bool :=
  match h with
  | TH_ansi l ds => plain_args None l && forallb kept_tfport l && forallb kept_bitem ds
  | TH_items l => forallb kept_tfitem l
  end.
Definition kept_ret (task : bool) (r : option rtype) : bool :=
  task || match r with None | Some RT_void => true | Some (RT_type t) => kept_dtype t && not_wire t | Some (RT_implicit i) => kept_doi R_port (Some (DI_implicit i)) end.
(** No local object has the name of an argument. *)
Definition apart (f : subroutine) : bool := forallb (fun o => negb (mem (ob_name A o) (map (ob_name A) (su_args f)))) (su_locals f).
Definition kept_tf (f : tf) : bool :=
  kept_ret (tf_task f) (tf_ret f) && kept_thead (tf_head f) && match v_tf f with Some s => apart s | None => false end.

Fixpoint split_defs (l : list stm) : list iddef * list stm :=
  match l with SDef d :: l' => let r := split_defs l' in (d :: fst r, snd r) | _ => ([], l) end.
Definition m_ret (task : bool) (e : expr) : option (option typ) :=
  if task then Some None else
  match e with EId s => if seqb s $"void" then Some None else x <~ m_typ A (Word $"wire") e ;; Some (Some (as_logic x)) | _ => x <~ m_typ A (Word $"wire") e ;; Some (Some (as_logic x)) end.
Definition m_tf (f : sfunc) : option subroutine :=
  r <~ m_ret (sf_task f) (sf_ret f) ;; a <~ omapM (m_object A false) (sf_params f) ;;
  l <~ omapM (m_object A false) (fst (split_defs (sf_body f))) ;; b <~ omapM (m_stm A M n) (snd (split_defs (sf_body f))) ;;
  Some (mk_sub (sf_name f) (sf_task f) (sf_static f) r (map logical a) l b).

(** ** Items *)
Definition v_drive (p : vexpr * vexpr * str) : option litem := d <~ vmeaning A (fst (fst p)) ;; s <~ vmeaning A (snd (fst p)) ;; Some (LDrive d s).
Definition of_gate (g : gate A) : litem := match g with Drive _ d s => LDrive d s | Prim _ k m o l => LGate k m o l end.
Definition v_leaf (l : gleaf) : option (list litem) :=
  match l with
  | GL_inst i => r <~ v_inst A (by_name A) i ;; Some (map LInst r)
  | GL_gates g => r <~ v_gates A g ;; Some (map of_gate r)
  | GL_local b => r <~ omapM (v_pone A) (body_ones true b) ;; Some (map LObj r)
  | GL_semi => Some []
  | GL_net d => r <~ v_net_decl A d ;; Some (map LObj r)
  | GL_data d => r <~ v_data A d ;; Some (map LObj r)
  | GL_tf f => s <~ v_tf f ;; Some [LSub s]
  | GL_genvar l => r <~ omapM (v_genvar A) l ;; Some (map LObj r)
  | GL_assign l => omapM v_drive l
  | GL_initial s => k0 <~ v_stm A M n s ;; k <~ v_initial A M n s ;; Some [LProc (fun st => no_jump (k0 st)) k]
  | GL_always k _ s => b <~ v_process A M n k s ;; Some [LProc (fun _ => True) b]
  | GL_task_call e => v <~ vmeaning A e ;; Some [LCall v]
  | GL_param _ | GL_skipped => None
  end.
(** What is kept: C40, C41, C60, C70, C75. *)
Definition no_gate (i : ident) : bool := match i with IdPlain s => match m_gkind s with Some _ => false | None => true end | IdEsc _ => false end.
Definition kept_leaf (l : gleaf) : bool :=
  match l with
  | GL_inst i => full (in_list i) && negb (uses_shorthand i) && no_gate (in_module i)
  | GL_gates g => single_outputs g
  | GL_local b => full_body b && forallb kept_pone (body_ones true b)
  | GL_net d => kept_net_decl d
  | GL_data d => kept_data d
  | GL_tf f => kept_tf f
  | GL_initial s => negb (par_block s)
  | GL_always k _ s => supported k s
  | GL_semi | GL_genvar _ | GL_assign _ | GL_task_call _ => true
  | GL_param _ | GL_skipped => false
  end.
Definition m_leaf (o : sobj) : option (list litem) :=
  match o with
  | SO_id d => x <~ m_object A false d ;; Some [LObj x]
  | SO_inst c =>
      match ci_module c with
      | EId s => match m_gkind s with Some _ => g <~ m_gobj A (GO_inst c) ;; Some [of_gate g] | None => i <~ m_inst A c ;; Some [LInst i] end
      | _ => None
      end
  | SO_func f => s <~ m_tf f ;; Some [LSub s]
  | SO_stm (SNop _) => Some []
  | SO_stm (SAssign _ d s None None false) => x <~ meaning A d ;; y <~ meaning A s ;; Some [LDrive x y]
  | SO_stm (SExpr _ e) => v <~ meaning A e ;; Some [LCall v]
  | SO_stm s => k <~ m_process A M n s ;; Some [LProc (fun _ => True) k]
  | _ => None
  end.
(** Items with their scopes. *)
Definition located {X} (f : X -> option (list litem)) (x : gres N X) : option (list (gres N litem)) := r <~ f (snd x) ;; Some (map (fun i => (fst x, i)) r).
Definition all_located {X} (f : X -> option (list litem)) (l : list (gres N X)) : option (list (gres N litem)) := r <~ omapM (located f) l ;; Some (List.concat r).
(** The objects that are declared directly in the module. *)
Definition direct (x : gres N litem) : list object := match x with (([], _), LObj o) => [o] | _ => [] end.
Definition is_direct (names : list str) (x : gres N litem) : bool := existsb (fun o => mem (ob_name A o) names) (direct x).

(** ** Ports *)
Definition about_ (s : str) (l : list object) : list object := filter (fun o => seqb (ob_name A o) s) l.
Definition a_type (o : object) : bool := match ob_type A o with Typ IsType _ _ _ => true | _ => false end.
Definition sign (o : object) : option signing := match ob_type A o with Typ _ s _ _ => s end.
Definition same_sign (d v : object) : bool := match sign d, sign v with None, _ => true | Some Signed, Some Signed | Some Unsigned, Some Unsigned => true | _, _ => false end.
(** A port declared as port and as net or variable; the second one gives the type. *)
Definition joined (d v : object) : option object :=
  if ob_var A d || ob_const A v || a_type d || a_type v || negb (same_sign d v) then None
  else Some (mk_object A (ob_name A d) (ob_type A v) (match ob_value A v with Some x => Some x | None => ob_value A d end) (ob_dir A d) (ob_var A v) false (ob_static A d || ob_static A v)).
Definition the_port (ds vs : list object) (s : str) : option object :=
  match about_ s ds, about_ s vs with [d], [] => Some d | [d], [v] => joined d v | _, _ => None end.
Definition header_name (o : option (str * naport)) : option str :=
  match o with Some (_, NA_expr (NE_one (mk_dotted i None []))) => s <~ v_ident i ;; if seqb s $".*" then None else Some s | _ => None end.
(** [ds]: the port declarations of the body, [vs]: its other declarations *)
Definition v_ports (p : hports) (ds vs : list object) : option (list object) :=
  match p with
  | HP_none => match ds with [] => Some [] | _ => None end
  | HP_all => None
  | HP_ansi l =>
      match ds with
      | [] =>
          r <~ (if plain_ports None (map snd l) && forallb kept_ansi (spell_out V_INOUT None (map snd l)) then omapM (v_ansi A) (spell_out V_INOUT None (map snd l)) else None) ;;
          if forallb (fun v => negb (mem (ob_name A v) (map (ob_name A) r))) vs then Some r else None
      | _ => None
      end
  | HP_nonansi l =>
      names <~ omapM header_name l ;;
      if distinct names && forallb (fun d => mem (ob_name A d) names) ds then omapM (the_port ds vs) names else None
  end.
(** The header of an extern module: the first direction is written down. *)
Definition v_extern (p : hports) : option (list object) :=
  match p with
  | HP_none => Some []
  | HP_ansi ((_, _, AN_port (Some _) _ _) :: _) => v_ports p [] []
  | _ => None
  end.

(** ** Modules of the source *)
Definition v_params (l : list pone) : option (list object) := if forallb kept_pone l then omapM (v_pone A) l else None.
(** A list that begins without the word parameter goes on with declarations. *)
Definition tailed (p : plist) : bool := match p with PL_bare _ (_ :: _) => true | _ => false end.
Definition v_plist (p : option plist) : option (list object) :=
  match p with None => Some [] | Some p => if tailed p || negb (full_params p) then None else v_params (list_ones p) end.
Definition body_params (i : mditem mdecl) : option (list object) :=
  match i with MT_item _ _ (GI_leaf (GL_param b)) => if full_body b then v_params (body_ones false b) else None | _ => Some [] end.
Definition body_gens (i : mditem mdecl) : list gitem :=
  match i with MT_region l => [GI_region l] | MT_item _ _ (GI_leaf (GL_param _)) => [] | MT_item _ _ g => [g] | _ => [] end.
Definition body_ports (i : mditem mdecl) : option (list object) := match i with MT_ports _ _ d => if kept_nadecl d then v_nadecl A d else None | _ => Some [] end.
Definition flat {X Y} (f : X -> option (list Y)) (l : list X) : option (list Y) := r <~ omapM f l ;; Some (List.concat r).
(** The parameters of the body of a module with parameters in its header are local (6.20.1). *)
Definition all_params (h : option plist) (hp bp : list object) : option (list object) :=
  match h, bp with Some _, _ :: _ => None | _, _ => Some (hp ++ bp) end.
Definition v_kleaf (l : gleaf) : option (list litem) := if kept_leaf l then v_leaf l else None.
(** The files of the fragment have no item that is skipped. *)
Fixpoint v_module (m : mdecl) : option smodule :=
  match m with
  | MD ext h p l =>
      let v_sub (i : mditem mdecl) : option (list smodule) := match i with MT_module m => s <~ v_module m ;; Some [s] | MT_skipped => None | _ => Some [] end in
      s <~ v_ident (mh_name h) ;; hp <~ v_plist (mh_params h) ;;
      if ext then match l with [] => r <~ v_extern p ;; Some (Mod s true hp r [] []) | _ => None end
      else
        bp <~ flat body_params l ;; params <~ all_params (mh_params h) hp bp ;;
        g <~ s_gens A N num test matches arith one_more n [] [] (flat_map body_gens l) ;; items <~ all_located v_kleaf g ;;
        ds <~ flat body_ports l ;; ports <~ v_ports p ds (flat_map direct items) ;;
        subs <~ flat v_sub l ;;
        Some (Mod s false params ports (filter (fun x => negb (is_direct (map (ob_name A) ports) x)) items) subs)
  end.
Definition v_file (l : list description) : option (list smodule) := omapM (fun d => match d with DE_module m => v_module m | DE_skipped => None end) l.

(** ** Modules of the AST *)
Definition item_of (o : fobj) : list sobj := match o with FO_id d => [SO_id d] | FO_other _ _ x => [x] | FO_dec _ | FO_def _ _ => [] end.
Fixpoint m_module (o : fobj) : option smodule :=
  let m_sub (o : fobj) : option (list smodule) := match o with FO_dec _ | FO_def _ _ => s <~ m_module o ;; Some [s] | _ => Some [] end in
  match o with
  | FO_dec d => hp <~ omapM (m_object A true) (md_generics d) ;; r <~ omapM (m_object A false) (md_ports d) ;; Some (Mod (md_name d) true hp r [] [])
  | FO_def d l =>
      hp <~ omapM (m_object A true) (md_generics d) ;; r <~ omapM (m_object A false) (md_ports d) ;;
      g <~ a_gens A N num test matches arith one_more n [] [] (flat_map item_of l) ;; items <~ all_located m_leaf g ;;
      subs <~ flat m_sub l ;;
      Some (Mod (md_name d) false hp r items subs)
  | _ => None
  end.
Definition m_file (l : list fobj) : option (list smodule) := omapM m_module l.

(** ** The same meaning: processes and subroutines behave alike *)
Definition beh_same (k k' : beh) : Prop := forall s, k s = k' s.
Definition sub_same (f g : subroutine) : Prop :=
  su_name f = su_name g /\ su_task f = su_task g /\ su_static f = su_static g /\ su_ret f = su_ret g /\ su_args f = su_args g /\ su_locals f = su_locals g /\ Forall2 beh_same (su_body f) (su_body g).
Definition item_same (x y : litem) : Prop :=
  match x, y with
  | LProc ok k, LProc _ k' => forall s, ok s -> k s = k' s
  | LSub f, LSub g => sub_same f g
  | _, _ => x = y
  end.
Definition place_same (x y : gres N litem) : Prop := fst x = fst y /\ item_same (snd x) (snd y).
Inductive mod_same : smodule -> smodule -> Prop :=
| Same s ext hp r i i' l l' : Forall2 place_same i i' -> Forall2 mod_same l l' -> mod_same (Mod s ext hp r i l) (Mod s ext hp r i' l').
End File.
