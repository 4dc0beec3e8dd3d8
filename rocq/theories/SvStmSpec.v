(** The behaviour of Verilog statements (IEEE 1800 clauses 9, 10, 12) and of AST statements (comments of
    hdlAst/hdlStm*.h), both over one arbitrary machine.  Nothing here refers to the conversion. *)
From Verif Require Import Base AstModel StmModel LitModel LitSpec SvExprModel SvExprSpec SvStmModel.

(** Events: any change of what is read, or a (rising, falling or any) change of a value. *)
Inductive event (V : Type) := EvAny | Ev (rising_falling : option bool) (v : V).
Arguments EvAny {V}. Arguments Ev {V}.
Inductive when (V : Type) := AfterTime (v : V) | AfterEvents (l : list (event V)).
Arguments AfterTime {V}. Arguments AfterEvents {V}.
(** How a statement ends; [Halted]: it waits forever. *)
Inductive res (S V : Type) := Normal (s : S) | Broke (s : S) | Continued (s : S) | Returned (v : option V) (s : S) | Halted (s : S) | OutOfFuel.
Arguments Normal {S V}. Arguments Broke {S V}. Arguments Continued {S V}. Arguments Returned {S V}. Arguments Halted {S V}. Arguments OutOfFuel {S V}.

(** A machine: states (memory, time, output, trace of everything that happened, ...) and the effect of
    every primitive action.  [V A] may be a type of effectful computations, as [A] is arbitrary too. *)
Record machine (A : algebra) := {
  St : Type;
  W : Type;                                                        (* values of case selectors *)
  p_test : V A -> St -> bool * St;
  p_eval : V A -> St -> St;
  p_opassign : asgop -> V A -> V A -> St -> St;
  p_assign : bool -> V A -> V A -> option (when (V A)) -> St -> St;   (* blocking? *)
  p_count : V A -> St -> nat * St;
  p_select : uniq -> case_type -> V A -> St -> W * St;
  p_match : case_type -> W -> V A -> St -> bool * St;
  p_define : str -> expr -> option (V A) -> bool -> St -> St;      (* name, type, value, var? *)
  p_wait : when (V A) -> St -> St;
  p_fork : join_type -> list (St -> res St (V A)) -> St -> res St (V A);
  p_foreach : list (option str) -> V A -> (St -> res St (V A)) -> St -> res St (V A);
  (* fork and foreach look at what their branches do, not at how they are written *)
  p_fork_ext : forall j l l' s, Forall2 (fun f g => forall s, f s = g s) l l' -> p_fork j l s = p_fork j l' s;
  p_foreach_ext : forall x v f g s, (forall s, f s = g s) -> p_foreach x v f s = p_foreach x v g s
}.
Arguments St {A}. Arguments W {A}. Arguments p_test {A}. Arguments p_eval {A}. Arguments p_opassign {A}. Arguments p_assign {A}. Arguments p_count {A}.
Arguments p_select {A}. Arguments p_match {A}. Arguments p_define {A}. Arguments p_wait {A}. Arguments p_fork {A}. Arguments p_foreach {A}.
Arguments p_fork_ext {A}. Arguments p_foreach_ext {A}.

Section Behaviour.
Context (A : algebra) (M : machine A).
Definition beh := St M -> res (St M) (V A).
Definition skip : beh := fun s => Normal s.
Definition act (f : St M -> St M) : beh := fun s => Normal (f s).
Definition seq (k1 k2 : beh) : beh := fun s => match k1 s with Normal s' => k2 s' | r => r end.
Definition seqs (l : list beh) : beh := fold_right seq skip l.
Definition ite (c : V A) (k1 k2 : beh) : beh := fun s => let '(b, s') := p_test M c s in if b then k1 s' else k2 s'.
(** while: at most [n] tests, then [OutOfFuel].  [test] is None for a loop without condition. *)
Fixpoint loop (n : nat) (test : option (V A)) (body step : beh) : beh := fun s =>
  match n with
  | 0 => OutOfFuel
  | S n' =>
      let '(b, s1) := match test with Some c => p_test M c s | None => (true, s) end in
      if b then
        match body s1 with
        | Normal s2 | Continued s2 => match step s2 with Normal s3 => loop n' test body step s3 | r => r end
        | Broke s2 => Normal s2
        | r => r
        end
      else Normal s1
  end.
Fixpoint times (n : nat) (body : beh) : beh := fun s =>
  match n with
  | 0 => Normal s
  | S n' => match body s with Normal s2 | Continued s2 => times n' body s2 | Broke s2 => Normal s2 | r => r end
  end.
Definition repeat_ (v : V A) (body : beh) : beh := fun s => let '(n, s') := p_count M v s in times n body s'.
(** case: the first alternative with a matching label. *)
Definition alternative (k : case_type) (w : W M) (v : V A) (body rest : beh) : beh := fun s =>
  let '(b, s') := p_match M k w v s in if b then body s' else rest s'.

(** ** The AST *)
Definition m_event (e : expr) : option (event (V A)) :=
  match e with
  | ESym symb_ALL => Some EvAny
  | EOp RISING [x] => v <~ meaning A x ;; Some (Ev (Some true) v)
  | EOp FALLING [x] => v <~ meaning A x ;; Some (Ev (Some false) v)
  | _ => v <~ meaning A e ;; Some (Ev None v)
  end.
Definition m_asgop (o : op) : option asgop :=
  match o with
  | ASSIGN => Some A_ASSIGN | PLUS_ASSIGN => Some A_PLUS | MINUS_ASSIGN => Some A_MINUS | MUL_ASSIGN => Some A_MUL | DIV_ASSIGN => Some A_DIV
  | MOD_ASSIGN => Some A_MOD | AND_ASSIGN => Some A_AND | OR_ASSIGN => Some A_OR | XOR_ASSIGN => Some A_XOR | SHIFT_LEFT_ASSIGN => Some A_SHL
  | SHIFT_RIGHT_ASSIGN => Some A_SHR | ARITH_SHIFT_LEFT_ASSIGN => Some A_ASHL | ARITH_SHIFT_RIGHT_ASSIGN => Some A_ASHR | _ => None
  end.
(** An expression as a statement: an assignment, void'(x), or evaluated for its effect. *)
Definition m_estm (e : expr) : option beh :=
  match e with
  | EOp o [x; y] =>
      match m_asgop o with
      | Some a => d <~ meaning A x ;; s <~ meaning A y ;; Some (act (p_opassign M a d s))
      | None =>
          match o, is_void x with
          | CALL, true => v <~ meaning A y ;; Some (act (p_eval M v))
          | _, _ => v <~ meaning A e ;; Some (act (p_eval M v))
          end
      end
  | _ => v <~ meaning A e ;; Some (act (p_eval M v))
  end.
Definition m_when (t : option expr) (e : option (list expr)) : option (option (when (V A))) :=
  match t, e with
  | None, None => Some None
  | Some x, None => v <~ meaning A x ;; Some (Some (AfterTime v))
  | None, Some l => r <~ omapM m_event l ;; Some (Some (AfterEvents r))
  | Some _, Some _ => None
  end.
(** The condition of a loop; the integer 1 is always true. *)
Definition m_cond (e : expr) : option (option (V A)) :=
  match e with EInt _ (Val 1%Z) => Some None | _ => v <~ meaning A e ;; Some (Some v) end.
Definition m_def (d : iddef) : option beh :=
  match d_value d with
  | Some e => v <~ meaning A e ;; Some (act (p_define M (d_name d) (d_type d) (Some v) (d_latched d)))
  | None => Some (act (p_define M (d_name d) (d_type d) None (d_latched d)))
  end.
Definition m_var (s : stm) : option (option str) := match s with SExpr _ (EId x) => Some (Some x) | _ => None end.
Section Parts.
Context (n : nat) (f : stm -> option beh).
Definition m_elifs (l : list (expr * stm)) (dflt : beh) : option beh :=
  fold_right (fun p k => rest <~ k ;; v <~ meaning A (fst p) ;; b <~ f (snd p) ;; Some (ite v b rest)) (Some dflt) l.
(** The alternatives in order, each a label with a body. *)
Definition m_alts (k : case_type) (l : list (expr * stm)) : option (W M -> beh -> beh) :=
  fold_right (fun p r => rest <~ r ;; v <~ meaning A (fst p) ;; b <~ f (snd p) ;; Some (fun w d => alternative k w v b (rest w d))) (Some (fun _ d => d)) l.
Definition m_opt (o : option stm) : option beh := match o with Some s => f s | None => Some skip end.
(** A parallel block: its definitions, then the branches. *)
Fixpoint m_par (j : join_type) (l : list stm) : option beh :=
  match l with
  | SDef d :: l' => k <~ m_def d ;; r <~ m_par j l' ;; Some (seq k r)
  | _ => r <~ omapM f l ;; Some (p_fork M j r)
  end.
End Parts.
Fixpoint m_stm (n : nat) (s : stm) : option beh :=
  match s with
  | SNop _ => Some skip
  | SExpr _ e => m_estm e
  | SAssign _ d s t e b => x <~ meaning A d ;; y <~ meaning A s ;; w <~ m_when t e ;; Some (act (p_assign M b x y w))
  | SIf _ c t l e => v <~ meaning A c ;; kt <~ m_stm n t ;; ke <~ m_opt (m_stm n) e ;; r <~ m_elifs (m_stm n) l ke ;; Some (ite v kt r)
  | SCase _ u k sel l d =>
      v <~ meaning A sel ;; r <~ m_alts (m_stm n) k l ;; kd <~ m_opt (m_stm n) d ;;
      Some (fun s => let '(w, s') := p_select M u k v s in r w kd s')
  | SWhile _ c b => t <~ m_cond c ;; k <~ m_stm n b ;; Some (loop n t k skip)
  | SFor _ i c st b => ki <~ m_stm n i ;; t <~ m_cond c ;; ks <~ m_stm n st ;; k <~ m_stm n b ;; Some (seq ki (loop n t k ks))
  | SForIn _ l c b => x <~ omapM m_var l ;; v <~ meaning A c ;; k <~ m_stm n b ;; Some (p_foreach M x v k)
  | SRepeat _ c b => v <~ meaning A c ;; k <~ m_stm n b ;; Some (repeat_ v k)
  | SBlock _ SEQ l => r <~ omapM (m_stm n) l ;; Some (seqs r)
  | SBlock _ j l => m_par (m_stm n) j l
  | SProcess _ None ALWAYS_NONE b => m_stm n b
  | SProcess _ (Some l) ALWAYS_NONE b => ev <~ omapM m_event l ;; k <~ m_stm n b ;; Some (seq (act (p_wait M (AfterEvents ev))) k)
  | SWait _ [x] => v <~ meaning A x ;; Some (act (p_wait M (AfterTime v)))
  | SWait _ [] => Some (fun s => Halted s)
  | SReturn _ None => Some (fun s => Returned None s)
  | SReturn _ (Some e) => v <~ meaning A e ;; Some (fun s => Returned (Some v) s)
  | SBreak _ => Some (fun s => Broke s)
  | SContinue _ => Some (fun s => Continued s)
  | SDef d => m_def d
  | SDoWhile _ _ _ | SProcess _ _ _ _ | SWait _ _ | SNull => None
  end.

(** ** The source.  None: outside of the supported fragment. *)
Definition v_edge (e : option edge) : option (option bool) :=
  match e with Some E_posedge => Some (Some true) | Some E_negedge => Some (Some false) | None => Some None | Some E_edge => None end.
(** or and , build the list of all events, from left to right. *)
Fixpoint v_event (e : evexpr) : option (list (event (V A))) :=
  match e with
  | EvList l => r <~ omapM v_event l ;; Some (List.concat r)
  | EvItem ed x None => d <~ v_edge ed ;; v <~ vmeaning A x ;; Some [Ev d v]
  | EvItem _ _ (Some _) => None
  end.
Definition v_evctl (c : evctl) : option (list (event (V A))) :=
  match c with
  | EC_star => Some [EvAny]
  | EC_path x => v <~ vmeaning A x ;; Some [Ev None v]
  | EC_expr l => r <~ omapM v_event l ;; Some (List.concat r)
  end.
Definition v_delay (d : delay) : option (V A) :=
  match d with
  | DV_number t => v_number A (TokUnsigned t) | DV_1step => Some (a_name A $"1step") | DV_real t => Some (a_real A t)
  | DV_path x => vmeaning A x | DV_paren x None => vmeaning A x | DV_time _ | DV_paren _ (Some _) => None
  end.
Definition v_dectl (d : dectl) : option (when (V A)) :=
  match d with
  | DE_delay d => v <~ v_delay d ;; Some (AfterTime v)
  | DE_event None c => l <~ v_evctl c ;; Some (AfterEvents l)
  | DE_event (Some _) _ => None
  end.
Definition v_timing (t : timing) : option (when (V A)) :=
  match t with T_delay d => v <~ v_delay d ;; Some (AfterTime v) | T_event c => l <~ v_evctl c ;; Some (AfterEvents l) | T_cycle => None end.
Definition v_assign1 (p : vexpr * vexpr * str) : option beh :=
  d <~ vmeaning A (fst (fst p)) ;; s <~ vmeaning A (snd (fst p)) ;; Some (act (p_assign M true d s None)).
Definition v_fordecl (p : bool * expr * list (ident * vexpr)) : option (list beh) :=
  omapM (fun q => x <~ v_ident (fst q) ;; v <~ vmeaning A (snd q) ;; Some (act (p_define M x (snd (fst p)) (Some v) (fst (fst p))))) (snd p).
Definition v_forinit (i : option forinit) : option beh :=
  match i with
  | None => Some skip
  | Some (FI_assign l) => r <~ omapM v_assign1 l ;; Some (seqs r)
  | Some (FI_decl l) => r <~ omapM v_fordecl l ;; Some (seqs (List.concat r))
  end.
Definition v_forstep (s : forstep) : option beh :=
  match s with
  | FS_assign d o x => a <~ vmeaning A d ;; b <~ vmeaning A x ;; Some (act (p_opassign M o a b))
  | FS_expr e => v <~ vmeaning A e ;; Some (act (p_eval M v))
  end.
Definition v_attrs_ok (l : list attr) : bool :=
  forallb (fun a => match v_ident (fst a) with Some _ => true | None => false end &&
                    match snd a with Some e => match vmeaning A e with Some _ => true | None => false end | None => true end) l.
Definition v_vars (l : list (option ident)) : option (list (option str)) := omapM (fun o => i <~ o ;; x <~ v_ident i ;; Some (Some x)) l.
(** Definitions inside a block are given as objects of the AST. *)
Definition v_decls (l : list stm) : option (list beh) := omapM (fun s => match s with SDef d => m_def d | _ => None end) l.
Section Parts2.
Context (n : nat) (f : vstm -> option beh).
(** All labels of all items in order; an item without labels is the default. *)
Definition v_labels (k : case_type) (body : beh) (l : list vexpr) : option (W M -> beh -> beh) :=
  fold_right (fun e r => rest <~ r ;; v <~ vmeaning A e ;; Some (fun w d => alternative k w v body (rest w d))) (Some (fun _ d => d)) l.
Definition v_items_ (k : case_type) (l : list (citem vstm)) : option (W M -> beh -> beh) :=
  fold_right (fun c r => rest <~ r ;;
    match fst c with
    | [] => Some rest
    | ls => b <~ f (snd c) ;; here <~ v_labels k b ls ;; Some (fun w d => here w (rest w d))
    end) (Some (fun _ d => d)) l.
(** The default item, wherever it stands; at most one. *)
Definition v_default (l : list (citem vstm)) : option (option beh) :=
  fold_right (fun c r => d <~ r ;;
    match fst c, d with
    | [], None => k <~ f (snd c) ;; Some (Some k)
    | [], Some _ => None
    | _ :: _, _ => Some d
    end) (Some None) l.
Definition v_item_stm (i : item vstm) : option beh :=
  match i with
  | I_assign_ctl dst c src => d <~ vmeaning A dst ;; s <~ vmeaning A src ;; w <~ v_dectl c ;; Some (act (p_assign M true d s (Some w)))
  | I_assign_op dst o src => d <~ vmeaning A dst ;; s <~ vmeaning A src ;; Some (act (p_opassign M o d s))
  | I_nonblocking dst None src => d <~ vmeaning A dst ;; s <~ vmeaning A src ;; Some (act (p_assign M false d s None))
  | I_nonblocking dst (Some c) src => d <~ vmeaning A dst ;; s <~ vmeaning A src ;; w <~ v_dectl c ;; Some (act (p_assign M false d s (Some w)))
  | I_incdec e | I_primary e | I_void e => v <~ vmeaning A e ;; Some (act (p_eval M v))
  | I_case u k sel l =>
      v <~ vmeaning A sel ;; r <~ v_items_ k l ;; kd <~ v_default l ;;
      Some (fun s => let '(w, s') := p_select M (match u with Some u => u | None => CASE_UNIQ_NONE end) k v s in r w (match kd with Some k => k | None => skip end) s')
  | I_if None c [] t e =>
      v <~ vmeaning A c ;; kt <~ f t ;; ke <~ match e with Some e => f e | None => Some skip end ;; Some (ite v kt ke)
  | I_forever b => k <~ f b ;; Some (loop n None k skip)
  | I_repeat c b => v <~ vmeaning A c ;; k <~ f b ;; Some (repeat_ v k)
  | I_while c b => v <~ vmeaning A c ;; k <~ f b ;; Some (loop n (Some v) k skip)
  | I_for i c st b =>
      ki <~ v_forinit i ;; t <~ match c with Some c => v <~ vmeaning A c ;; Some (Some v) | None => Some None end ;;
      ks <~ omapM v_forstep st ;; k <~ f b ;; Some (seq ki (loop n t k (seqs ks)))
  | I_foreach c vars b => x <~ v_vars vars ;; v <~ vmeaning A c ;; k <~ f b ;; Some (p_foreach M x v k)
  | I_return None => Some (fun s => Returned None s)
  | I_return (Some e) => v <~ vmeaning A e ;; Some (fun s => Returned (Some v) s)
  | I_break => Some (fun s => Broke s)
  | I_continue => Some (fun s => Continued s)
  | I_block j label decls l =>
      _ <~ match label with Some i => x <~ v_ident i ;; Some (Some x) | None => Some None end ;;
      d <~ v_decls decls ;; r <~ omapM f l ;;
      Some (match j with SEQ => seqs (d ++ r) | _ => seq (seqs d) (p_fork M j r) end)
  | I_timing t b =>
      w <~ v_timing t ;; k <~ f b ;;
      match w, b with
      | AfterTime _, TStm _ _ _ (I_block PAR_JOIN _ _ _) | AfterTime _, TStm _ _ _ (I_block PAR_JOIN_ANY _ _ _)
      | AfterTime _, TStm _ _ _ (I_block PAR_JOIN_NONE _ _ _) => None
      | _, _ => Some (seq (act (p_wait M w)) k)
      end
  | I_do _ _ | I_if _ _ _ _ _ | I_unsupported _ | I_case_inside _ _ _ | I_case_matches _ _ _ _ => None
  end.
End Parts2.
Fixpoint v_stm (n : nat) (s : vstm) : option beh :=
  match s with
  | TNull at_ => if v_attrs_ok at_ then Some skip else None
  | TStm _ at_ _ i => if v_attrs_ok at_ then v_item_stm n (v_stm n) i else None
  end.

(** ** Processes *)
(** What a process in a module does: it repeats its statement, after its events if it has some.
    always_comb and always_latch run once, then again whenever something they read changes. *)
Definition m_process (n : nat) (o : stm) : option beh :=
  match o with
  | SProcess _ _ ALWAYS_NONE _ => k <~ m_stm n o ;; Some (loop n None k skip)
  | SProcess h sens ALWAYS_FF b => k <~ m_stm n (SProcess h sens ALWAYS_NONE b) ;; Some (loop n None k skip)
  | SProcess _ None (ALWAYS_COMB | ALWAYS_LATCH) b => k <~ m_stm n b ;; Some (loop n None (seq k (act (p_wait M (AfterEvents [EvAny])))) skip)
  | _ => None
  end.
Definition v_process (n : nat) (kind : always_kind) (s : vstm) : option beh :=
  k <~ v_stm n s ;;
  match kind with
  | K_always | K_ff => Some (loop n None k skip)
  | K_comb | K_latch => match s with
                        | TStm _ _ _ (I_timing _ _) => None
                        | _ => Some (loop n None (seq k (act (p_wait M (AfterEvents [EvAny])))) skip)
                        end
  end.
(** An initial statement runs once. *)
Definition v_initial (n : nat) (s : vstm) : option beh := k <~ v_stm n s ;; Some (seq k (fun s => Halted s)).
End Behaviour.
