(** The behaviour of VHDL statements (IEEE 1076 clauses 10, 11) and of the AST statements made of them,
    both over one arbitrary machine.  Nothing here refers to the conversion. *)
From Verif Require Import Base AstModel StmModel LitModel LitSpec SvExprModel SvExprSpec VhdlExprModel VhdlExprSpec VhdlStmModel.

(** How a statement ends; next and exit may name a loop. *)
Inductive hend (S V : Type) := HNormal (s : S) | HNext (l : option str) (s : S) | HExit (l : option str) (s : S) | HReturned (v : option V) (s : S) | HOutOfFuel.
Arguments HNormal {S V}. Arguments HNext {S V}. Arguments HExit {S V}. Arguments HReturned {S V}. Arguments HOutOfFuel {S V}.
Record hmachine (A : halgebra) := {
  HSt : Type;
  HW : Type;                                                             (* values of case selectors *)
  HE : Type;                                                             (* values of loop parameters *)
  hp_norm : str -> str;                                                  (* labels are the same if they are the same after this *)
  hp_test : HV A -> HSt -> bool * HSt;
  hp_assign : bool -> HV A -> HV A -> HSt -> HSt;                        (* := ? *)
  hp_call : HV A -> HSt -> HSt;
  hp_assert : HV A -> option (HV A) -> option (HV A) -> HSt -> HSt;      (* condition, report, severity *)
  hp_report : HV A -> option (HV A) -> HSt -> HSt;
  hp_wait : list (HV A) -> option (HV A) -> option (HV A) -> HSt -> HSt; (* on, until, for *)
  hp_select : HV A -> HSt -> HW * HSt;
  hp_match : HW -> HV A -> HSt -> bool * HSt;
  hp_elems : HV A -> HSt -> list HE * HSt;                               (* the values of a range in order *)
  hp_bind : str -> HE -> HSt -> HSt;
  hp_define : iddef -> HSt -> HSt
}.
Arguments HSt {A}. Arguments HW {A}. Arguments HE {A}. Arguments hp_norm {A}. Arguments hp_test {A}. Arguments hp_assign {A}. Arguments hp_call {A}. Arguments hp_assert {A}.
Arguments hp_report {A}. Arguments hp_wait {A}. Arguments hp_select {A}. Arguments hp_match {A}. Arguments hp_elems {A}. Arguments hp_bind {A}. Arguments hp_define {A}.

Section Behaviour.
Context (A : halgebra) (M : hmachine A).
Definition hbeh := HSt M -> hend (HSt M) (HV A).
Definition hskip : hbeh := fun s => HNormal s.
Definition hact_ (f : HSt M -> HSt M) : hbeh := fun s => HNormal (f s).
Definition hseq (k1 k2 : hbeh) : hbeh := fun s => match k1 s with HNormal s' => k2 s' | r => r end.
Definition hseqs (l : list hbeh) : hbeh := fold_right hseq hskip l.
Definition hite (c : HV A) (k1 k2 : hbeh) : hbeh := fun s => let '(b, s') := hp_test M c s in if b then k1 s' else k2 s'.
(** Does next / exit [l] refer to a loop with the labels [ls]? *)
Definition mine (ls : list str) (l : option str) : bool := match l with Some l => existsb (fun x => seqb (hp_norm M l) (hp_norm M x)) ls | None => true end.
Fixpoint hloop (n : nat) (ls : list str) (test : option (HV A)) (body : hbeh) : hbeh := fun s =>
  match n with
  | 0 => HOutOfFuel
  | S n' =>
      let '(b, s1) := match test with Some c => hp_test M c s | None => (true, s) end in
      if b then
        match body s1 with
        | HNormal s2 => hloop n' ls test body s2
        | HNext l s2 => if mine ls l then hloop n' ls test body s2 else HNext l s2
        | HExit l s2 => if mine ls l then HNormal s2 else HExit l s2
        | r => r
        end
      else HNormal s1
  end.
Fixpoint heach (vs : list (HE M)) (ls : list str) (x : str) (body : hbeh) : hbeh := fun s =>
  match vs with
  | [] => HNormal s
  | v :: vs' =>
      match body (hp_bind M x v s) with
      | HNormal s2 => heach vs' ls x body s2
      | HNext l s2 => if mine ls l then heach vs' ls x body s2 else HNext l s2
      | HExit l s2 => if mine ls l then HNormal s2 else HExit l s2
      | r => r
      end
  end.
Definition hfor (v : HV A) (ls : list str) (x : str) (body : hbeh) : hbeh := fun s => let '(vs, s') := hp_elems M v s in heach vs ls x body s'.
Definition halternative (w : HW M) (v : HV A) (body rest : hbeh) : hbeh := fun s => let '(b, s') := hp_match M w v s in if b then body s' else rest s'.
(** next / exit when c *)
Definition hjump (c : option (HV A)) (k : hbeh) : hbeh := match c with Some c => hite c k hskip | None => k end.

(** ** The AST *)
Definition oo (o : option expr) : option (option (HV A)) := match o with Some e => v <~ hmeaning A e ;; Some (Some v) | None => Some None end.
Definition m_jump (k : option str -> hbeh) (l : list expr) : option hbeh :=
  match l with
  | [ESym symb_NULL] => Some (k None)
  | [EId l] => Some (k (Some l))
  | [ESym symb_NULL; c] => v <~ hmeaning A c ;; Some (hjump (Some v) (k None))
  | [EId l; c] => v <~ hmeaning A c ;; Some (hjump (Some v) (k (Some l)))
  | _ => None
  end.
Definition m_assert (l : list expr) : option hbeh :=
  match l with
  | [c] => v <~ hmeaning A c ;; Some (hact_ (hp_assert M v None None))
  | [c; r] => v <~ hmeaning A c ;; x <~ hmeaning A r ;; Some (hact_ (hp_assert M v (Some x) None))
  | [c; r; s] => v <~ hmeaning A c ;; x <~ hmeaning A r ;; y <~ hmeaning A s ;; Some (hact_ (hp_assert M v (Some x) (Some y)))
  | _ => None
  end.
Definition m_report (l : list expr) : option hbeh :=
  match l with
  | [e] => v <~ hmeaning A e ;; Some (hact_ (hp_report M v None))
  | [e; s] => v <~ hmeaning A e ;; x <~ hmeaning A s ;; Some (hact_ (hp_report M v (Some x)))
  | _ => None
  end.
(** A call, or one of the words which are no identifiers of VHDL. *)
Definition m_call (e : expr) : option hbeh := v <~ hmeaning A e ;; Some (hact_ (hp_call M v)).
Definition mh_estm (e : expr) : option hbeh :=
  match e with
  | EOp CALL (EId s :: l) =>
      if seqb s $"NEXT" then m_jump (fun l s => HNext l s) l
      else if seqb s $"EXIT" then m_jump (fun l s => HExit l s) l
      else if seqb s $"assert" then m_assert l
      else if seqb s $"report" then m_report l
      else m_call e
  | EOp CALL _ => m_call e
  | _ => None
  end.
(** A wait: names, then not c for until, then the time; without until the time is recognised by its unit. *)
Definition not_of (e : expr) : option expr := match e with EOp NEG [c] => Some c | _ => None end.
Definition is_time (e : expr) : bool := match e with EOp UNIT_SPEC _ => true | _ => false end.
Fixpoint m_wait (l : list expr) : option (list (HV A) * option (HV A) * option (HV A)) :=
  match l with
  | [] => Some ([], None, None)
  | x :: l' =>
      match not_of x with
      | Some c =>
          v <~ hmeaning A c ;;
          match l' with [] => Some ([], Some v, None) | [t] => w <~ hmeaning A t ;; Some ([], Some v, Some w) | _ => None end
      | None =>
          v <~ hmeaning A x ;;
          if is_time x && match l' with [] => true | _ => false end then Some ([], None, Some v)
          else r <~ m_wait l' ;; Some (v :: fst (fst r), snd (fst r), snd r)
      end
  end.
(** What is assigned: c ? x, or c ? x : ..., or a value.  c ? x assigns nothing if c does not hold. *)
Fixpoint m_source (b : bool) (d : HV A) (e : expr) : option hbeh :=
  match e with
  | EOp TERNARY [c; x] => vc <~ hmeaning A c ;; vx <~ hmeaning A x ;; Some (hite vc (hact_ (hp_assign M b d vx)) hskip)
  | EOp TERNARY [c; x; y] => vc <~ hmeaning A c ;; vx <~ hmeaning A x ;; r <~ m_source b d y ;; Some (hite vc (hact_ (hp_assign M b d vx)) r)
  | _ => v <~ hmeaning A e ;; Some (hact_ (hp_assign M b d v))
  end.
Definition m_test (c : expr) : option (option (HV A)) :=
  match c with EId s => if seqb s $"True" then Some None else v <~ hmeaning A c ;; Some (Some v) | _ => v <~ hmeaning A c ;; Some (Some v) end.
Section Parts.
Context (f : stm -> option hbeh).
Definition mh_elifs (l : list (expr * stm)) (dflt : hbeh) : option hbeh :=
  fold_right (fun p k => rest <~ k ;; v <~ hmeaning A (fst p) ;; b <~ f (snd p) ;; Some (hite v b rest)) (Some dflt) l.
Definition mh_alts (l : list (expr * stm)) (d : hbeh) : option (HW M -> hbeh) :=
  fold_right (fun p r => rest <~ r ;; v <~ hmeaning A (fst p) ;; b <~ f (snd p) ;; Some (fun w => halternative w v b (rest w))) (Some (fun _ => d)) l.
Definition mh_opt (o : option stm) : option hbeh := match o with Some s => f s | None => Some hskip end.
End Parts.
Fixpoint mh_stm (n : nat) (s : stm) : option hbeh :=
  match s with
  | SNop _ => Some hskip
  | SExpr _ e => mh_estm e
  | SAssign _ d s None None b => x <~ hmeaning A d ;; m_source b x s
  | SIf _ c t l e => v <~ hmeaning A c ;; kt <~ mh_stm n t ;; ke <~ mh_opt (mh_stm n) e ;; r <~ mh_elifs (mh_stm n) l ke ;; Some (hite v kt r)
  | SCase _ _ CASE sel l d =>
      v <~ hmeaning A sel ;; kd <~ mh_opt (mh_stm n) d ;; r <~ mh_alts (mh_stm n) l kd ;;
      Some (fun s => let '(w, s') := hp_select M v s in r w s')
  | SWhile h c b => t <~ m_test c ;; k <~ mh_stm n b ;; Some (hloop n (labels h) t k)
  | SForIn h [SExpr _ (EId x)] c b => v <~ hmeaning A c ;; k <~ mh_stm n b ;; Some (hfor v (labels h) x k)
  | SBlock _ SEQ l => r <~ omapM (mh_stm n) l ;; Some (hseqs r)
  | SWait _ l => r <~ m_wait l ;; Some (hact_ (hp_wait M (fst (fst r)) (snd (fst r)) (snd r)))
  | SReturn _ None => Some (fun s => HReturned None s)
  | SReturn _ (Some e) => v <~ hmeaning A e ;; Some (fun s => HReturned (Some v) s)
  | SDef d => Some (hact_ (hp_define M d))
  | _ => None
  end.

(** ** The source.  None: outside of the supported fragment. *)
Notation hv := (hvmeaning A).
Definition ov (o : option hexpr) : option (option (HV A)) := match o with Some e => v <~ hv e ;; Some (Some v) | None => Some None end.
(** One element, without after. *)
Definition hv_wave (w : wave) : option (HV A) := match w with W_elems (e, None) [] => hv e | _ => None end.
Fixpoint hv_condwaves (d : HV A) (l : list (wave * hexpr)) (e : option wave) : option hbeh :=
  match l with
  | [] => match e with Some w => v <~ hv_wave w ;; Some (hact_ (hp_assign M false d v)) | None => Some hskip end
  | (w, c) :: l' => v <~ hv_wave w ;; x <~ hv c ;; r <~ hv_condwaves d l' e ;; Some (hite x (hact_ (hp_assign M false d v)) r)
  end.
Definition hv_condwave (d : HV A) (w : condwave) : option hbeh := match w with CW p l e => hv_condwaves d (p :: l) e end.
Definition reserved (s : str) : bool := existsb (seqb s) [$"NEXT"; $"EXIT"; $"assert"; $"report"].
(** Not an identifier of [bad], nor an identifier between parentheses. *)
Definition id_ok (bad : str -> bool) (e : hexpr) : bool := match e with HLit (NL_id s) => negb (bad s) | _ => negb (is_id e) end.
Definition hv_pcall (n : hexpr) : option (HV A) :=
  match n with
  | HApply m _ => if id_ok reserved m then hv n else None
  | HLit (NL_id _) | HDot _ _ => if id_ok reserved n then x <~ hv n ;; Some (h_apply A x []) else None
  | _ => None
  end.
Definition is_name (n : hexpr) : bool := match n with HLit _ | HSlice _ _ _ _ | HAttr _ _ _ | HDot _ _ | HAll _ | HApply _ _ => true | _ => false end.
(** Without until, the time is a literal with a unit. *)
Definition has_unit (e : hexpr) : bool := match e with HNum _ _ (Some _) => true | _ => false end.
(** Choices with what they select; others only at the end. *)
Fixpoint hv_alts (l : list (hchoice hexpr * hbeh)) : option (HW M -> hbeh) :=
  match l with
  | [] => Some (fun _ => hskip)
  | (Ch_others, b) :: l' => match l' with [] => Some (fun _ => b) | _ => None end
  | (Ch r, b) :: l' => v <~ hv_range A hv r ;; k <~ hv_alts l' ;; Some (fun w => halternative w v b (k w))
  end.
Definition hv_select (sel d : HV A) (l : list selwave) : option hbeh :=
  bs <~ omapM (fun p : selwave => v <~ hv_wave (fst p) ;; Some (map (fun c => (c, hact_ (hp_assign M false d v))) (snd p))) l ;;
  r <~ hv_alts (List.concat bs) ;; Some (fun s => let '(w, s') := hp_select M sel s in r w s').
(** The label after end must be the label of the statement. *)
Definition end_ok (label end_ : option str) : bool :=
  match end_, label with None, _ => true | Some e, Some l => seqb (hp_norm M e) (hp_norm M l) | Some _, None => false end.
Definition own (label : option str) : list str := match label with Some l => [l] | None => [] end.
Section Parts2.
Context (n : nat) (f : hstm -> option hbeh).
Definition hv_seq (l : list hstm) : option hbeh := r <~ omapM f l ;; Some (hseqs r).
Definition hv_elifs (l : list (hexpr * list hstm)) (dflt : hbeh) : option hbeh :=
  fold_right (fun p k => rest <~ k ;; v <~ hv (fst p) ;; b <~ hv_seq (snd p) ;; Some (hite v b rest)) (Some dflt) l.
Definition hv_item (label : option str) (i : hitem hstm) : option hbeh :=
  match i with
  | J_wait on until for_ =>
      if forallb is_name on && match until, for_ with None, Some t => has_unit t | _, _ => true end then
        a <~ omapM hv on ;; b <~ ov until ;; c <~ ov for_ ;; Some (hact_ (hp_wait M a b c))
      else None
  | J_assert _ None (Some _) => None
  | J_assert c r s => v <~ hv c ;; x <~ ov r ;; y <~ ov s ;; Some (hact_ (hp_assert M v x y))
  | J_report e s => v <~ hv e ;; y <~ ov s ;; Some (hact_ (hp_report M v y))
  | J_signal t None w => d <~ hv t ;; v <~ hv_wave w ;; Some (hact_ (hp_assign M false d v))
  | J_signal_cond t None w => d <~ hv t ;; hv_condwave d w
  | J_variable t e => d <~ hv t ;; v <~ hv e ;; Some (hact_ (hp_assign M true d v))
  | J_call e => v <~ hv_pcall e ;; Some (hact_ (hp_call M v))
  | J_if c b l e _ =>
      v <~ hv c ;; k <~ hv_seq b ;; ke <~ match e with Some b => hv_seq b | None => Some hskip end ;;
      r <~ hv_elifs l ke ;; Some (hite v k r)
  | J_case false sel l _ =>
      v <~ hv sel ;; bs <~ omapM (fun p => b <~ hv_seq (snd p) ;; Some (map (fun c => (c, b)) (fst p))) l ;;
      r <~ hv_alts (List.concat bs) ;; Some (fun s => let '(w, s') := hp_select M v s in r w s')
  | J_while c b e =>
      if end_ok label e && id_ok (seqb $"True") c then v <~ hv c ;; k <~ hv_seq b ;; Some (hloop n (own label) (Some v) k) else None
  | J_for i r b e => if end_ok label e then v <~ hv_range A hv r ;; k <~ hv_seq b ;; Some (hfor v (own label) i k) else None
  | J_loop b e => if end_ok label e then k <~ hv_seq b ;; Some (hloop n (own label) None k) else None
  | J_next l c => v <~ ov c ;; Some (hjump v (fun s => HNext l s))
  | J_exit l c => v <~ ov c ;; Some (hjump v (fun s => HExit l s))
  | J_return None => Some (fun s => HReturned None s)
  | J_return (Some e) => v <~ hv e ;; Some (fun s => HReturned (Some v) s)
  | J_null => Some hskip
  | J_signal _ (Some _) _ | J_signal_cond _ (Some _) _ | J_force _ _ _ | J_release _ _ | J_force_cond _ _ _ | J_signal_select _ _ _
  | J_variable_cond _ _ _ | J_variable_select _ _ _ | J_case true _ _ _ => None
  end.
End Parts2.
Fixpoint hv_stm (n : nat) (s : hstm) : option hbeh := match s with HS label i => hv_item n (hv_stm n) label i end.
(** Concurrent assignments: what one execution of them does. *)
Definition hv_conc (c : hconc) : option hbeh :=
  match c with
  | CC_wave t w => d <~ hv t ;; v <~ hv_wave w ;; Some (hact_ (hp_assign M false d v))
  | CC_cond t w => d <~ hv t ;; hv_condwave d w
  | CC_select false sel t l => v <~ hv sel ;; d <~ hv t ;; hv_select v d l
  | CC_select true _ _ _ => None
  end.
(** Processes: the sensitivity list, and the body. *)
Inductive sens_ := SensNone | SensAll | SensNames (l : list (HV A)).
Definition hv_sens (s : hsens) : option sens_ :=
  match s with HSens_none => Some SensNone | HSens_all => Some SensAll | HSens l => r <~ omapM hv l ;; Some (SensNames r) end.
Definition m_sens (s : option (list expr)) : option sens_ :=
  match s with None => Some SensNone | Some [ESym symb_ALL] => Some SensAll | Some l => r <~ omapM (hmeaning A) l ;; Some (SensNames r) end.
Definition mh_process (n : nat) (s : stm) : option (sens_ * hbeh) :=
  match s with SProcess _ se ALWAYS_NONE b => x <~ m_sens se ;; k <~ mh_stm n b ;; Some (x, k) | _ => None end.
(** The declarations are given as objects of the AST. *)
Definition hv_process (n : nat) (se : hsens) (ds : list stm) (l : list hstm) : option (sens_ * hbeh) :=
  x <~ hv_sens se ;; kd <~ omapM (fun d => match d with SDef _ => mh_stm n d | _ => None end) ds ;; k <~ omapM (hv_stm n) l ;; Some (x, hseq (hseqs kd) (hseqs k)).
End Behaviour.
