(** Model of the conversion of Verilog statements: src/svConvertor/statementParser.cpp, delayParser.cpp,
    eventExprParser.cpp, attributeParser.cpp.  The input is the parse tree.  The text that the comment
    parser finds in front of a statement is part of the tree ([doc]); declarations in blocks are given as
    the objects the declaration parser makes of them.  Positions are not modelled. *)
From Verif Require Import Base AstModel StmModel LitModel SvExprModel.

(** event_expression, sv2017Parser.g4:928-932 *)
Inductive edge := E_posedge | E_negedge | E_edge.
Inductive evexpr := EvList (l : list evexpr)                                      (* ( a or b , c ) *)
| EvItem (e : option edge) (x : vexpr) (iff : option vexpr).
(** event_control, sv2017Parser.g4:505-511 *)
Inductive evctl := EC_star | EC_path (x : vexpr) | EC_expr (l : list evexpr).
(** delay_value, delay_control: sv2017Parser.g4:526-537.  [DV_number], [DV_path] hold the token or the
    identifier as an expression. *)
Inductive delay := DV_number (t : str) | DV_time (t : str) | DV_1step | DV_real (t : str) | DV_path (x : vexpr)
| DV_paren (x : vexpr) (typ_max : option (vexpr * vexpr)).
(** delay_or_event_control, sv2017Parser.g4:512-515 *)
Inductive dectl := DE_delay (d : delay) | DE_event (rep : option vexpr) (c : evctl).
(** procedural_timing_control, sv2017Parser.g4:499-504 *)
Inductive timing := T_delay (d : delay) | T_event (c : evctl) | T_cycle.
Definition attr := (ident * option vexpr)%type.
(** for_initialization: assignments or declarations (type, name, value) *)
Inductive forinit := FI_assign (l : list (vexpr * vexpr * str)) | FI_decl (l : list (bool * expr * list (ident * vexpr))).
(** sequence_match_item *)
Inductive forstep := FS_assign (d : vexpr) (o : asgop) (s : vexpr) | FS_expr (e : vexpr).
(** case_item: no label stands for default *)
Definition citem (S : Type) := (list vexpr * S)%type.
(** statement_item, sv2017Parser.g4:461-484 *)
Inductive item (S : Type) :=
| I_assign_ctl (dst : vexpr) (d : dectl) (src : vexpr)          (* a = #d b *)
| I_assign_op (dst : vexpr) (o : asgop) (src : vexpr)           (* a = b, a += b *)
| I_nonblocking (dst : vexpr) (d : option dectl) (src : vexpr)
| I_unsupported (text : str)                                    (* new, force, disable, ->, wait, assert, ... *)
| I_incdec (e : vexpr)
| I_primary (e : vexpr)
| I_case (u : option uniq) (k : case_type) (sel : vexpr) (l : list (citem S))
| I_case_inside (u : option uniq) (sel : vexpr) (l : list (citem S))
| I_case_matches (u : option uniq) (k : case_type) (sel : vexpr) (l : list (citem S))
| I_if (u : option uniq) (c : vexpr) (conj : list vexpr) (t : S) (f : option S)   (* if ( c &&& conj ) *)
| I_void (e : vexpr)                                            (* void'(e); *)
| I_forever (b : S)
| I_repeat (n : vexpr) (b : S)
| I_while (c : vexpr) (b : S)
| I_do (b : S) (c : vexpr)
| I_for (init : option forinit) (c : option vexpr) (step : list forstep) (b : S)
| I_foreach (coll : vexpr) (vars : list (option ident)) (b : S)
| I_return (e : option vexpr)
| I_break
| I_continue
| I_block (j : join_type) (label : option ident) (decls : list stm) (l : list S)
| I_timing (t : timing) (b : S).
Arguments I_assign_ctl {S}. Arguments I_assign_op {S}. Arguments I_nonblocking {S}. Arguments I_unsupported {S}. Arguments I_incdec {S}.
Arguments I_primary {S}. Arguments I_case {S}. Arguments I_case_inside {S}. Arguments I_case_matches {S}. Arguments I_if {S}. Arguments I_void {S}.
Arguments I_forever {S}. Arguments I_repeat {S}. Arguments I_while {S}. Arguments I_do {S}. Arguments I_for {S}. Arguments I_foreach {S}.
Arguments I_return {S}. Arguments I_break {S}. Arguments I_continue {S}. Arguments I_block {S}. Arguments I_timing {S}.
(** statement_or_null, statement: sv2017Parser.g4:449-460 *)
Inductive vstm := TNull (at_ : list attr) | TStm (label : option ident) (at_ : list attr) (doc : str) (i : item vstm).

(** visitAttr_spec_instance, visitAttribute_instance: attributeParser.cpp:10-37 *)
Definition conv_attr (a : attr) : outcome (str * option expr) :=
  n <- ident_str (fst a) ;;
  match snd a with Some e => v <- conv e ;; Ok (n, Some v) | None => Ok (n, None) end.
Definition add_attrs (at_ : list attr) (s : stm) : outcome stm :=
  l <- mapM conv_attr at_ ;; Ok (set_hdr (fun h => mk_hdr (labels h) (doc h) (attrs h ++ l) (in_preproc h)) s).
(** getText() of an identifier *)
Definition ident_text (i : ident) : str := match i with IdPlain s => s | IdEsc t => t end.

(** visitEvent_expression, visitEvent_expression_item, visitEvent_identifier: eventExprParser.cpp:16-72 *)
Definition conv_edge (e : option edge) (x : expr) : expr :=
  match e with Some E_posedge => op1 RISING x | Some E_negedge => op1 FALLING x | Some E_edge | None => x end.
Fixpoint conv_event (e : evexpr) : outcome (list expr) :=
  match e with
  | EvList l => r <- mapM conv_event l ;; Ok (concat r)
  | EvItem ed x _ => a <- conv x ;; Ok [conv_edge ed a]
  end.
(** visitEvent_control, delayParser.cpp:16-42 *)
Definition conv_evctl (c : evctl) : outcome (list expr) :=
  match c with EC_star => Ok [ESym symb_ALL] | EC_path x => a <- conv x ;; Ok [a] | EC_expr l => r <- mapM conv_event l ;; Ok (concat r) end.
(** visitDelay_value, visitDelay_control: delayParser.cpp:76-123; visitUNSIGNED_NUMBER, visitTIME_LITERAL,
    visitReal_number as in visit_lit *)
Definition conv_delay (d : delay) : outcome expr :=
  match d with
  | DV_number t => visit_lit (L_NUMBER (TokUnsigned t)) | DV_time t => visit_lit (L_TIME t) | DV_1step => Ok (EId $"1step")
  | DV_real t => visit_lit (L_REAL t) | DV_path x => conv x | DV_paren x _ => conv x
  end.
(** visitDelay_or_event_control, delayParser.cpp:125-143 *)
Definition conv_dectl (d : dectl) : outcome (option expr * option (list expr)) :=
  match d with DE_delay d => x <- conv_delay d ;; Ok (Some x, None) | DE_event _ c => l <- conv_evctl c ;; Ok (None, Some l) end.
(** visitProcedural_timing_control, delayParser.cpp:44-74 *)
Definition conv_timing (t : timing) : outcome (option expr * option (list expr)) :=
  match t with
  | T_delay d => x <- conv_delay d ;; Ok (Some x, None)
  | T_event c => l <- conv_evctl c ;; Ok (None, Some l)
  | T_cycle => Ok (Some ENotImpl, None)
  end.
(** HdlStmAssign::HdlStmAssign, hdlStmAssign.cpp:16-29: throws when a side is a null pointer *)
Definition mk_assign (h : hdr) (d s : expr) (t : option expr) (e : option (list expr)) (b : bool) : outcome stm :=
  match d, s with
  | ENull, _ | _, ENull => Throw (RuntimeError $"wrong assign initialization")
  | _, _ => Ok (SAssign h d s t e b)
  end.
(** HdlStmIf_collapse_elifs, statementParser.cpp:30-58; in_preproc differs never *)
Definition collapse_elifs (s : stm) : outcome stm :=
  match s with
  | SIf h c t elifs (Some (SIf h2 c2 t2 elifs2 f2)) =>
      if Bool.eqb (in_preproc h) (in_preproc h2) then
        let d := match doc h2 with [] => doc h | _ => match doc h with [] => doc h2 | _ => doc h ++ [nl] ++ doc h2 end end in
        Ok (SIf (mk_hdr (labels h) d (attrs h) (in_preproc h)) c t (elifs ++ (c2, t2) :: elifs2) f2)
      else UB "assert(ifStm.in_preproc == as_if->in_preproc)"
  | _ => Ok s
  end.
(** visitVariable_assignment, statementParser.cpp:417-429 *)
Definition conv_var_assign (p : vexpr * vexpr * str) : outcome stm :=
  d <- conv (fst (fst p)) ;; s <- conv (snd (fst p)) ;; mk_assign (hdr_doc (snd p)) d s None None true.
(** visitFor_variable_declaration, statementParser.cpp:516-543; every name gets a copy of the type *)
Definition conv_for_decl (p : bool * expr * list (ident * vexpr)) : outcome (list stm) :=
  mapM (fun q => n <- ident_str (fst q) ;; v <- conv (snd q) ;; Ok (SDef (new_iddef n (snd (fst p)) (Some v) DIR_INTERNAL (fst (fst p))))) (snd p).
(** visitFor_initialization, statementParser.cpp:545-568 *)
Definition conv_for_init (f : forinit) : outcome (list stm) :=
  match f with FI_assign l => mapM conv_var_assign l | FI_decl l => r <- mapM conv_for_decl l ;; Ok (concat r) end.
(** visitFor_step, visitSequence_match_item: statementParser.cpp:570-578, 804-820 *)
Definition conv_for_step (s : forstep) : outcome stm :=
  match s with FS_assign d o x => e <- conv_assignment d o x ;; Ok (SExpr hdr0 e) | FS_expr e => x <- conv e ;; Ok (SExpr hdr0 x) end.
(** visitLoop_variables, statementParser.cpp:580-589: ctx->identifier() are the variables that are there *)
Fixpoint conv_loop_vars (l : list (option ident)) : outcome (list stm) :=
  match l with
  | [] => Ok [] | None :: l' => conv_loop_vars l'
  | Some i :: l' => x <- visit_ident i ;; r <- conv_loop_vars l' ;; Ok (SExpr hdr0 x :: r)
  end.
(** The loop of visitCase_statement over the items, statementParser.cpp:356-370: labels and defaults of
    all items in order; [d] is the default found so far. *)
Fixpoint split_cases (l : list (option expr * stm)) (d : option stm) : outcome (list (expr * stm) * option stm) :=
  match l with
  | [] => Ok ([], d)
  | (Some e, s) :: l' => r <- split_cases l' d ;; Ok ((e, s) :: fst r, snd r)
  | (None, s) :: l' =>
      match d with
      | Some _ => Throw (RuntimeError $"VerStatementParser.visitCase_statement case with multiple default")
      | None => split_cases l' (Some s)
      end
  end.
Definition get_uniq (u : option uniq) : uniq := match u with Some u => u | None => CASE_UNIQ_NONE end.

Section Loops.
Context (f : vstm -> outcome stm).
(** visitCase_item, statementParser.cpp:391-415 *)
Definition conv_citem (c : citem vstm) : outcome (list (option expr * stm)) :=
  match fst c with
  | [] => s <- f (snd c) ;; Ok [(None, s)]
  (* a label that is a null pointer is taken for default *)
  | _ => mapM (fun e => x <- conv e ;; s <- f (snd c) ;; Ok (match x with ENull => None | _ => Some x end, s)) (fst c)
  end.
(** visitStatement_item and the functions it calls, statementParser.cpp:93-869 *)
Definition conv_item (d : str) (i : item vstm) : outcome stm :=
  match i with
  | I_assign_ctl dst c src =>
      a <- conv dst ;; b <- conv src ;; r <- conv_dectl c ;; mk_assign (hdr_doc d) a b (fst r) (snd r) true
  | I_assign_op dst o src => e <- conv_assignment dst o src ;; Ok (SExpr (hdr_doc d) e)
  | I_nonblocking dst c src =>
      a <- conv dst ;; b <- conv src ;;
      match c with
      | Some c => r <- conv_dectl c ;; mk_assign (hdr_doc d) a b (fst r) (snd r) false
      | None => mk_assign (hdr_doc d) a b None None false
      end
  | I_unsupported _ => Ok (SNop (hdr_doc d))
  | I_incdec e | I_primary e => x <- conv e ;; Ok (SExpr (hdr_doc d) x)
  | I_case u k sel l =>
      s <- conv sel ;; cs <- mapM conv_citem l ;; r <- split_cases (concat cs) None ;;
      Ok (SCase (hdr_doc d) (get_uniq u) k s (fst r) (snd r))
  | I_case_inside u sel _ => s <- conv sel ;; Ok (SCase (hdr_doc d) (get_uniq u) CASE s [] None)
  | I_case_matches u k sel _ => s <- conv sel ;; Ok (SCase (hdr_doc d) (get_uniq u) k s [] None)
  | I_if _ c _ t e =>
      x <- conv c ;; a <- f t ;;
      b <- match e with Some e => y <- f e ;; Ok (Some y) | None => Ok None end ;;
      collapse_elifs (SIf (hdr_doc d) x a [] b)
  | I_void e => x <- conv e ;; Ok (SExpr (hdr_doc d) (mk2 (EId $"void") CALL x))
  | I_forever b => s <- f b ;; Ok (SWhile (hdr_doc d) (EInt (-1) (Val 1)) s)
  | I_repeat n b => s <- f b ;; x <- conv n ;; Ok (SRepeat (hdr_doc d) x s)
  | I_while c b => s <- f b ;; x <- conv c ;; Ok (SWhile (hdr_doc d) x s)
  (* ctx->KW_WHILE() is tested before ctx->KW_DO(), statementParser.cpp:467-477 *)
  | I_do b c => s <- f b ;; x <- conv c ;; Ok (SWhile (hdr_doc d) x s)
  | I_for i c st b =>
      s <- f b ;;
      i' <- match i with Some i => conv_for_init i | None => Ok [] end ;;
      c' <- match c with Some c => conv c | None => Ok (EInt (-1) (Val 1)) end ;;
      st' <- mapM conv_for_step st ;;
      Ok (SFor (hdr_doc d) (SBlock hdr0 SEQ i') c' (SBlock hdr0 SEQ st') s)
  | I_foreach coll vars b => s <- f b ;; c <- conv coll ;; v <- conv_loop_vars vars ;; Ok (SForIn (hdr_doc d) v c s)
  | I_return None => Ok (SReturn (hdr_doc d) None)
  | I_return (Some e) => x <- conv e ;; Ok (SReturn (hdr_doc d) (Some x))
  | I_break => Ok (SBreak (hdr_doc d))
  | I_continue => Ok (SContinue (hdr_doc d))
  (* visit_block, statementParser.h:60-84; visitPar_block 633-642 *)
  | I_block j label decls l =>
      r <- mapM f l ;;
      n <- match label with Some i => s <- ident_str i ;; Ok [s] | None => Ok [] end ;;
      Ok (SBlock (mk_hdr n d [] false) j (decls ++ r))
  (* visitProcedural_timing_control_statement, statementParser.cpp:706-741 *)
  | I_timing t b =>
      c <- conv_timing t ;; s <- f b ;;
      match c with
      | (_, Some sens) => Ok (SProcess (hdr_doc d) (Some sens) ALWAYS_NONE s)
      | (Some x, None) =>
          let wait := SWait hdr0 [x] in
          let s := match s with SBlock h j l => SBlock h j (wait :: l) | _ => SBlock hdr0 SEQ [wait; s] end in
          Ok (SProcess (hdr_doc d) None ALWAYS_NONE s)
      | (None, None) => Ok (SProcess (hdr_doc d) None ALWAYS_NONE s)
      end
  end.
End Loops.
(** visitStatement, visitStatement_or_null: statementParser.cpp:248-264, 743-760 *)
Fixpoint conv_stm (s : vstm) : outcome stm :=
  match s with
  | TNull at_ => add_attrs at_ (SNop hdr0)
  | TStm label at_ d i =>
      s <- conv_item conv_stm d i ;;
      let s := match label with
               | Some i => set_hdr (fun h => mk_hdr (ident_text i :: labels h) (doc h) (attrs h) (in_preproc h)) s
               | None => s end in
      add_attrs at_ s
  end.

(** always_construct and initial_construct: visitAlways_construct, statementParser.cpp:60-90;
    visitInitial_construct 785-802 *)
Inductive always_kind := K_always | K_comb | K_ff | K_latch.
Definition conv_always (k : always_kind) (d : str) (s : vstm) : outcome stm :=
  s <- conv_stm s ;;
  let constrain t := match s with SProcess h se _ b => SProcess h se t b | _ => SProcess (hdr_doc d) None t s end in
  match k with
  | K_always => Ok s
  | K_comb => Ok (constrain ALWAYS_COMB) | K_ff => Ok (constrain ALWAYS_FF) | K_latch => Ok (constrain ALWAYS_LATCH)
  end.
Definition conv_initial (s : vstm) : outcome stm :=
  s <- conv_stm s ;;
  let b := match s with SBlock h j l => SBlock h j (l ++ [SWait hdr0 []]) | _ => SBlock hdr0 SEQ [s; SWait hdr0 []] end in
  Ok (SProcess hdr0 None ALWAYS_NONE b).
(** visitContinuous_assign, statementParser.cpp:762-783; strength and delay are dropped *)
Definition conv_cont_assign (l : list (vexpr * vexpr * str)) : outcome (list stm) :=
  mapM (fun p => s <- conv_var_assign p ;; match s with SAssign h d x t e _ => Ok (SAssign h d x t e false) | _ => Ok s end) l.
