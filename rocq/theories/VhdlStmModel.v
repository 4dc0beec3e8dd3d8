(** Model of the conversion of VHDL statements: src/vhdlConvertor/statementParser.cpp, processParser.cpp
    and the waveforms of exprParser.cpp.  The input is the parse tree.  Positions are not modelled. *)
From Verif Require Import Base AstModel StmModel LitModel SvExprModel SvStmModel VhdlExprModel.

(** waveform_element, waveform: vhdlParser.g4:768-776.  The alternative NULL of waveform_element is never
    taken, as null is an expression. *)
Definition wave_elem : Type := hexpr * option hexpr.                                (* value, after *)
Inductive wave := W_elems (first : wave_elem) (rest : list wave_elem) | W_unaffected.
(** conditional_waveforms, vhdlParser.g4:785-789 *)
Inductive condwave := CW (first : wave * hexpr) (rest : list (wave * hexpr)) (else_ : option wave).
(** selected_waveforms, vhdlParser.g4:798-801; choices are not empty *)
Definition selwave : Type := wave * list (hchoice hexpr).
(** sequential_statement, vhdlParser.g4:712-728.  end_ is the label after end if / case / loop. *)
Inductive hitem (S : Type) :=
| J_wait (on : list hexpr) (until : option hexpr) (for_ : option hexpr)
| J_assert (c : hexpr) (report severity : option hexpr)
| J_report (e : hexpr) (severity : option hexpr)
| J_signal (t : hexpr) (delay : option str) (w : wave)                              (* transport, inertial, reject *)
| J_force (t : hexpr) (mode : option str) (e : hexpr)
| J_release (t : hexpr) (mode : option str)
| J_signal_cond (t : hexpr) (delay : option str) (w : condwave)
| J_force_cond (t : hexpr) (mode : option str) (l : list (hexpr * hexpr))
| J_signal_select (sel t : hexpr) (l : list selwave)
| J_variable (t e : hexpr)
| J_variable_cond (t : hexpr) (l : list (hexpr * hexpr)) (else_ : option hexpr)
| J_variable_select (sel t : hexpr) (l : list (hexpr * list (hchoice hexpr)))
| J_call (n : hexpr)
| J_if (c : hexpr) (b : list S) (elifs : list (hexpr * list S)) (else_ : option (list S)) (end_ : option str)
| J_case (matching : bool) (sel : hexpr) (l : list (list (hchoice hexpr) * list S)) (end_ : option str)
| J_while (c : hexpr) (b : list S) (end_ : option str)
| J_for (i : str) (r : hrange hexpr) (b : list S) (end_ : option str)
| J_loop (b : list S) (end_ : option str)
| J_next (l : option str) (c : option hexpr)
| J_exit (l : option str) (c : option hexpr)
| J_return (e : option hexpr)
| J_null.
Arguments J_wait {S}. Arguments J_assert {S}. Arguments J_report {S}. Arguments J_signal {S}. Arguments J_force {S}. Arguments J_release {S}.
Arguments J_signal_cond {S}. Arguments J_force_cond {S}. Arguments J_signal_select {S}. Arguments J_variable {S}. Arguments J_variable_cond {S}.
Arguments J_variable_select {S}. Arguments J_call {S}. Arguments J_if {S}. Arguments J_case {S}. Arguments J_while {S}. Arguments J_for {S}. Arguments J_loop {S}.
Arguments J_next {S}. Arguments J_exit {S}. Arguments J_return {S}. Arguments J_null {S}.
Inductive hstm := HS (label : option str) (i : hitem hstm).

(** visitWaveform_element, exprParser.cpp:456-473 *)
Definition conv_welem (p : wave_elem) : outcome expr := hconv (fst p).
(** visitWaveform, exprParser.cpp:394-417 *)
Definition conv_wave (w : wave) : outcome expr :=
  match w with
  | W_unaffected => Ok ENotImpl
  | W_elems p l => x <- conv_welem p ;; r <- mapM conv_welem l ;; Ok (fold_left (fun top e => op2 DOT top e) r x)
  end.
(** visitConditional_waveforms, exprParser.cpp:427-454: from the last waveform to the first *)
Fixpoint conv_condwaves (l : list (wave * hexpr)) (e : option wave) : outcome (option expr) :=
  match l with
  | [] => match e with Some w => x <- conv_wave w ;; Ok (Some x) | None => Ok None end
  | (w, c) :: l' => r <- conv_condwaves l' e ;; x <- conv_wave w ;; y <- hconv c ;; Ok (Some (ternary y x r))
  end.
Definition conv_condwave (c : condwave) : outcome expr :=
  match c with CW p l e => r <- conv_condwaves (p :: l) e ;; Ok (match r with Some x => x | None => ENull end) end.
(** is_others, statementParser.cpp:25-28 *)
Definition is_others (e : expr) : bool := match e with ESym symb_OTHERS => true | _ => false end.
(** HdlOp::call, hdlOp.cpp:40-51 *)
Definition call_stm (h : hdr) (f : string) (l : list expr) : stm := SExpr h (call_op CALL (EId $f) l).
Definition opt_conv (o : option hexpr) : outcome (list expr) := match o with Some e => x <- hconv e ;; Ok [x] | None => Ok [] end.
(** visitNextOrExit, statementParser.cpp:44-66 *)
Definition conv_jump (f : string) (l : option str) (c : option hexpr) : outcome stm :=
  r <- opt_conv c ;; Ok (call_stm hdr0 f ((match l with Some s => EId s | None => ESym symb_NULL end) :: r)).
Definition end_hdr (e : option str) : hdr := mk_hdr (match e with Some l => [l] | None => [] end) [] [] false.
(** visitSelected_waveforms, statementParser.cpp:650-687: the first assignment takes the target, later
    ones copy it; until an alternative other than others was seen the target is moved, not copied.
    [first]: cases.size() = 0; [dst]: ENull after it was moved away. *)
Fixpoint conv_selwaves (l : list (expr * expr)) (t : expr) (moved : bool) (cases : list (expr * stm)) (d : option stm) (blocking : bool) : outcome (list (expr * stm) * option stm) :=
  match l with
  | [] => Ok (cases, d)
  | (c, w) :: l' =>
      let dst := match cases with [] => if moved then ENull else t | _ => t end in
      a <- mk_assign hdr0 dst w None None blocking ;;
      if is_others c then conv_selwaves l' t true cases (Some a) blocking else conv_selwaves l' t true (cases ++ [(c, a)]) d blocking
  end.
Definition conv_select (sel t : expr) (l : list selwave) (blocking : bool) : outcome stm :=
  r <- mapM (fun p : selwave => cs <- mapM (conv_choice hconv) (snd p) ;; ws <- mapM (fun _ => conv_wave (fst p)) (snd p) ;; Ok (combine cs ws)) l ;;
  q <- conv_selwaves (concat r) t false [] None blocking ;;
  Ok (SCase hdr0 CASE_UNIQ_NONE CASE sel (fst q) (snd q)).

(** The alternatives of visitCase_statement, statementParser.cpp:289-306: a body for every choice. *)
Fixpoint split_choices (l : list (expr * stm)) (d : option stm) : outcome (list (expr * stm) * option stm) :=
  match l with
  | [] => Ok ([], d)
  | (c, s) :: l' =>
      if is_others c then
        match d with Some _ => UB "assert(_default == nullptr)" | None => split_choices l' (Some s) end
      else r <- split_choices l' d ;; Ok ((c, s) :: fst r, snd r)
  end.

Section Loops.
Context (f : hstm -> outcome stm).
(** visitSequence_of_statements, statementParser.cpp:30-42 *)
Definition conv_seq (l : list hstm) : outcome stm :=
  r <- mapM (fun s => o <- f s ;; match o with SNull => UB "assert(st)" | _ => Ok o end) l ;; Ok (SBlock hdr0 SEQ r).
Definition conv_alt (p : list (hchoice hexpr) * list hstm) : outcome (list (expr * stm)) :=
  cs <- mapM (conv_choice hconv) (fst p) ;; bs <- mapM (fun _ => conv_seq (snd p)) (fst p) ;; Ok (combine cs bs).
(** visitSequential_statement and the functions it calls, statementParser.cpp:68-648 *)
Definition conv_hitem (i : hitem hstm) : outcome stm :=
  match i with
  | J_wait on until for_ =>
      s <- mapM hconv on ;;
      c <- match until with Some e => x <- hconv e ;; Ok [op1 NEG x] | None => Ok [] end ;;
      t <- opt_conv for_ ;; Ok (SWait hdr0 (s ++ c ++ t))
  | J_assert c r s => x <- hconv c ;; a <- opt_conv r ;; b <- opt_conv s ;; Ok (call_stm hdr0 "assert" (x :: a ++ b))
  | J_report e s => x <- hconv e ;; b <- opt_conv s ;; Ok (call_stm hdr0 "report" (x :: b))
  | J_signal t _ w => d <- hconv t ;; s <- conv_wave w ;; mk_assign hdr0 d s None None false
  | J_force t _ e => d <- hconv t ;; s <- hconv e ;; mk_assign hdr0 d s None None false
  | J_release t _ => d <- hconv t ;; mk_assign hdr0 d ENotImpl None None false
  | J_signal_cond t _ w => d <- hconv t ;; s <- conv_condwave w ;; mk_assign hdr0 d s None None false
  | J_force_cond t _ _ => d <- hconv t ;; mk_assign hdr0 d ENotImpl None None false
  | J_signal_select _ _ _ => Ok SNull
  | J_variable t e => d <- hconv t ;; s <- hconv e ;; mk_assign hdr0 d s None None true
  | J_variable_cond t _ _ => d <- hconv t ;; mk_assign hdr0 d ENotImpl None None true
  (* the target is visitExpression(ctx->expression()), the selector *)
  | J_variable_select sel _ _ => d <- hconv sel ;; mk_assign hdr0 d ENotImpl None None true
  | J_call n => x <- conv_procedure_call n ;; Ok (SExpr hdr0 x)
  | J_if c b l e end_ =>
      x <- hconv c ;; t <- conv_seq b ;;
      r <- mapM (fun p => y <- hconv (fst p) ;; s <- conv_seq (snd p) ;; Ok (y, s)) l ;;
      o <- match e with Some b => s <- conv_seq b ;; Ok (Some s) | None => Ok None end ;;
      Ok (SIf (end_hdr end_) x t r o)
  | J_case _ sel l end_ =>
      x <- hconv sel ;; r <- mapM conv_alt l ;; q <- split_choices (concat r) None ;;
      Ok (SCase (end_hdr end_) CASE_UNIQ_NONE CASE x (fst q) (snd q))
  | J_while c b end_ => x <- hconv c ;; s <- conv_seq b ;; Ok (SWhile (end_hdr end_) x s)
  | J_for i r b end_ => x <- conv_range hconv r ;; s <- conv_seq b ;; Ok (SForIn (end_hdr end_) [SExpr hdr0 (EId i)] x s)
  | J_loop b end_ => s <- conv_seq b ;; Ok (SWhile (end_hdr end_) (EId $"True") s)
  | J_next l c => conv_jump "NEXT" l c
  | J_exit l c => conv_jump "EXIT" l c
  | J_return None => Ok (SReturn hdr0 None)
  | J_return (Some e) => x <- hconv e ;; Ok (SReturn hdr0 (Some x))
  | J_null => Ok (SNop hdr0)
  end.
End Loops.
Definition push_label (l : str) (h : hdr) : hdr := mk_hdr (l :: labels h) (doc h) (attrs h) (in_preproc h).
Fixpoint conv_hstm (s : hstm) : outcome stm :=
  match s with
  | HS label i =>
      o <- conv_hitem conv_hstm i ;;
      match label with
      | Some l => match o with SNull => UB "stm->labels of a null pointer" | _ => Ok (set_hdr (push_label l) o) end
      | None => Ok o
      end
  end.

(** process_statement, visitProcess_statement: processParser.cpp:23-50.  The declarations are given as
    the objects made of them. *)
Inductive hsens := HSens_none | HSens_all | HSens (l : list hexpr).
Definition conv_process (sens : hsens) (decls : list stm) (l : list hstm) : outcome stm :=
  se <- match sens with
        | HSens_none => Ok None | HSens_all => Ok (Some [ESym symb_ALL])
        | HSens l => r <- mapM hconv l ;; Ok (Some r)
        end ;;
  b <- mapM conv_hstm l ;; Ok (SProcess hdr0 se ALWAYS_NONE (SBlock hdr0 SEQ (decls ++ b))).
(** concurrent_signal_assignment_any and concurrent_selected_signal_assignment:
    visitConcurrent_signal_assignment_statement, statementParser.cpp:721-768, 688-719.
    guarded and the delay mechanism are dropped. *)
Inductive hconc :=
| CC_wave (t : hexpr) (w : wave)
| CC_cond (t : hexpr) (w : condwave)
| CC_select (matching : bool) (sel t : hexpr) (l : list selwave).
Definition conv_conc (c : hconc) : outcome stm :=
  match c with
  | CC_wave t w => d <- hconv t ;; s <- conv_wave w ;; mk_assign hdr0 d s None None false
  | CC_cond t w => d <- hconv t ;; s <- conv_condwave w ;; mk_assign hdr0 d s None None false
  | CC_select _ sel t l => x <- hconv sel ;; d <- hconv t ;; conv_select x d l false
  end.
