(** How the generated Verilog parser groups the tokens of a statement: rules statement_or_null, statement,
    statement_item and below, grammars/sv2017Parser.g4:449-630.  The rules are predictive: ANTLR looks as far
    ahead as it must to choose an alternative, so that a variable_lvalue before an assignment operator and a
    primary before a semicolon are told apart by the token behind them.  Expressions are parsed as in
    SvSyntaxModel.v.
    Simplified: comments and attributes, declarations in blocks and for, foreach, new, case inside, case
    matches, cycle delays, 1step and names of delays with a scope, events with selects or in inner
    parentheses, and the statements that are not converted (I_unsupported) are not modelled. *)
From Verif Require Import Base LitModel AstModel StmModel VhdlLexModel SvExprModel SvStmModel SvSyntaxModel SvLexModel.

(** ** Tokens, sv2017Lexer.g4 *)
Inductive kw :=
| k_begin | k_end | k_fork | k_join | k_join_any | k_join_none | k_if | k_else | k_case | k_casez | k_casex | k_endcase | k_default
| k_unique | k_unique0 | k_priority | k_forever | k_repeat | k_while | k_do | k_for | k_return | k_break | k_continue | k_void
| k_posedge | k_negedge | k_edge | k_or | k_iff | k_always | k_always_comb | k_always_latch | k_always_ff | k_initial.
Inductive stk :=
| X (t : tok)                                 (* a token of an expression *)
| Semi | Asg (o : asgop)                      (* ; = += ... *)
| Inc | Dec | At | Hash | Apos                (* ++ -- @ # ' *)
| Kw (k : kw).

(** ** Expressions in a statement: no other token can be part of them. *)
Fixpoint xsplit (ts : list stk) : list tok * list stk :=
  match ts with X t :: r => let '(a, b) := xsplit r in (t :: a, b) | _ => ([], ts) end.
Definition x_with (p : nat -> list tok -> outcome (vexpr * list tok)) (ts : list stk) : outcome (vexpr * list stk) :=
  let '(xs, rest) := xsplit ts in '(e, r) <- p (4 * length xs + 4) xs ;; Ok (e, map X r ++ rest).
Definition x_expr : list stk -> outcome (vexpr * list stk) := x_with (fun n => p_expr n 0).
Definition x_prim : list stk -> outcome (vexpr * list stk) := x_with p_prim.
(** ( expression ) *)
Definition lp_expr (ts : list stk) : outcome (vexpr * list stk) :=
  match ts with
  | X KLp :: r => '(e, r1) <- x_expr r ;; match r1 with X KRp :: r2 => Ok (e, r2) | _ => no_parse end
  | _ => no_parse
  end.

(** ** variable_lvalue, package_or_class_scoped_hier_id_with_select: sv2017Parser.g4:899-905,1400-1405.
    Every left hand side has the tokens of a primary, so the tree is made of that one. *)
Fixpoint add_sel (dots : list (ident * list vexpr)) (e : vexpr) : list (ident * list vexpr) :=
  match dots with [] => [] | [(i, l)] => [(i, l ++ [e])] | d :: dots' => d :: add_sel dots' e end.
Definition omap_list {A B : Type} (f : A -> option B) : list A -> option (list B) :=
  fix go l := match l with [] => Some [] | x :: l' => match f x, go l' with Some y, Some r => Some (y :: r) | _, _ => None end end.
Fixpoint lval_of (e : vexpr) : option vexpr :=
  match e with
  | VPath p => Some (VLvHier p [] [] None)
  | VBitSelect p e =>
      match lval_of p with
      | Some (VLvHier q sel [] None) => Some (VLvHier q (sel ++ [e]) [] None)
      | Some (VLvHier q sel dots None) => Some (VLvHier q sel (add_sel dots e) None)
      | _ => None
      end
  | VDot p i => match lval_of p with Some (VLvHier q sel dots None) => Some (VLvHier q sel (dots ++ [(i, [])]) None) | _ => None end
  | VRange p k a b => match lval_of p with Some (VLvHier q sel dots None) => Some (VLvHier q sel dots (Some (k, a, b))) | _ => None end
  | VConcat l => match omap_list lval_of l with Some r => Some (VLvConcat r) | None => None end
  | _ => None
  end.

(** ** Timing: sv2017Parser.g4:499-537,928-932 *)
Definition p_edge (ts : list stk) : option edge * list stk :=
  match ts with
  | Kw k_posedge :: r => (Some E_posedge, r) | Kw k_negedge :: r => (Some E_negedge, r) | Kw k_edge :: r => (Some E_edge, r)
  | _ => (None, ts)
  end.
Definition starts_lp (ts : list stk) : bool := match ts with X KLp :: _ => true | _ => false end.
Definition p_event (ts : list stk) : outcome (evexpr * list stk) :=
  if starts_lp ts then no_parse
  else
    let '(ed, r) := p_edge ts in
    '(e, r1) <- x_expr r ;;
    match r1 with
    | Kw k_iff :: r2 => '(c, r3) <- x_expr r2 ;; Ok (EvItem ed e (Some c), r3)
    | _ => Ok (EvItem ed e None, r1)
    end.
Fixpoint p_events (fuel : nat) (ts : list stk) : outcome (list evexpr * list stk) :=
  match fuel with
  | 0 => OutOfFuel
  | S f =>
      '(i, r) <- p_event ts ;;
      match r with
      | Kw k_or :: r1 | X KComma :: r1 => '(l, r2) <- p_events f r1 ;; Ok (i :: l, r2)
      | _ => Ok ([i], r)
      end
  end.
(** behind @ *)
Definition p_evctl (ts : list stk) : outcome (evctl * list stk) :=
  match ts with
  | X KLp :: X (KOp S_MUL) :: X KRp :: r => Ok (EC_star, r)
  | X KLp :: r => '(l, r1) <- p_events (S (length r)) r ;; match r1 with X KRp :: r2 => Ok (EC_expr l, r2) | _ => no_parse end
  | X (KOp S_MUL) :: r => Ok (EC_star, r)
  | X (KId s) :: r =>
      let '(xs, rest) := xsplit r in let '(l, r') := more_items xs in Ok (EC_path (VLvHier (VPathOf false H_none ((IdPlain s, None) :: l)) [] [] None), map X r' ++ rest)
  | X (KEscId s) :: r =>
      let '(xs, rest) := xsplit r in let '(l, r') := more_items xs in Ok (EC_path (VLvHier (VPathOf false H_none ((IdEsc s, None) :: l)) [] [] None), map X r' ++ rest)
  | _ => no_parse
  end.
(** behind # *)
Definition p_delay (ts : list stk) : outcome (delay * list stk) :=
  match ts with
  | X (KUnsigned s) :: r => Ok (DV_number s, r)
  | X (KTime s) :: r => Ok (DV_time s, r)
  | X (KReal s) :: r => Ok (DV_real s, r)
  | X (KId s) :: r => Ok (DV_path (VPath (VPathOf false H_none [(IdPlain s, None)])), r)
  | X (KEscId s) :: r => Ok (DV_path (VPath (VPathOf false H_none [(IdEsc s, None)])), r)
  | X KLp :: r =>
      '(e, r1) <- x_expr r ;;
      match r1 with
      | X KRp :: r2 => Ok (DV_paren e None, r2)
      | X KColon :: r2 =>
          '(t, r3) <- x_expr r2 ;;
          match r3 with
          | X KColon :: r4 => '(m, r5) <- x_expr r4 ;; match r5 with X KRp :: r6 => Ok (DV_paren e (Some (t, m)), r6) | _ => no_parse end
          | _ => no_parse
          end
      | _ => no_parse
      end
  | _ => no_parse
  end.
(** delay_or_event_control; no control is there if the next token does not begin one *)
Definition p_dectl (ts : list stk) : outcome (option dectl * list stk) :=
  match ts with
  | Hash :: r => '(d, r1) <- p_delay r ;; Ok (Some (DE_delay d), r1)
  | At :: r => '(c, r1) <- p_evctl r ;; Ok (Some (DE_event None c), r1)
  | Kw k_repeat :: r => '(n, r1) <- lp_expr r ;; match r1 with At :: r2 => '(c, r3) <- p_evctl r2 ;; Ok (Some (DE_event (Some n) c), r3) | _ => no_parse end
  | _ => Ok (None, ts)
  end.

(** ** Assignments, increments and calls: sv2017Parser.g4:461-469,493-497,538,974,1289-1292 *)
Definition p_semi {A : Type} (x : A) (ts : list stk) : outcome (A * list stk) := match ts with Semi :: r => Ok (x, r) | _ => no_parse end.
Definition p_prefix (incr : bool) (ts : list stk) : outcome (vexpr * list stk) :=
  '(p, r) <- x_prim ts ;; match lval_of p with Some l => Ok (VIncDec true incr l, r) | None => no_parse end.
(** The token behind a primary at the start of a statement. *)
Inductive behind := Bh_semi | Bh_assign | Bh_op (o : asgop) | Bh_le | Bh_inc | Bh_dec | Bh_none.
Definition behind_of (ts : list stk) : behind * list stk :=
  match ts with
  | [] => (Bh_none, [])
  | t :: r =>
      (match t with
       | Semi => Bh_semi | Asg A_ASSIGN => Bh_assign | Asg o => Bh_op o | Inc => Bh_inc | Dec => Bh_dec
       | X (KOp o) => match o with S_LE => Bh_le | _ => Bh_none end
       | _ => Bh_none
       end, r)
  end.
Definition p_simple (ts : list stk) : outcome (item vstm * list stk) :=
  match ts with
  | Inc :: r => '(e, r1) <- p_prefix true r ;; p_semi (I_incdec e) r1
  | Dec :: r => '(e, r1) <- p_prefix false r ;; p_semi (I_incdec e) r1
  | _ =>
      '(p, r) <- x_prim ts ;;
      let '(b, r1) := behind_of r in
      match b, lval_of p with
      | Bh_semi, _ => Ok (I_primary p, r1)
      | _, None | Bh_none, _ => no_parse
      | Bh_assign, Some d =>
          '(c, r2) <- p_dectl r1 ;; '(e, r3) <- x_expr r2 ;;
          p_semi (match c with Some c => I_assign_ctl d c e | None => I_assign_op d A_ASSIGN e end) r3
      | Bh_op o, Some d => '(e, r2) <- x_expr r1 ;; p_semi (I_assign_op d o e) r2
      | Bh_le, Some d => '(c, r2) <- p_dectl r1 ;; '(e, r3) <- x_expr r2 ;; p_semi (I_nonblocking d c e) r3
      | Bh_inc, Some d => p_semi (I_incdec (VIncDec false true d)) r1
      | Bh_dec, Some d => p_semi (I_incdec (VIncDec false false d)) r1
      end
  end.

(** ** The head of a for loop: sv2017Parser.g4:604-629,970-974 *)
Fixpoint p_inits (fuel : nat) (ts : list stk) : outcome (list (vexpr * vexpr * str) * list stk) :=
  match fuel with
  | 0 => OutOfFuel
  | S f =>
      '(p, r) <- x_prim ts ;;
      match lval_of p, r with
      | Some d, Asg A_ASSIGN :: r1 =>
          '(e, r2) <- x_expr r1 ;;
          match r2 with
          | X KComma :: r3 => '(l, r4) <- p_inits f r3 ;; Ok ((d, e, []) :: l, r4)
          | Semi :: r3 => Ok ([(d, e, [])], r3)
          | _ => no_parse
          end
      | _, _ => no_parse
      end
  end.
Definition p_init (ts : list stk) : outcome (option forinit * list stk) :=
  match ts with Semi :: r => Ok (None, r) | _ => '(l, r) <- p_inits (S (length ts)) ts ;; Ok (Some (FI_assign l), r) end.
Definition p_cond (ts : list stk) : outcome (option vexpr * list stk) :=
  match ts with Semi :: r => Ok (None, r) | _ => '(e, r) <- x_expr ts ;; p_semi (Some e) r end.
Definition p_step (ts : list stk) : outcome (forstep * list stk) :=
  match ts with
  | Inc :: r => '(e, r1) <- p_prefix true r ;; Ok (FS_expr e, r1)
  | Dec :: r => '(e, r1) <- p_prefix false r ;; Ok (FS_expr e, r1)
  | _ =>
      '(e, r) <- x_expr ts ;;
      match r, lval_of e with
      | Asg o :: r1, Some d => '(s, r2) <- x_expr r1 ;; Ok (FS_assign d o s, r2)
      | Inc :: r1, Some d => Ok (FS_expr (VIncDec false true d), r1)
      | Dec :: r1, Some d => Ok (FS_expr (VIncDec false false d), r1)
      | _, _ => Ok (FS_expr e, r)
      end
  end.
Fixpoint p_steps (fuel : nat) (ts : list stk) : outcome (list forstep * list stk) :=
  match fuel with
  | 0 => OutOfFuel
  | S f =>
      '(s, r) <- p_step ts ;;
      match r with
      | X KComma :: r1 => '(l, r2) <- p_steps f r1 ;; Ok (s :: l, r2)
      | X KRp :: r1 => Ok ([s], r1)
      | _ => no_parse
      end
  end.
Definition p_steps_opt (ts : list stk) : outcome (list forstep * list stk) :=
  match ts with X KRp :: r => Ok ([], r) | _ => p_steps (S (length ts)) ts end.

(** ** Names of blocks: ( COLON identifier | {_input->LA(1) != COLON}? ) *)
Definition p_name (ts : list stk) : outcome (option ident * list stk) :=
  match ts with
  | X KColon :: X (KId s) :: r => Ok (Some (IdPlain s), r)
  | X KColon :: X (KEscId s) :: r => Ok (Some (IdEsc s), r)
  | X KColon :: _ => no_parse
  | _ => Ok (None, ts)
  end.
Definition join_of (k : kw) : option join_type :=
  match k with k_join => Some PAR_JOIN | k_join_any => Some PAR_JOIN_ANY | k_join_none => Some PAR_JOIN_NONE | _ => None end.
(** expression ( COMMA expression )* COLON of case_item, sv2017Parser.g4:573-576 *)
Fixpoint p_labels (fuel : nat) (ts : list stk) : outcome (list vexpr * list stk) :=
  match fuel with
  | 0 => OutOfFuel
  | S f =>
      '(e, r) <- x_expr ts ;;
      match r with
      | X KComma :: r1 => '(l, r2) <- p_labels f r1 ;; Ok (e :: l, r2)
      | X KColon :: r1 => Ok ([e], r1)
      | _ => no_parse
      end
  end.
Definition skip_colon (ts : list stk) : list stk := match ts with X KColon :: r => r | _ => ts end.
Definition ends_list (ts : list stk) : bool :=
  match ts with [] => true | Kw (k_end | k_join | k_join_any | k_join_none) :: _ => true | _ => false end.

(** ** Statements *)
(** statement_or_null, statement: sv2017Parser.g4:449-452,460 *)
Fixpoint p_stm (fuel : nat) (ts : list stk) : outcome (vstm * list stk) :=
  match fuel with
  | 0 => OutOfFuel
  | S f =>
      match ts with
      | Semi :: r => Ok (TNull [], r)
      | X (KId s) :: X KColon :: r => '(i, r1) <- p_item f r ;; Ok (TStm (Some (IdPlain s)) [] [] i, r1)
      | X (KEscId s) :: X KColon :: r => '(i, r1) <- p_item f r ;; Ok (TStm (Some (IdEsc s)) [] [] i, r1)
      | _ => '(i, r1) <- p_item f ts ;; Ok (TStm None [] [] i, r1)
      end
  end
(** statement_item, seq_block, par_block, loop_statement, jump_statement,
    procedural_timing_control_statement, subroutine_call_statement: sv2017Parser.g4:461-484,498-504,551-558,593-617,628-633 *)
with p_item (fuel : nat) (ts : list stk) : outcome (item vstm * list stk) :=
  match fuel with
  | 0 => OutOfFuel
  | S f =>
      match ts with
      | Kw k_begin :: r =>
          '(n, r1) <- p_name r ;; '(l, r2) <- p_stms f r1 ;;
          match r2 with Kw k_end :: r3 => '(_, r4) <- p_name r3 ;; Ok (I_block SEQ n [] l, r4) | _ => no_parse end
      | Kw k_fork :: r =>
          '(n, r1) <- p_name r ;; '(l, r2) <- p_stms f r1 ;;
          match r2 with
          | Kw k :: r3 => match join_of k with Some j => '(_, r4) <- p_name r3 ;; Ok (I_block j n [] l, r4) | None => no_parse end
          | _ => no_parse
          end
      | Kw k_unique :: r => p_choice f (Some CASE_UNIQ_UNIQUE) r
      | Kw k_unique0 :: r => p_choice f (Some CASE_UNIQ_UNIQUE0) r
      | Kw k_priority :: r => p_choice f (Some CASE_UNIQ_PRIORITY) r
      | Kw (k_if | k_case | k_casez | k_casex) :: _ => p_choice f None ts
      | Kw k_forever :: r => '(b, r1) <- p_stm f r ;; Ok (I_forever b, r1)
      | Kw k_repeat :: r => '(e, r1) <- lp_expr r ;; '(b, r2) <- p_stm f r1 ;; Ok (I_repeat e b, r2)
      | Kw k_while :: r => '(e, r1) <- lp_expr r ;; '(b, r2) <- p_stm f r1 ;; Ok (I_while e b, r2)
      | Kw k_do :: r =>
          '(b, r1) <- p_stm f r ;;
          match r1 with Kw k_while :: r2 => '(e, r3) <- lp_expr r2 ;; p_semi (I_do b e) r3 | _ => no_parse end
      | Kw k_for :: X KLp :: r =>
          '(i, r1) <- p_init r ;; '(c, r2) <- p_cond r1 ;; '(st, r3) <- p_steps_opt r2 ;; '(b, r4) <- p_stm f r3 ;; Ok (I_for i c st b, r4)
      | Kw k_return :: Semi :: r => Ok (I_return None, r)
      | Kw k_return :: r => '(e, r1) <- x_expr r ;; p_semi (I_return (Some e)) r1
      | Kw k_break :: r => p_semi I_break r
      | Kw k_continue :: r => p_semi I_continue r
      | Kw k_void :: Apos :: r => '(e, r1) <- lp_expr r ;; p_semi (I_void e) r1
      | Hash :: r => '(d, r1) <- p_delay r ;; '(b, r2) <- p_stm f r1 ;; Ok (I_timing (T_delay d) b, r2)
      | At :: r => '(c, r1) <- p_evctl r ;; '(b, r2) <- p_stm f r1 ;; Ok (I_timing (T_event c) b, r2)
      | Kw _ :: _ => no_parse
      | _ => p_simple ts
      end
  end
(** conditional_statement, case_statement behind unique_priority: sv2017Parser.g4:560-572,590-592; an else
    belongs to the if that is being read *)
with p_choice (fuel : nat) (u : option uniq) (ts : list stk) : outcome (item vstm * list stk) :=
  match fuel with
  | 0 => OutOfFuel
  | S f =>
      match ts with
      | Kw k_if :: r =>
          '(c, r1) <- lp_expr r ;; '(t, r2) <- p_stm f r1 ;;
          match r2 with
          | Kw k_else :: r3 => '(e, r4) <- p_stm f r3 ;; Ok (I_if u c [] t (Some e), r4)
          | _ => Ok (I_if u c [] t None, r2)
          end
      | Kw k_case :: r => '(e, r1) <- lp_expr r ;; '(l, r2) <- p_citems f r1 ;; match l with [] => no_parse | _ => Ok (I_case u CASE e l, r2) end
      | Kw k_casez :: r => '(e, r1) <- lp_expr r ;; '(l, r2) <- p_citems f r1 ;; match l with [] => no_parse | _ => Ok (I_case u CASEZ e l, r2) end
      | Kw k_casex :: r => '(e, r1) <- lp_expr r ;; '(l, r2) <- p_citems f r1 ;; match l with [] => no_parse | _ => Ok (I_case u CASEX e l, r2) end
      | _ => no_parse
      end
  end
(** ( statement_or_null )* before end or join *)
with p_stms (fuel : nat) (ts : list stk) : outcome (list vstm * list stk) :=
  match fuel with
  | 0 => OutOfFuel
  | S f => if ends_list ts then Ok ([], ts) else '(s, r) <- p_stm f ts ;; '(l, r1) <- p_stms f r ;; Ok (s :: l, r1)
  end
(** case_item* KW_ENDCASE *)
with p_citems (fuel : nat) (ts : list stk) : outcome (list (citem vstm) * list stk) :=
  match fuel with
  | 0 => OutOfFuel
  | S f =>
      match ts with
      | Kw k_endcase :: r => Ok ([], r)
      | Kw k_default :: r => '(s, r1) <- p_stm f (skip_colon r) ;; '(l, r2) <- p_citems f r1 ;; Ok (([], s) :: l, r2)
      | _ => '(es, r) <- p_labels (S (length ts)) ts ;; '(s, r1) <- p_stm f r ;; '(l, r2) <- p_citems f r1 ;; Ok ((es, s) :: l, r2)
      end
  end.
Definition stm_fuel (ts : list stk) : nat := 4 * length ts + 5.
(** A whole statement. *)
Definition parse_statement (ts : list stk) : outcome vstm :=
  '(s, r) <- p_stm (stm_fuel ts) ts ;; match r with [] => Ok s | _ => no_parse end.
(** always_construct, initial_construct: sv2017Parser.g4:171-176,453,1867-1868; after always a statement is
    wanted, not a semicolon *)
Inductive process := P_always (k : always_kind) (s : vstm) | P_initial (s : vstm).
Definition parse_process (ts : list stk) : outcome process :=
  let always k r := s <- parse_statement r ;; match s with TNull _ => no_parse | _ => Ok (P_always k s) end in
  match ts with
  | Kw k_always :: r => always K_always r | Kw k_always_comb :: r => always K_comb r
  | Kw k_always_latch :: r => always K_latch r | Kw k_always_ff :: r => always K_ff r
  | Kw k_initial :: r => s <- parse_statement r ;; Ok (P_initial s)
  | _ => no_parse
  end.
Definition conv_process (p : process) : outcome stm := match p with P_always k s => conv_always k [] s | P_initial s => conv_initial s end.

(** ** From text: the tokens of the lexer (SvLexModel.v) *)
Definition kw_table : list (str * kw) :=
  [($"begin", k_begin); ($"end", k_end); ($"fork", k_fork); ($"join", k_join); ($"join_any", k_join_any); ($"join_none", k_join_none); ($"if", k_if); ($"else", k_else);
   ($"case", k_case); ($"casez", k_casez); ($"casex", k_casex); ($"endcase", k_endcase); ($"default", k_default); ($"unique", k_unique); ($"unique0", k_unique0);
   ($"priority", k_priority); ($"forever", k_forever); ($"repeat", k_repeat); ($"while", k_while); ($"do", k_do); ($"for", k_for); ($"return", k_return); ($"break", k_break);
   ($"continue", k_continue); ($"void", k_void); ($"posedge", k_posedge); ($"negedge", k_negedge); ($"edge", k_edge); ($"or", k_or); ($"iff", k_iff); ($"always", k_always);
   ($"always_comb", k_always_comb); ($"always_latch", k_always_latch); ($"always_ff", k_always_ff); ($"initial", k_initial)].
Definition sign_table : list (str * stk) :=
  [($";", Semi); ($"=", Asg A_ASSIGN); ($"+=", Asg A_PLUS); ($"-=", Asg A_MINUS); ($"*=", Asg A_MUL); ($"/=", Asg A_DIV); ($"%=", Asg A_MOD); ($"&=", Asg A_AND); ($"|=", Asg A_OR);
   ($"^=", Asg A_XOR); ($"<<=", Asg A_SHL); ($">>=", Asg A_SHR); ($"<<<=", Asg A_ASHL); ($">>>=", Asg A_ASHR); ($"++", Inc); ($"--", Dec); ($"@", At); ($"#", Hash); ($"'", Apos)].
Definition stmtok_of (t : skind * str) : option stk :=
  let x := match stok_of t with Some e => Some (X e) | None => None end in
  match fst t with
  | S_KW k => match assoc_str k kw_table with Some w => Some (Kw w) | None => x end
  | S_SIGN d => match assoc_str d sign_table with Some w => Some w | None => x end
  | _ => x
  end.
Fixpoint stmtoks_of (l : list (skind * str)) : option (list stk) :=
  match l with
  | [] => Some []
  | t :: l' => match stmtok_of t, stmtoks_of l' with Some x, Some r => Some (x :: r) | _, _ => None end
  end.
(** The AST of the text of a statement or a process. *)
Definition convert_statement_text (v : lang) (s : str) : outcome stm :=
  l <- sv_lex v s ;; match stmtoks_of l with Some ts => t <- parse_statement ts ;; conv_stm t | None => no_parse end.
Definition convert_process_text (v : lang) (s : str) : outcome stm :=
  l <- sv_lex v s ;; match stmtoks_of l with Some ts => p <- parse_process ts ;; conv_process p | None => no_parse end.
