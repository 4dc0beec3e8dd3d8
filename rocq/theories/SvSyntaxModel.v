(** How the generated Verilog parser groups the tokens of an expression: rules expression, primary,
    concatenation, bit_select, array_range_expression, list_of_arguments and mintypmax_expression of
    grammars/sv2017Parser.g4.  ANTLR turns the left recursive rule expression into an operator
    precedence parser: alternative i of n gets the precedence n - i + 1; the loop takes an operator
    only if its precedence is at least the one of the call; the right operand is parsed one higher,
    or equally high for alternatives marked <assoc=right>; an operand that is not the last element of
    its alternative is parsed with precedence 0.
    Simplified: attribute instances, inside, matches, tagged, assignments in parentheses, ++, casts,
    system functions, patterns, parameters of classes and named arguments are not modelled. *)
From Verif Require Import Base LitModel AstModel SvExprModel.

(** Operator symbols, sv2017Lexer.g4:473-545. *)
Inductive sym :=
| S_PLUS | S_MINUS | S_NOT | S_NEG | S_AMPERSAND | S_NAND | S_BAR | S_NOR | S_XOR | S_NXOR | S_XORN
| S_DOUBLESTAR | S_MUL | S_DIV | S_MOD | S_SHIFT_LEFT | S_SHIFT_RIGHT | S_ARITH_SHIFT_LEFT | S_ARITH_SHIFT_RIGHT
| S_LT | S_LE | S_GT | S_GE | S_EQ | S_NE | S_CASE_EQ | S_CASE_NE | S_WILDCARD_EQ | S_WILDCARD_NE
| S_AND_LOG | S_OR_LOG | S_ARROW | S_BI_DIR_ARROW.
(** Tokens, sv2017Lexer.g4. *)
Inductive tok :=
| KId (s : str) | KEscId (s : str)
| KUnsigned (s : str) | KBased (s : str) | KSized (s : str) | KReal (s : str) | KString (s : str) | KUnbased (s : str) | KTime (s : str)
| KNull | KDolar
| KOp (o : sym)
| KAnd3                                       (* &&& *)
| KLp | KRp | KLs | KRs | KLb | KRb | KComma | KQuest | KColon | KColon2 | KDot.

(** rule unary_operator, sv2017Parser.g4:94-108 *)
Definition un_of (o : sym) : option unop :=
  match o with
  | S_PLUS => Some U_PLUS | S_MINUS => Some U_MINUS | S_NOT => Some U_NOT | S_NEG => Some U_NEG | S_AMPERSAND => Some U_AMPERSAND
  | S_NAND => Some U_NAND | S_BAR => Some U_BAR | S_NOR => Some U_NOR | S_XOR => Some U_XOR | S_NXOR => Some U_NXOR | S_XORN => Some U_XORN
  | _ => None
  end.
(** The operators of alternatives 6-17 and 20 of rule expression, sv2017Parser.g4:305-342,1299-1313. *)
Definition bin_of (o : sym) : option binop :=
  match o with
  | S_DOUBLESTAR => Some B_DOUBLESTAR | S_MUL => Some B_MUL | S_DIV => Some B_DIV | S_MOD => Some B_MOD | S_PLUS => Some B_PLUS | S_MINUS => Some B_MINUS
  | S_SHIFT_LEFT => Some B_SHIFT_LEFT | S_SHIFT_RIGHT => Some B_SHIFT_RIGHT | S_ARITH_SHIFT_LEFT => Some B_ARITH_SHIFT_LEFT | S_ARITH_SHIFT_RIGHT => Some B_ARITH_SHIFT_RIGHT
  | S_LT => Some B_LT | S_LE => Some B_LE | S_GT => Some B_GT | S_GE => Some B_GE
  | S_EQ => Some B_EQ | S_NE => Some B_NE | S_CASE_EQ => Some B_CASE_EQ | S_CASE_NE => Some B_CASE_NE | S_WILDCARD_EQ => Some B_WILDCARD_EQ | S_WILDCARD_NE => Some B_WILDCARD_NE
  | S_AMPERSAND => Some B_AMPERSAND | S_XOR => Some B_XOR | S_NXOR => Some B_NXOR | S_XORN => Some B_XORN | S_BAR => Some B_BAR
  | S_AND_LOG => Some B_AND_LOG | S_OR_LOG => Some B_OR_LOG | S_ARROW => Some B_ARROW | S_BI_DIR_ARROW => Some B_BI_DIR_ARROW
  | _ => None
  end.
(** The number of the alternative of rule expression (sv2017Parser.g4:1293-1314) with this operator. *)
Definition num_alts : nat := 20.
Definition alt_of (b : binop) : nat :=
  match b with
  | B_DOUBLESTAR => 6
  | B_MUL | B_DIV | B_MOD => 7
  | B_PLUS | B_MINUS => 8
  | B_SHIFT_LEFT | B_SHIFT_RIGHT | B_ARITH_SHIFT_LEFT | B_ARITH_SHIFT_RIGHT => 9
  | B_LT | B_LE | B_GT | B_GE => 10
  (* 11: inside *)
  | B_EQ | B_NE | B_CASE_EQ | B_CASE_NE | B_WILDCARD_EQ | B_WILDCARD_NE => 12
  | B_AMPERSAND => 13
  | B_XOR | B_NXOR | B_XORN => 14
  | B_BAR => 15
  | B_AND_LOG => 16
  | B_OR_LOG => 17
  | B_ARROW | B_BI_DIR_ARROW => 20
  end.
Definition alt_prec (alt : nat) : nat := num_alts - alt + 1.
Definition and3_alt : nat := 18.
Definition cond_alt : nat := 19.
(** <assoc=right>: sv2017Parser.g4:1312,1313 *)
Definition right_assoc (b : binop) : bool := match b with B_ARROW | B_BI_DIR_ARROW => true | _ => false end.
Definition bin_prec (b : binop) : nat := alt_prec (alt_of b).
Definition bin_next (b : binop) : nat := if right_assoc b then bin_prec b else bin_prec b + 1.

(** The error listener of the parser makes the run fail; the text of the message is not modelled. *)
Definition no_parse {A} : outcome A := Throw (ParseException $"syntax error").
Definition starts_colon (ts : list tok) : bool := match ts with KColon :: _ => true | _ => false end.
(** package_or_class_scoped_path without parameters, sv2017Parser.g4:909-915 *)
Fixpoint more_items (ts : list tok) : list (ident * option (pva vexpr)) * list tok :=
  match ts with
  | KColon2 :: KId s :: r => let '(l, r') := more_items r in ((IdPlain s, None) :: l, r')
  | KColon2 :: KEscId s :: r => let '(l, r') := more_items r in ((IdEsc s, None) :: l, r')
  | _ => ([], ts)
  end.
Definition path_from (i : ident) (r : list tok) : vexpr * list tok :=
  let '(l, r') := more_items r in (VPath (VPathOf false H_none ((i, None) :: l)), r').
Definition args_of (l : list (argc vexpr)) : option (list (argc vexpr)) := match l with [] => None | _ => Some l end.

(** [p_expr fuel p ts]: rule expression called with precedence [p]; gives the tree and the tokens
    behind it.  sv2017Parser.g4:1293-1314 *)
Fixpoint p_expr (fuel p : nat) (ts : list tok) : outcome (vexpr * list tok) :=
  match fuel with
  | 0 => OutOfFuel
  | S f =>
      match ts with
      | KOp o :: r =>
          match un_of o with
          | Some u => '(e, r') <- p_prim f r ;; p_loop f p (VUnary u e) r'
          | None => no_parse
          end
      | _ => '(e, r') <- p_prim f ts ;; p_loop f p e r'
      end
  end
(** The loop over the operators behind an operand.  + and - before a colon belong to a range
    (array_range_expression), so the loop is left. *)
with p_loop (fuel p : nat) (lhs : vexpr) (ts : list tok) : outcome (vexpr * list tok) :=
  match fuel with
  | 0 => OutOfFuel
  | S f =>
      match ts with
      | KOp o :: r =>
          match bin_of o with
          | Some b =>
              if (p <=? bin_prec b) && negb (starts_colon r)
              then '(e, r') <- p_expr f (bin_next b) r ;; p_loop f p (VBinary b lhs e) r'
              else Ok (lhs, ts)
          | None => Ok (lhs, ts)
          end
      | KAnd3 :: r =>
          if p <=? alt_prec and3_alt then '(e, r') <- p_expr f 0 r ;; p_loop f p (VTripleAnd lhs e) r' else Ok (lhs, ts)
      | KQuest :: r =>
          if p <=? alt_prec cond_alt then
            '(a, r1) <- p_expr f 0 r ;;
            match r1 with
            | KColon :: r2 => '(b, r3) <- p_expr f (alt_prec cond_alt) r2 ;; p_loop f p (VTernary lhs a b) r3
            | _ => no_parse
            end
          else Ok (lhs, ts)
      | _ => Ok (lhs, ts)
      end
  end
(** rules primary_literal, primary, mintypmax_expression, sv2017Parser.g4:1222-1230,1252,1256-1286 *)
with p_prim (fuel : nat) (ts : list tok) : outcome (vexpr * list tok) :=
  match fuel with
  | 0 => OutOfFuel
  | S f =>
      match ts with
      | KId s :: r => let '(e, r') := path_from (IdPlain s) r in p_suffix f e r'
      | KEscId s :: r => let '(e, r') := path_from (IdEsc s) r in p_suffix f e r'
      | KUnsigned s :: KBased t :: r => p_suffix f (VLit (L_NUMBER (TokBased (Some s) t))) r
      | KUnsigned s :: r => p_suffix f (VLit (L_NUMBER (TokUnsigned s))) r
      | KBased t :: r => p_suffix f (VLit (L_NUMBER (TokBased None t))) r
      | KSized t :: r => p_suffix f (VLit (L_NUMBER (TokSized t))) r
      | KReal t :: r => p_suffix f (VLit (L_REAL t)) r
      | KString t :: r => p_suffix f (VLit (L_STRING t)) r
      | KUnbased t :: r => p_suffix f (VLit (L_UNBASED t)) r
      | KTime t :: r => p_suffix f (VLit (L_TIME t)) r
      | KNull :: r => p_suffix f (VLit L_NULL) r
      | KDolar :: r => p_suffix f (VLit L_DOLAR) r
      | KLp :: r =>
          '(e, r1) <- p_expr f 0 r ;;
          match r1 with
          | KRp :: r2 => p_suffix f (VPar e None) r2
          | KColon :: r2 =>
              '(t, r3) <- p_expr f 0 r2 ;;
              match r3 with
              | KColon :: r4 =>
                  '(m, r5) <- p_expr f 0 r4 ;;
                  match r5 with KRp :: r6 => p_suffix f (VPar e (Some (t, m))) r6 | _ => no_parse end
              | _ => no_parse
              end
          | _ => no_parse
          end
      | KLb :: r => '(e, r') <- p_cat f r ;; p_suffix f e r'
      | _ => no_parse
      end
  end
(** The loop over what may stand behind a primary, sv2017Parser.g4:1267-1269,1280-1282; a[e] is
    matched by two alternatives, ANTLR takes the first one. *)
with p_suffix (fuel : nat) (lhs : vexpr) (ts : list tok) : outcome (vexpr * list tok) :=
  match fuel with
  | 0 => OutOfFuel
  | S f =>
      match ts with
      | KDot :: KId s :: r => p_suffix f (VDot lhs (IdPlain s)) r
      | KDot :: KEscId s :: r => p_suffix f (VDot lhs (IdEsc s)) r
      | KLs :: r =>
          '(a, r1) <- p_expr f 0 r ;;
          match r1 with
          | KRs :: r2 => p_suffix f (VBitSelect lhs a) r2
          | KColon :: r2 => '(b, r3) <- p_expr f 0 r2 ;; match r3 with KRs :: r4 => p_suffix f (VRange lhs R_COLON a b) r4 | _ => no_parse end
          | KOp S_PLUS :: KColon :: r2 => '(b, r3) <- p_expr f 0 r2 ;; match r3 with KRs :: r4 => p_suffix f (VRange lhs R_PLUS a b) r4 | _ => no_parse end
          | KOp S_MINUS :: KColon :: r2 => '(b, r3) <- p_expr f 0 r2 ;; match r3 with KRs :: r4 => p_suffix f (VRange lhs R_MINUS a b) r4 | _ => no_parse end
          | _ => no_parse
          end
      | KLp :: r => '(l, r') <- p_args f false r ;; p_suffix f (VCall lhs None (args_of l) None) r'
      | _ => Ok (lhs, ts)
      end
  end
(** rule concatenation behind its opening brace, sv2017Parser.g4:1316-1317 (without the empty one) *)
with p_cat (fuel : nat) (ts : list tok) : outcome (vexpr * list tok) :=
  match fuel with
  | 0 => OutOfFuel
  | S f =>
      '(e, r1) <- p_expr f 0 ts ;;
      match r1 with
      | KRb :: r2 => Ok (VConcat [e], r2)
      | KComma :: r2 => '(l, r3) <- p_list f r2 ;; Ok (VConcat (e :: l), r3)
      | KLb :: r2 => '(c, r3) <- p_cat f r2 ;; match r3 with KRb :: r4 => Ok (VRepl e c, r4) | _ => no_parse end
      | _ => no_parse
      end
  end
with p_list (fuel : nat) (ts : list tok) : outcome (list vexpr * list tok) :=
  match fuel with
  | 0 => OutOfFuel
  | S f =>
      '(e, r1) <- p_expr f 0 ts ;;
      match r1 with
      | KRb :: r2 => Ok ([e], r2)
      | KComma :: r2 => '(l, r3) <- p_list f r2 ;; Ok (e :: l, r3)
      | _ => no_parse
      end
  end
(** rule list_of_arguments with the closing parenthesis, sv2017Parser.g4:1214-1220; [after]: an
    argument stands before. *)
with p_args (fuel : nat) (after : bool) (ts : list tok) : outcome (list (argc vexpr) * list tok) :=
  match fuel with
  | 0 => OutOfFuel
  | S f =>
      match ts with
      | KRp :: r => Ok ([], r)
      | KComma :: r => '(l, r') <- p_args f false r ;; Ok (AComma :: l, r')
      | _ =>
          if after then no_parse
          else '(e, r1) <- p_expr f 0 ts ;; '(l, r') <- p_args f true r1 ;; Ok (AExpr e :: l, r')
      end
  end.
(** A whole expression. *)
Definition parse_expression (ts : list tok) : outcome vexpr :=
  '(e, r) <- p_expr (4 * length ts + 4) 0 ts ;; match r with [] => Ok e | _ => no_parse end.
