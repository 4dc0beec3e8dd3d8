(** Model of the conversion of Verilog expressions: src/svConvertor/exprParser.cpp,
    exprPrimaryParser.cpp, literalParser.cpp, utils.cpp.  The input is the parse tree made by the
    generated parser (sv2017Parser.g4).  Code positions and attributes ((* ... *)) are not modelled.
    primary and expression are one type, so that the model is defined on more trees than the grammar
    produces. *)
From Verif Require Import Base AstModel LitModel.

(** rule identifier, sv2017Parser.g4; [IdEsc] holds the whole token of an escaped identifier. *)
Inductive ident := IdPlain (s : str) | IdEsc (tok : str).
(** unary_operator, unary_module_path_operator *)
Inductive unop := U_NOT | U_NEG | U_AMPERSAND | U_NAND | U_BAR | U_NOR | U_XOR | U_NXOR | U_XORN | U_PLUS | U_MINUS.
(** the binary operators of rule expression, sv2017Parser.g4:1299-1313 *)
Inductive binop :=
| B_DOUBLESTAR | B_MUL | B_DIV | B_MOD | B_PLUS | B_MINUS
| B_SHIFT_LEFT | B_SHIFT_RIGHT | B_ARITH_SHIFT_LEFT | B_ARITH_SHIFT_RIGHT
| B_LT | B_LE | B_GT | B_GE
| B_EQ | B_NE | B_CASE_EQ | B_CASE_NE | B_WILDCARD_EQ | B_WILDCARD_NE
| B_AMPERSAND | B_XOR | B_NXOR | B_XORN | B_BAR | B_AND_LOG | B_OR_LOG
| B_ARROW | B_BI_DIR_ARROW.
(** [ a : b ], [ a +: b ], [ a -: b ] *)
Inductive rangekind := R_COLON | R_PLUS | R_MINUS.
(** primary_literal *)
Inductive lit :=
| L_NUMBER (t : inttok) | L_REAL (t : str) | L_STRING (t : str) | L_UNBASED (t : str)
| L_TIME (t : str) | L_NULL | L_THIS | L_DOLAR.
(** The children of list_of_arguments: a comma, an expression or .name(expression). *)
Inductive argc (E : Type) := AComma | AExpr (e : E) | ANamed (n : ident) (v : option E).
Arguments AComma {E}. Arguments AExpr {E}. Arguments ANamed {E}.
(** parameter_value_assignment; an ordered or named value is an expression or a type (converted by
    the type parser, given as AST). *)
Inductive pval (E : Type) := PV_expr (e : E) | PV_type (t : expr).
Arguments PV_expr {E}. Arguments PV_type {E}.
Inductive pva (E : Type) := PVA_ordered (l : list (pval E)) | PVA_named (l : list (ident * option (pval E))).
Arguments PVA_ordered {E}. Arguments PVA_named {E}.
(** package_or_class_scoped_path *)
Inductive phead := H_none | H_root | H_unit | H_this | H_super | H_this_super.
Inductive vpath (E : Type) := VPathOf (local : bool) (h : phead) (items : list (ident * option (pva E))).
Arguments VPathOf {E}.
(** structure_pattern_key / array_pattern_key *)
Inductive pkey (E : Type) := K_default | K_id (i : ident) | K_expr (e : E) | K_type | K_path (p : vpath E).
Arguments K_default {E}. Arguments K_id {E}. Arguments K_expr {E}. Arguments K_type {E}. Arguments K_path {E}.

Inductive vexpr :=
| VLit (l : lit)
| VPath (p : vpath vexpr)
| VPar (e : vexpr) (typ_max : option (vexpr * vexpr))        (* ( mintypmax_expression ) *)
| VCast (p e : vexpr)                                        (* primary ' ( expression ) *)
| VBitSelect (p e : vexpr)                                   (* primary [ expression ] *)
| VDot (p : vexpr) (i : ident)
| VRange (p : vexpr) (k : rangekind) (a b : vexpr)           (* primary [ a : b ] *)
| VConcat (l : list vexpr)                                   (* { a, b, ... } *)
| VRepl (n c : vexpr)                                        (* { n concatenation } *)
| VTfCall (name : str) (dt : option expr) (args : option (list (argc vexpr)))
| VCall (p : vexpr) (method : option str) (args : option (list (argc vexpr))) (with_ : option vexpr)
| VMethod (p : vexpr) (method : str)                         (* primary . array_method_name *)
| VCallWith (p : vexpr) (method : option str) (with_ : vexpr)
| VPattern (l : list vexpr)                                  (* '{ a, b } *)
| VPatternKeys (l : list (pkey vexpr * vexpr))               (* '{ k : a, ... } *)
| VPatternRepl (n : vexpr) (l : list vexpr)                  (* '{ n { a, ... } } *)
| VTypeRef (t : expr)                                        (* converted by the type parser *)
| VUnary (o : unop) (p : vexpr)
| VIncDec (prefix incr : bool) (l : vexpr)
| VBinary (o : binop) (a b : vexpr)
| VTernary (c a b : vexpr)
| VTripleAnd (a b : vexpr)                                   (* a &&& b *)
| VUnsupported                                               (* tagged, inside, matches, (a = b), keyword casts, streaming, randomize *)
| VLvConcat (l : list vexpr)                                 (* variable_lvalue { a, b } *)
| VLvHier (p : vpath vexpr) (sel : list vexpr) (dots : list (ident * list vexpr)) (r : option (rangekind * vexpr * vexpr))
| VLvPattern (l : list vexpr)                                (* variable_lvalue '{ a, b } *)
| VLvStream.

Definition mapM {A B : Type} (f : A -> outcome B) : list A -> outcome (list B) :=
  fix go l := match l with [] => Ok [] | x :: l' => y <- f x ;; r <- go l' ;; Ok (y :: r) end.

(** getIdentifierStr, exprParser.cpp:381-398 *)
Definition ident_str (i : ident) : outcome str := match i with IdPlain s => Ok s | IdEsc t => visit_escaped_id t end.
(** visitIdentifier, exprParser.cpp:400-403 *)
Definition visit_ident (i : ident) : outcome expr := s <- ident_str i ;; Ok (EId s).
(** append_expr, utils.cpp:51-61; new_part is no null pointer in the calls modelled here *)
Definition append_expr (sel : option expr) (o : op) (new_part : expr) : expr :=
  match sel with Some s => op2 o s new_part | None => new_part end.
(** The constructor HdlOp(op0, op, op1) leaves null operands out, hdlOp.cpp:29-38. *)
Definition mk2 (a : expr) (o : op) (b : expr) : expr :=
  EOp o ((match a with ENull => [] | _ => [a] end) ++ (match b with ENull => [] | _ => [b] end)).
(** reduce, utils.cpp:63-73 *)
Definition reduce (l : list expr) (o : op) : expr :=
  match l with [] => ENull | x :: l' => fold_left (fun acc p => mk2 acc o p) l' x end.

(** visitUnary_operator, visitUnary_module_path_operator, literalParser.cpp:141-191 *)
Definition visit_unop (o : unop) : op :=
  match o with
  | U_NOT => NEG_LOG | U_NEG => NEG | U_AMPERSAND => AND_UNARY | U_NAND => NAND_UNARY | U_BAR => OR_UNARY
  | U_NOR => NOR_UNARY | U_XOR => XOR_UNARY | U_NXOR => XNOR_UNARY | U_XORN => XNOR_UNARY
  | U_PLUS => PLUS_UNARY | U_MINUS => MINUS_UNARY
  end.
(** the chain of tests in _visitExpression, exprParser.cpp:232-291, and
    literalParser.cpp:192-312 *)
Definition visit_binop (o : binop) : op :=
  match o with
  | B_DOUBLESTAR => POW | B_MUL => MUL | B_DIV => DIV | B_MOD => MOD | B_PLUS => ADD | B_MINUS => SUB
  | B_SHIFT_LEFT => SLL | B_SHIFT_RIGHT => SRL | B_ARITH_SHIFT_LEFT => SLA | B_ARITH_SHIFT_RIGHT => SRA
  | B_LT => LT | B_LE => LE | B_GT => GT | B_GE => GE
  | B_EQ => EQ | B_NE => NE | B_CASE_EQ => IS | B_CASE_NE => IS_NOT | B_WILDCARD_EQ => EQ_MATCH | B_WILDCARD_NE => NE_MATCH
  | B_AMPERSAND => AND | B_XOR => XOR | B_NXOR => XNOR | B_XORN => XNOR | B_BAR => OR
  | B_AND_LOG => AND_LOG | B_OR_LOG => OR_LOG
  | B_ARROW => ARROW | B_BI_DIR_ARROW => ARROW
  end.
(** visitInc_or_dec_operator, literalParser.cpp:434-451 *)
Definition visit_incdec (prefix incr : bool) : op :=
  if prefix then (if incr then INCR_PRE else DECR_PRE) else (if incr then INCR_POST else DECR_POST).
(** visitArray_range_expression, exprParser.cpp:81-106; exprParser.cpp:513-524 *)
Definition visit_rangekind (k : rangekind) : op :=
  match k with R_COLON => DOWNTO | R_PLUS => PART_SELECT_POST | R_MINUS => PART_SELECT_PRE end.
(** visitPrimary_literal, literalParser.cpp:364-405 *)
Definition visit_lit (l : lit) : outcome expr :=
  match l with
  | L_NUMBER t => visit_integral t
  | L_REAL t => Ok (EFloat t)
  | L_STRING t => visit_string t
  | L_UNBASED t => visit_unbased t
  | L_TIME _ => Ok ENotImpl
  | L_NULL => Ok (ESym symb_NULL)
  | L_THIS => Ok (EId $"this")
  | L_DOLAR => Ok (EId $"$")
  end.
(** visitAssignment_operator, literalParser.cpp:314-362: = += -= *= /= %= &= |= ^= <<= >>= <<<= >>>= *)
Inductive asgop := A_ASSIGN | A_PLUS | A_MINUS | A_MUL | A_DIV | A_MOD | A_AND | A_OR | A_XOR | A_SHL | A_SHR | A_ASHL | A_ASHR.
Definition visit_asgop (o : asgop) : op :=
  match o with
  | A_ASSIGN => ASSIGN | A_PLUS => PLUS_ASSIGN | A_MINUS => MINUS_ASSIGN | A_MUL => MUL_ASSIGN | A_DIV => DIV_ASSIGN
  | A_MOD => MOD_ASSIGN | A_AND => AND_ASSIGN | A_OR => OR_ASSIGN | A_XOR => XOR_ASSIGN
  | A_SHL => SHIFT_LEFT_ASSIGN | A_SHR => SHIFT_RIGHT_ASSIGN | A_ASHL => ARITH_SHIFT_LEFT_ASSIGN | A_ASHR => ARITH_SHIFT_RIGHT_ASSIGN
  end.

(** The loops of the visitor, with the conversion of the parts as a parameter. *)
Section Loops.
Context (f : vexpr -> outcome expr).
(** visitList_of_arguments, exprParser.cpp:653-697 *)
Definition conv_args : bool -> list (argc vexpr) -> outcome (list expr) :=
  fix go expecting l :=
    match l with
    | [] => Ok []
    | AComma :: l' => r <- go true l' ;; Ok (if expecting then EId $"void" :: r else r)
    | AExpr e :: l' => x <- f e ;; r <- go false l' ;; Ok (x :: r)
    | ANamed n v :: l' =>
        k <- visit_ident n ;;
        x <- match v with Some e => f e | None => Ok (EId $"void") end ;;
        r <- go false l' ;; Ok (mk2 k MAP_ASSOCIATION x :: r)
    end.
(** visitParam_expression, paramDefParser.cpp:103-119 *)
Definition conv_pval (v : pval vexpr) : outcome expr := match v with PV_expr e => f e | PV_type t => Ok t end.
(** visitList_of_parameter_value_assignments, moduleInstanceParser.cpp:49-88 *)
Definition conv_pva (v : pva vexpr) : outcome (list expr) :=
  match v with
  | PVA_ordered l => mapM conv_pval l
  | PVA_named l => mapM (fun p : ident * option (pval vexpr) =>
      k <- visit_ident (fst p) ;;
      x <- match snd p with Some e => conv_pval e | None => Ok (ESym symb_NULL) end ;;
      Ok (mk2 k MAP_ASSOCIATION x)) l
  end.
(** visitPackage_or_class_scoped_path_item, exprParser.cpp:545-567 *)
Definition conv_item (sel : option expr) (it : ident * option (pva vexpr)) : outcome expr :=
  id <- visit_ident (fst it) ;;
  let id := append_expr sel DOUBLE_COLON id in
  match snd it with Some v => l <- conv_pva v ;; Ok (call_op PARAMETRIZATION id l) | None => Ok id end.
Definition conv_items : option expr -> list (ident * option (pva vexpr)) -> outcome (option expr) :=
  fix go sel l := match l with [] => Ok sel | it :: l' => x <- conv_item sel it ;; go (Some x) l' end.
(** visitPackage_or_class_scoped_path and visitImplicit_class_handle, exprParser.cpp:569-636; a path
    without head has an item (the assertion in line 622). *)
Definition conv_path (p : vpath vexpr) : outcome expr :=
  match p with
  | VPathOf local h items =>
      let res := if local then Some (EId $"local") else None in
      let res := match h with
                 | H_none => res
                 | H_root => Some (append_expr res DOUBLE_COLON (EId $"$root"))
                 | H_unit => Some (append_expr res DOUBLE_COLON (EId $"$unit"))
                 | H_this => Some (append_expr res DOUBLE_COLON (EId $"this"))
                 | H_super => Some (append_expr res DOUBLE_COLON (EId $"super"))
                 | H_this_super => Some (op2 DOT (append_expr res DOUBLE_COLON (EId $"this")) (EId $"super"))
                 end in
      match h, items with
      | H_none, [] => UB "assert(pcspi.size() > 0)"
      | _, _ => r <- conv_items res items ;; match r with Some x => Ok x | None => Ok ENull end
      end
  end.
(** visitBit_select in a loop, exprParser.cpp:472-480 *)
Definition conv_selects : expr -> list vexpr -> outcome expr :=
  fix go res l := match l with [] => Ok res | e :: l' => x <- f e ;; go (mk2 res INDEX x) l' end.
(** visitStructure_pattern_key, visitArray_pattern_key, visitAssignment_pattern_key,
    exprPrimaryParser.cpp:268-337 *)
Definition conv_key (k : pkey vexpr) : outcome expr :=
  match k with
  | K_default => Ok (EId $"default") | K_id i => visit_ident i | K_expr e => f e
  | K_type => Ok ENotImpl | K_path p => conv_path p
  end.
Definition conv_opt_args (a : option (list (argc vexpr))) : outcome (list expr) :=
  match a with Some l => conv_args true l | None => Ok [] end.
End Loops.

(** _visitExpression, exprParser.cpp:164-337; visitPrimary and its cases, exprPrimaryParser.cpp:16-468;
    visitConcatenation, exprParser.cpp:339-361; visitVariable_lvalue, exprParser.cpp:417-453;
    visitPackage_or_class_scoped_hier_id_with_select, exprParser.cpp:493-529. *)
Fixpoint conv (e : vexpr) : outcome expr :=
  match e with
  | VLit l => visit_lit l
  | VPath p => conv_path conv p
  | VPar e _ => conv e
  | VCast p e => a <- conv p ;; b <- conv e ;; Ok (mk2 a CALL b)
  | VBitSelect p e => a <- conv p ;; b <- conv e ;; Ok (match a with ENull => b | _ => mk2 a INDEX b end)
  | VDot p i => a <- conv p ;; b <- visit_ident i ;; Ok (match a with ENull => b | _ => mk2 a DOT b end)
  | VRange p k x y =>
      a <- conv p ;; b <- conv x ;; c <- conv y ;;
      let r := mk2 b (visit_rangekind k) c in
      Ok (match a with ENull => r | _ => mk2 a INDEX r end)
  | VConcat l => r <- mapM conv l ;; Ok (reduce r CONCAT)
  | VRepl n c => a <- conv n ;; b <- conv c ;; Ok (mk2 a REPL_CONCAT b)
  | VTfCall name dt args =>
      l <- conv_opt_args conv args ;;
      Ok (call_op CALL (EId name) (opt_l dt ++ l))
  | VCall p _ args _ =>
      a <- conv p ;;
      match args with
      | Some l => r <- conv_args conv true l ;; Ok (call_op CALL a r)
      | None => Ok a
      end
  | VMethod p _ => a <- conv p ;; Ok (call_op CALL a [])
  | VCallWith p _ _ => a <- conv p ;; Ok (call_op CALL a [])
  | VPattern l => r <- mapM conv l ;; Ok (EArr r)
  | VPatternKeys l =>
      xs <- mapM (fun kv => conv (snd kv)) l ;;
      ks <- mapM (fun kv => conv_key conv (fst kv)) l ;;
      Ok (EArr (map (fun kx => mk2 (fst kx) MAP_ASSOCIATION (snd kx)) (combine ks xs)))
  | VPatternRepl n l => _ <- mapM conv l ;; Ok ENotImpl
  | VTypeRef t => Ok t
  | VUnary o p => a <- conv p ;; Ok (op1 (visit_unop o) a)
  | VIncDec p i l => a <- conv l ;; Ok (op1 (visit_incdec p i) a)
  | VBinary o x y => a <- conv x ;; b <- conv y ;; Ok (mk2 a (visit_binop o) b)
  | VTernary c x y => a <- conv c ;; b <- conv x ;; d <- conv y ;; Ok (ternary a b (match d with ENull => None | _ => Some d end))
  | VTripleAnd _ _ => UB "assert(false && ""unknown binary"")"
  | VUnsupported => Ok ENotImpl
  | VLvConcat l =>
      match l with
      | [x] => conv x
      | _ => r <- mapM conv l ;; Ok (reduce r CONCAT)
      end
  | VLvHier p sel _ r =>
      res <- conv_path conv p ;;
      res <- conv_selects conv res sel ;;
      match r with
      | None => Ok res
      | Some (k, x, y) => a <- conv x ;; b <- conv y ;; Ok (mk2 res INDEX (mk2 a (visit_rangekind k) b))
      end
  | VLvPattern _ => UB "assert(sc)"
  | VLvStream => Ok ENotImpl
  end.
(** visitOperator_assignment, exprParser.cpp:699-709 *)
Definition conv_assignment (dst : vexpr) (o : asgop) (src : vexpr) : outcome expr :=
  d <- conv dst ;; s <- conv src ;; Ok (mk2 d (visit_asgop o) s).
