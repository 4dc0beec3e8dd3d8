(** Model of the conversion of VHDL names and expressions: src/vhdlConvertor/exprParser.cpp,
    referenceParser.cpp, literalParser.cpp, operatorTypeParser.cpp and the subtype indications of
    typeDeclarationParser.cpp.  The input is the parse tree of vhdlParser.g4; name, primary,
    simple_expression, expression and subtype_indication are one type, so that the model is defined on
    more trees than the grammar produces. *)
From Verif Require Import Base AstModel LitModel SvExprModel.

(** vhdlParser.g4:670-676 *)
Inductive hlog := O_AND | O_OR | O_NAND | O_NOR | O_XOR | O_XNOR.
Inductive hrel := O_EQ | O_NE | O_LT | O_LE | O_GT | O_GE | O_MEQ | O_MNE | O_MLT | O_MLE | O_MGT | O_MGE.
Inductive hshift := O_SLL | O_SRL | O_SLA | O_SRA | O_ROL | O_ROR.
Inductive hadd := O_PLUS | O_MINUS | O_AMP.
Inductive hmul := O_MUL | O_DIV | O_MOD | O_REM.
Inductive hun := O_ABS | O_NOT | O_ULOG (o : hlog) | O_SIGN (minus : bool).
Inductive dir := To | Downto.
(** name_literal: identifier, operator_symbol (a string token), character token *)
Inductive nlit := NL_id (s : str) | NL_op (t : str) | NL_char (t : str).
(** range and discrete_range: a name (attribute or subtype) or an explicit range *)
Inductive hrange (E : Type) := R_name (e : E) | R_explicit (a : E) (d : dir) (b : E).
Arguments R_name {E}. Arguments R_explicit {E}.
(** choice: discrete_range and simple_expression both are a [hrange] here *)
Inductive hchoice (E : Type) := Ch_others | Ch (r : hrange E).
Arguments Ch_others {E}. Arguments Ch {E}.
(** actual_designator and actual_part *)
Inductive hdesig (E : Type) := D_expr (inertial : bool) (e : E) | D_open.
Arguments D_expr {E}. Arguments D_open {E}.
Inductive hactual (E : Type) := Act (d : hdesig E) | Act_conv (n : E) (d : hdesig E).
Arguments Act {E}. Arguments Act_conv {E}.
(** association_element; formal_part is name ( "(" name ")" )? *)
Inductive hassoc (E : Type) := Assoc (formal : option (E * option E)) (a : hactual E).
Arguments Assoc {E}.
(** resolution_indication *)
Inductive hres (E : Type) := Res_name (n : E) | Res_elem.
Arguments Res_name {E}. Arguments Res_elem {E}.
(** constraint: a range, or a chain of array constraints (None: (open)) that may end with a record
    constraint *)
Inductive hconstr (E : Type) := Con_range (r : hrange E) | Con_array (l : list (option (list (hrange E)))) (record_ : bool).
Arguments Con_range {E}. Arguments Con_array {E}.

Inductive hexpr :=
| HLit (l : nlit)
| HSlice (n a : hexpr) (d : dir) (b : hexpr)                (* name name_slice_part *)
| HAttr (n : hexpr) (signature : bool) (a : str)            (* name name_attribute_part *)
| HDot (n : hexpr) (l : nlit)
| HAll (n : hexpr)                                          (* name . all *)
| HApply (n : hexpr) (l : list (hassoc hexpr))              (* name association_list *)
| HExternal
| HNum (based : bool) (t : str) (unit_ : option hexpr)
| HBits (t : str)
| HNull
| HNew (e : hexpr)
| HAgg (l : list (list (hchoice hexpr) * hexpr))            (* no choices: positional *)
| HQual (tm : hexpr) (l : list (list (hchoice hexpr) * hexpr))
| HPow (a b : hexpr)
| HUn (o : hun) (a : hexpr)
| HMul (o : hmul) (a b : hexpr)
| HAdd (o : hadd) (a b : hexpr)
| HCondOp (a : hexpr)                                       (* ?? primary *)
| HShift (o : hshift) (a b : hexpr)
| HRel (o : hrel) (a b : hexpr)
| HLog (o : hlog) (a b : hexpr)
| HSubtype (ri : option (hres hexpr)) (tm : hexpr) (c : option (hconstr hexpr)).

(** HdlOpType_from, operatorTypeParser.cpp:7-112 *)
Definition log_op (o : hlog) : op :=
  match o with O_AND => AND | O_OR => OR | O_NAND => NAND | O_NOR => NOR | O_XOR => XOR | O_XNOR => XNOR end.
Definition rel_op (o : hrel) : op :=
  match o with
  | O_EQ => EQ | O_NE => NE | O_LE => LE | O_LT => LT | O_GT => GT | O_GE => GE
  | O_MEQ => EQ_MATCH | O_MNE => NE_MATCH | O_MLT => LT_MATCH | O_MLE => LE_MATCH | O_MGT => GT_MATCH | O_MGE => GE_MATCH
  end.
Definition shift_op (o : hshift) : op :=
  match o with O_SLL => SLL | O_SRL => SRL | O_SLA => SLA | O_SRA => SRA | O_ROL => ROL | O_ROR => ROR end.
Definition add_op (o : hadd) : op := match o with O_PLUS => ADD | O_MINUS => SUB | O_AMP => CONCAT end.
Definition mul_op (o : hmul) : op := match o with O_MUL => MUL | O_DIV => DIV | O_MOD => MOD | O_REM => REM end.
Definition sign_op (minus : bool) : op := if minus then SUB else ADD.
(** HdlOpType_toUnary, hdlOpType.cpp:99-120 *)
Definition to_unary (o : op) : outcome op :=
  match o with
  | SUB => Ok MINUS_UNARY | ADD => Ok PLUS_UNARY | OR => Ok OR_UNARY | AND => Ok AND_UNARY | NAND => Ok NAND_UNARY
  | NOR => Ok NOR_UNARY | XOR => Ok XOR_UNARY | XNOR => Ok XNOR
  | _ => Throw (RuntimeError $"Invalid operator type")
  end.
(** visitSimple_expression, exprParser.cpp:197-213 *)
Definition un_op (o : hun) : outcome op :=
  match o with O_ABS => Ok ABS | O_NOT => Ok NEG | O_ULOG l => to_unary (log_op l) | O_SIGN m => to_unary (sign_op m) end.
(** visitExplicit_range, exprParser.cpp:66-80 *)
Definition dir_op (d : dir) : op := match d with To => TO | Downto => DOWNTO end.
(** visitName_literal, referenceParser.cpp:42-61 *)
Definition conv_nlit (l : nlit) : outcome expr :=
  match l with NL_id s => Ok (EId s) | NL_op t => visit_vhdl_string t | NL_char t => visit_character t end.
(** aggregate_to_parenthesis, exprParser.cpp:168-173 *)
Definition unwrap1 (a : expr) : expr := match a with EArr [x] => x | _ => a end.
(** the end of visitAggregate, exprParser.cpp:351-356 *)
Definition finish_aggregate (l : list expr) : expr :=
  match l with
  | [EOp MAP_ASSOCIATION _] => EArr l
  | [x] => x
  | _ => EArr l
  end.

Section Loops.
Context (f : hexpr -> outcome expr).
(** visitRange, visitDiscrete_range, exprParser.cpp:66-96, 148-158 *)
Definition conv_range (r : hrange hexpr) : outcome expr :=
  match r with R_name e => f e | R_explicit a d b => x <- f a ;; y <- f b ;; Ok (op2 (dir_op d) x y) end.
(** visitChoice, exprParser.cpp:475-497 *)
Definition conv_choice (c : hchoice hexpr) : outcome expr :=
  match c with Ch_others => Ok (ESym symb_OTHERS) | Ch r => conv_range r end.
(** visitElement_association, exprParser.cpp:359-378 *)
Definition conv_element (p : list (hchoice hexpr) * hexpr) : outcome expr :=
  e <- f (snd p) ;;
  match fst p with
  | [] => Ok e
  | _ => cs <- mapM conv_choice (fst p) ;; match cs with c :: _ => Ok (op2 MAP_ASSOCIATION c e) | [] => UB "assert(ch.size())" end
  end.
(** visitAggregate, exprParser.cpp:341-357 *)
Definition conv_aggregate (l : list (list (hchoice hexpr) * hexpr)) : outcome expr :=
  r <- mapM conv_element l ;; Ok (finish_aggregate r).
(** visitActual_designator, exprParser.cpp:116-130 *)
Definition conv_desig (d : hdesig hexpr) : outcome expr := match d with D_expr _ e => f e | D_open => Ok (ESym symb_OPEN) end.
(** visitActual_part, exprParser.cpp:98-115 *)
Definition conv_actual (a : hactual hexpr) : outcome expr :=
  match a with
  | Act d => conv_desig d
  | Act_conv n d => x <- conv_desig d ;; g <- f n ;; Ok (call_op CALL g [x])
  end.
(** visitFormal_part, exprParser.cpp:45-64 *)
Definition conv_formal (p : hexpr * option hexpr) : outcome expr :=
  n <- f (fst p) ;; match snd p with Some m => x <- f m ;; Ok (call_op CALL n [x]) | None => Ok n end.
(** visitAssociation_element, exprParser.cpp:30-43 *)
Definition conv_assoc (a : hassoc hexpr) : outcome expr :=
  match a with
  | Assoc fp ac =>
      x <- conv_actual ac ;;
      match fp with Some p => k <- conv_formal p ;; Ok (op2 ARROW k x) | None => Ok x end
  end.
(** visitResolution_indication, exprParser.cpp:132-146 *)
Definition conv_res (r : hres hexpr) : outcome expr := match r with Res_name n => f n | Res_elem => Ok ENotImpl end.
(** visitArray_constraint, visitIndex_constraint, typeDeclarationParser.cpp:337-373 *)
Definition conv_array_constraint (t : expr) (c : option (list (hrange hexpr))) : outcome expr :=
  match c with
  | Some l => r <- mapM conv_range l ;; Ok (call_op INDEX t r)
  | None => Ok (op2 INDEX t (ESym symb_ALL))
  end.
Definition conv_array_constraints : expr -> list (option (list (hrange hexpr))) -> outcome expr :=
  fix go t l := match l with [] => Ok t | c :: l' => u <- conv_array_constraint t c ;; go u l' end.
(** visitConstraint, visitElement_constraint, visitRecord_constraint,
    typeDeclarationParser.cpp:375-424 *)
Definition conv_constr (t : expr) (c : hconstr hexpr) : outcome expr :=
  match c with
  | Con_range r => x <- conv_range r ;; Ok (op2 RANGE t x)
  | Con_array l rec => u <- conv_array_constraints t l ;; Ok (if rec then ENotImpl else u)
  end.
End Loops.

(** visitName, referenceParser.cpp:63-153; visitNumeric_literal, literalParser.cpp:58-91;
    visitPrimary, visitQualified_expression, visitAllocator, visitSimple_expression, visitExpression,
    exprParser.cpp:175-339; visitSubtype_indication, typeDeclarationParser.cpp:308-332 *)
Fixpoint hconv (e : hexpr) : outcome expr :=
  match e with
  | HLit l => conv_nlit l
  | HSlice n a d b => x <- hconv n ;; y <- hconv a ;; z <- hconv b ;; Ok (op2 INDEX x (op2 (dir_op d) y z))
  | HAttr n _ a => x <- hconv n ;; Ok (op2 APOSTROPHE x (EId a))
  | HDot n l => x <- hconv n ;; y <- conv_nlit l ;; Ok (op2 DOT x y)
  | HAll n => x <- hconv n ;; Ok (op2 DOT x (ESym symb_ALL))
  | HApply n l => x <- hconv n ;; r <- mapM (conv_assoc hconv) l ;; Ok (call_op INDEX x r)
  | HExternal => Ok ENotImpl
  | HNum based t u =>
      n <- match u with Some m => x <- hconv m ;; Ok (Some x) | None => Ok None end ;;
      v <- (if based then visit_based_literal t else visit_decimal t) ;;
      Ok (match n with Some x => op2 UNIT_SPEC v x | None => v end)
  | HBits t => visit_bit_string t
  | HNull => Ok (ESym symb_NULL)
  | HNew e => x <- hconv e ;; Ok (op2 CALL (EId $"new") x)
  | HAgg l => conv_aggregate hconv l
  | HQual tm l => x <- hconv tm ;; y <- conv_aggregate hconv l ;; Ok (op2 APOSTROPHE x y)
  | HPow a b => x <- hconv a ;; y <- hconv b ;; Ok (op2 POW (unwrap1 x) (unwrap1 y))
  | HUn o a => k <- un_op o ;; x <- hconv a ;; Ok (op1 k (unwrap1 x))
  | HMul o a b => x <- hconv a ;; y <- hconv b ;; Ok (op2 (mul_op o) (unwrap1 x) (unwrap1 y))
  | HAdd o a b => x <- hconv a ;; y <- hconv b ;; Ok (op2 (add_op o) (unwrap1 x) (unwrap1 y))
  | HCondOp a => x <- hconv a ;; Ok (unwrap1 x)
  | HShift o a b => x <- hconv a ;; y <- hconv b ;; Ok (op2 (shift_op o) x y)
  | HRel o a b => x <- hconv a ;; y <- hconv b ;; Ok (op2 (rel_op o) x y)
  | HLog o a b => x <- hconv a ;; y <- hconv b ;; Ok (op2 (log_op o) x y)
  | HSubtype ri tm c =>
      r <- match ri with Some r => x <- conv_res hconv r ;; Ok (Some x) | None => Ok None end ;;
      t <- hconv tm ;;
      u <- match c with Some c => conv_constr hconv t c | None => Ok t end ;;
      Ok (match r with Some x => op2 DEFINE_RESOLVER x u | None => u end)
  end.
(** visitProcedure_call, exprParser.cpp:516-533 *)
Definition conv_procedure_call (n : hexpr) : outcome expr :=
  x <- hconv n ;;
  Ok (match x with
      | EOp CALL _ => x
      | EOp INDEX l => EOp CALL l
      | _ => call_op CALL x []
      end).
