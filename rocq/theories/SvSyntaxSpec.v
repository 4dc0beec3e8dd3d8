(** How an expression is written down and where it needs parentheses: IEEE 1800-2017 clause A.8 and
    table 11-2.  Nothing here refers to the parser.  Trees and tokens are those of SvExprModel.v and
    SvSyntaxModel.v. *)
From Verif Require Import Base LitModel AstModel SvExprModel SvSyntaxModel.

(** ** Symbols *)
Definition un_sym (o : unop) : sym :=
  match o with
  | U_NOT => S_NOT | U_NEG => S_NEG | U_AMPERSAND => S_AMPERSAND | U_NAND => S_NAND | U_BAR => S_BAR | U_NOR => S_NOR
  | U_XOR => S_XOR | U_NXOR => S_NXOR | U_XORN => S_XORN | U_PLUS => S_PLUS | U_MINUS => S_MINUS
  end.
Definition bin_sym (o : binop) : sym :=
  match o with
  | B_DOUBLESTAR => S_DOUBLESTAR | B_MUL => S_MUL | B_DIV => S_DIV | B_MOD => S_MOD | B_PLUS => S_PLUS | B_MINUS => S_MINUS
  | B_SHIFT_LEFT => S_SHIFT_LEFT | B_SHIFT_RIGHT => S_SHIFT_RIGHT | B_ARITH_SHIFT_LEFT => S_ARITH_SHIFT_LEFT | B_ARITH_SHIFT_RIGHT => S_ARITH_SHIFT_RIGHT
  | B_LT => S_LT | B_LE => S_LE | B_GT => S_GT | B_GE => S_GE
  | B_EQ => S_EQ | B_NE => S_NE | B_CASE_EQ => S_CASE_EQ | B_CASE_NE => S_CASE_NE | B_WILDCARD_EQ => S_WILDCARD_EQ | B_WILDCARD_NE => S_WILDCARD_NE
  | B_AMPERSAND => S_AMPERSAND | B_XOR => S_XOR | B_NXOR => S_NXOR | B_XORN => S_XORN | B_BAR => S_BAR
  | B_AND_LOG => S_AND_LOG | B_OR_LOG => S_OR_LOG | B_ARROW => S_ARROW | B_BI_DIR_ARROW => S_BI_DIR_ARROW
  end.

(** ** The tokens of an expression *)
Definition id_tok (i : ident) : tok := match i with IdPlain s => KId s | IdEsc s => KEscId s end.
Definition lit_toks (l : lit) : list tok :=
  match l with
  | L_NUMBER (TokUnsigned s) => [KUnsigned s]
  | L_NUMBER (TokBased (Some s) t) => [KUnsigned s; KBased t]
  | L_NUMBER (TokBased None t) => [KBased t]
  | L_NUMBER (TokSized t) => [KSized t]
  | L_REAL t => [KReal t] | L_STRING t => [KString t] | L_UNBASED t => [KUnbased t] | L_TIME t => [KTime t]
  | L_NULL => [KNull] | L_DOLAR => [KDolar] | L_THIS => []
  end.
(** a::b::c *)
Fixpoint path_toks (l : list (ident * option (pva vexpr))) : list tok :=
  match l with [] => [] | [(i, _)] => [id_tok i] | (i, _) :: l' => id_tok i :: KColon2 :: path_toks l' end.
Definition range_toks (k : rangekind) : list tok :=
  match k with R_COLON => [KColon] | R_PLUS => [KOp S_PLUS; KColon] | R_MINUS => [KOp S_MINUS; KColon] end.
Section Lists.
Context (f : vexpr -> list tok).
Fixpoint comma_toks (l : list vexpr) : list tok :=
  match l with [] => [] | [e] => f e | e :: l' => f e ++ KComma :: comma_toks l' end.
Fixpoint arg_toks (l : list (argc vexpr)) : list tok :=
  match l with [] => [] | AComma :: l' => KComma :: arg_toks l' | AExpr e :: l' => f e ++ arg_toks l' | ANamed _ _ :: l' => arg_toks l' end.
End Lists.
Fixpoint show (e : vexpr) : list tok :=
  match e with
  | VLit l => lit_toks l
  | VPath (VPathOf _ _ l) => path_toks l
  | VPar e None => KLp :: show e ++ [KRp]
  | VPar e (Some (t, m)) => KLp :: show e ++ KColon :: show t ++ KColon :: show m ++ [KRp]
  | VBitSelect p e => show p ++ KLs :: show e ++ [KRs]
  | VRange p k a b => show p ++ KLs :: show a ++ range_toks k ++ show b ++ [KRs]
  | VDot p i => show p ++ [KDot; id_tok i]
  | VCall p _ None _ => show p ++ [KLp; KRp]
  | VCall p _ (Some l) _ => show p ++ KLp :: arg_toks show l ++ [KRp]
  | VConcat l => KLb :: comma_toks show l ++ [KRb]
  | VRepl n c => KLb :: show n ++ show c ++ [KRb]
  | VUnary o p => KOp (un_sym o) :: show p
  | VBinary o a b => show a ++ KOp (bin_sym o) :: show b
  | VTernary c a b => show c ++ KQuest :: show a ++ KColon :: show b
  | VTripleAnd a b => show a ++ KAnd3 :: show b
  | _ => []
  end.

(** ** Table 11-2: the higher the row the tighter the operator binds *)
Definition strength (o : binop) : nat :=
  match o with
  | B_DOUBLESTAR => 13
  | B_MUL | B_DIV | B_MOD => 12
  | B_PLUS | B_MINUS => 11
  | B_SHIFT_LEFT | B_SHIFT_RIGHT | B_ARITH_SHIFT_LEFT | B_ARITH_SHIFT_RIGHT => 10
  | B_LT | B_LE | B_GT | B_GE => 9
  | B_EQ | B_NE | B_CASE_EQ | B_CASE_NE | B_WILDCARD_EQ | B_WILDCARD_NE => 8
  | B_AMPERSAND => 7
  | B_XOR | B_NXOR | B_XORN => 6
  | B_BAR => 5
  | B_AND_LOG => 4
  | B_OR_LOG => 3
  (* 2: the conditional operator *)
  | B_ARROW | B_BI_DIR_ARROW => 1
  end.
(** All operators associate from left to right, except the conditional operator and the implications. *)
Definition to_the_right (o : binop) : bool := match o with B_ARROW | B_BI_DIR_ARROW => true | _ => false end.
(** The strength with which an expression holds together; 15: nothing can tear it apart. *)
Definition strength_of (e : vexpr) : nat :=
  match e with VBinary o _ _ => strength o | VTernary _ _ _ => 2 | VTripleAnd _ _ => 0 | VUnary _ _ => 14 | _ => 15 end.

(** ** Expressions that are written with the parentheses they need *)
(** Arguments: absent arguments are allowed, two arguments have a comma between them. *)
Fixpoint separated (l : list (argc vexpr)) : Prop :=
  match l with AExpr _ :: (AExpr _ :: _) => False | ANamed _ _ :: _ => False | _ :: l' => separated l' | [] => True end.
Section Lists.
Context (P : vexpr -> Prop).
Fixpoint all_args (l : list (argc vexpr)) : Prop :=
  match l with [] => True | AExpr e :: l' => P e /\ all_args l' | _ :: l' => all_args l' end.
Fixpoint all_of (l : list vexpr) : Prop := match l with [] => True | e :: l' => P e /\ all_of l' end.
End Lists.
Fixpoint proper (e : vexpr) : Prop :=
  match e with
  | VLit l => l <> L_THIS
  | VPath (VPathOf false H_none l) => l <> [] /\ Forall (fun x => snd x = None) l
  | VPar e None => proper e
  | VPar e (Some (t, m)) => proper e /\ proper t /\ proper m
  | VBitSelect p e => strength_of p = 15 /\ proper p /\ proper e
  | VRange p _ a b => strength_of p = 15 /\ proper p /\ proper a /\ proper b
  | VDot p _ => strength_of p = 15 /\ proper p
  | VCall p None None None => strength_of p = 15 /\ proper p
  | VCall p None (Some l) None => strength_of p = 15 /\ proper p /\ l <> [] /\ separated l /\ all_args proper l
  | VConcat l => l <> [] /\ all_of proper l
  | VRepl n c => proper n /\ proper c /\ match c with VConcat _ | VRepl _ _ => True | _ => False end
  | VUnary _ p => strength_of p = 15 /\ proper p
  | VBinary o a b =>
      proper a /\ proper b
      /\ (if to_the_right o then strength o < strength_of a /\ strength o <= strength_of b
          else strength o <= strength_of a /\ strength o < strength_of b)
  | VTernary c a b => proper c /\ proper a /\ proper b /\ 2 < strength_of c /\ 2 <= strength_of b
  | _ => False
  end.
