(** The expression part of the AST: include/hdlConvertor/hdlAst/{bigInteger,hdlValue,hdlOp,hdlOpType}.h. *)
From Verif Require Import Base.

(** BigInteger, bigInteger.h:15-32: either an int64_t or digits with a base. *)
Inductive bigint := Val (v : Z) | Digits (s : str) (base : Z).
(** HdlValueSymbol_t, hdlValue.h:81-89. *)
Inductive symb := symb_NULL | symb_OPEN | symb_ALL | symb_OTHERS | symb_T | symb_T_AUTO | symb_T_SUBTYPE.
(** HdlOpType, hdlOpType.h:6-106, in the order of the enum. *)
Inductive op :=
| MINUS_UNARY | PLUS_UNARY | SUB | ADD | DIV | MUL | MOD | REM | POW | ABS
| INCR_PRE | DECR_PRE | INCR_POST | DECR_POST
| NEG_LOG | NEG | AND_LOG | OR_LOG | AND | OR | NAND | NOR | XOR | XNOR
| OR_UNARY | AND_UNARY | NAND_UNARY | NOR_UNARY | XOR_UNARY | XNOR_UNARY
| SLL | SRL | SLA | SRA | ROL | ROR
| EQ | NE | IS | IS_NOT | LT | LE | GT | GE
| EQ_MATCH | NE_MATCH | LT_MATCH | LE_MATCH | GT_MATCH | GE_MATCH
| INDEX | CONCAT | REPL_CONCAT | PART_SELECT_POST | PART_SELECT_PRE
| DOT | DOUBLE_COLON | APOSTROPHE | ARROW | REFERENCE | DEREFERENCE
| ASSIGN | PLUS_ASSIGN | MINUS_ASSIGN | MUL_ASSIGN | DIV_ASSIGN | MOD_ASSIGN | AND_ASSIGN
| OR_ASSIGN | XOR_ASSIGN | SHIFT_LEFT_ASSIGN | SHIFT_RIGHT_ASSIGN
| ARITH_SHIFT_LEFT_ASSIGN | ARITH_SHIFT_RIGHT_ASSIGN
| TERNARY | CALL | RISING | FALLING | DOWNTO | TO | PARAMETRIZATION | MAP_ASSOCIATION | RANGE
| THROUGHOUT | DEFINE_RESOLVER | TYPE_OF | UNIT_SPEC.

Definition op_eq_dec (a b : op) : {a = b} + {a <> b}. Proof. decide equality. Defined.

(** iHdlExprItem and its subclasses, hdlValue.h:14-124, hdlOp.h:15-58.  bits is -1 when there is
    no width.  A float is kept as the text given to atof/stod, the rounding is not modelled.
    Code positions are not modelled.  [ENull] is a null pointer inside a container. *)
Inductive expr :=
| EId (s : str)
| EInt (bits : Z) (v : bigint)
| EFloat (text : str)
| EStr (s : str)
| EArr (l : list expr)
| ESym (s : symb)
| ENotImpl
| EOp (o : op) (l : list expr)
| ENull.

(** HdlOp::HdlOp(op, op0), HdlOp(op0, op, op1): hdlOp.cpp:23-38; a null operand is left out of the
    binary form. *)
Definition op1 (o : op) (a : expr) : expr := EOp o [a].
Definition opt_l (a : option expr) : list expr := match a with Some x => [x] | None => [] end.
Definition op2 (o : op) (a b : expr) : expr := EOp o [a; b].
(** HdlOp::call / index / parametrization / ternary, hdlOp.cpp:40-83. *)
Definition call_op (o : op) (fn : expr) (args : list expr) : expr := EOp o (fn :: args).
Definition ternary (c t : expr) (f : option expr) : expr := EOp TERNARY (c :: t :: opt_l f).

(** Induction through the lists of operands. *)
Fixpoint expr_ind' (P : expr -> Prop)
  (Hid : forall s, P (EId s)) (Hint : forall b v, P (EInt b v)) (Hfl : forall t, P (EFloat t))
  (Hstr : forall s, P (EStr s)) (Harr : forall l, Forall P l -> P (EArr l)) (Hsym : forall s, P (ESym s))
  (Hni : P ENotImpl) (Hop : forall o l, Forall P l -> P (EOp o l)) (Hnull : P ENull) (e : expr) : P e :=
  let all := fix all (l : list expr) : Forall P l :=
    match l with [] => Forall_nil P
            | x :: l' => Forall_cons x (expr_ind' P Hid Hint Hfl Hstr Harr Hsym Hni Hop Hnull x) (all l') end in
  match e with
  | EId s => Hid s | EInt b v => Hint b v | EFloat t => Hfl t | EStr s => Hstr s
  | EArr l => Harr l (all l) | ESym s => Hsym s | ENotImpl => Hni | EOp o l => Hop o l (all l) | ENull => Hnull
  end.
