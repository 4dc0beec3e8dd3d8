(** Model of the operator and symbol name tables: src/hdlAst/hdlOpType.cpp, src/hdlAst/hdlValue.cpp. *)
From Verif Require Import Base AstModel.

(** The values of the enumeration HdlOpType in the order of hdlOpType.h:6-106. *)
Definition op_enum : list op := [
  MINUS_UNARY; PLUS_UNARY; SUB; ADD; DIV; MUL; MOD; REM; POW; ABS; INCR_PRE; DECR_PRE; INCR_POST; DECR_POST;
  NEG_LOG; NEG; AND_LOG; OR_LOG; AND; OR; NAND; NOR; XOR; XNOR; OR_UNARY; AND_UNARY; NAND_UNARY; NOR_UNARY;
  XOR_UNARY; XNOR_UNARY; SLL; SRL; SLA; SRA; ROL; ROR; EQ; NE; IS; IS_NOT; LT; LE; GT; GE; EQ_MATCH; NE_MATCH;
  LT_MATCH; LE_MATCH; GT_MATCH; GE_MATCH; INDEX; CONCAT; REPL_CONCAT; PART_SELECT_POST; PART_SELECT_PRE; DOT;
  DOUBLE_COLON; APOSTROPHE; ARROW; REFERENCE; DEREFERENCE; ASSIGN; PLUS_ASSIGN; MINUS_ASSIGN; MUL_ASSIGN;
  DIV_ASSIGN; MOD_ASSIGN; AND_ASSIGN; OR_ASSIGN; XOR_ASSIGN; SHIFT_LEFT_ASSIGN; SHIFT_RIGHT_ASSIGN;
  ARITH_SHIFT_LEFT_ASSIGN; ARITH_SHIFT_RIGHT_ASSIGN; TERNARY; CALL; RISING; FALLING; DOWNTO; TO;
  PARAMETRIZATION; MAP_ASSOCIATION; RANGE; THROUGHOUT; DEFINE_RESOLVER; TYPE_OF; UNIT_SPEC].
Fixpoint pos_of (o : op) (l : list op) (i : nat) : nat :=
  match l with [] => i | p :: l' => if op_eq_dec o p then i else pos_of o l' (S i) end.
(** The number of an enumerator. *)
Definition op_number (o : op) : nat := pos_of o op_enum 0.
(** opTypeToStr, hdlOpType.cpp:8-96 *)
Definition op_table : list string := ([
  "MINUS_UNARY"; "PLUS_UNARY"; "SUB"; "ADD"; "DIV"; "MUL"; "MOD"; "REM"; "POW"; "ABS"; "INCR_PRE"; "DECR_PRE";
  "INCR_POST"; "DECR_POST"; "NEG_LOG"; "NEG"; "AND_LOG"; "OR_LOG"; "AND"; "OR"; "NAND"; "NOR"; "XOR"; "XNOR";
  "OR_UNARY"; "AND_UNARY"; "NAND_UNARY"; "NOR_UNARY"; "XOR_UNARY"; "XNOR_UNARY"; "SLL"; "SRL"; "SLA"; "SRA";
  "ROL"; "ROR"; "EQ"; "NE"; "IS"; "IS_NOT"; "LT"; "LE"; "GT"; "GE"; "EQ_MATCH"; "NE_MATCH"; "LT_MATCH";
  "LE_MATCH"; "GT_MATCH"; "GE_MATCH"; "INDEX"; "CONCAT"; "REPL_CONCAT"; "PART_SELECT_POST"; "PART_SELECT_PRE";
  "DOT"; "DOUBLE_COLON"; "APOSTROPHE"; "ARROW"; "REFERENCE"; "DEREFERENCE"; "ASSIGN"; "PLUS_ASSIGN";
  "MINUS_ASSIGN"; "MUL_ASSIGN"; "DIV_ASSIGN"; "MOD_ASSIGN"; "AND_ASSIGN"; "OR_ASSIGN"; "XOR_ASSIGN";
  "SHIFT_LEFT_ASSIGN"; "SHIFT_RIGHT_ASSIGN"; "ARITH_SHIFT_LEFT_ASSIGN"; "ARITH_SHIFT_RIGHT_ASSIGN"; "TERNARY";
  "CALL"; "RISING"; "FALLING"; "DOWNTO"; "TO"; "PARAMETRIZATION"; "MAP_ASSOCIATION"; "RANGE"; "THROUGHOUT";
  "DEFINE_RESOLVER"; "TYPE_OF"; "UNIT_SPEC"])%string.
(** HdlOpType_toString, hdlOpType.cpp:122-126 *)
Definition op_to_string (o : op) : outcome string :=
  if op_number UNIT_SPEC <? op_number o then Throw (RuntimeError $"Invalid operator type")
  else match nth_error op_table (op_number o) with Some s => Ok s | None => UB "opTypeToStr out of range" end.

(** HdlValueSymbol_t, hdlValue.h:81-89; HdlValueSymbol::toString, hdlValue.cpp:117-126 *)
Definition symb_number (s : symb) : nat :=
  match s with symb_NULL => 0 | symb_OPEN => 1 | symb_ALL => 2 | symb_OTHERS => 3 | symb_T => 4 | symb_T_AUTO => 5 | symb_T_SUBTYPE => 6 end.
Definition symb_table : list string := (["NULL"; "OPEN"; "ALL"; "OTHERS"; "T"; "AUTO"])%string.
Definition symb_to_string (s : symb) : outcome string :=
  match nth_error symb_table (symb_number s) with Some n => Ok n | None => Throw (OutOfRange $"array::at") end.
