(** The name of every operator kind, as written in the documentation of the enumeration. *)
From Verif Require Import Base AstModel.
Definition op_name (o : op) : string :=
  (match o with
  | MINUS_UNARY => "MINUS_UNARY" | PLUS_UNARY => "PLUS_UNARY" | SUB => "SUB" | ADD => "ADD" | DIV => "DIV"
  | MUL => "MUL" | MOD => "MOD" | REM => "REM" | POW => "POW" | ABS => "ABS" | INCR_PRE => "INCR_PRE"
  | DECR_PRE => "DECR_PRE" | INCR_POST => "INCR_POST" | DECR_POST => "DECR_POST" | NEG_LOG => "NEG_LOG"
  | NEG => "NEG" | AND_LOG => "AND_LOG" | OR_LOG => "OR_LOG" | AND => "AND" | OR => "OR" | NAND => "NAND"
  | NOR => "NOR" | XOR => "XOR" | XNOR => "XNOR" | OR_UNARY => "OR_UNARY" | AND_UNARY => "AND_UNARY"
  | NAND_UNARY => "NAND_UNARY" | NOR_UNARY => "NOR_UNARY" | XOR_UNARY => "XOR_UNARY"
  | XNOR_UNARY => "XNOR_UNARY" | SLL => "SLL" | SRL => "SRL" | SLA => "SLA" | SRA => "SRA" | ROL => "ROL"
  | ROR => "ROR" | EQ => "EQ" | NE => "NE" | IS => "IS" | IS_NOT => "IS_NOT" | LT => "LT" | LE => "LE"
  | GT => "GT" | GE => "GE" | EQ_MATCH => "EQ_MATCH" | NE_MATCH => "NE_MATCH" | LT_MATCH => "LT_MATCH"
  | LE_MATCH => "LE_MATCH" | GT_MATCH => "GT_MATCH" | GE_MATCH => "GE_MATCH" | INDEX => "INDEX"
  | CONCAT => "CONCAT" | REPL_CONCAT => "REPL_CONCAT" | PART_SELECT_POST => "PART_SELECT_POST"
  | PART_SELECT_PRE => "PART_SELECT_PRE" | DOT => "DOT" | DOUBLE_COLON => "DOUBLE_COLON"
  | APOSTROPHE => "APOSTROPHE" | ARROW => "ARROW" | REFERENCE => "REFERENCE" | DEREFERENCE => "DEREFERENCE"
  | ASSIGN => "ASSIGN" | PLUS_ASSIGN => "PLUS_ASSIGN" | MINUS_ASSIGN => "MINUS_ASSIGN"
  | MUL_ASSIGN => "MUL_ASSIGN" | DIV_ASSIGN => "DIV_ASSIGN" | MOD_ASSIGN => "MOD_ASSIGN"
  | AND_ASSIGN => "AND_ASSIGN" | OR_ASSIGN => "OR_ASSIGN" | XOR_ASSIGN => "XOR_ASSIGN"
  | SHIFT_LEFT_ASSIGN => "SHIFT_LEFT_ASSIGN" | SHIFT_RIGHT_ASSIGN => "SHIFT_RIGHT_ASSIGN"
  | ARITH_SHIFT_LEFT_ASSIGN => "ARITH_SHIFT_LEFT_ASSIGN"
  | ARITH_SHIFT_RIGHT_ASSIGN => "ARITH_SHIFT_RIGHT_ASSIGN" | TERNARY => "TERNARY" | CALL => "CALL"
  | RISING => "RISING" | FALLING => "FALLING" | DOWNTO => "DOWNTO" | TO => "TO"
  | PARAMETRIZATION => "PARAMETRIZATION" | MAP_ASSOCIATION => "MAP_ASSOCIATION" | RANGE => "RANGE"
  | THROUGHOUT => "THROUGHOUT" | DEFINE_RESOLVER => "DEFINE_RESOLVER" | TYPE_OF => "TYPE_OF"
  | UNIT_SPEC => "UNIT_SPEC"
  end)%string.
