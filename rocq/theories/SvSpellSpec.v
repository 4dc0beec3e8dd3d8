(** Which lexical elements a Verilog expression is written with, and what may stand between the tokens of
    a text.  Nothing here refers to the lexer; the tokens of expressions are those of SvSyntaxModel.v. *)
From Verif Require Import Base StrSpec AstModel LitModel SvExprModel SvSyntaxModel VhdlLexSpec SvLexModel SvLexSpec.

Definition op_text (o : sym) : str :=
  match o with
  | S_PLUS => $"+" | S_MINUS => $"-" | S_NOT => $"!" | S_NEG => $"~" | S_AMPERSAND => $"&" | S_NAND => $"~&" | S_BAR => $"|" | S_NOR => $"~|"
  | S_XOR => $"^" | S_NXOR => $"~^" | S_XORN => $"^~" | S_DOUBLESTAR => $"**" | S_MUL => $"*" | S_DIV => $"/" | S_MOD => $"%"
  | S_SHIFT_LEFT => $"<<" | S_SHIFT_RIGHT => $">>" | S_ARITH_SHIFT_LEFT => $"<<<" | S_ARITH_SHIFT_RIGHT => $">>>"
  | S_LT => $"<" | S_LE => $"<=" | S_GT => $">" | S_GE => $">=" | S_EQ => $"==" | S_NE => $"!=" | S_CASE_EQ => $"===" | S_CASE_NE => $"!=="
  | S_WILDCARD_EQ => $"==?" | S_WILDCARD_NE => $"!=?" | S_AND_LOG => $"&&" | S_OR_LOG => $"||" | S_ARROW => $"->" | S_BI_DIR_ARROW => $"<->"
  end.
Definition sign_text (t : tok) : option str :=
  match t with
  | KOp o => Some (op_text o) | KAnd3 => Some $"&&&" | KDolar => Some $"$"
  | KLp => Some $"(" | KRp => Some $")" | KLs => Some $"[" | KRs => Some $"]" | KLb => Some $"{" | KRb => Some $"}" | KComma => Some $","
  | KQuest => Some $"?" | KColon => Some $":" | KColon2 => Some $"::" | KDot => Some $"."
  | _ => None
  end.
(** [spells v t l]: l is a lexical element for t in the version v of the language. *)
Definition spells (v : lang) (t : tok) (l : elem) : Prop :=
  match l with
  | T_word w => match t with KId n => n = w /\ ~ In w (reserved_words v) /\ w <> $"PATHPULSE$" | KNull => w = $"null" /\ In w (reserved_words v) | _ => False end
  | T_system _ => False
  | T_escaped _ _ => t = KEscId (elem_text l)
  | T_unsigned s => t = KUnsigned s
  | T_based [] _ _ _ _ => t = KBased (elem_text l)
  | T_based _ _ _ _ _ => t = KSized (elem_text l)
  | T_fixed _ | T_exp _ _ => t = KReal (elem_text l)
  | T_time _ _ => t = KTime (elem_text l)
  | T_unbased _ => t = KUnbased (elem_text l)
  | T_string _ => t = KString (elem_text l)
  | T_sign d => sign_text t = Some d
  end.
Definition spelled (v : lang) : list tok -> list elem -> Prop := Forall2 (spells v).

(** A text is a sequence of tokens with layout between them. *)
Inductive layout : str -> Prop :=
| lay_white w : w <> [] -> all white w -> layout w
| lay_line t e : ~ In nl t -> In e [ []; [nl] ] -> layout ($"//" ++ t ++ e)
| lay_block t : ~ occurs $"*/" t -> layout ($"/*" ++ t ++ $"*/").
Inductive made_of : list str -> str -> Prop :=
| mo_nil : made_of [] []
| mo_token t ts s : t <> [] -> made_of ts s -> made_of (t :: ts) (t ++ s)
| mo_layout l ts s : layout l -> made_of ts s -> made_of ts (l ++ s).
(** the form of an identifier *)
Definition word_form (s : str) : Prop := exists c t, s = c :: t /\ word_start c = true /\ all word_char t.
