(** Which lexical elements an expression is written with, and what may stand between the tokens of a
    text.  Nothing here refers to the lexer; the tokens of expressions are those of VhdlSyntaxModel.v. *)
From Verif Require Import Base StrSpec AstModel LitModel SvExprModel VhdlExprModel VhdlSyntaxModel VhdlLexModel VhdlLexSpec.

Definition word_of (t : vtok) : option str :=
  match t with
  | KLog O_AND => Some $"and" | KLog O_OR => Some $"or" | KLog O_NAND => Some $"nand" | KLog O_NOR => Some $"nor" | KLog O_XOR => Some $"xor" | KLog O_XNOR => Some $"xnor"
  | KShift O_SLL => Some $"sll" | KShift O_SRL => Some $"srl" | KShift O_SLA => Some $"sla" | KShift O_SRA => Some $"sra" | KShift O_ROL => Some $"rol" | KShift O_ROR => Some $"ror"
  | KMul O_MOD => Some $"mod" | KMul O_REM => Some $"rem" | KAbs => Some $"abs" | KNot => Some $"not" | KNull => Some $"null"
  | KDir To => Some $"to" | KDir Downto => Some $"downto" | KAll => Some $"all" | KOpen => Some $"open" | KOthers => Some $"others"
  | _ => None
  end.
Definition sign_of (t : vtok) : option str :=
  match t with
  | KRel O_EQ => Some $"=" | KRel O_NE => Some $"/=" | KRel O_LT => Some $"<" | KRel O_LE => Some $"<=" | KRel O_GT => Some $">" | KRel O_GE => Some $">="
  | KRel O_MEQ => Some $"?=" | KRel O_MNE => Some $"?/=" | KRel O_MLT => Some $"?<" | KRel O_MLE => Some $"?<=" | KRel O_MGT => Some $"?>" | KRel O_MGE => Some $"?>="
  | KAdd O_PLUS => Some $"+" | KAdd O_MINUS => Some $"-" | KAdd O_AMP => Some $"&" | KMul O_MUL => Some $"*" | KMul O_DIV => Some $"/" | KPow => Some $"**" | KCond => Some $"??"
  | KLp => Some $"(" | KRp => Some $")" | KComma => Some $"," | KDot => Some $"." | KTick => Some $"'" | KArrow => Some $"=>" | KBar => Some $"|"
  | _ => None
  end.
(** [spells tick t l]: l is a lexical element for t; tick: t follows an apostrophe, where a reserved word
    (range, subtype) is a name. *)
Definition spells (tick : bool) (t : vtok) (l : lexeme) : Prop :=
  match l with
  | L_word w => match t with KLit (NL_id n) => n = w /\ (tick = true \/ ~ In (map small w) reserved) | _ => tick = false /\ word_of t = Some (map small w) end
  | L_extended _ => t = KLit (NL_id (lexeme_text l))
  | L_string _ => t = KLit (NL_op (lexeme_text l))
  | L_char _ => t = KLit (NL_char (lexeme_text l))
  | L_decimal s => t = KDec s
  | L_based s => t = KBasedLit s
  | L_bits _ _ => t = KBits (lexeme_text l)
  | L_delim d => sign_of t = Some d
  end.
Inductive spelled : bool -> list vtok -> list lexeme -> Prop :=
| sp_nil tick : spelled tick [] []
| sp_cons tick t l ts ls : spells tick t l -> spelled (match t with KTick => true | _ => false end) ts ls -> spelled tick (t :: ts) (l :: ls).

(** A text is a sequence of tokens with layout between them. *)
Inductive layout : str -> Prop :=
| lay_blank c : In c [sp; tab; nl; cr] -> layout [c]
| lay_line t : ~ In nl t -> layout ($"--" ++ t)
| lay_block t : ~ occurs $"*/" t -> layout ($"/*" ++ t ++ $"*/").
Inductive made_of : list str -> str -> Prop :=
| mo_nil : made_of [] []
| mo_token t ts s : t <> [] -> made_of ts s -> made_of (t :: ts) (t ++ s)
| mo_layout l ts s : layout l -> made_of ts s -> made_of ts (l ++ s).
