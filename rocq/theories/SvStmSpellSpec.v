(** Which lexical elements a Verilog statement is written with.  Nothing here refers to the lexer; the tokens
    of statements are those of SvStmSyntaxModel.v. *)
From Verif Require Import Base StrSpec AstModel LitModel SvExprModel SvSyntaxModel VhdlLexSpec SvLexModel SvLexSpec SvSpellSpec SvStmSyntaxModel.

Definition kw_text (k : kw) : str :=
  match k with
  | k_begin => $"begin" | k_end => $"end" | k_fork => $"fork" | k_join => $"join" | k_join_any => $"join_any" | k_join_none => $"join_none" | k_if => $"if" | k_else => $"else"
  | k_case => $"case" | k_casez => $"casez" | k_casex => $"casex" | k_endcase => $"endcase" | k_default => $"default" | k_unique => $"unique" | k_unique0 => $"unique0"
  | k_priority => $"priority" | k_forever => $"forever" | k_repeat => $"repeat" | k_while => $"while" | k_do => $"do" | k_for => $"for" | k_return => $"return" | k_break => $"break"
  | k_continue => $"continue" | k_void => $"void" | k_posedge => $"posedge" | k_negedge => $"negedge" | k_edge => $"edge" | k_or => $"or" | k_iff => $"iff" | k_always => $"always"
  | k_always_comb => $"always_comb" | k_always_latch => $"always_latch" | k_always_ff => $"always_ff" | k_initial => $"initial"
  end.
Definition asg_text (o : asgop) : str :=
  match o with
  | A_ASSIGN => $"=" | A_PLUS => $"+=" | A_MINUS => $"-=" | A_MUL => $"*=" | A_DIV => $"/=" | A_MOD => $"%=" | A_AND => $"&=" | A_OR => $"|=" | A_XOR => $"^="
  | A_SHL => $"<<=" | A_SHR => $">>=" | A_ASHL => $"<<<=" | A_ASHR => $">>>="
  end.
(** [spells_stk v t l]: l is a lexical element for t in the version v of the language. *)
Definition spells_stk (v : lang) (t : stk) (l : elem) : Prop :=
  match t with
  | X t => spells v t l
  | Kw k => l = T_word (kw_text k) /\ In (kw_text k) (reserved_words v)
  | Asg o => l = T_sign (asg_text o)
  | Semi => l = T_sign $";" | Inc => l = T_sign $"++" | Dec => l = T_sign $"--" | At => l = T_sign $"@" | Hash => l = T_sign $"#" | Apos => l = T_sign $"'"
  end.
Definition spelled_stm (v : lang) : list stk -> list elem -> Prop := Forall2 (spells_stk v).
