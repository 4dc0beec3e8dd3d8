(** Which lexical elements a VHDL statement is written with.  Nothing here refers to the lexer; the tokens
    of statements are those of VhdlStmSyntaxModel.v. *)
From Verif Require Import Base StrSpec AstModel LitModel SvExprModel VhdlExprModel VhdlSyntaxModel VhdlLexModel VhdlLexSpec VhdlSpellSpec VhdlStmSyntaxModel.

Definition hkw_text (k : hkw) : str :=
  match k with
  | k_after => $"after" | k_assert => $"assert" | k_begin => $"begin" | k_case => $"case" | k_else => $"else" | k_elsif => $"elsif" | k_end => $"end" | k_exit => $"exit" | k_for => $"for"
  | k_if => $"if" | k_in => $"in" | k_is => $"is" | k_loop => $"loop" | k_next => $"next" | k_on => $"on" | k_process => $"process" | k_report => $"report" | k_return => $"return"
  | k_select => $"select" | k_severity => $"severity" | k_then => $"then" | k_unaffected => $"unaffected" | k_until => $"until" | k_wait => $"wait" | k_when => $"when" | k_while => $"while"
  | k_with => $"with"
  | k_alias => $"alias" | k_architecture => $"architecture" | k_array => $"array" | k_block => $"block" | k_body => $"body" | k_buffer => $"buffer" | k_component => $"component" | k_configuration => $"configuration" | k_constant => $"constant" | k_entity => $"entity" | k_function => $"function" | k_generate => $"generate" | k_generic => $"generic" | k_impure => $"impure" | k_inout => $"inout" | k_library => $"library"
  | k_linkage => $"linkage" | k_map => $"map" | k_of => $"of" | k_out => $"out" | k_package => $"package" | k_parameter => $"parameter" | k_port => $"port" | k_procedure => $"procedure" | k_pure => $"pure" | k_range => $"range" | k_record => $"record" | k_shared => $"shared" | k_signal => $"signal" | k_subtype => $"subtype" | k_type => $"type" | k_use => $"use" | k_variable => $"variable"
  end.
(** [spells_hstk tick t l]: l is a lexical element for t; tick: t follows an apostrophe.  Reserved words may be
    written in capital letters. *)
Definition spells_hstk (tick : bool) (t : hstk) (l : lexeme) : Prop :=
  match t with
  | X t => spells tick t l
  | Kw k => tick = false /\ exists w, l = L_word w /\ map small w = hkw_text k
  | Semi => l = L_delim $";" | Colon => l = L_delim $":" | VarAsg => l = L_delim $":=" | Quest => l = L_delim $"?" | Box => l = L_delim $"<>"
  end.
Inductive spelled_hstm : bool -> list hstk -> list lexeme -> Prop :=
| sph_nil tick : spelled_hstm tick [] []
| sph_cons tick t l ts ls : spells_hstk tick t l -> spelled_hstm (match t with X KTick => true | _ => false end) ts ls -> spelled_hstm tick (t :: ts) (l :: ls).
