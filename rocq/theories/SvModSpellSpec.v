(** Which lexical elements modules are written with.  Nothing here refers to the lexer; the tokens are those of
    SvModSyntaxModel.v, and those of statements are spelled as in SvStmSpellSpec.v. *)
From Verif Require Import Base StrSpec AstModel LitModel VhdlLexSpec SvLexModel SvLexSpec SvSpellSpec SvStmSyntaxModel SvStmSpellSpec SvModSyntaxModel.

Definition mkw_text (k : mkw) : str :=
  match k with
  | m_module => $"module" | m_macromodule => $"macromodule" | m_endmodule => $"endmodule" | m_extern => $"extern" | m_input => $"input" | m_output => $"output" | m_inout => $"inout"
  | m_signed => $"signed" | m_unsigned => $"unsigned" | m_parameter => $"parameter" | m_localparam => $"localparam" | m_assign => $"assign" | m_genvar => $"genvar"
  | m_generate => $"generate" | m_endgenerate => $"endgenerate"
  end.
(** net_type, integer_vector_type, integer_atom_type and non_integer_type, IEEE 1800-2017 A.2.2.1 *)
Definition net_types : list str := [$"supply0"; $"supply1"; $"tri"; $"triand"; $"trior"; $"trireg"; $"tri0"; $"tri1"; $"uwire"; $"wire"; $"wand"; $"wor"].
Definition vector_types : list str := [$"bit"; $"logic"; $"reg"].
Definition atom_types : list str := [$"byte"; $"shortint"; $"int"; $"longint"; $"integer"; $"time"].
Definition real_types : list str := [$"shortreal"; $"real"; $"realtime"].
(** [spells_mtk v t l]: l is a lexical element for t in the version v of the language. *)
Definition spells_mtk (v : lang) (t : mtk) (l : elem) : Prop :=
  match t with
  | Y t => spells_stk v t l
  | M k => l = T_word (mkw_text k) /\ In (mkw_text k) (reserved_words v)
  | Net w => l = T_word w /\ In w net_types /\ In w (reserved_words v)
  | Vec w => l = T_word w /\ In w vector_types /\ In w (reserved_words v)
  | Atom w => l = T_word w /\ In w atom_types /\ In w (reserved_words v)
  | Nonint w => l = T_word w /\ In w real_types /\ In w (reserved_words v)
  end.
Definition spelled_mod (v : lang) : list mtk -> list elem -> Prop := Forall2 (spells_mtk v).
