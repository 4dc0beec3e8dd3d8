(** VHDL sources. *)
From Verif Require Import Base VhdlDeclModel VhdlLexSpec VhdlStmSyntaxModel VhdlStmSpellSpec VhdlUnitSyntaxModel VhdlUnitSyntaxSpec.

(** [vhdl_source text l]: the text describes the design units l (C87).  Comments may have any characters. *)
Inductive vhdl_source : str -> list dunit -> Prop :=
| a_vhdl_source (text : str) (ps : list piece) (ts : list hstk) (l : list dunit) :
    plain_vhdl ps text -> spelled_hstm false ts (lexemes ps) -> w_file true false l ts -> vhdl_source text l.
(** The encodings that are known; utf-16 is broken (C18). *)
Definition known_encoding (enc : str) : Prop := enc = $"utf-8" \/ enc = $"iso-8859-1".
