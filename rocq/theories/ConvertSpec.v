(** Verilog sources: text with macros and conditionals whose expansion is the text of a file of modules. *)
From Verif Require Import Base LitModel PpSrcSpec VhdlLexSpec SvLexSpec SvSpellSpec SvFileModel SvModSyntaxModel SvModSyntaxSpec SvModSpellSpec.

(** [verilog_source l text f]: in the version l of the language the text, before preprocessing, describes the file f. *)
Inductive verilog_source (l : lang) : str -> list description -> Prop :=
| a_source (p : items) (out : str) (ps : list part) (ts : list mtk) (f : list description) :
    wf p [] -> meaning (lang_ge l SV2005) p out -> (Z.of_nat (1 + lines (PpSrcSpec.render p)) < 2 ^ 61)%Z ->
    plain_verilog l ps out -> spelled_mod l ts (elems ps) -> is_file f ts -> verilog_source l (PpSrcSpec.render p) f.
