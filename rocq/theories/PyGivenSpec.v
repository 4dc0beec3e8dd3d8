(** Sources that use macros of the user. *)
From Verif Require Import Base LitModel PpSrcSpec PyDbModel PyDbSpec VhdlLexSpec SvLexSpec SvSpellSpec SvFileModel SvModSyntaxModel SvModSyntaxSpec SvModSpellSpec.

(** preproc_macro_db.update({n: text, ...}) *)
Definition update_with (l : list (str * str)) : op := OUpdate (map (fun p => (fst p, PText (snd p))) l).
(** The same macros, as a source would define them. *)
Definition as_defined (l : list (str * str)) : macros := map (fun p => (fst p, (None, snd p))) l.
(** [verilog_source_with e l text f]: with the macros e, defined before, the text describes the file f (ConvertSpec.v). *)
Inductive verilog_source_with (e : macros) (l : lang) : str -> list description -> Prop :=
| a_source_with (p : items) (out : str) (ps : list part) (ts : list mtk) (f : list description) :
    wf p [] -> meaning_with (lang_ge l SV2005) e p out -> (Z.of_nat (1 + lines (PpSrcSpec.render p)) < 2 ^ 61)%Z ->
    plain_verilog l ps out -> spelled_mod l ts (elems ps) -> is_file f ts -> verilog_source_with e l (PpSrcSpec.render p) f.
(** The macros that a dict holds: the parameters and the text of each object, under the key of its entry. *)
Definition held (w : world) : macros :=
  flat_map (fun p => match nth_error (w_objs w) (snd p) with Some m => [(fst p, (mk_params m, mk_body m))] | None => [] end) (w_dict w).
