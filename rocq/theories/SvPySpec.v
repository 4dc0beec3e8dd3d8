(** Verilog sources that Python can be told of. *)
From Verif Require Import Base LitModel PpSrcSpec VhdlLexSpec SvLexSpec SvSpellSpec SvDeclModel SvFileModel SvModSyntaxModel SvModSyntaxSpec SvModSpellSpec PySpec.

(** The first port of an ANSI header has a direction, IEEE 1800-2017 23.2.2.3: in a module without body nothing else
    gives it one. *)
Definition first_dir (p : hports) : bool := match p with HP_ansi ((_, _, AN_port None _ _) :: _) => false | _ => true end.
Fixpoint known_mod (m : mdecl) : bool :=
  match m with MD ext _ p l => (negb ext || first_dir p) && forallb (fun i => match i with MT_module m => known_mod m | _ => true end) l end.
Definition known_file (l : list description) : bool := forallb (fun d => match d with DE_module m => known_mod m | DE_skipped => true end) l.

(** [utf8_source l text f]: in the version l of the language the text, before preprocessing, describes the file f; the
    strings in it are UTF-8 and have no NUL character. *)
Inductive utf8_source (l : lang) : str -> list description -> Prop :=
| a_utf8_source (p : items) (out : str) (ps : list part) (ts : list mtk) (f : list description) :
    wf p [] -> meaning (lang_ge l SV2005) p out -> (Z.of_nat (1 + lines (PpSrcSpec.render p)) < 2 ^ 61)%Z ->
    plain_verilog l ps out -> spelled_mod l ts (elems ps) -> is_file f ts ->
    (forall s, In (T_string s) (elems ps) -> sendable_text s = true) -> utf8_source l (PpSrcSpec.render p) f.
