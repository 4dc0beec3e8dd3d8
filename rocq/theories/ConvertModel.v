(** The Verilog front end behind the preprocessor: sv2017Lexer, sv2017Parser and Source_textParser, put in the place
    of the unknown functions of ApiModel.v (src/hdlConvertor.cpp:78-84, src/svConvertor/source_textParser.cpp:17-121). *)
From Verif Require Import Base AstModel PpModel ApiModel SvFileModel SvSyntaxModel SvLexModel SvModSyntaxModel.

(** The tree of a text, if there is no syntax error: hdlConvertor.cpp:78-82 *)
Definition sv_tree (v : lang) (s : str) : outcome (list description) :=
  l <- sv_lex v s ;; match modtoks_of l with Some ts => parse_source ts | None => no_parse end.
(** The syntax errors of a text; their positions and messages are not modelled, and there is one at most. *)
Definition sv_errors (v : lang) (s : str) : list report := match sv_tree v s with Ok _ => [] | _ => [mkRep 1 0 []] end.
(** visitSource_text: the objects are appended one after the other, an exception ends it.  Undefined behaviour
    and everything else that is no exception is left out: it counts as one here. *)
Fixpoint visit_descs (l : list description) : list fobj * option exn :=
  match l with
  | [] => ([], None)
  | DE_skipped :: l' => visit_descs l'
  | DE_module m :: l' =>
      match conv_mdecl m with
      | Ok o => let '(os, e) := visit_descs l' in (o :: os, e)
      | Throw x => ([], Some x)
      | _ => ([], Some (RuntimeError []))
      end
  end.
(** The flag hierarchyOnly [h] is handed down to every visitor of svConvertor, but it is looked at in one place only,
    source_textParser.cpp:22, where it suppresses the message about a timeunits_declaration. *)
Definition sv_objects (v : lang) (h : bool) (s : str) : list fobj * option exn :=
  match sv_tree v s with Ok f => visit_descs f | _ => ([], None) end.
