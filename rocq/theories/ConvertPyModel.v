(** HdlConvertor.parse and parse_str of the Python module for VHDL, with the conversion of the result to Python. *)
From Verif Require Import Base AstModel StmModel SvDeclModel VhdlDeclModel PyModel PyObjModel PyTreeModel OutBufferModel PpModel ApiModel ConvertVhdlModel.

(** _hdlConvertor.pyx:165-223: the context after the parse is converted by ToPy (toPy.cpp); after an exception of the parser
    nothing is converted.  The parse functions of the other languages are parameters (sy, sv) as in ApiModel.v. *)
Section Py.
Context (sy : lang -> str -> list report) (sv : lang -> bool -> str -> list hobj * option exn).
Definition shown_to_python (r : outcome (list hobj) * list hobj * db) : outcome pyval * list hobj * db :=
  (o <- fst (fst r) ;; py_context (map of_hobj o), snd (fst r), snd r).
Definition parse_to_python h fs enc dirs (files : list str) (d : db) (ctx : list hobj) : outcome pyval * list hobj * db :=
  shown_to_python (py_parse hobj vhdl_errors vhdl_objects sy sv VHDL h fs enc dirs files d ctx).
Definition parse_str_to_python h fs enc dirs (s : str) (d : db) (ctx : list hobj) : outcome pyval * list hobj * db :=
  shown_to_python (py_parse_str hobj vhdl_errors vhdl_objects sy sv VHDL h fs enc dirs s d ctx).
End Py.
