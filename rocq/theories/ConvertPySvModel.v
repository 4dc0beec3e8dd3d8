(** HdlConvertor.parse and parse_str of the Python module for Verilog, with the conversion of the result to Python. *)
From Verif Require Import Base AstModel StmModel SvDeclModel SvFileModel PyModel PyObjModel OutBufferModel PpModel ApiModel ConvertModel.
From Verif Require PyTreeModel.

(** [FO_other] holds the documentation of a module item apart from the object (SvFileModel.v): in front of that of the
    object, moduleParser.cpp:162-245; the attributes are behind those of the object, attributeParser.h:26-50 *)
Definition dress_hdr (d : str) (a : list (str * option expr)) (h : hdr) : hdr := mk_hdr (labels h) (d ++ doc h) (attrs h ++ a) (in_preproc h).
Definition dress_nhdr (d : str) (a : list (str * option expr)) (h : nhdr) : nhdr := mk_nhdr (n_name h) (d ++ n_doc h) (n_attrs h ++ a).
Definition dress (d : str) (a : list (str * option expr)) (o : obj) : obj :=
  let f := dress_hdr d a in let g := dress_nhdr d a in
  match o with
  | B_id x => B_id (more_attrs a (set_doc x (d ++ d_doc x)))
  | B_type x v => B_type (more_attrs a (set_doc x (d ++ d_doc x))) v
  | B_func h x p r b => B_func (g h) x p r b
  | B_dec h x p l => B_dec (g h) x p l
  | B_def h m x l => B_def (g h) m x l
  | B_space h x l => B_space (g h) x l
  | B_inst c x b => B_inst c (d ++ x) (b ++ a)
  | B_library h => B_library (g h)
  | B_import h l => B_import (f h) l
  | B_process h s t b => B_process (f h) s t b
  | B_block h j l => B_block (f h) j l
  | B_if h c t l e => B_if (f h) c t l e
  | B_case h u k e l x => B_case (f h) u k e l x
  | B_for h i c s b => B_for (f h) i c s b
  | B_forin h l c b => B_forin (f h) l c b
  | B_while h c b => B_while (f h) c b
  | B_repeat h n b => B_repeat (f h) n b
  | B_stm s => B_stm (set_hdr f s)
  | B_null => B_null
  end.
(** visitModule_declaration, moduleParser.cpp:52-155: a HdlModuleDef holds the HdlModuleDec and its name; it has no name,
    documentation and attributes of its own *)
Definition of_mdec (m : mdec) : obj := B_dec (mk_nhdr (md_name m) (md_doc m) (md_attrs m)) (md_generics m) (md_ports m) [].
Fixpoint of_fobj (o : fobj) : obj :=
  match o with
  | FO_id d => B_id d
  | FO_other d a x => dress d a (PyTreeModel.of_sobj x)
  | FO_dec m => of_mdec m
  | FO_def m l => B_def (PyTreeModel.plain []) (Some (EId (md_name m))) (Some (of_mdec m)) (map of_fobj l)
  end.
(** _hdlConvertor.pyx:165-223: the context after the parse is converted by ToPy (toPy.cpp); after an exception of the parser
    nothing is converted.  The parse functions for VHDL (vs, vv) are parameters as in P_C86.v. *)
Section Py.
Context (vs : str -> list report) (vv : bool -> str -> list fobj * option exn).
Definition verilog_shown (r : outcome (list fobj) * list fobj * db) : outcome pyval * list fobj * db :=
  (o <- fst (fst r) ;; py_context (map of_fobj o), snd (fst r), snd r).
Definition verilog_to_python (l : lang) h fs enc dirs (files : list str) (d : db) (ctx : list fobj) : outcome pyval * list fobj * db :=
  verilog_shown (py_parse fobj vs vv sv_errors sv_objects l h fs enc dirs files d ctx).
Definition verilog_str_to_python (l : lang) h fs enc dirs (s : str) (d : db) (ctx : list fobj) : outcome pyval * list fobj * db :=
  verilog_shown (py_parse_str fobj vs vv sv_errors sv_objects l h fs enc dirs s d ctx).
End Py.
