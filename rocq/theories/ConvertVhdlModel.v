(** The VHDL front end: vhdlLexer, vhdlParser and VhdlDesignFileParser, put in the place of the unknown functions of
    ApiModel.v (src/hdlConvertor.cpp:24-33, src/vhdlConvertor/designFileParser.cpp:23-199). *)
From Verif Require Import Base AstModel ApiModel SvExprModel VhdlExprModel VhdlDeclModel VhdlSyntaxModel VhdlLexModel VhdlStmSyntaxModel VhdlUnitSyntaxModel.

(** The tree of a text, if there is no syntax error: hdlConvertor.cpp:28-30 *)
Definition vhdl_tree (s : str) : outcome (list dunit) :=
  l <- vhdl_lex s ;; match vhstks_of false l with Some ts => parse_vfile ts | None => no_vparse end.
(** The syntax errors of a text; their positions and messages are not modelled, and there is one at most. *)
Definition vhdl_errors (s : str) : list report := match vhdl_tree s with Ok _ => [] | _ => [mkRep 1 0 []] end.
(** The objects are appended to the context one after the other, in this order: designFileParser.cpp:36-45,85-97,140-199 *)
Definition citem_steps (c : citem) : list (outcome (list hobj)) :=
  match c with
  | CI_library l => map (fun n => Ok [O_library n]) l
  | CI_use l => map (fun n => o <- conv_use n ;; Ok [o]) l
  | CI_context _ => []
  end.
Definition unit_steps (h : bool) (u : dunit) : list (outcome (list hobj)) := flat_map citem_steps (fst u) ++ [conv_lunit h (snd u)].
(** An exception ends it.  Undefined behaviour and everything else that is no exception is left out: it counts as one here. *)
Fixpoint visit_steps (l : list (outcome (list hobj))) : list hobj * option exn :=
  match l with
  | [] => ([], None)
  | Ok o :: l' => let '(os, e) := visit_steps l' in (o ++ os, e)
  | Throw x :: _ => ([], Some x)
  | _ => ([], Some (RuntimeError []))
  end.
Definition vhdl_objects (h : bool) (s : str) : list hobj * option exn :=
  match vhdl_tree s with Ok f => visit_steps (flat_map (unit_steps h) f) | _ => ([], None) end.
