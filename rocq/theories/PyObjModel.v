(** Model of the conversion of declarations, modules, functions, packages, instances and whole files to Python:
    hdlConvertor/toPy.cpp, hdlConvertor/toPy_type.cpp and the statements that hold objects, toPy_statements.cpp. *)
From Verif Require Import Base AstModel OpModel StmModel PyModel.
From Verif Require SvExprModel SvDeclModel VhdlDeclModel.
Import SvExprModel(mapM) SvDeclModel(compinst, mk_compinst, ci_name, ci_module, ci_generics, ci_ports)
  VhdlDeclModel(tval, TV_expr, TV_enum, TV_physical, TV_record).

(** ** The AST *)
(** name, __doc__, hdlAttributes: named.h:12-47, iHdlObj.h:17-26 *)
Record nhdr := mk_nhdr { n_name : str; n_doc : str; n_attrs : list (str * option expr) }.
(** The flags of HdlFunctionDef, hdlFunctionDef.h:16-29 *)
Record fflags := mk_fflags { f_decl_only : bool; f_operator : bool; f_static : bool; f_task : bool; f_virtual : bool; f_impure : bool }.
(** iHdlObj and the classes derived from it: hdlIdDef.h, hdlTypes.h, hdlFunctionDef.h, hdlModuleDec.h, hdlModuleDef.h,
    hdlNamespace.h, hdlCompInst.h, hdlLibrary.h, hdlStm*.h.  Statements that hold other objects have a constructor
    each, [B_stm] is for the others.  [B_type]: a definition whose value is a definition of a type (the type of
    HdlClassDef is always STRUCT); [B_null]: a null pointer.  base_type of HdlEnumDef, base_types, is_packed and
    is_virtual of HdlClassDef are never set and not read by toPy. *)
Inductive obj :=
| B_id (d : iddef)
| B_type (d : iddef) (v : tval)
| B_func (h : nhdr) (f : fflags) (ps : option (list iddef)) (ret : option expr) (body : list obj)
| B_dec (h : nhdr) (generics ports : list iddef) (objs : list obj)
| B_def (h : nhdr) (of_ : option expr) (dec : option obj) (objs : list obj)
| B_space (h : nhdr) (defs_only : bool) (objs : list obj)
| B_inst (c : compinst) (doc : str) (attrs : list (str * option expr))
| B_library (h : nhdr)
| B_import (h : hdr) (path : list expr)
| B_process (h : hdr) (sens : option (list expr)) (t : trigger) (b : obj)
| B_block (h : hdr) (j : join_type) (l : list obj)
| B_if (h : hdr) (c : expr) (t : obj) (elifs : list (expr * obj)) (f : option obj)
| B_case (h : hdr) (u : uniq) (k : case_type) (sel : expr) (l : list (expr * obj)) (dflt : option obj)
| B_for (h : hdr) (init : obj) (c : expr) (step b : obj)
| B_forin (h : hdr) (vars : list obj) (coll : expr) (b : obj)
| B_while (h : hdr) (c : expr) (b : obj)
| B_repeat (h : hdr) (n : expr) (b : obj)
| B_stm (s : stm)
| B_null.

(** ** Types: toPy_type.cpp *)
(** toPy(pair<const std::string*, const iHdlExprItem*>), toPy_type.cpp:63-86: Py_DECREF of the null pointer when the
    value is not convertible *)
Definition py_member (m : option str * option expr) : outcome pyval :=
  n <- match fst m with Some s => py_str s | None => Ok PNone end ;;
  v <- match snd m with Some e => decref_null (py_expr e) | None => Ok PNone end ;;
  Ok (PTuple [n; v]).
Definition some_name (m : str * option expr) : option str * option expr := (Some (fst m), snd m).
(** toPy(HdlClassDef), toPy(HdlPhysicalDef), toPy(HdlEnumDef), toPy_type.cpp:7-50 *)
Definition py_tval (v : tval) : outcome pyval :=
  match v with
  | TV_expr e => py_expr e
  | TV_enum l => r <- mapM py_member l ;; Ok (PObj "HdlEnumDef" [("values" ~> PList r)])
  | TV_physical x l =>
      y <- py_expr x ;; r <- mapM py_member (map some_name l) ;; Ok (PObj "HdlPhysicalDef" [("range" ~> y); ("members" ~> PList r)])
  | TV_record l => r <- mapM py_iddef l ;; Ok (PObj "HdlClassDef" [("type" ~> PEnum "HdlClassType" "STRUCT"); ("members" ~> PList r)])
  end.
(** toPy(HdlIdDef), toPy.cpp:350-380, for a value that is a type *)
Definition py_typedef (d : iddef) (tv : tval) : outcome pyval :=
  n <- py_name (d_name d) ;; dc <- py_doc (d_doc d) ;;
  t <- match d_type d with ENull => Ok [] | e => x <- py_expr e ;; Ok ["type" ~> x] end ;;
  v <- py_tval tv ;;
  dir <- py_dir (d_dir d) ;; a <- py_attrs (d_attrs d) ;;
  Ok (PObj "HdlIdDef" (n ++ dc ++ t ++ ["value" ~> v] ++ [("is_latched" ~> PBool (d_latched d)); ("is_const" ~> PBool (d_const d)); ("is_static" ~> PBool (d_static d));
        ("is_shared" ~> PBool (d_shared d)); ("is_alias" ~> PBool (d_alias d)); ("direction" ~> dir)] ++ a)).

(** ** Objects *)
(** toPy(WithNameAndDoc), toPy.cpp:145-163 *)
Definition py_nhdr (h : nhdr) : outcome (list (string * pyval)) := n <- py_name (n_name h) ;; d <- py_doc (n_doc h) ;; Ok (n ++ d).
(** toPy(HdlFunctionDef), toPy.cpp:245-265 *)
Definition py_flags (f : fflags) : list (string * pyval) :=
  [("is_declaration_only" ~> PBool (f_decl_only f)); ("is_operator" ~> PBool (f_operator f)); ("is_static" ~> PBool (f_static f));
   ("is_task" ~> PBool (f_task f)); ("is_virtual" ~> PBool (f_virtual f)); ("is_impure" ~> PBool (f_impure f))].
(** toPy(HdlCompInst), toPy.cpp:210-224: __doc__ is not read *)
Definition py_inst (c : compinst) (a : list (str * option expr)) : outcome pyval :=
  n <- py_expr (ci_name c) ;; m <- py_expr (ci_module c) ;; g <- mapM py_expr (ci_generics c) ;; p <- mapM py_expr (ci_ports c) ;; k <- py_attrs a ;;
  Ok (PObj "HdlCompInst" ([("name" ~> n); ("module_name" ~> m); ("param_map" ~> PList g); ("port_map" ~> PList p)] ++ k)).
(** toPy(HdlLibrary), toPy.cpp:102-111 *)
Definition py_library (h : nhdr) : outcome pyval := k <- py_nhdr h ;; a <- py_attrs (n_attrs h) ;; Ok (PObj "HdlLibrary" (k ++ a)).
(** toPy(HdlStmImport), toPy_statements.cpp:285-300 *)
Definition py_import (h : hdr) (l : list expr) : outcome pyval := r <- mapM py_expr l ;; k <- py_hdr h ;; Ok (PObj "HdlImport" (("path" ~> PList r) :: k)).
(** A pointer that is statically an iHdlStatement; see [not_null] *)
Definition obj_not_null (o : obj) (m : outcome pyval) : outcome pyval := match o with B_null => UB "std::bad_typeid: terminate" | _ => m end.
Definition py_sens (sens : option (list expr)) : outcome (list (string * pyval)) :=
  match sens with Some l => r <- mapM py_expr l ;; Ok [("sensitivity" ~> PList r)] | None => Ok [] end.
(** toPy(iHdlObj), toPy.cpp:110-143; toPy(HdlModuleDef), toPy(HdlModuleDec), toPy(HdlFunctionDef), toPy(HdlValueIdspace), toPy.cpp:189-348;
    statements: toPy_statements.cpp *)
Fixpoint py_obj (o : obj) : outcome pyval :=
  let pair (p : expr * obj) := match p with (c, b) => x <- py_expr c ;; y <- py_obj b ;; Ok (PTuple [x; y]) end in
  match o with
  | B_id d => py_iddef d
  | B_type d v => py_typedef d v
  | B_func h f ps ret body =>
      k <- py_nhdr h ;;
      p <- match ps with Some l => r <- mapM py_iddef l ;; Ok [("params" ~> PList r)] | None => Ok [] end ;;
      t <- py_opt py_expr "return_t" ret ;; b <- mapM py_obj body ;; a <- py_attrs (n_attrs h) ;;
      Ok (PObj "HdlFunctionDef" (k ++ py_flags f ++ p ++ t ++ [("body" ~> PList b)] ++ a))
  | B_dec h gs ps l =>
      k <- py_nhdr h ;; g <- mapM py_iddef gs ;; p <- mapM py_iddef ps ;; b <- mapM py_obj l ;; a <- py_attrs (n_attrs h) ;;
      Ok (PObj "HdlModuleDec" (k ++ [("params" ~> PList g); ("ports" ~> PList p); ("objs" ~> PList b)] ++ a))
  | B_def h m d l =>
      k <- py_nhdr h ;; x <- py_opt py_expr "module_name" m ;;
      y <- match d with Some d => v <- py_obj d ;; Ok [("dec" ~> v)] | None => Ok [] end ;;
      b <- mapM py_obj l ;; a <- py_attrs (n_attrs h) ;;
      Ok (PObj "HdlModuleDef" (k ++ x ++ y ++ [("objs" ~> PList b)] ++ a))
  | B_space h o l =>
      k <- py_nhdr h ;; b <- mapM py_obj l ;; a <- py_attrs (n_attrs h) ;;
      Ok (PObj "HdlValueIdspace" (k ++ [("objs" ~> PList b); ("declaration_only" ~> PBool o)] ++ a))
  | B_inst c _ a => py_inst c a
  | B_library h => py_library h
  | B_import h l => py_import h l
  | B_process h sens t b =>
      x <- py_sens sens ;; w <- obj_not_null b (py_obj b) ;; k <- py_hdr h ;; Ok (PObj "HdlStmProcess" (py_trigger t ++ x ++ [("body" ~> w)] ++ k))
  | B_block h j l => r <- mapM py_obj l ;; k <- py_hdr h ;; Ok (PObj "HdlStmBlock" ([("join_t" ~> py_join j); ("body" ~> PList r)] ++ k))
  | B_if h c t l f =>
      x <- py_expr c ;; y <- py_obj t ;; z <- mapM pair l ;;
      w <- match f with Some b => v <- py_obj b ;; Ok [("if_false" ~> v)] | None => Ok [] end ;;
      k <- py_hdr h ;; Ok (PObj "HdlStmIf" ([("cond" ~> x); ("if_true" ~> y); ("elifs" ~> PList z)] ++ w ++ k))
  | B_case h u ct e l d =>
      x <- py_expr e ;; z <- mapM pair l ;;
      w <- match d with Some b => v <- py_obj b ;; Ok [("default" ~> v)] | None => Ok [] end ;;
      k <- py_hdr h ;; Ok (PObj "HdlStmCase" (py_uniq u ++ [("type" ~> py_case_type ct); ("switch_on" ~> x); ("cases" ~> PList z)] ++ w ++ k))
  | B_for h i c st b =>
      x <- obj_not_null i (py_obj i) ;; y <- py_expr c ;; z <- obj_not_null st (py_obj st) ;; w <- py_obj b ;; k <- py_hdr h ;;
      Ok (PObj "HdlStmFor" ([("init" ~> x); ("cond" ~> y); ("step" ~> z); ("body" ~> w)] ++ k))
  | B_forin h vs c b =>
      x <- mapM py_obj vs ;; y <- py_expr c ;; w <- py_obj b ;; k <- py_hdr h ;;
      Ok (PObj "HdlStmForIn" ([("var_defs" ~> PList x); ("collection" ~> y); ("body" ~> w)] ++ k))
  | B_while h c b => x <- py_expr c ;; w <- obj_not_null b (py_obj b) ;; k <- py_hdr h ;; Ok (PObj "HdlStmWhile" ([("cond" ~> x); ("body" ~> w)] ++ k))
  | B_repeat h n b => x <- py_expr n ;; w <- py_obj b ;; k <- py_hdr h ;; Ok (PObj "HdlStmRepeat" ([("n" ~> x); ("body" ~> w)] ++ k))
  | B_stm s => py_stm s
  | B_null => py_error "ToPy::toPy called for nullptr"
  end.
(** toPy(HdlContext), toPy.cpp:92-100: the result of HdlConvertor.parse, _hdlConvertor.pyx *)
Definition py_context (l : list obj) : outcome pyval := r <- mapM py_obj l ;; Ok (PObj "HdlContext" [("objs" ~> PList r)]).

(** ** The trees of the converters as objects *)
(** Statements. *)
Fixpoint of_stm (s : stm) : obj :=
  match s with
  | SDef d => B_id d
  | SNull => B_null
  | SIf h c t l f => B_if h c (of_stm t) (map (fun p => match p with (e, b) => (e, of_stm b) end) l) (match f with Some b => Some (of_stm b) | None => None end)
  | SCase h u k e l d => B_case h u k e (map (fun p => match p with (e, b) => (e, of_stm b) end) l) (match d with Some b => Some (of_stm b) | None => None end)
  | SWhile h c b => B_while h c (of_stm b)
  | SFor h i c st b => B_for h (of_stm i) c (of_stm st) (of_stm b)
  | SForIn h vs c b => B_forin h (map of_stm vs) c (of_stm b)
  | SRepeat h n b => B_repeat h n (of_stm b)
  | SBlock h j l => B_block h j (map of_stm l)
  | SProcess h se t b => B_process h se t (of_stm b)
  | SNop _ | SExpr _ _ | SAssign _ _ _ _ _ _ | SDoWhile _ _ _ | SWait _ _ | SReturn _ _ | SBreak _ | SContinue _ => B_stm s
  end.
