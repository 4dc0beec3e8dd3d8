(** Model of the conversion of the AST to Python objects: hdlConvertor/toPy{,_expr,_statements}.cpp. *)
From Verif Require Import Base EncodingSpec AstModel OpModel StmModel.
From Verif Require SvExprModel.
Import SvExprModel(mapM).

(** ** Python objects
    A str is kept as its UTF-8 bytes.  [PClass] is a class itself used as a value, [PEnum] a member of an
    enumeration, [PObj] an instance with the attributes that were set; an attribute that was not set
    has the default of the class (None, an empty list).  Reference counts are not modelled, code positions
    and the texts of exceptions neither.  The constructors of the Python package hdlConvertorAst are taken
    to store their arguments under the names of its documentation. *)
Inductive pyval :=
| PNone | PBool (b : bool) | PInt (z : Z) | PFloat (t : str) | PStr (s : str)
| PList (l : list pyval) | PTuple (l : list pyval) | PClass (c : string) | PEnum (e m : string)
| PObj (c : string) (fs : list (string * pyval)).

(** An attribute. *)
Notation "f ~> v" := (pair f%string v) (at level 60, right associativity).

(** A Python exception is set and nullptr is returned. *)
Definition py_error {A} (what : string) : outcome A := Throw (RuntimeError (s2l what)).

(** std::string::c_str read as a C string *)
Fixpoint c_string (s : str) : str := match s with [] => [] | c :: s' => if ceqb c c0 then [] else c :: c_string s' end.
Fixpoint utf8_valid (fuel : nat) (s : list N) : bool :=
  match s, fuel with
  | [], _ => true
  | _, 0 => false
  | _, S f => match utf8_head s with Some (_, r) => utf8_valid f r | None => false end
  end.
Definition is_utf8 (s : str) : bool := utf8_valid (length s) (bytes s).
(** PyUnicode_FromString(s.c_str()), toPy.cpp:408-410, toPy_expr.cpp:66, 78, 116 *)
Definition py_str (s : str) : outcome pyval :=
  let t := c_string s in if is_utf8 t then Ok (PStr t) else py_error "UnicodeDecodeError".

(** toPy(HdlValueSymbol), toPy_expr.cpp:143-168 *)
Definition py_symb (s : symb) : pyval :=
  match s with
  | symb_OPEN => PNone | symb_ALL => PClass "HdlAll" | symb_NULL => PNone | symb_T => PClass "HdlTypeType"
  | symb_T_AUTO => PClass "HdlTypeAuto" | symb_T_SUBTYPE => PClass "HdlTypeSubtype" | symb_OTHERS => PClass "HdlOthers"
  end.
(** toPy(HdlValueInt), toPy_expr.cpp:74-111; the value of a [Val] fits a C long *)
Definition py_int (bits : Z) (v : bigint) : outcome pyval :=
  x <- match v with Digits d _ => py_str d | Val n => Ok (PInt n) end ;;
  let base := match v with Digits _ b => PInt b | Val _ => PNone end in
  let w := if (0 <? bits)%Z then PInt bits else PNone in
  Ok (PObj "HdlValueInt" [("val" ~> x); ("bits" ~> w); ("base" ~> base)]).
(** toPy(iHdlExprItem), toPy_expr.cpp:19-62; toPy(HdlOp), toPy.cpp:298-321; toPy(HdlOpType), toPy_expr.cpp:179-188 *)
Fixpoint py_expr (e : expr) : outcome pyval :=
  match e with
  | EOp o l =>
      n <- op_to_string o ;; r <- mapM py_expr l ;;
      Ok (PObj "HdlOp" [("fn" ~> PEnum "HdlOpType" n); ("ops" ~> PList r)])
  | EArr l => r <- mapM py_expr l ;; Ok (PList r)
  | EFloat t => Ok (PFloat t)
  | EId s => match s with
             | [] => UB "assert(!o->_str.empty())"
             | _ => v <- py_str s ;; Ok (PObj "HdlValueId" [("val" ~> v)])
             end
  | EInt b v => py_int b v
  | EStr s => py_str s
  | ESym s => Ok (py_symb s)
  | ENotImpl => Ok (PObj "HdlExprNotImplemented" [])
  | ENull => py_error "ToPy::toPy called for nullptr"
  end.

(** ** Headers and definitions *)
(** toPy(HdlAttribute), toPy.cpp:425-443; toPy_hdlAttributes, toPy.cpp:412-416: a null pointer when there are none *)
Definition py_attr (a : str * option expr) : outcome pyval :=
  i <- py_str (fst a) ;; v <- match snd a with Some e => py_expr e | None => Ok PNone end ;; Ok (PTuple [i; v]).
Definition py_attrs (l : list (str * option expr)) : outcome (list (string * pyval)) :=
  match l with [] => Ok [] | _ => r <- mapM py_attr l ;; Ok ["hdlAttributes" ~> PList r] end.
(** toPy(WithDoc), toPy.cpp:165-170 *)
Definition py_doc (d : str) : outcome (list (string * pyval)) :=
  match d with [] => Ok [] | _ => x <- py_str d ;; Ok ["doc" ~> x] end.
(** the end of toPy(iHdlStatement), toPy_statements.cpp:424-440 *)
Definition py_hdr (h : hdr) : outcome (list (string * pyval)) :=
  d <- py_doc (doc h) ;; l <- mapM py_str (labels h) ;; a <- py_attrs (attrs h) ;;
  Ok (d ++ [("labels" ~> PList l); ("in_preproc" ~> PBool (in_preproc h))] ++ a).
(** toPy(HdlDirection), toPy.cpp:287-296; hdlDirection.h:16-33 *)
Definition py_dir (d : direction) : outcome pyval :=
  match d with
  | DIR_IN => Ok (PEnum "HdlDirection" "IN") | DIR_OUT => Ok (PEnum "HdlDirection" "OUT") | DIR_INOUT => Ok (PEnum "HdlDirection" "INOUT")
  | DIR_BUFFER => Ok (PEnum "HdlDirection" "BUFFER") | DIR_LINKAGE => Ok (PEnum "HdlDirection" "LINKAGE")
  | DIR_INTERNAL => Ok (PEnum "HdlDirection" "INTERNAL") | DIR_UNKNOWN => py_error "Invalid direction value"
  end.
(** the beginning of toPy(WithNameAndDoc), toPy.cpp:145-163 *)
Definition py_name (n : str) : outcome (list (string * pyval)) :=
  match n with [] => Ok [] | _ => x <- py_str n ;; Ok ["name" ~> x] end.
(** toPy(HdlIdDef), toPy.cpp:350-380 *)
Definition py_iddef (d : iddef) : outcome pyval :=
  n <- py_name (d_name d) ;; dc <- py_doc (d_doc d) ;;
  t <- match d_type d with ENull => Ok [] | e => x <- py_expr e ;; Ok ["type" ~> x] end ;;
  v <- match d_value d with None => Ok [] | Some e => x <- py_expr e ;; Ok ["value" ~> x] end ;;
  dir <- py_dir (d_dir d) ;; a <- py_attrs (d_attrs d) ;;
  Ok (PObj "HdlIdDef" (n ++ dc ++ t ++ v ++ [("is_latched" ~> PBool (d_latched d)); ("is_const" ~> PBool (d_const d)); ("is_static" ~> PBool (d_static d));
        ("is_shared" ~> PBool (d_shared d)); ("is_alias" ~> PBool (d_alias d)); ("direction" ~> dir)] ++ a)).

(** ** Statements *)
(** toPy(HdlStmBlockJoinType), toPy(HdlStmCaseUniqConstrain), toPy(HdlStmCaseType),
    toPy(HdlStmProcessTriggerConstrain): toPy_statements.cpp:30-39, 61-82, 107-116, 234-254 *)
Definition py_join (j : join_type) : pyval :=
  PEnum "HdlStmBlockJoinType" (match j with SEQ => "SEQ" | PAR_JOIN => "PAR_JOIN" | PAR_JOIN_ANY => "PAR_JOIN_ANY" | PAR_JOIN_NONE => "PAR_JOIN_NONE" end).
Definition py_uniq (u : uniq) : list (string * pyval) :=
  match u with
  | CASE_UNIQ_NONE => []
  | CASE_UNIQ_PRIORITY => [("uniq_constrain" ~> PEnum "HdlStmCaseUniqConstrain" "PRIORITY")]
  | CASE_UNIQ_UNIQUE => [("uniq_constrain" ~> PEnum "HdlStmCaseUniqConstrain" "UNIQUE")]
  | CASE_UNIQ_UNIQUE0 => [("uniq_constrain" ~> PEnum "HdlStmCaseUniqConstrain" "UNIQUE0")]
  end.
Definition py_case_type (k : case_type) : pyval :=
  PEnum "HdlStmCaseType" (match k with CASE => "CASE" | CASEX => "CASEX" | CASEZ => "CASEZ" end).
Definition py_trigger (t : trigger) : list (string * pyval) :=
  match t with
  | ALWAYS_NONE => []
  | ALWAYS_FF => [("trigger_constrain" ~> PEnum "HdlStmProcessTriggerConstrain" "FF")]
  | ALWAYS_COMB => [("trigger_constrain" ~> PEnum "HdlStmProcessTriggerConstrain" "COMB")]
  | ALWAYS_LATCH => [("trigger_constrain" ~> PEnum "HdlStmProcessTriggerConstrain" "LATCH")]
  end.
(** the cleaning up of toPy(HdlStmAssign), toPy_statements.cpp:210-216, when the conversion of [src], [dst] or
    [time_delay] fails: Py_DECREF of pointers that are still null *)
Definition decref_null {A} (m : outcome A) : outcome A := match m with Throw _ => UB "Py_DECREF(NULL)" | _ => m end.
Definition py_opt {A} (f : A -> outcome pyval) (n : string) (o : option A) : outcome (list (string * pyval)) :=
  match o with Some x => v <- f x ;; Ok [(n, v)] | None => Ok [] end.
(** A pointer that is statically an iHdlStatement: typeid of a null pointer throws std::bad_typeid, which leaves
    toPy (not declared "except +", _hdlConvertor.pyx:31), toPy_statements.cpp:415-418 *)
Definition not_null (s : stm) (m : outcome pyval) : outcome pyval := match s with SNull => UB "std::bad_typeid: terminate" | _ => m end.

(** toPy(iHdlStatement), toPy_statements.cpp:335-440, and the functions it calls; toPy(iHdlObj), toPy.cpp:110-143 *)
Fixpoint py_stm (s : stm) : outcome pyval :=
  let pair (p : expr * stm) := match p with (c, b) => x <- py_expr c ;; y <- py_stm b ;; Ok (PTuple [x; y]) end in
  match s with
  | SExpr _ e => py_expr e
  | SNop h => k <- py_hdr h ;; Ok (PObj "HdlStmNop" k)
  | SBlock h j l => r <- mapM py_stm l ;; k <- py_hdr h ;; Ok (PObj "HdlStmBlock" ([("join_t" ~> py_join j); ("body" ~> PList r)] ++ k))
  | SIf h c t l f =>
      x <- py_expr c ;; y <- py_stm t ;; z <- mapM pair l ;;
      w <- match f with Some b => v <- py_stm b ;; Ok [("if_false" ~> v)] | None => Ok [] end ;;
      k <- py_hdr h ;; Ok (PObj "HdlStmIf" ([("cond" ~> x); ("if_true" ~> y); ("elifs" ~> PList z)] ++ w ++ k))
  | SCase h u ct e l d =>
      x <- py_expr e ;; z <- mapM pair l ;;
      w <- match d with Some b => v <- py_stm b ;; Ok [("default" ~> v)] | None => Ok [] end ;;
      k <- py_hdr h ;; Ok (PObj "HdlStmCase" (py_uniq u ++ [("type" ~> py_case_type ct); ("switch_on" ~> x); ("cases" ~> PList z)] ++ w ++ k))
  | SFor h i c st b =>
      x <- not_null i (py_stm i) ;; y <- py_expr c ;; z <- not_null st (py_stm st) ;; w <- py_stm b ;; k <- py_hdr h ;;
      Ok (PObj "HdlStmFor" ([("init" ~> x); ("cond" ~> y); ("step" ~> z); ("body" ~> w)] ++ k))
  | SForIn h vs c b =>
      x <- mapM py_stm vs ;; y <- py_expr c ;; w <- py_stm b ;; k <- py_hdr h ;;
      Ok (PObj "HdlStmForIn" ([("var_defs" ~> PList x); ("collection" ~> y); ("body" ~> w)] ++ k))
  | SRepeat h n b => x <- py_expr n ;; w <- py_stm b ;; k <- py_hdr h ;; Ok (PObj "HdlStmRepeat" ([("n" ~> x); ("body" ~> w)] ++ k))
  | SReturn h e => x <- py_opt py_expr "val" e ;; k <- py_hdr h ;; Ok (PObj "HdlStmReturn" (x ++ k))
  | SBreak h => k <- py_hdr h ;; Ok (PObj "HdlStmBreak" k)
  | SContinue h => k <- py_hdr h ;; Ok (PObj "HdlStmContinue" k)
  | SAssign h dst src td ed bl =>
      x <- decref_null (py_expr src) ;; y <- decref_null (py_expr dst) ;;
      z <- match td with Some e => decref_null (py_expr e) | None => Ok PNone end ;;
      w <- match ed with
           | Some (a :: l) => r <- mapM py_expr (a :: l) ;; Ok [("event_delay" ~> PList r)]
           | _ => Ok []
           end ;;
      k <- py_hdr h ;; Ok (PObj "HdlStmAssign" ([("src" ~> x); ("dst" ~> y); ("time_delay" ~> z)] ++ w ++ [("is_blocking" ~> PBool bl)] ++ k))
  | SWhile h c b => x <- py_expr c ;; w <- not_null b (py_stm b) ;; k <- py_hdr h ;; Ok (PObj "HdlStmWhile" ([("cond" ~> x); ("body" ~> w)] ++ k))
  | SProcess h sens t b =>
      x <- match sens with Some l => r <- mapM py_expr l ;; Ok [("sensitivity" ~> PList r)] | None => Ok [] end ;;
      w <- not_null b (py_stm b) ;; k <- py_hdr h ;; Ok (PObj "HdlStmProcess" (py_trigger t ++ x ++ [("body" ~> w)] ++ k))
  | SWait h l => x <- mapM py_expr l ;; k <- py_hdr h ;; Ok (PObj "HdlStmWait" ([("val" ~> PList x)] ++ k))
  (* HdlStmDoWhile is in no branch of the function *)
  | SDoWhile _ _ _ => py_error "Invalid StatementType"
  | SDef d => py_iddef d
  | SNull => py_error "ToPy::toPy called for nullptr"
  end.
