(** What a Python object says about a piece of the AST, attribute by attribute. *)
From Verif Require Import Base AstModel OpSpec StmModel PyModel.

Fixpoint assoc (f : string) (l : list (string * pyval)) : option pyval :=
  match l with [] => None | (g, v) :: l' => if String.eqb f g then Some v else assoc f l' end.
(** type(p).__name__ and getattr(p, f); an attribute that was not set is None. *)
Definition cls (p : pyval) : option string := match p with PObj c _ => Some c | _ => None end.
Definition attr (p : pyval) (f : string) : pyval := match p with PObj _ l => match assoc f l with Some v => v | None => PNone end | _ => PNone end.

(** ** Values *)
(** The names of the symbols. *)
Definition symbol_class (s : symb) : option string :=
  match s with
  | symb_ALL => Some "HdlAll" | symb_OTHERS => Some "HdlOthers" | symb_T => Some "HdlTypeType" | symb_T_AUTO => Some "HdlTypeAuto"
  | symb_T_SUBTYPE => Some "HdlTypeSubtype" | symb_NULL | symb_OPEN => None
  end%string.
(** A width: a positive number or none at all (-1 in the AST). *)
Inductive width : pyval -> Z -> Prop :=
| w_none : width PNone (-1)
| w_some b : (0 < b)%Z -> width (PInt b) b.
Inductive shows : pyval -> expr -> Prop :=
| sh_id p s : cls p = Some "HdlValueId"%string -> attr p "val" = PStr s -> shows p (EId s)
| sh_int p v w : cls p = Some "HdlValueInt"%string -> attr p "val" = PInt v -> attr p "base" = PNone -> width (attr p "bits") w ->
    shows p (EInt w (Val v))
| sh_digits p d b w : cls p = Some "HdlValueInt"%string -> attr p "val" = PStr d -> attr p "base" = PInt b -> width (attr p "bits") w ->
    shows p (EInt w (Digits d b))
| sh_float t : shows (PFloat t) (EFloat t)
| sh_str s : shows (PStr s) (EStr s)
| sh_arr ps es : Forall2 shows ps es -> shows (PList ps) (EArr es)
| sh_null : shows PNone (ESym symb_NULL)
| sh_symbol c s : symbol_class s = Some c -> shows (PClass c) (ESym s)
| sh_notimpl p : cls p = Some "HdlExprNotImplemented"%string -> shows p ENotImpl
| sh_op p o ps es : cls p = Some "HdlOp"%string -> attr p "fn" = PEnum "HdlOpType" (op_name o) -> attr p "ops" = PList ps ->
    Forall2 shows ps es -> shows p (EOp o es).

(** ** Definitions and statements *)
(** An optional text: None when it is empty. *)
Definition text (p : pyval) (s : str) : Prop := match s with [] => p = PNone | _ => p = PStr s end.
(** An optional value: None when there is none, something else otherwise. *)
Definition maybe (p : pyval) (x : option expr) : Prop := match x with Some e => shows p e /\ p <> PNone | None => p = PNone end.
Definition sequence {A} (sh : pyval -> A -> Prop) (p : pyval) (l : list A) : Prop := exists ps, p = PList ps /\ Forall2 sh ps l.
Definition flag (p : pyval) (b : bool) : Prop := p = PBool b.
Definition is_text (p : pyval) (s : str) : Prop := p = PStr s.
(** A pair of a name and a value or None. *)
Definition an_attribute (p : pyval) (a : str * option expr) : Prop := exists v, p = PTuple [PStr (fst a); v] /\ maybe v (snd a).
Definition attributes (p : pyval) (l : list (str * option expr)) : Prop := match l with [] => p = PNone | _ => sequence an_attribute p l end.
Definition header (p : pyval) (h : hdr) : Prop :=
  text (attr p "doc") (doc h) /\ sequence is_text (attr p "labels") (labels h) /\ flag (attr p "in_preproc") (in_preproc h) /\
  attributes (attr p "hdlAttributes") (attrs h).
Definition dir_name (d : direction) : string :=
  match d with DIR_IN => "IN" | DIR_OUT => "OUT" | DIR_INOUT => "INOUT" | DIR_BUFFER => "BUFFER" | DIR_LINKAGE => "LINKAGE" | DIR_INTERNAL => "INTERNAL" | DIR_UNKNOWN => "" end.
Definition defines (p : pyval) (d : iddef) : Prop :=
  cls p = Some "HdlIdDef"%string /\ text (attr p "name") (d_name d) /\ text (attr p "doc") (d_doc d) /\
  maybe (attr p "type") (match d_type d with ENull => None | e => Some e end) /\ maybe (attr p "value") (d_value d) /\ flag (attr p "is_latched") (d_latched d) /\ flag (attr p "is_const") (d_const d) /\
  flag (attr p "is_static") (d_static d) /\ flag (attr p "is_shared") (d_shared d) /\ flag (attr p "is_alias") (d_alias d) /\
  attr p "direction" = PEnum "HdlDirection" (dir_name (d_dir d)) /\ d_dir d <> DIR_UNKNOWN /\ attributes (attr p "hdlAttributes") (d_attrs d).
Definition join_name (j : join_type) : string := match j with SEQ => "SEQ" | PAR_JOIN => "PAR_JOIN" | PAR_JOIN_ANY => "PAR_JOIN_ANY" | PAR_JOIN_NONE => "PAR_JOIN_NONE" end.
Definition case_name (k : case_type) : string := match k with CASE => "CASE" | CASEZ => "CASEZ" | CASEX => "CASEX" end.
Definition uniq_name (u : uniq) : option string :=
  match u with CASE_UNIQ_NONE => None | CASE_UNIQ_UNIQUE => Some "UNIQUE" | CASE_UNIQ_UNIQUE0 => Some "UNIQUE0" | CASE_UNIQ_PRIORITY => Some "PRIORITY" end%string.
Definition trigger_name (t : trigger) : option string :=
  match t with ALWAYS_NONE => None | ALWAYS_COMB => Some "COMB" | ALWAYS_FF => Some "FF" | ALWAYS_LATCH => Some "LATCH" end%string.
Definition member (e : string) (n : option string) : pyval := match n with Some m => PEnum e m | None => PNone end.

Inductive says : pyval -> stm -> Prop :=
| sy_nop p h : cls p = Some "HdlStmNop"%string -> header p h -> says p (SNop h)
| sy_expr p e : shows p e -> says p (SExpr hdr0 e)
| sy_assign p h dst src td ed b : cls p = Some "HdlStmAssign"%string -> header p h ->
    shows (attr p "dst") dst -> shows (attr p "src") src -> maybe (attr p "time_delay") td ->
    match ed with None => attr p "event_delay" = PNone | Some l => l <> [] /\ sequence shows (attr p "event_delay") l end ->
    flag (attr p "is_blocking") b -> says p (SAssign h dst src td ed b)
| sy_if p h c t l f ps : cls p = Some "HdlStmIf"%string -> header p h -> shows (attr p "cond") c ->
    says (attr p "if_true") t -> attr p "elifs" = PList ps -> Forall2 branch ps l ->
    says_opt (attr p "if_false") f -> says p (SIf h c t l f)
| sy_case p h u k e l d ps : cls p = Some "HdlStmCase"%string -> header p h -> attr p "uniq_constrain" = member "HdlStmCaseUniqConstrain" (uniq_name u) ->
    attr p "type" = PEnum "HdlStmCaseType" (case_name k) -> shows (attr p "switch_on") e ->
    attr p "cases" = PList ps -> Forall2 branch ps l -> says_opt (attr p "default") d -> says p (SCase h u k e l d)
| sy_while p h c b : cls p = Some "HdlStmWhile"%string -> header p h -> shows (attr p "cond") c -> says (attr p "body") b ->
    says p (SWhile h c b)
| sy_for p h i c s b : cls p = Some "HdlStmFor"%string -> header p h -> says (attr p "init") i -> shows (attr p "cond") c ->
    says (attr p "step") s -> says (attr p "body") b -> says p (SFor h i c s b)
| sy_forin p h l c b ps : cls p = Some "HdlStmForIn"%string -> header p h -> attr p "var_defs" = PList ps -> Forall2 says ps l ->
    shows (attr p "collection") c -> says (attr p "body") b -> says p (SForIn h l c b)
| sy_repeat p h n b : cls p = Some "HdlStmRepeat"%string -> header p h -> shows (attr p "n") n -> says (attr p "body") b ->
    says p (SRepeat h n b)
| sy_block p h j l ps : cls p = Some "HdlStmBlock"%string -> header p h -> attr p "join_t" = PEnum "HdlStmBlockJoinType" (join_name j) ->
    attr p "body" = PList ps -> Forall2 says ps l -> says p (SBlock h j l)
| sy_process p h se t b : cls p = Some "HdlStmProcess"%string -> header p h ->
    match se with None => attr p "sensitivity" = PNone | Some l => sequence shows (attr p "sensitivity") l end ->
    attr p "trigger_constrain" = member "HdlStmProcessTriggerConstrain" (trigger_name t) -> says (attr p "body") b -> says p (SProcess h se t b)
| sy_wait p h l : cls p = Some "HdlStmWait"%string -> header p h -> sequence shows (attr p "val") l -> says p (SWait h l)
| sy_return p h e : cls p = Some "HdlStmReturn"%string -> header p h -> maybe (attr p "val") e -> says p (SReturn h e)
| sy_break p h : cls p = Some "HdlStmBreak"%string -> header p h -> says p (SBreak h)
| sy_continue p h : cls p = Some "HdlStmContinue"%string -> header p h -> says p (SContinue h)
| sy_def p d : defines p d -> says p (SDef d)
with branch : pyval -> expr * stm -> Prop :=
| br p e s c v : p = PTuple [c; v] -> shows c e -> says v s -> branch p (e, s)
with says_opt : pyval -> option stm -> Prop :=
| so_none : says_opt PNone None
| so_some v s : says v s -> v <> PNone -> says_opt v (Some s).

(** ** What may be sent *)
(** Text Python can store: UTF-8 without the character NUL. *)
Definition sendable_text (s : str) : bool := is_utf8 s && forallb (fun c => negb (ceqb c c0)) s.
Definition sendable_int (b : Z) (v : bigint) : bool :=
  ((0 <? b) || (b =? -1))%Z && match v with Digits d _ => sendable_text d | Val _ => true end.
(** Values that reach Python unchanged. *)
Fixpoint sendable (e : expr) : bool :=
  match e with
  | EId s => negb (length s =? 0) && sendable_text s
  | EInt b v => sendable_int b v
  | EFloat _ => true
  | EStr s => sendable_text s
  | EArr l | EOp _ l => forallb sendable l
  | ESym s => match s with symb_OPEN => false | _ => true end
  | ENotImpl => true
  | ENull => false
  end.
(** A value that is told from no value. *)
Definition sendable_value (e : expr) : bool := sendable e && match e with ESym symb_NULL => false | _ => true end.
Definition opt_all {A} (f : A -> bool) (o : option A) : bool := match o with Some x => f x | None => true end.
Definition sendable_attrs (l : list (str * option expr)) : bool :=
  forallb (fun a => sendable_text (fst a) && opt_all sendable_value (snd a)) l.
Definition sendable_hdr (h : hdr) : bool := sendable_text (doc h) && forallb sendable_text (labels h) && sendable_attrs (attrs h).
Definition sendable_def (d : iddef) : bool :=
  sendable_text (d_name d) && sendable_text (d_doc d) && match d_type d with ENull => true | e => sendable_value e end &&
  opt_all sendable_value (d_value d) && match d_dir d with DIR_UNKNOWN => false | _ => true end && sendable_attrs (d_attrs d).
(** An optional statement that is told from no statement. *)
Definition not_none (s : stm) : bool := match s with SExpr _ (ESym symb_NULL) => false | _ => true end.
(** Statements that reach Python unchanged: no do-while loop, no label on a call, no empty event list. *)
Fixpoint sendable_stm (s : stm) : bool :=
  match s with
  | SNop h | SBreak h | SContinue h => sendable_hdr h
  | SExpr h e => match h with mk_hdr [] [] [] false => true | _ => false end && sendable e
  | SAssign h d s td ed _ => sendable_hdr h && sendable d && sendable s && opt_all sendable_value td && match ed with Some [] => false | Some l => forallb sendable l | None => true end
  | SIf h c t l f => sendable_hdr h && sendable c && sendable_stm t && forallb (fun p => match p with (e, b) => sendable e && sendable_stm b end) l &&
      match f with Some b => sendable_stm b && not_none b | None => true end
  | SCase h _ _ e l d => sendable_hdr h && sendable e && forallb (fun p => match p with (e, b) => sendable e && sendable_stm b end) l &&
      match d with Some b => sendable_stm b && not_none b | None => true end
  | SWhile h c b => sendable_hdr h && sendable c && sendable_stm b
  | SDoWhile _ _ _ => false
  | SFor h i c st b => sendable_hdr h && sendable_stm i && sendable c && sendable_stm st && sendable_stm b
  | SForIn h l c b => sendable_hdr h && forallb sendable_stm l && sendable c && sendable_stm b
  | SRepeat h n b => sendable_hdr h && sendable n && sendable_stm b
  | SBlock h _ l => sendable_hdr h && forallb sendable_stm l
  | SProcess h se _ b => sendable_hdr h && opt_all (forallb sendable) se && sendable_stm b
  | SWait h l => sendable_hdr h && forallb sendable l
  | SReturn h e => sendable_hdr h && opt_all sendable_value e
  | SDef d => sendable_def d
  | SNull => false
  end.
