(** What a Python object says about a declaration, a module, a function, a package or a whole file, attribute by attribute. *)
From Verif Require Import Base AstModel OpSpec StmModel PyModel PySpec PyObjModel.
From Verif Require Import SvDeclModel VhdlDeclModel.

Definition named (p : pyval) (h : nhdr) : Prop :=
  text (attr p "name") (n_name h) /\ text (attr p "doc") (n_doc h) /\ attributes (attr p "hdlAttributes") (n_attrs h).
Definition flagged (p : pyval) (f : fflags) : Prop :=
  flag (attr p "is_declaration_only") (f_decl_only f) /\ flag (attr p "is_operator") (f_operator f) /\ flag (attr p "is_static") (f_static f) /\
  flag (attr p "is_task") (f_task f) /\ flag (attr p "is_virtual") (f_virtual f) /\ flag (attr p "is_impure") (f_impure f).
(** A member of an enumeration or a unit: a pair of a name and a value, each may be None. *)
Definition maybe_name (p : pyval) (n : option str) : Prop := match n with Some s => p = PStr s | None => p = PNone end.
Definition a_member (p : pyval) (m : option str * option expr) : Prop := exists n v, p = PTuple [n; v] /\ maybe_name n (fst m) /\ maybe v (snd m).
Definition a_unit (p : pyval) (m : str * option expr) : Prop := a_member p (Some (fst m), snd m).
(** The definition of a type. *)
Definition type_value (p : pyval) (v : tval) : Prop :=
  match v with
  | TV_expr _ => False
  | TV_enum l => cls p = Some "HdlEnumDef"%string /\ sequence a_member (attr p "values") l
  | TV_physical r l => cls p = Some "HdlPhysicalDef"%string /\ shows (attr p "range") r /\ sequence a_unit (attr p "members") l
  | TV_record l => cls p = Some "HdlClassDef"%string /\ attr p "type" = PEnum "HdlClassType" "STRUCT" /\ sequence defines (attr p "members") l
  end.
(** The definition of a type name. *)
Definition defines_type (p : pyval) (d : iddef) (v : tval) : Prop :=
  cls p = Some "HdlIdDef"%string /\ text (attr p "name") (d_name d) /\ text (attr p "doc") (d_doc d) /\
  maybe (attr p "type") (match d_type d with ENull => None | e => Some e end) /\ d_value d = None /\ type_value (attr p "value") v /\
  flag (attr p "is_latched") (d_latched d) /\ flag (attr p "is_const") (d_const d) /\
  flag (attr p "is_static") (d_static d) /\ flag (attr p "is_shared") (d_shared d) /\ flag (attr p "is_alias") (d_alias d) /\
  attr p "direction" = PEnum "HdlDirection" (dir_name (d_dir d)) /\ d_dir d <> DIR_UNKNOWN /\ attributes (attr p "hdlAttributes") (d_attrs d).
Definition leaf (s : stm) : bool :=
  match s with SNop _ | SExpr _ _ | SAssign _ _ _ _ _ _ | SWait _ _ | SReturn _ _ | SBreak _ | SContinue _ => true | _ => false end.

Inductive tells : pyval -> obj -> Prop :=
| te_id p d : defines p d -> tells p (B_id d)
| te_type p d v : defines_type p d v -> tells p (B_type d v)
| te_func p h f ps ret body qs : cls p = Some "HdlFunctionDef"%string -> named p h -> flagged p f ->
    match ps with Some l => sequence defines (attr p "params") l | None => attr p "params" = PNone end ->
    maybe (attr p "return_t") ret -> attr p "body" = PList qs -> Forall2 tells qs body -> tells p (B_func h f ps ret body)
| te_dec p h gs ps l qs : cls p = Some "HdlModuleDec"%string -> named p h -> sequence defines (attr p "params") gs -> sequence defines (attr p "ports") ps ->
    attr p "objs" = PList qs -> Forall2 tells qs l -> tells p (B_dec h gs ps l)
| te_def p h m d l qs : cls p = Some "HdlModuleDef"%string -> named p h -> maybe (attr p "module_name") m -> tells_opt (attr p "dec") d ->
    attr p "objs" = PList qs -> Forall2 tells qs l -> tells p (B_def h m d l)
| te_space p h o l qs : cls p = Some "HdlValueIdspace"%string -> named p h -> flag (attr p "declaration_only") o ->
    attr p "objs" = PList qs -> Forall2 tells qs l -> tells p (B_space h o l)
| te_inst p n m g q a : cls p = Some "HdlCompInst"%string -> shows (attr p "name") n -> shows (attr p "module_name") m ->
    sequence shows (attr p "param_map") g -> sequence shows (attr p "port_map") q -> attributes (attr p "hdlAttributes") a ->
    tells p (B_inst (mk_compinst n m g q) [] a)
| te_library p h : cls p = Some "HdlLibrary"%string -> named p h -> tells p (B_library h)
| te_import p h l : cls p = Some "HdlImport"%string -> header p h -> sequence shows (attr p "path") l -> tells p (B_import h l)
| te_process p h se t b : cls p = Some "HdlStmProcess"%string -> header p h ->
    match se with None => attr p "sensitivity" = PNone | Some l => sequence shows (attr p "sensitivity") l end ->
    attr p "trigger_constrain" = member "HdlStmProcessTriggerConstrain" (trigger_name t) -> tells (attr p "body") b -> tells p (B_process h se t b)
| te_block p h j l ps : cls p = Some "HdlStmBlock"%string -> header p h -> attr p "join_t" = PEnum "HdlStmBlockJoinType" (join_name j) ->
    attr p "body" = PList ps -> Forall2 tells ps l -> tells p (B_block h j l)
| te_if p h c t l f ps : cls p = Some "HdlStmIf"%string -> header p h -> shows (attr p "cond") c ->
    tells (attr p "if_true") t -> attr p "elifs" = PList ps -> Forall2 tells_branch ps l ->
    tells_opt (attr p "if_false") f -> tells p (B_if h c t l f)
| te_case p h u k e l d ps : cls p = Some "HdlStmCase"%string -> header p h -> attr p "uniq_constrain" = member "HdlStmCaseUniqConstrain" (uniq_name u) ->
    attr p "type" = PEnum "HdlStmCaseType" (case_name k) -> shows (attr p "switch_on") e ->
    attr p "cases" = PList ps -> Forall2 tells_branch ps l -> tells_opt (attr p "default") d -> tells p (B_case h u k e l d)
| te_for p h i c s b : cls p = Some "HdlStmFor"%string -> header p h -> tells (attr p "init") i -> shows (attr p "cond") c ->
    tells (attr p "step") s -> tells (attr p "body") b -> tells p (B_for h i c s b)
| te_forin p h l c b ps : cls p = Some "HdlStmForIn"%string -> header p h -> attr p "var_defs" = PList ps -> Forall2 tells ps l ->
    shows (attr p "collection") c -> tells (attr p "body") b -> tells p (B_forin h l c b)
| te_while p h c b : cls p = Some "HdlStmWhile"%string -> header p h -> shows (attr p "cond") c -> tells (attr p "body") b -> tells p (B_while h c b)
| te_repeat p h n b : cls p = Some "HdlStmRepeat"%string -> header p h -> shows (attr p "n") n -> tells (attr p "body") b -> tells p (B_repeat h n b)
| te_stm p s : leaf s = true -> says p s -> tells p (B_stm s)
with tells_branch : pyval -> expr * obj -> Prop :=
| tb p e s c v : p = PTuple [c; v] -> shows c e -> tells v s -> tells_branch p (e, s)
with tells_opt : pyval -> option obj -> Prop :=
| to_none : tells_opt PNone None
| to_some v s : tells v s -> v <> PNone -> tells_opt v (Some s).
(** A whole file. *)
Definition tells_file (p : pyval) (l : list obj) : Prop := cls p = Some "HdlContext"%string /\ sequence tells (attr p "objs") l.

(** ** What may be sent *)
Definition sendable_nhdr (h : nhdr) : bool := sendable_text (n_name h) && sendable_text (n_doc h) && sendable_attrs (n_attrs h).
Definition sendable_member (m : option str * option expr) : bool := opt_all sendable_text (fst m) && opt_all sendable_value (snd m).
Definition sendable_unit (m : str * option expr) : bool := sendable_text (fst m) && opt_all sendable_value (snd m).
Definition sendable_tval (v : tval) : bool :=
  match v with
  | TV_expr _ => false
  | TV_enum l => forallb sendable_member l
  | TV_physical r l => sendable r && forallb sendable_unit l
  | TV_record l => forallb sendable_def l
  end.
Definition obj_not_none (o : obj) : bool := match o with B_stm s => not_none s | _ => true end.
(** Objects that reach Python unchanged: instances have no documentation; the exceptions for values, definitions and statements are those of
    [sendable], [sendable_def] and [sendable_stm]. *)
Fixpoint sendable_obj (o : obj) : bool :=
  match o with
  | B_id d => sendable_def d
  | B_type d v => sendable_def d && match d_value d with None => true | Some _ => false end && sendable_tval v
  | B_func h f ps ret body => sendable_nhdr h && opt_all (forallb sendable_def) ps && opt_all sendable_value ret && forallb sendable_obj body
  | B_dec h gs ps l => sendable_nhdr h && forallb sendable_def gs && forallb sendable_def ps && forallb sendable_obj l
  | B_def h m d l => sendable_nhdr h && opt_all sendable_value m && match d with Some d => sendable_obj d && obj_not_none d | None => true end && forallb sendable_obj l
  | B_space h _ l => sendable_nhdr h && forallb sendable_obj l
  | B_inst c d a => match d with [] => true | _ => false end && sendable (ci_name c) && sendable (ci_module c) && forallb sendable (ci_generics c) && forallb sendable (ci_ports c) && sendable_attrs a
  | B_library h => sendable_nhdr h
  | B_import h l => sendable_hdr h && forallb sendable l
  | B_process h se _ b => sendable_hdr h && opt_all (forallb sendable) se && sendable_obj b
  | B_block h _ l => sendable_hdr h && forallb sendable_obj l
  | B_if h c t l f => sendable_hdr h && sendable c && sendable_obj t && forallb (fun p => match p with (e, b) => sendable e && sendable_obj b end) l &&
      match f with Some b => sendable_obj b && obj_not_none b | None => true end
  | B_case h _ _ e l d => sendable_hdr h && sendable e && forallb (fun p => match p with (e, b) => sendable e && sendable_obj b end) l &&
      match d with Some b => sendable_obj b && obj_not_none b | None => true end
  | B_for h i c st b => sendable_hdr h && sendable_obj i && sendable c && sendable_obj st && sendable_obj b
  | B_forin h l c b => sendable_hdr h && forallb sendable_obj l && sendable c && sendable_obj b
  | B_while h c b => sendable_hdr h && sendable c && sendable_obj b
  | B_repeat h n b => sendable_hdr h && sendable n && sendable_obj b
  | B_stm s => leaf s && sendable_stm s
  | B_null => false
  end.

(** Induction through the lists of objects. *)
Fixpoint obj_ind' (P : obj -> Prop)
  (Hid : forall d, P (B_id d)) (Htype : forall d v, P (B_type d v))
  (Hfunc : forall h f ps ret body, Forall P body -> P (B_func h f ps ret body))
  (Hdec : forall h gs ps l, Forall P l -> P (B_dec h gs ps l))
  (Hdef : forall h m d l, (forall x, d = Some x -> P x) -> Forall P l -> P (B_def h m d l))
  (Hspace : forall h o l, Forall P l -> P (B_space h o l))
  (Hinst : forall c d a, P (B_inst c d a)) (Hlib : forall h, P (B_library h)) (Himp : forall h l, P (B_import h l))
  (Hproc : forall h se t b, P b -> P (B_process h se t b))
  (Hblock : forall h j l, Forall P l -> P (B_block h j l))
  (Hif : forall h c t l f, P t -> Forall (fun p => P (snd p)) l -> (forall x, f = Some x -> P x) -> P (B_if h c t l f))
  (Hcase : forall h u k e l f, Forall (fun p => P (snd p)) l -> (forall x, f = Some x -> P x) -> P (B_case h u k e l f))
  (Hfor : forall h i c s b, P i -> P s -> P b -> P (B_for h i c s b))
  (Hforin : forall h l c b, Forall P l -> P b -> P (B_forin h l c b))
  (Hwhile : forall h c b, P b -> P (B_while h c b)) (Hrep : forall h n b, P b -> P (B_repeat h n b))
  (Hstm : forall s, P (B_stm s)) (Hnull : P B_null) (o : obj) : P o :=
  let rec := obj_ind' P Hid Htype Hfunc Hdec Hdef Hspace Hinst Hlib Himp Hproc Hblock Hif Hcase Hfor Hforin Hwhile Hrep Hstm Hnull in
  let all := fix all (l : list obj) : Forall P l := match l with [] => Forall_nil P | x :: l' => Forall_cons x (rec x) (all l') end in
  let alls := fix alls (l : list (expr * obj)) : Forall (fun p => P (snd p)) l := match l with [] => Forall_nil _ | x :: l' => Forall_cons x (rec (snd x)) (alls l') end in
  let opt (f : option obj) : forall x, f = Some x -> P x :=
    match f with Some y => fun x E => match E in _ = z return match z with Some w => P w | None => True end with eq_refl => rec y end | None => fun x E => match E in _ = z return match z with Some w => P w | None => True end with eq_refl => I end end in
  match o with
  | B_id d => Hid d | B_type d v => Htype d v
  | B_func h f ps ret body => Hfunc h f ps ret body (all body)
  | B_dec h gs ps l => Hdec h gs ps l (all l)
  | B_def h m d l => Hdef h m d l (opt d) (all l)
  | B_space h o l => Hspace h o l (all l)
  | B_inst c d a => Hinst c d a | B_library h => Hlib h | B_import h l => Himp h l
  | B_process h se t b => Hproc h se t b (rec b)
  | B_block h j l => Hblock h j l (all l)
  | B_if h c t l f => Hif h c t l f (rec t) (alls l) (opt f)
  | B_case h u k e l f => Hcase h u k e l f (alls l) (opt f)
  | B_for h i c s b => Hfor h i c s b (rec i) (rec s) (rec b)
  | B_forin h l c b => Hforin h l c b (all l) (rec b)
  | B_while h c b => Hwhile h c b (rec b) | B_repeat h n b => Hrep h n b (rec b)
  | B_stm s => Hstm s | B_null => Hnull
  end.

(** ** open is read as null *)
Fixpoint no_open (e : expr) : expr :=
  match e with ESym symb_OPEN => ESym symb_NULL | EArr l => EArr (map no_open l) | EOp o l => EOp o (map no_open l) | _ => e end.
Definition opt_no_open (e : option expr) : option expr := option_map no_open e.
Definition attrs_no_open (l : list (str * option expr)) : list (str * option expr) := map (fun a => (fst a, opt_no_open (snd a))) l.
Definition hdr_no_open (h : hdr) : hdr := mk_hdr (labels h) (doc h) (attrs_no_open (attrs h)) (in_preproc h).
Definition nhdr_no_open (h : nhdr) : nhdr := mk_nhdr (n_name h) (n_doc h) (attrs_no_open (n_attrs h)).
Definition def_no_open (d : iddef) : iddef :=
  mk_iddef (d_name d) (no_open (d_type d)) (opt_no_open (d_value d)) (d_dir d) (d_latched d) (d_const d) (d_static d) (d_shared d) (d_alias d) (d_doc d) (attrs_no_open (d_attrs d)).
Definition tval_no_open (v : tval) : tval :=
  match v with
  | TV_expr e => TV_expr (no_open e)
  | TV_enum l => TV_enum (map (fun m => (fst m, opt_no_open (snd m))) l)
  | TV_physical r l => TV_physical (no_open r) (attrs_no_open l)
  | TV_record l => TV_record (map def_no_open l)
  end.
Definition inst_no_open (c : compinst) : compinst := mk_compinst (no_open (ci_name c)) (no_open (ci_module c)) (map no_open (ci_generics c)) (map no_open (ci_ports c)).
Fixpoint stm_no_open (s : stm) : stm :=
  match s with
  | SNop h => SNop (hdr_no_open h) | SBreak h => SBreak (hdr_no_open h) | SContinue h => SContinue (hdr_no_open h)
  | SExpr h e => SExpr (hdr_no_open h) (no_open e)
  | SAssign h d s td ed b => SAssign (hdr_no_open h) (no_open d) (no_open s) (opt_no_open td) (option_map (map no_open) ed) b
  | SIf h c t l f => SIf (hdr_no_open h) (no_open c) (stm_no_open t) (map (fun p => match p with (e, b) => (no_open e, stm_no_open b) end) l) (match f with Some b => Some (stm_no_open b) | None => None end)
  | SCase h u k e l f => SCase (hdr_no_open h) u k (no_open e) (map (fun p => match p with (e, b) => (no_open e, stm_no_open b) end) l) (match f with Some b => Some (stm_no_open b) | None => None end)
  | SWhile h c b => SWhile (hdr_no_open h) (no_open c) (stm_no_open b)
  | SDoWhile h b c => SDoWhile (hdr_no_open h) (stm_no_open b) (no_open c)
  | SFor h i c st b => SFor (hdr_no_open h) (stm_no_open i) (no_open c) (stm_no_open st) (stm_no_open b)
  | SForIn h l c b => SForIn (hdr_no_open h) (map stm_no_open l) (no_open c) (stm_no_open b)
  | SRepeat h n b => SRepeat (hdr_no_open h) (no_open n) (stm_no_open b)
  | SBlock h j l => SBlock (hdr_no_open h) j (map stm_no_open l)
  | SProcess h se t b => SProcess (hdr_no_open h) (option_map (map no_open) se) t (stm_no_open b)
  | SWait h l => SWait (hdr_no_open h) (map no_open l)
  | SReturn h e => SReturn (hdr_no_open h) (opt_no_open e)
  | SDef d => SDef (def_no_open d)
  | SNull => SNull
  end.
Fixpoint obj_no_open (o : obj) : obj :=
  match o with
  | B_id d => B_id (def_no_open d)
  | B_type d v => B_type (def_no_open d) (tval_no_open v)
  | B_func h f ps ret body => B_func (nhdr_no_open h) f (option_map (map def_no_open) ps) (opt_no_open ret) (map obj_no_open body)
  | B_dec h gs ps l => B_dec (nhdr_no_open h) (map def_no_open gs) (map def_no_open ps) (map obj_no_open l)
  | B_def h m d l => B_def (nhdr_no_open h) (opt_no_open m) (match d with Some d => Some (obj_no_open d) | None => None end) (map obj_no_open l)
  | B_space h o l => B_space (nhdr_no_open h) o (map obj_no_open l)
  | B_inst c d a => B_inst (inst_no_open c) d (attrs_no_open a)
  | B_library h => B_library (nhdr_no_open h)
  | B_import h l => B_import (hdr_no_open h) (map no_open l)
  | B_process h se t b => B_process (hdr_no_open h) (option_map (map no_open) se) t (obj_no_open b)
  | B_block h j l => B_block (hdr_no_open h) j (map obj_no_open l)
  | B_if h c t l f => B_if (hdr_no_open h) (no_open c) (obj_no_open t) (map (fun p => match p with (e, b) => (no_open e, obj_no_open b) end) l) (match f with Some b => Some (obj_no_open b) | None => None end)
  | B_case h u k e l f => B_case (hdr_no_open h) u k (no_open e) (map (fun p => match p with (e, b) => (no_open e, obj_no_open b) end) l) (match f with Some b => Some (obj_no_open b) | None => None end)
  | B_for h i c st b => B_for (hdr_no_open h) (obj_no_open i) (no_open c) (obj_no_open st) (obj_no_open b)
  | B_forin h l c b => B_forin (hdr_no_open h) (map obj_no_open l) (no_open c) (obj_no_open b)
  | B_while h c b => B_while (hdr_no_open h) (no_open c) (obj_no_open b)
  | B_repeat h n b => B_repeat (hdr_no_open h) (no_open n) (obj_no_open b)
  | B_stm s => B_stm (stm_no_open s)
  | B_null => B_null
  end.
