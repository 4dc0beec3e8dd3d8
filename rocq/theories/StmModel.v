(** The statements of the AST: include/hdlConvertor/hdlAst/{iHdlStatement,hdlStm*,hdlIdDef}.h. *)
From Verif Require Import Base AstModel.

(** labels, __doc__ and hdlAttributes of iHdlStatement: iHdlStatement.h:19-30, iHdlObj.h:17-26.
    in_preproc is true for generate statements. *)
Record hdr := mk_hdr { labels : list str; doc : str; attrs : list (str * option expr); in_preproc : bool }.
Definition hdr0 : hdr := mk_hdr [] [] [] false.
Definition hdr_doc (d : str) : hdr := mk_hdr [] d [] false.
(** HdlDirection, hdlDirection.h:6-14 *)
Inductive direction := DIR_IN | DIR_OUT | DIR_INOUT | DIR_BUFFER | DIR_LINKAGE | DIR_INTERNAL | DIR_UNKNOWN.
(** HdlIdDef, hdlIdDef.h:20-41; constructors hdlIdDef.cpp:8-22 *)
Record iddef := mk_iddef { d_name : str; d_type : expr; d_value : option expr; d_dir : direction; d_latched : bool; d_const : bool; d_static : bool; d_shared : bool; d_alias : bool; d_doc : str; d_attrs : list (str * option expr) }.
Definition new_iddef (name : str) (t : expr) (v : option expr) (d : direction) (latched : bool) : iddef := mk_iddef name t v d latched false false false false [] [].
(** HdlStmCaseType, HdlStmCaseUniqConstrain: hdlStmCase.h:9-15 *)
Inductive case_type := CASE | CASEZ | CASEX.
Inductive uniq := CASE_UNIQ_NONE | CASE_UNIQ_UNIQUE | CASE_UNIQ_UNIQUE0 | CASE_UNIQ_PRIORITY.
(** HdlStmBlockJoinType, hdlStmBlock.h:10-15 *)
Inductive join_type := SEQ | PAR_JOIN | PAR_JOIN_ANY | PAR_JOIN_NONE.
(** HdlStmProcessTriggerConstrain, hdlStmProcess.h:9-11 *)
Inductive trigger := ALWAYS_NONE | ALWAYS_COMB | ALWAYS_FF | ALWAYS_LATCH.

(** The statement classes; every one carries its header.  A null pointer to a statement is [SNull]. *)
Inductive stm :=
| SNop (h : hdr)
| SExpr (h : hdr) (e : expr)
| SAssign (h : hdr) (dst src : expr) (time_delay : option expr) (event_delay : option (list expr)) (blocking : bool)
| SIf (h : hdr) (c : expr) (t : stm) (elifs : list (expr * stm)) (f : option stm)
| SCase (h : hdr) (u : uniq) (k : case_type) (sel : expr) (cases : list (expr * stm)) (dflt : option stm)
| SWhile (h : hdr) (c : expr) (b : stm)
| SDoWhile (h : hdr) (b : stm) (c : expr)
| SFor (h : hdr) (init : stm) (c : expr) (step : stm) (b : stm)
| SForIn (h : hdr) (vars : list stm) (coll : expr) (b : stm)
| SRepeat (h : hdr) (n : expr) (b : stm)
| SBlock (h : hdr) (j : join_type) (l : list stm)
| SProcess (h : hdr) (sens : option (list expr)) (t : trigger) (b : stm)
| SWait (h : hdr) (l : list expr)
| SReturn (h : hdr) (e : option expr)
| SBreak (h : hdr)
| SContinue (h : hdr)
| SDef (d : iddef)
| SNull.

Definition get_hdr (s : stm) : hdr :=
  match s with
  | SNop h | SExpr h _ | SAssign h _ _ _ _ _ | SIf h _ _ _ _ | SCase h _ _ _ _ _ | SWhile h _ _ | SDoWhile h _ _ | SFor h _ _ _ _
  | SForIn h _ _ _ | SRepeat h _ _ | SBlock h _ _ | SProcess h _ _ _ | SWait h _ | SReturn h _ | SBreak h | SContinue h => h
  | SDef _ | SNull => hdr0
  end.
Definition set_hdr (f : hdr -> hdr) (s : stm) : stm :=
  match s with
  | SNop h => SNop (f h) | SExpr h e => SExpr (f h) e | SAssign h a b c d e => SAssign (f h) a b c d e
  | SIf h a b c d => SIf (f h) a b c d | SCase h a b c d e => SCase (f h) a b c d e | SWhile h a b => SWhile (f h) a b
  | SDoWhile h a b => SDoWhile (f h) a b | SFor h a b c d => SFor (f h) a b c d | SForIn h a b c => SForIn (f h) a b c
  | SRepeat h a b => SRepeat (f h) a b | SBlock h a b => SBlock (f h) a b | SProcess h a b c => SProcess (f h) a b c
  | SWait h l => SWait (f h) l | SReturn h e => SReturn (f h) e | SBreak h => SBreak (f h) | SContinue h => SContinue (f h)
  | SDef d => SDef d | SNull => SNull
  end.

(** Induction through the lists of statements. *)
Fixpoint stm_ind' (P : stm -> Prop)
  (Hnop : forall h, P (SNop h)) (Hexpr : forall h e, P (SExpr h e)) (Hass : forall h a b c d e, P (SAssign h a b c d e))
  (Hif : forall h c t l f, P t -> Forall (fun p => P (snd p)) l -> (forall x, f = Some x -> P x) -> P (SIf h c t l f))
  (Hcase : forall h u k e l f, Forall (fun p => P (snd p)) l -> (forall x, f = Some x -> P x) -> P (SCase h u k e l f))
  (Hwhile : forall h c b, P b -> P (SWhile h c b)) (Hdo : forall h b c, P b -> P (SDoWhile h b c))
  (Hfor : forall h i c s b, P i -> P s -> P b -> P (SFor h i c s b))
  (Hforin : forall h l c b, Forall P l -> P b -> P (SForIn h l c b)) (Hrep : forall h n b, P b -> P (SRepeat h n b))
  (Hblock : forall h j l, Forall P l -> P (SBlock h j l)) (Hproc : forall h s t b, P b -> P (SProcess h s t b))
  (Hwait : forall h l, P (SWait h l)) (Hret : forall h e, P (SReturn h e)) (Hbr : forall h, P (SBreak h)) (Hco : forall h, P (SContinue h))
  (Hdef : forall d, P (SDef d)) (Hnull : P SNull) (s : stm) : P s :=
  let rec := stm_ind' P Hnop Hexpr Hass Hif Hcase Hwhile Hdo Hfor Hforin Hrep Hblock Hproc Hwait Hret Hbr Hco Hdef Hnull in
  let all := fix all (l : list stm) : Forall P l := match l with [] => Forall_nil P | x :: l' => Forall_cons x (rec x) (all l') end in
  let allp := fix allp (l : list (expr * stm)) : Forall (fun p => P (snd p)) l :=
    match l with [] => Forall_nil _ | (e, x) :: l' => Forall_cons (P := fun p => P (snd p)) (e, x) (rec x) (allp l') end in
  let opt := fun o : option stm => match o return forall x, o = Some x -> P x with
    | Some y => fun x E => eq_ind y P (rec y) x (f_equal (fun o => match o with Some z => z | None => y end) E)
    | None => fun x E => match eq_ind None (fun o => match o with Some _ => False | None => True end) I (Some x) E with end end in
  match s with
  | SNop h => Hnop h | SExpr h e => Hexpr h e | SAssign h a b c d e => Hass h a b c d e
  | SIf h c t l f => Hif h c t l f (rec t) (allp l) (opt f)
  | SCase h u k e l f => Hcase h u k e l f (allp l) (opt f)
  | SWhile h c b => Hwhile h c b (rec b) | SDoWhile h b c => Hdo h b c (rec b)
  | SFor h i c st b => Hfor h i c st b (rec i) (rec st) (rec b)
  | SForIn h l c b => Hforin h l c b (all l) (rec b) | SRepeat h n b => Hrep h n b (rec b)
  | SBlock h j l => Hblock h j l (all l) | SProcess h se t b => Hproc h se t b (rec b)
  | SWait h l => Hwait h l | SReturn h e => Hret h e | SBreak h => Hbr h | SContinue h => Hco h | SDef d => Hdef d | SNull => Hnull
  end.
