(** What a Verilog design in Python means: the objects of the AST that Python shows (PyObjSpec.v) are read as modules with
    their items, and these have the meaning of SvFileSpec.v. *)
From Verif Require Import Base BaseFacts AstModel StmModel SvExprModel SvExprSpec SvStmSpec SvDeclModel SvTfModel SvGenModel SvGenSpec SvFileModel SvFileSpec PyModel PyObjModel.

(** An object in a process, a function or a task is a statement or a declaration. *)
Fixpoint read_stm (o : obj) : option stm :=
  let part (x : option obj) : option (option stm) := match x with Some b => r <~ read_stm b ;; Some (Some r) | None => Some None end in
  match o with
  | B_id d => Some (SDef d)
  | B_stm s => Some s
  | B_null => Some SNull
  | B_if h c t l f => t' <~ read_stm t ;; l' <~ omapM (fun p => match p with (e, b) => r <~ read_stm b ;; Some (e, r) end) l ;; f' <~ part f ;; Some (SIf h c t' l' f')
  | B_case h u k e l d => l' <~ omapM (fun p => match p with (e, b) => r <~ read_stm b ;; Some (e, r) end) l ;; d' <~ part d ;; Some (SCase h u k e l' d')
  | B_while h c b => r <~ read_stm b ;; Some (SWhile h c r)
  | B_for h i c s b => i' <~ read_stm i ;; s' <~ read_stm s ;; r <~ read_stm b ;; Some (SFor h i' c s' r)
  | B_forin h l c b => l' <~ omapM read_stm l ;; r <~ read_stm b ;; Some (SForIn h l' c r)
  | B_repeat h n b => r <~ read_stm b ;; Some (SRepeat h n r)
  | B_block h j l => l' <~ omapM read_stm l ;; Some (SBlock h j l')
  | B_process h se t b => r <~ read_stm b ;; Some (SProcess h se t r)
  | _ => None
  end.
(** An object in a module: blocks, loops, if and case are generate constructs. *)
Fixpoint read_item (o : obj) : option sobj :=
  let part (x : option obj) : option (option sobj) := match x with Some b => r <~ read_item b ;; Some (Some r) | None => Some None end in
  match o with
  | B_id d => Some (SO_id d)
  | B_inst c _ _ => Some (SO_inst c)
  | B_func h f (Some ps) (Some ret) body => l <~ omapM read_stm body ;; Some (SO_func (mk_sfunc (n_name h) ret ps (f_task f) (f_static f) l))
  | B_block h SEQ l => r <~ omapM read_item l ;; Some (SO_block h r)
  | B_for h (B_block _ SEQ i) c s b => i' <~ omapM read_item i ;; s' <~ read_stm s ;; r <~ read_item b ;; Some (SO_for h i' c s' r)
  | B_if h c t l f => t' <~ read_item t ;; l' <~ omapM (fun p => match p with (e, b) => r <~ read_item b ;; Some (e, r) end) l ;; f' <~ part f ;; Some (SO_if h c t' l' f')
  | B_case h CASE_UNIQ_NONE CASE e l d => l' <~ omapM (fun p => match p with (e, b) => r <~ read_item b ;; Some (e, r) end) l ;; d' <~ part d ;; Some (SO_case h e l' d')
  | B_process _ _ _ _ | B_stm _ => s <~ read_stm o ;; Some (SO_stm s)
  | _ => None
  end.
(** A declaration is a module without body; a definition holds its declaration and its name. *)
Definition read_dec (o : obj) : option mdec :=
  match o with B_dec h gs ps [] => Some (mk_mdec (n_name h) (n_doc h) (n_attrs h) gs ps) | _ => None end.
Fixpoint read_obj (o : obj) : option fobj :=
  match o with
  | B_dec _ _ _ _ => m <~ read_dec o ;; Some (FO_dec m)
  | B_def _ (Some (EId n)) (Some d) l => m <~ read_dec d ;; r <~ omapM read_obj l ;; if seqb n (md_name m) then Some (FO_def m r) else None
  | B_id d => Some (FO_id d)
  | _ => x <~ read_item o ;; Some (FO_other [] [] x)
  end.
Definition python_means (A : algebra) (M : machine A) (N : Type) num test matches arith one_more (n : nat) (l : list obj) : option (list (smodule A M N)) :=
  r <~ omapM read_obj l ;; m_file A M N num test matches arith one_more n r.
