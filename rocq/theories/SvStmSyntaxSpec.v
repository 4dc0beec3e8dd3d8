(** How a statement is written down: IEEE 1800-2017 clause A.6 and 9.3, 12.4, 12.5, 12.7.  Nothing here
    refers to the parser.  Trees and tokens are those of SvStmModel.v and SvStmSyntaxModel.v; expressions are
    written as in SvSyntaxSpec.v. *)
From Verif Require Import Base LitModel AstModel StmModel SvExprModel SvStmModel SvSyntaxModel SvSyntaxSpec SvStmSyntaxModel.

(** ** Left hand sides: a::b [i] . c [j] [k] [m : n] and { x, y } *)
Definition sel_toks (l : list vexpr) : list tok := flat_map (fun e => KLs :: show e ++ [KRs]) l.
Definition dot_toks (l : list (ident * list vexpr)) : list tok := flat_map (fun d => KDot :: id_tok (fst d) :: sel_toks (snd d)) l.
Definition last_range (r : option (rangekind * vexpr * vexpr)) : list tok :=
  match r with Some (k, a, b) => KLs :: show a ++ range_toks k ++ show b ++ [KRs] | None => [] end.
Fixpoint lv_toks (d : vexpr) : list tok :=
  match d with
  | VLvHier (VPathOf _ _ l) sel dots r => path_toks l ++ sel_toks sel ++ dot_toks dots ++ last_range r
  | VLvConcat l => KLb :: comma_toks lv_toks l ++ [KRb]
  | _ => []
  end.
Fixpoint lv_proper (d : vexpr) : Prop :=
  match d with
  | VLvHier (VPathOf false H_none l) sel dots r =>
      (l <> [] /\ Forall (fun x => snd x = None) l) /\ Forall proper sel /\ Forall (fun d => Forall proper (snd d)) dots
      /\ match r with Some (_, a, b) => proper a /\ proper b | None => True end
  | VLvConcat l => l <> [] /\ all_of lv_proper l
  | _ => False
  end.

Definition xs (e : vexpr) : list stk := map X (show e).
Definition lv (d : vexpr) : list stk := map X (lv_toks d).
Definition id_stk (i : ident) : stk := X (id_tok i).
(** ( e ) *)
Definition par (e : vexpr) : list stk := X KLp :: xs e ++ [X KRp].

(** ** Timing controls *)
Definition edge_toks (e : option edge) : list stk :=
  match e with None => [] | Some E_posedge => [Kw k_posedge] | Some E_negedge => [Kw k_negedge] | Some E_edge => [Kw k_edge] end.
Definition is_sep (t : stk) : Prop := t = Kw k_or \/ t = X KComma.
(** An event that begins with a parenthesis is left out (see SvStmSyntaxModel.v). *)
Definition no_lp (l : list stk) : Prop := match l with X KLp :: _ => False | _ => True end.
Inductive w_event : evexpr -> list stk -> Prop :=
| w_ev ed e : proper e -> no_lp (edge_toks ed ++ xs e) -> w_event (EvItem ed e None) (edge_toks ed ++ xs e)
| w_ev_iff ed e c : proper e -> proper c -> no_lp (edge_toks ed ++ xs e) -> w_event (EvItem ed e (Some c)) (edge_toks ed ++ xs e ++ Kw k_iff :: xs c).
Inductive w_events : list evexpr -> list stk -> Prop :=
| w_evs_one e ts : w_event e ts -> w_events [e] ts
| w_evs_more e l ts sep ts' : w_event e ts -> is_sep sep -> w_events l ts' -> w_events (e :: l) (ts ++ sep :: ts').
Inductive w_evctl : evctl -> list stk -> Prop :=
| w_ec_star : w_evctl EC_star [At; X (KOp S_MUL)]
| w_ec_pstar : w_evctl EC_star [At; X KLp; X (KOp S_MUL); X KRp]
| w_ec_expr l ts : w_events l ts -> w_evctl (EC_expr l) (At :: X KLp :: ts ++ [X KRp])
| w_ec_path l : l <> [] -> Forall (fun x => snd x = None) l -> w_evctl (EC_path (VLvHier (VPathOf false H_none l) [] [] None)) (At :: map X (path_toks l)).
Inductive w_delay : delay -> list stk -> Prop :=
| w_d_number s : w_delay (DV_number s) [Hash; X (KUnsigned s)]
| w_d_time s : w_delay (DV_time s) [Hash; X (KTime s)]
| w_d_real s : w_delay (DV_real s) [Hash; X (KReal s)]
| w_d_name i : w_delay (DV_path (VPath (VPathOf false H_none [(i, None)]))) [Hash; id_stk i]
| w_d_paren e : proper e -> w_delay (DV_paren e None) (Hash :: par e)
| w_d_three e t m : proper e -> proper t -> proper m ->
    w_delay (DV_paren e (Some (t, m))) (Hash :: X KLp :: xs e ++ X KColon :: xs t ++ X KColon :: xs m ++ [X KRp]).
Inductive w_dectl : dectl -> list stk -> Prop :=
| w_de_delay d ts : w_delay d ts -> w_dectl (DE_delay d) ts
| w_de_event c ts : w_evctl c ts -> w_dectl (DE_event None c) ts
| w_de_repeat n c ts : proper n -> w_evctl c ts -> w_dectl (DE_event (Some n) c) (Kw k_repeat :: par n ++ ts).

(** ** The head of a for loop *)
Definition inc_tok (incr : bool) : stk := if incr then Inc else Dec.
Inductive w_inits : list (vexpr * vexpr * str) -> list stk -> Prop :=
| w_in_one d e : lv_proper d -> proper e -> w_inits [(d, e, [])] (lv d ++ Asg A_ASSIGN :: xs e)
| w_in_more d e l ts : lv_proper d -> proper e -> w_inits l ts -> w_inits ((d, e, []) :: l) (lv d ++ Asg A_ASSIGN :: xs e ++ X KComma :: ts).
Inductive w_init : option forinit -> list stk -> Prop :=
| w_i_none : w_init None []
| w_i_assign l ts : w_inits l ts -> w_init (Some (FI_assign l)) ts.
Inductive w_step : forstep -> list stk -> Prop :=
| w_st_assign d o e : lv_proper d -> proper e -> w_step (FS_assign d o e) (lv d ++ Asg o :: xs e)
| w_st_pre incr d : lv_proper d -> w_step (FS_expr (VIncDec true incr d)) (inc_tok incr :: lv d)
| w_st_post incr d : lv_proper d -> w_step (FS_expr (VIncDec false incr d)) (lv d ++ [inc_tok incr])
| w_st_expr e : proper e -> w_step (FS_expr e) (xs e).
Inductive w_steps : list forstep -> list stk -> Prop :=
| w_sts_one s ts : w_step s ts -> w_steps [s] ts
| w_sts_more s l ts ts' : w_step s ts -> w_steps l ts' -> w_steps (s :: l) (ts ++ X KComma :: ts').
Inductive w_steps_opt : list forstep -> list stk -> Prop :=
| w_so_none : w_steps_opt [] []
| w_so_some l ts : w_steps l ts -> w_steps_opt l ts.

(** ** Statements *)
Definition uniq_toks (u : option uniq) : list stk :=
  match u with Some CASE_UNIQ_UNIQUE => [Kw k_unique] | Some CASE_UNIQ_UNIQUE0 => [Kw k_unique0] | Some CASE_UNIQ_PRIORITY => [Kw k_priority] | _ => [] end.
Definition uniq_ok (u : option uniq) : Prop := u <> Some CASE_UNIQ_NONE.
Definition case_kw (k : case_type) : kw := match k with CASE => k_case | CASEZ => k_casez | CASEX => k_casex end.
Definition open_kw (j : join_type) : kw := match j with SEQ => k_begin | _ => k_fork end.
Definition close_kw (j : join_type) : kw := match j with SEQ => k_end | PAR_JOIN => k_join | PAR_JOIN_ANY => k_join_any | PAR_JOIN_NONE => k_join_none end.
Definition name_toks (n : option ident) : list stk := match n with Some i => [X KColon; id_stk i] | None => [] end.
Definition opt_xs (e : option vexpr) : list stk := match e with Some e => xs e | None => [] end.
Definition opt_proper (e : option vexpr) : Prop := match e with Some e => proper e | None => True end.
Fixpoint label_toks (l : list vexpr) : list stk := match l with [] => [] | [e] => xs e | e :: l' => xs e ++ X KComma :: label_toks l' end.

(** An if without else ends the statement: a following else would belong to it. *)
Fixpoint open_if (s : vstm) : bool :=
  match s with
  | TNull _ => false
  | TStm _ _ _ i =>
      match i with
      | I_if _ _ _ _ None => true
      | I_if _ _ _ _ (Some b) | I_forever b | I_repeat _ b | I_while _ b | I_for _ _ _ b | I_timing _ b => open_if b
      | _ => false
      end
  end.

Section Written.
(** [same]: the name behind the end of a block has to be the one at its beginning (IEEE 1800-2017, 9.3.4). *)
Context (same : bool).
Definition end_name (n m : option ident) : Prop := m = None \/ m = n \/ same = false.
Inductive w_stm : vstm -> list stk -> Prop :=
| w_null : w_stm (TNull []) [Semi]
| w_plain i ts : w_item i ts -> w_stm (TStm None [] [] i) ts
| w_label n i ts : w_item i ts -> w_stm (TStm (Some n) [] [] i) (id_stk n :: X KColon :: ts)
with w_item : item vstm -> list stk -> Prop :=
| w_assign d o e : lv_proper d -> proper e -> w_item (I_assign_op d o e) (lv d ++ Asg o :: xs e ++ [Semi])
| w_assign_ctl d c e ts : lv_proper d -> proper e -> w_dectl c ts -> w_item (I_assign_ctl d c e) (lv d ++ Asg A_ASSIGN :: ts ++ xs e ++ [Semi])
| w_nonblocking d e : lv_proper d -> proper e -> w_item (I_nonblocking d None e) (lv d ++ X (KOp S_LE) :: xs e ++ [Semi])
| w_nonblocking_ctl d c e ts : lv_proper d -> proper e -> w_dectl c ts -> w_item (I_nonblocking d (Some c) e) (lv d ++ X (KOp S_LE) :: ts ++ xs e ++ [Semi])
| w_pre incr d : lv_proper d -> w_item (I_incdec (VIncDec true incr d)) (inc_tok incr :: lv d ++ [Semi])
| w_post incr d : lv_proper d -> w_item (I_incdec (VIncDec false incr d)) (lv d ++ [inc_tok incr; Semi])
| w_primary e : proper e -> strength_of e = 15 -> w_item (I_primary e) (xs e ++ [Semi])
| w_void e : proper e -> w_item (I_void e) (Kw k_void :: Apos :: par e ++ [Semi])
| w_case u k e l ts : uniq_ok u -> proper e -> l <> [] -> w_citems l ts -> w_item (I_case u k e l) (uniq_toks u ++ Kw (case_kw k) :: par e ++ ts ++ [Kw k_endcase])
| w_if u c t ts : uniq_ok u -> proper c -> w_stm t ts -> w_item (I_if u c [] t None) (uniq_toks u ++ Kw k_if :: par c ++ ts)
| w_if_else u c t f ts fs : uniq_ok u -> proper c -> w_stm t ts -> open_if t = false -> w_stm f fs ->
    w_item (I_if u c [] t (Some f)) (uniq_toks u ++ Kw k_if :: par c ++ ts ++ Kw k_else :: fs)
| w_forever b ts : w_stm b ts -> w_item (I_forever b) (Kw k_forever :: ts)
| w_repeat n b ts : proper n -> w_stm b ts -> w_item (I_repeat n b) (Kw k_repeat :: par n ++ ts)
| w_while c b ts : proper c -> w_stm b ts -> w_item (I_while c b) (Kw k_while :: par c ++ ts)
| w_do b c ts : w_stm b ts -> proper c -> w_item (I_do b c) (Kw k_do :: ts ++ Kw k_while :: par c ++ [Semi])
| w_for i c st b is sts ts : w_init i is -> opt_proper c -> w_steps_opt st sts -> w_stm b ts ->
    w_item (I_for i c st b) (Kw k_for :: X KLp :: is ++ Semi :: opt_xs c ++ Semi :: sts ++ X KRp :: ts)
| w_return e : opt_proper e -> w_item (I_return e) (Kw k_return :: opt_xs e ++ [Semi])
| w_break : w_item I_break [Kw k_break; Semi]
| w_continue : w_item I_continue [Kw k_continue; Semi]
| w_block j n m l ts : end_name n m -> w_stms l ts -> w_item (I_block j n [] l) (Kw (open_kw j) :: name_toks n ++ ts ++ Kw (close_kw j) :: name_toks m)
| w_after d b ds ts : w_delay d ds -> w_stm b ts -> w_item (I_timing (T_delay d) b) (ds ++ ts)
| w_at c b cs ts : w_evctl c cs -> w_stm b ts -> w_item (I_timing (T_event c) b) (cs ++ ts)
with w_stms : list vstm -> list stk -> Prop :=
| w_stms_nil : w_stms [] []
| w_stms_cons s l ts ts' : w_stm s ts -> w_stms l ts' -> w_stms (s :: l) (ts ++ ts')
with w_citems : list (citem vstm) -> list stk -> Prop :=
| w_ci_nil : w_citems [] []
| w_ci_labels es s l ts ts' : es <> [] -> all_of proper es -> w_stm s ts -> w_citems l ts' -> w_citems ((es, s) :: l) (label_toks es ++ X KColon :: ts ++ ts')
| w_ci_default s l colon ts ts' : In colon [ []; [X KColon] ] -> w_stm s ts -> w_citems l ts' -> w_citems (([], s) :: l) (Kw k_default :: colon ++ ts ++ ts').
Inductive w_process : process -> list stk -> Prop :=
| w_always k s ts : w_stm s ts -> (forall at_, s <> TNull at_) ->
    w_process (P_always k s) (Kw (match k with K_always => k_always | K_comb => k_always_comb | K_ff => k_always_ff | K_latch => k_always_latch end) :: ts)
| w_initial s ts : w_stm s ts -> w_process (P_initial s) (Kw k_initial :: ts).
End Written.
Scheme w_stm_mut := Induction for w_stm Sort Prop with w_item_mut := Induction for w_item Sort Prop
  with w_stms_mut := Induction for w_stms Sort Prop with w_citems_mut := Induction for w_citems Sort Prop.
Combined Scheme w_mutind from w_stm_mut, w_item_mut, w_stms_mut, w_citems_mut.
(** A statement as the standard wants it. *)
Definition is_statement : vstm -> list stk -> Prop := w_stm true.
