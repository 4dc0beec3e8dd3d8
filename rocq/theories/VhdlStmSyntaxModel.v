(** How the generated VHDL parser groups the tokens of sequential statements, concurrent assignments and
    processes: rules sequential_statement and below, process_statement, concurrent_signal_assignment_any and
    concurrent_selected_signal_assignment, grammars/vhdlParser.g4:706-880,918-967.  The rules are predictive:
    ANTLR looks as far ahead as it must to choose an alternative, so that the statements that begin with a
    name are told apart by the token behind it.  Expressions are parsed as in VhdlSyntaxModel.v.
    Simplified: delay mechanisms, guarded, force and release, sequential selected assignments, postponed,
    declarations in processes, and subtypes with a constraint as range of a loop are not modelled. *)
From Verif Require Import Base AstModel StmModel LitModel SvExprModel VhdlExprModel VhdlStmModel VhdlSyntaxModel VhdlLexModel.

(** ** Tokens, vhdlLexer.g4 *)
Inductive hkw :=
| k_after | k_assert | k_begin | k_case | k_else | k_elsif | k_end | k_exit | k_for | k_if | k_in | k_is | k_loop | k_next | k_on | k_process
| k_report | k_return | k_select | k_severity | k_then | k_unaffected | k_until | k_wait | k_when | k_while | k_with
| k_alias | k_architecture | k_array | k_block | k_body | k_buffer | k_component | k_configuration | k_constant | k_entity | k_function | k_generate | k_generic | k_impure | k_inout | k_library
| k_linkage | k_map | k_of | k_out | k_package | k_parameter | k_port | k_procedure | k_pure | k_range | k_record | k_shared | k_signal | k_subtype | k_type | k_use | k_variable.   (* these of declarations and design units *)
Scheme Equality for hkw.
Inductive hstk :=
| X (t : vtok)                                (* a token of an expression; <= is also the one of signal assignments *)
| Semi | Colon | VarAsg | Quest               (* ; : := ? *)
| Kw (k : hkw)
| Box.                                        (* <> *)

(** ** Expressions in a statement: no other token can be part of them. *)
Fixpoint xsplit (ts : list hstk) : list vtok * list hstk :=
  match ts with X t :: r => let '(a, b) := xsplit r in (t :: a, b) | _ => ([], ts) end.
Definition x_with {A : Type} (p : nat -> list vtok -> outcome (A * list vtok)) (ts : list hstk) : outcome (A * list hstk) :=
  let '(xs, rest) := xsplit ts in '(e, r) <- p (12 * length xs + 12) xs ;; Ok (e, map X r ++ rest).
Definition name_of (f : nat) (ts : list vtok) : outcome (hexpr * list vtok) := match ts with KLit l :: r => p_name f (HLit l) r | _ => no_vparse end.
(** target, vhdlParser.g4:764-767 *)
Definition target_of (f : nat) (ts : list vtok) : outcome (hexpr * list vtok) :=
  match ts with KLp :: r => '(l, r') <- p_elems f r ;; Ok (HAgg l, r') | _ => name_of f ts end.
Definition x_expr : list hstk -> outcome (hexpr * list hstk) := x_with (fun f => p_exp f 0).
Definition x_simple : list hstk -> outcome (hexpr * list hstk) := x_with (fun f => p_simple f 0).
Definition x_name : list hstk -> outcome (hexpr * list hstk) := x_with name_of.
Definition x_target : list hstk -> outcome (hexpr * list hstk) := x_with target_of.

(** ** Parts of statements *)
(** item ( sep item )* *)
Fixpoint p_sep {A : Type} (sep : hstk -> bool) (item : list hstk -> outcome (A * list hstk)) (fuel : nat) (ts : list hstk) : outcome (list A * list hstk) :=
  match fuel with
  | 0 => OutOfFuel
  | S f =>
      '(x, r) <- item ts ;;
      match r with
      | t :: r1 => if sep t then '(l, r2) <- p_sep sep item f r1 ;; Ok (x :: l, r2) else Ok ([x], r)
      | [] => Ok ([x], [])
      end
  end.
Definition comma (t : hstk) : bool := match t with X KComma => true | _ => false end.
Definition bar (t : hstk) : bool := match t with X KBar => true | _ => false end.
Definition p_many {A : Type} (sep : hstk -> bool) (item : list hstk -> outcome (A * list hstk)) (ts : list hstk) : outcome (list A * list hstk) := p_sep sep item (S (length ts)) ts.
Definition p_semi {A : Type} (x : A) (ts : list hstk) : outcome (A * list hstk) := match ts with Semi :: r => Ok (x, r) | _ => no_vparse end.
(** the next token has to be the keyword *)
Definition expect (k : hkw) (ts : list hstk) : outcome (list hstk) := match ts with Kw k' :: r => if hkw_beq k k' then Ok r else no_vparse | _ => no_vparse end.
(** ( keyword expression )? *)
Definition p_opt (k : hkw) (ts : list hstk) : outcome (option hexpr * list hstk) :=
  match ts with
  | Kw k' :: r => if hkw_beq k k' then '(e, r1) <- x_expr r ;; Ok (Some e, r1) else Ok (None, ts)
  | _ => Ok (None, ts)
  end.
Definition opt_label (ts : list hstk) : option str * list hstk := match ts with X (KLit (NL_id s)) :: r => (Some s, r) | _ => (None, ts) end.
Definition opt_quest (ts : list hstk) : bool * list hstk := match ts with Quest :: r => (true, r) | _ => (false, ts) end.
(** waveform_element, waveform: vhdlParser.g4:768-776 *)
Definition p_welem (ts : list hstk) : outcome (wave_elem * list hstk) := '(e, r) <- x_expr ts ;; '(d, r1) <- p_opt k_after r ;; Ok ((e, d), r1).
Definition p_wave (ts : list hstk) : outcome (wave * list hstk) :=
  match ts with
  | Kw k_unaffected :: r => Ok (W_unaffected, r)
  | _ => '(l, r) <- p_many comma p_welem ts ;; match l with x :: l' => Ok (W_elems x l', r) | [] => no_vparse end
  end.
(** What follows [x] when, in conditional_waveforms and conditional_expressions: vhdlParser.g4:785-797 *)
Fixpoint p_conds {A : Type} (item : list hstk -> outcome (A * list hstk)) (fuel : nat) (x : A) (ts : list hstk) : outcome ((list (A * hexpr) * option A) * list hstk) :=
  match fuel with
  | 0 => OutOfFuel
  | S f =>
      '(c, r) <- x_expr ts ;;
      match r with
      | Kw k_else :: r1 =>
          '(y, r2) <- item r1 ;;
          match r2 with
          | Kw k_when :: r3 => '(p, r4) <- p_conds item f y r3 ;; Ok (((x, c) :: fst p, snd p), r4)
          | _ => Ok (([(x, c)], Some y), r2)
          end
      | _ => Ok (([(x, c)], None), r)
      end
  end.
(** discrete_range, choice: vhdlParser.g4:334,691-695; [any]: an expression that is no name is allowed *)
Definition p_range (any : bool) (ts : list hstk) : outcome (hrange hexpr * list hstk) :=
  '(a, r) <- x_simple ts ;;
  match r with
  | X (KDir d) :: r1 => '(b, r2) <- x_simple r1 ;; Ok (R_explicit a d b, r2)
  | _ => if any || is_name a then Ok (R_name a, r) else no_vparse
  end.
Definition p_choice1 (ts : list hstk) : outcome (hchoice hexpr * list hstk) :=
  match ts with X KOthers :: r => Ok (Ch_others, r) | _ => '(r, r1) <- p_range true ts ;; Ok (Ch r, r1) end.

(** ** Statements without statements in them *)
(** wait_statement: vhdlParser.g4:729-735 *)
Definition p_wait (ts : list hstk) : outcome (hitem hstm * list hstk) :=
  '(on, r) <- match ts with Kw k_on :: r => p_many comma x_name r | _ => Ok ([], ts) end ;;
  '(u, r1) <- p_opt k_until r ;; '(d, r2) <- p_opt k_for r1 ;; p_semi (J_wait on u d) r2.
(** assertion, report_statement: vhdlParser.g4:736-745 *)
Definition p_assert (ts : list hstk) : outcome (hitem hstm * list hstk) :=
  '(c, r) <- x_expr ts ;; '(m, r1) <- p_opt k_report r ;; '(s, r2) <- p_opt k_severity r1 ;; p_semi (J_assert c m s) r2.
Definition p_report (ts : list hstk) : outcome (hitem hstm * list hstk) := '(e, r) <- x_expr ts ;; '(s, r1) <- p_opt k_severity r ;; p_semi (J_report e s) r1.
(** What follows target <=: vhdlParser.g4:756-758,782-784,949-952.  [Some]: with conditions *)
Definition p_waves (ts : list hstk) : outcome ((wave + condwave) * list hstk) :=
  '(w, r) <- p_wave ts ;;
  match r with
  | Kw k_when :: r1 =>
      '(p, r2) <- p_conds p_wave (S (length r1)) w r1 ;;
      match fst p with x :: l => p_semi (inr (CW x l (snd p))) r2 | [] => no_vparse end
  | _ => p_semi (inl w) r
  end.
Definition p_value (t : hexpr) (ts : list hstk) : outcome (hitem hstm * list hstk) :=
  '(e, r) <- x_expr ts ;;
  match r with
  | Kw k_when :: r1 => '(p, r2) <- p_conds x_expr (S (length r1)) e r1 ;; p_semi (J_variable_cond t (fst p) (snd p)) r2
  | _ => p_semi (J_variable t e) r
  end.
(** assignments and procedure calls: vhdlParser.g4:756-828 *)
Definition p_assign (ts : list hstk) : outcome (hitem hstm * list hstk) :=
  '(t, r) <- x_target ts ;;
  match r with
  | X (KRel O_LE) :: r1 => '(w, r2) <- p_waves r1 ;; Ok (match w with inl w => J_signal t None w | inr w => J_signal_cond t None w end, r2)
  | VarAsg :: r1 => p_value t r1
  | Semi :: r1 => if is_name t then Ok (J_call t, r1) else no_vparse
  | _ => no_vparse
  end.
(** next_statement, exit_statement: vhdlParser.g4:863-868 *)
Definition p_jump (f : option str -> option hexpr -> hitem hstm) (ts : list hstk) : outcome (hitem hstm * list hstk) :=
  let '(l, r) := opt_label ts in '(c, r1) <- p_opt k_when r ;; p_semi (f l c) r1.
Definition p_return (ts : list hstk) : outcome (hitem hstm * list hstk) :=
  match ts with Semi :: r => Ok (J_return None, r) | _ => '(e, r) <- x_expr ts ;; p_semi (J_return (Some e)) r end.
(** end keyword ( label )? ; *)
Definition p_close (k : hkw) (ts : list hstk) : outcome (option str * list hstk) :=
  r <- expect k_end ts ;; r1 <- expect k r ;; let '(l, r2) := opt_label r1 in p_semi l r2.
Definition p_close_case (ts : list hstk) : outcome (option str * list hstk) :=
  r <- expect k_end ts ;; r1 <- expect k_case r ;; let '(_, r2) := opt_quest r1 in let '(l, r3) := opt_label r2 in p_semi l r3.
(** parameter_specification: vhdlParser.g4:860-862 *)
Definition p_param (ts : list hstk) : outcome ((str * hrange hexpr) * list hstk) :=
  match ts with X (KLit (NL_id i)) :: Kw k_in :: r => '(x, r1) <- p_range false r ;; Ok ((i, x), r1) | _ => no_vparse end.

(** ** sequential_statement, sequence_of_statements, if, case, loop: vhdlParser.g4:706-728,829-859 *)
Definition ends_seq (ts : list hstk) : bool := match ts with [] | Kw (k_end | k_elsif | k_else | k_when) :: _ => true | _ => false end.
Definition p_label (ts : list hstk) : option str * list hstk := match ts with X (KLit (NL_id s)) :: Colon :: r => (Some s, r) | _ => (None, ts) end.
Fixpoint p_stm (fuel : nat) (ts : list hstk) : outcome (hstm * list hstk) :=
  match fuel with
  | 0 => OutOfFuel
  | S f => let '(l, r) := p_label ts in '(i, r1) <- p_item f r ;; Ok (HS l i, r1)
  end
with p_item (fuel : nat) (ts : list hstk) : outcome (hitem hstm * list hstk) :=
  match fuel with
  | 0 => OutOfFuel
  | S f =>
      match ts with
      | X KNull :: r => p_semi J_null r
      | X _ :: _ => p_assign ts
      | Kw k :: r =>
          match k with
          | k_wait => p_wait r
          | k_assert => p_assert r
          | k_report => p_report r
          | k_next => p_jump J_next r
          | k_exit => p_jump J_exit r
          | k_return => p_return r
          | k_if =>
              '(c, r1) <- x_expr r ;; r2 <- expect k_then r1 ;; '(b, r3) <- p_stms f r2 ;;
              '(l, r4) <- p_elsifs f r3 ;; '(e, r5) <- p_else f r4 ;; '(n, r6) <- p_close k_if r5 ;; Ok (J_if c b l e n, r6)
          | k_case =>
              let '(q, r0) := opt_quest r in
              '(e, r1) <- x_expr r0 ;; r2 <- expect k_is r1 ;; '(l, r3) <- p_alts f r2 ;; '(n, r4) <- p_close_case r3 ;;
              match l with [] => no_vparse | _ => Ok (J_case q e l n, r4) end
          | k_loop => '(b, r1) <- p_stms f r ;; '(n, r2) <- p_close k_loop r1 ;; Ok (J_loop b n, r2)
          | k_while => '(c, r1) <- x_expr r ;; r2 <- expect k_loop r1 ;; '(b, r3) <- p_stms f r2 ;; '(n, r4) <- p_close k_loop r3 ;; Ok (J_while c b n, r4)
          | k_for => '(x, r1) <- p_param r ;; r2 <- expect k_loop r1 ;; '(b, r3) <- p_stms f r2 ;; '(n, r4) <- p_close k_loop r3 ;; Ok (J_for (fst x) (snd x) b n, r4)
          | _ => no_vparse
          end
      | _ => no_vparse
      end
  end
with p_stms (fuel : nat) (ts : list hstk) : outcome (list hstm * list hstk) :=
  match fuel with
  | 0 => OutOfFuel
  | S f => if ends_seq ts then Ok ([], ts) else '(s, r) <- p_stm f ts ;; '(l, r1) <- p_stms f r ;; Ok (s :: l, r1)
  end
with p_elsifs (fuel : nat) (ts : list hstk) : outcome (list (hexpr * list hstm) * list hstk) :=
  match fuel with
  | 0 => OutOfFuel
  | S f =>
      match ts with
      | Kw k_elsif :: r => '(c, r1) <- x_expr r ;; r2 <- expect k_then r1 ;; '(b, r3) <- p_stms f r2 ;; '(l, r4) <- p_elsifs f r3 ;; Ok ((c, b) :: l, r4)
      | _ => Ok ([], ts)
      end
  end
with p_else (fuel : nat) (ts : list hstk) : outcome (option (list hstm) * list hstk) :=
  match fuel with
  | 0 => OutOfFuel
  | S f => match ts with Kw k_else :: r => '(b, r1) <- p_stms f r ;; Ok (Some b, r1) | _ => Ok (None, ts) end
  end
with p_alts (fuel : nat) (ts : list hstk) : outcome (list (list (hchoice hexpr) * list hstm) * list hstk) :=
  match fuel with
  | 0 => OutOfFuel
  | S f =>
      match ts with
      | Kw k_when :: r =>
          '(cs, r1) <- p_many bar p_choice1 r ;;
          match r1 with
          | X KArrow :: r2 => '(b, r3) <- p_stms f r2 ;; '(l, r4) <- p_alts f r3 ;; Ok ((cs, b) :: l, r4)
          | _ => no_vparse
          end
      | _ => Ok ([], ts)
      end
  end.

(** ** Processes and concurrent assignments *)
(** the sensitivity list of a process, with its parentheses: vhdlParser.g4:919,926 *)
Definition p_sens (ts : list hstk) : outcome (hsens * list hstk) :=
  match ts with
  | X KLp :: X KAll :: X KRp :: r => Ok (HSens_all, r)
  | X KLp :: r => '(l, r1) <- p_many comma x_name r ;; match r1 with X KRp :: r2 => Ok (HSens l, r2) | _ => no_vparse end
  | _ => Ok (HSens_none, ts)
  end.
(** process_statement: vhdlParser.g4:918-927; without declarations *)
Definition p_process (ts : list hstk) : outcome ((hsens * list hstm) * list hstk) :=
  r <- expect k_process ts ;; '(se, r1) <- p_sens r ;;
  let r2 := match r1 with Kw k_is :: r2 => r2 | _ => r1 end in
  r3 <- expect k_begin r2 ;; '(l, r4) <- p_stms (4 * length r3 + 4) r3 ;; '(_, r5) <- p_close k_process r4 ;; Ok ((se, l), r5).
(** selected_waveforms: vhdlParser.g4:798-801 *)
Definition p_selwave (ts : list hstk) : outcome (selwave * list hstk) := '(w, r) <- p_wave ts ;; r1 <- expect k_when r ;; '(cs, r2) <- p_many bar p_choice1 r1 ;; Ok ((w, cs), r2).
(** vhdlParser.g4:946-957 *)
Definition p_conc (ts : list hstk) : outcome (hconc * list hstk) :=
  match ts with
  | Kw k_with :: r =>
      '(e, r1) <- x_expr r ;; r2 <- expect k_select r1 ;; let '(q, r3) := opt_quest r2 in
      '(t, r4) <- x_target r3 ;;
      match r4 with X (KRel O_LE) :: r5 => '(l, r6) <- p_many comma p_selwave r5 ;; p_semi (CC_select q e t l) r6 | _ => no_vparse end
  | _ =>
      '(t, r) <- x_target ts ;;
      match r with X (KRel O_LE) :: r1 => '(w, r2) <- p_waves r1 ;; Ok (match w with inl w => CC_wave t w | inr w => CC_cond t w end, r2) | _ => no_vparse end
  end.

(** ** The tree that ANTLR takes where the grammar allows two, see [norm] in VhdlSyntaxModel.v *)
Definition norm_range (r : hrange hexpr) : hrange hexpr :=
  match r with R_name e => R_name (if is_name e then HSubtype None (norm e) None else norm e) | R_explicit a d b => R_explicit (norm a) d (norm b) end.
Definition norm_choice (c : hchoice hexpr) : hchoice hexpr := match c with Ch_others => Ch_others | Ch r => Ch (norm_range r) end.
Definition norm_welem (p : wave_elem) : wave_elem := (norm (fst p), option_map norm (snd p)).
Definition norm_wave (w : wave) : wave := match w with W_elems x l => W_elems (norm_welem x) (map norm_welem l) | W_unaffected => W_unaffected end.
Definition norm_cw (p : wave * hexpr) : wave * hexpr := (norm_wave (fst p), norm (snd p)).
Definition norm_condwave (w : condwave) : condwave := match w with CW p l e => CW (norm_cw p) (map norm_cw l) (option_map norm_wave e) end.
Definition norm_selwave (p : selwave) : selwave := (norm_wave (fst p), map norm_choice (snd p)).
Section NormItem.
Context (f : hstm -> hstm).
Definition norm_item (i : hitem hstm) : hitem hstm :=
  match i with
  | J_wait on u d => J_wait (map norm on) (option_map norm u) (option_map norm d)
  | J_assert c m s => J_assert (norm c) (option_map norm m) (option_map norm s)
  | J_report e s => J_report (norm e) (option_map norm s)
  | J_signal t d w => J_signal (norm t) d (norm_wave w)
  | J_signal_cond t d w => J_signal_cond (norm t) d (norm_condwave w)
  | J_variable t e => J_variable (norm t) (norm e)
  | J_variable_cond t l e => J_variable_cond (norm t) (map (fun p => (norm (fst p), norm (snd p))) l) (option_map norm e)
  | J_call n => J_call (norm n)
  | J_if c b l e n => J_if (norm c) (map f b) (map (fun p => (norm (fst p), map f (snd p))) l) (option_map (map f) e) n
  | J_case q e l n => J_case q (norm e) (map (fun p => (map norm_choice (fst p), map f (snd p))) l) n
  | J_while c b n => J_while (norm c) (map f b) n
  | J_for i r b n => J_for i (norm_range r) (map f b) n
  | J_loop b n => J_loop (map f b) n
  | J_next l c => J_next l (option_map norm c)
  | J_exit l c => J_exit l (option_map norm c)
  | J_return e => J_return (option_map norm e)
  | J_null | J_force _ _ _ | J_release _ _ | J_force_cond _ _ _ | J_signal_select _ _ _ | J_variable_select _ _ _ => i
  end.
End NormItem.
Fixpoint norm_stm (s : hstm) : hstm := match s with HS l i => HS l (norm_item norm_stm i) end.
Definition norm_sens (s : hsens) : hsens := match s with HSens l => HSens (map norm l) | _ => s end.
Definition norm_conc (c : hconc) : hconc :=
  match c with
  | CC_wave t w => CC_wave (norm t) (norm_wave w)
  | CC_cond t w => CC_cond (norm t) (norm_condwave w)
  | CC_select q e t l => CC_select q (norm e) (norm t) (map norm_selwave l)
  end.

Definition whole {A B : Type} (f : A -> B) (o : outcome (A * list hstk)) : outcome B := '(x, r) <- o ;; match r with [] => Ok (f x) | _ => no_vparse end.
Definition parse_vstatement (ts : list hstk) : outcome hstm := whole norm_stm (p_stm (4 * length ts + 4) ts).
Definition parse_vprocess (ts : list hstk) : outcome (hsens * list hstm) := whole (fun p => (norm_sens (fst p), map norm_stm (snd p))) (p_process ts).
Definition parse_conc (ts : list hstk) : outcome hconc := whole norm_conc (p_conc ts).

(** ** From text to tokens *)
Definition vhstk_of (tick : bool) (t : vkind * str) : option hstk :=
  match vtok_behind tick t with
  | Some x => Some (X x)
  | None =>
      match fst t with
      | V_KW k =>
          option_map Kw (assoc_str k
            [($"after", k_after); ($"assert", k_assert); ($"begin", k_begin); ($"case", k_case); ($"else", k_else); ($"elsif", k_elsif); ($"end", k_end); ($"exit", k_exit);
             ($"for", k_for); ($"if", k_if); ($"in", k_in); ($"is", k_is); ($"loop", k_loop); ($"next", k_next); ($"on", k_on); ($"process", k_process); ($"report", k_report);
             ($"return", k_return); ($"select", k_select); ($"severity", k_severity); ($"then", k_then); ($"unaffected", k_unaffected); ($"until", k_until); ($"wait", k_wait);
             ($"when", k_when); ($"while", k_while); ($"with", k_with);
             ($"alias", k_alias); ($"architecture", k_architecture); ($"array", k_array); ($"block", k_block); ($"body", k_body); ($"buffer", k_buffer); ($"component", k_component); ($"configuration", k_configuration); ($"constant", k_constant); ($"entity", k_entity); ($"function", k_function); ($"generate", k_generate); ($"generic", k_generic); ($"impure", k_impure); ($"inout", k_inout); ($"library", k_library);
             ($"linkage", k_linkage); ($"map", k_map); ($"of", k_of); ($"out", k_out); ($"package", k_package); ($"parameter", k_parameter); ($"port", k_port); ($"procedure", k_procedure); ($"pure", k_pure); ($"range", k_range); ($"record", k_record); ($"shared", k_shared); ($"signal", k_signal); ($"subtype", k_subtype); ($"type", k_type); ($"use", k_use); ($"variable", k_variable)])
      | V_DELIM d => assoc_str d [($";", Semi); ($":", Colon); ($":=", VarAsg); ($"?", Quest); ($"<>", Box)]
      | _ => None
      end
  end.
Fixpoint vhstks_of (tick : bool) (l : list (vkind * str)) : option (list hstk) :=
  match l with
  | [] => Some []
  | t :: l' =>
      match vhstk_of tick t, vhstks_of (match fst t with V_DELIM d => seqb d $"'" | _ => false end) l' with
      | Some x, Some r => Some (x :: r)
      | _, _ => None
      end
  end.
Definition from_text {A B : Type} (parse : list hstk -> outcome A) (conv : A -> outcome B) (s : str) : outcome B :=
  l <- vhdl_lex s ;; match vhstks_of false l with Some ts => x <- parse ts ;; conv x | None => no_vparse end.
Definition convert_vstatement_text : str -> outcome stm := from_text parse_vstatement conv_hstm.
Definition convert_vprocess_text : str -> outcome stm := from_text parse_vprocess (fun p => conv_process (fst p) [] (snd p)).
Definition convert_conc_text : str -> outcome stm := from_text parse_conc conv_conc.
