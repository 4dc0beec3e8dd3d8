(** How the generated VHDL parser groups the tokens of declarations, concurrent statements and design units: rules
    design_file, entity_declaration, architecture_body, package_declaration, package_body, the declarative items,
    interface_list, subtype_indication, type_definition, concurrent_statement and generate_statement,
    grammars/vhdlParser.g4:151-530,840-1060.  Trees are those of VhdlDeclModel.v, expressions and sequential statements
    are parsed as in VhdlSyntaxModel.v and VhdlStmSyntaxModel.v.
    Simplified: configurations, contexts, package and subprogram instances, generics of packages, blocks and subprograms,
    headers and guards of blocks, statements of entities, postponed, files, attributes, groups, register, bus, physical,
    access, file and protected types, element resolutions, and constraints with several dimensions behind a type mark are
    not modelled. *)
From Verif Require Import Base AstModel StmModel LitModel SvExprModel SvStmModel VhdlExprModel VhdlStmModel VhdlDeclModel VhdlSyntaxModel VhdlLexModel VhdlStmSyntaxModel.

(** ** Parts *)
Definition p_id (ts : list hstk) : outcome (str * list hstk) := match ts with X (KLit (NL_id s)) :: r => Ok (s, r) | _ => no_vparse end.
(** identifier_list, vhdlParser.g4:346 *)
Definition p_ids (ts : list hstk) : outcome (list str * list hstk) := p_many comma p_id ts.
Definition p_colon (ts : list hstk) : outcome (list hstk) := match ts with Colon :: r => Ok r | _ => no_vparse end.
Definition p_rp (ts : list hstk) : outcome (list hstk) := match ts with X KRp :: r => Ok r | _ => no_vparse end.
(** ( keyword )? *)
Definition skip (k : hkw) (ts : list hstk) : list hstk := match ts with Kw k' :: r => if hkw_beq k k' then r else ts | _ => ts end.
(** range, range_constraint: vhdlParser.g4:292-297 *)
Definition is_attr (e : hexpr) : bool := match e with HAttr _ _ _ => true | _ => false end.
Definition p_rrange (ts : list hstk) : outcome (hrange hexpr * list hstk) :=
  '(a, r) <- x_simple ts ;;
  match r with
  | X (KDir d) :: r1 => '(b, r2) <- x_simple r1 ;; Ok (R_explicit a d b, r2)
  | _ => if is_attr a then Ok (R_name a, r) else no_vparse
  end.
Definition p_rconstr (ts : list hstk) : outcome (option (hconstr hexpr) * list hstk) :=
  match ts with Kw k_range :: r => '(x, r1) <- p_rrange r ;; Ok (Some (Con_range x), r1) | _ => Ok (None, ts) end.
(** subtype_indication, resolution_indication, constraint: vhdlParser.g4:389-404.  A constraint ( a to b ) is read as the
    end of the name, which is the type mark. *)
Definition p_subtype (ts : list hstk) : outcome (hexpr * list hstk) :=
  '(a, r) <- x_name ts ;;
  match r with
  | X (KLit _) :: _ => '(b, r1) <- x_name r ;; '(c, r2) <- p_rconstr r1 ;; Ok (HSubtype (Some (Res_name a)) b c, r2)
  | _ => '(c, r1) <- p_rconstr r ;; Ok (HSubtype None a c, r1)
  end.
(** discrete_range: vhdlParser.g4:334; as in [p_range], and a subtype with a range *)
Definition p_drange (ts : list hstk) : outcome (hrange hexpr * list hstk) :=
  '(a, r) <- x_simple ts ;;
  match r with
  | X (KDir d) :: r1 => '(b, r2) <- x_simple r1 ;; Ok (R_explicit a d b, r2)
  | Kw k_range :: r1 => if VhdlSyntaxModel.is_name a then '(x, r2) <- p_rrange r1 ;; Ok (R_name (HSubtype None a (Some (Con_range x))), r2) else no_vparse
  | _ => if VhdlSyntaxModel.is_name a then Ok (R_name a, r) else no_vparse
  end.
(** ( := expression )? *)
Definition p_init (ts : list hstk) : outcome (option hexpr * list hstk) := match ts with VarAsg :: r => '(e, r1) <- x_expr r ;; Ok (Some e, r1) | _ => Ok (None, ts) end.
(** selected_name, use_clause: vhdlParser.g4:151-153,1009-1011 *)
Fixpoint is_selected (e : hexpr) : bool := match e with HLit (NL_id _) => true | HDot n _ | HAll n => is_selected n | _ => false end.
Definition p_selected (ts : list hstk) : outcome (hexpr * list hstk) := '(e, r) <- x_name ts ;; if is_selected e then Ok (e, r) else no_vparse.
Definition p_use (ts : list hstk) : outcome (list hexpr * list hstk) := '(l, r) <- p_many comma p_selected ts ;; p_semi l r.

(** ** Interfaces, vhdlParser.g4:432-497 *)
Definition p_mode (ts : list hstk) : option smode * list hstk :=
  match ts with
  | Kw k_in :: r => (Some Md_in, r) | Kw k_out :: r => (Some Md_out, r) | Kw k_inout :: r => (Some Md_inout, r)
  | Kw k_buffer :: r => (Some Md_buffer, r) | Kw k_linkage :: r => (Some Md_linkage, r)
  | _ => (None, ts)
  end.
Definition p_iface (ts : list hstk) : outcome (iface * list hstk) :=
  let object (mk : list str -> option smode -> hexpr -> option hexpr -> iface) (r : list hstk) : outcome (iface * list hstk) :=
    '(ns, r1) <- p_ids r ;; r2 <- p_colon r1 ;; let '(m, r3) := p_mode r2 in '(t, r4) <- p_subtype r3 ;; '(v, r5) <- p_init r4 ;; Ok (mk ns m t v, r5) in
  match ts with
  | Kw k_constant :: r => '(ns, r1) <- p_ids r ;; r2 <- p_colon r1 ;; '(t, r3) <- p_subtype (skip k_in r2) ;; '(v, r4) <- p_init r3 ;; Ok (IF_constant ns t v, r4)
  | Kw k_variable :: r => object IF_variable r
  | Kw k_signal :: r => object (fun ns m t v => IF_signal true ns m t false v) r
  | _ => object (fun ns m t v => IF_signal false ns m t false v) ts
  end.
Definition semi (t : hstk) : bool := match t with Semi => true | _ => false end.
(** ( interface_list ) *)
Definition p_ifaces (ts : list hstk) : outcome (list iface * list hstk) :=
  match ts with X KLp :: r => '(l, r1) <- p_many semi p_iface r ;; r2 <- p_rp r1 ;; Ok (l, r2) | _ => no_vparse end.
(** ( generic_clause )?, ( port_clause )? *)
Definition p_clause (k : hkw) (ts : list hstk) : outcome (option (list iface) * list hstk) :=
  match ts with
  | Kw k' :: r => if hkw_beq k k' then '(l, r1) <- p_ifaces r ;; p_semi (Some l) r1 else Ok (None, ts)
  | _ => Ok (None, ts)
  end.

(** ** Types, vhdlParser.g4:286-388 *)
Definition p_elit (ts : list hstk) : outcome (elit * list hstk) :=
  match ts with X (KLit (NL_id s)) :: r => Ok (El_id s, r) | X (KLit (NL_char t)) :: r => Ok (El_char t, r) | _ => no_vparse end.
(** index_subtype_definition *)
Definition p_mark (ts : list hstk) : outcome (hexpr * list hstk) := '(n, r) <- x_name ts ;; match r with Kw k_range :: Box :: r1 => Ok (n, r1) | _ => no_vparse end.
Definition p_elem (ts : list hstk) : outcome ((list str * hexpr) * list hstk) :=
  '(ns, r) <- p_ids ts ;; r1 <- p_colon r ;; '(t, r2) <- p_subtype r1 ;; p_semi (ns, t) r2.
Fixpoint p_record (fuel : nat) (ts : list hstk) : outcome (list (list str * hexpr) * list hstk) :=
  match fuel with
  | 0 => OutOfFuel
  | S f => match ts with Kw k_end :: _ => Ok ([], ts) | _ => '(x, r) <- p_elem ts ;; '(l, r1) <- p_record f r ;; Ok (x :: l, r1) end
  end.
Definition p_of (ts : list hstk) : outcome (hexpr * list hstk) := r <- p_rp ts ;; r1 <- expect k_of r ;; p_subtype r1.
Definition p_tdef (ts : list hstk) : outcome (tdef * list hstk) :=
  match ts with
  | X KLp :: r => '(l, r1) <- p_many comma p_elit r ;; r2 <- p_rp r1 ;; Ok (TD_enum l, r2)
  | Kw k_range :: r => '(x, r1) <- p_rrange r ;; Ok (TD_integer x, r1)
  | Kw k_array :: X KLp :: r =>
      '(_, r1) <- x_simple r ;;
      match r1 with
      | Kw k_range :: Box :: _ => '(l, r2) <- p_many comma p_mark r ;; '(t, r3) <- p_of r2 ;; Ok (TD_unbounded l t, r3)
      | _ => '(l, r2) <- p_many comma p_drange r ;; '(t, r3) <- p_of r2 ;; Ok (TD_constrained l t, r3)
      end
  | Kw k_record :: r =>
      '(l, r1) <- p_record (S (length r)) r ;;
      match l with [] => no_vparse | _ => r2 <- expect k_end r1 ;; r3 <- expect k_record r2 ;; Ok (TD_record l, snd (opt_label r3)) end
  | _ => no_vparse
  end.

(** ** Subprograms, components: vhdlParser.g4:205-250,528-533 *)
Definition p_desig (ts : list hstk) : outcome (desig * list hstk) :=
  match ts with X (KLit (NL_id s)) :: r => Ok (Ds_id s, r) | X (KLit (NL_op t)) :: r => Ok (Ds_op t, r) | _ => no_vparse end.
Definition p_params (ts : list hstk) : outcome (option (list iface) * list hstk) :=
  match ts with
  | Kw k_parameter :: r => '(l, r1) <- p_ifaces r ;; Ok (Some l, r1)
  | X KLp :: _ => '(l, r1) <- p_ifaces ts ;; Ok (Some l, r1)
  | _ => Ok (None, ts)
  end.
Definition p_function (p : option bool) (ts : list hstk) : outcome (subprog * list hstk) :=
  r <- expect k_function ts ;; '(d, r1) <- p_desig r ;; '(ps, r2) <- p_params r1 ;; r3 <- expect k_return r2 ;; '(t, r4) <- x_name r3 ;; Ok (SP_function p d ps t, r4).
Definition p_spec (ts : list hstk) : outcome (subprog * list hstk) :=
  match ts with
  | Kw k_procedure :: r => '(d, r1) <- p_desig r ;; '(ps, r2) <- p_params r1 ;; Ok (SP_procedure d ps, r2)
  | Kw k_pure :: r => p_function (Some true) r
  | Kw k_impure :: r => p_function (Some false) r
  | _ => p_function None ts
  end.
Definition p_component (ts : list hstk) : outcome (component * list hstk) :=
  '(n, r) <- p_id ts ;; '(g, r1) <- p_clause k_generic (skip k_is r) ;; '(p, r2) <- p_clause k_port r1 ;;
  '(_, r3) <- p_close k_component r2 ;; Ok (mk_component n g p, r3).

(** ** Declarative items *)
(** Where they stand, and what may stand there: process_declarative_item (processes, subprograms, package bodies),
    entity_declarative_item, block_declarative_item, package_declarative_item; vhdlParser.g4:162-166,182-186,261-266,928-950 *)
Inductive place := In_process | In_entity | In_block | In_package | In_body.
Definition allowed (p : place) (d : decl) : bool :=
  match d, p with
  | DC_signal _ _ _ _, (In_process | In_body) => false
  | DC_component _, (In_process | In_body | In_entity) => false
  | (DC_body _ _ _ | DC_package_body _ _), In_package => false
  | _, _ => true
  end.
Definition p_typed (mk : list str -> hexpr -> option hexpr -> decl) (ts : list hstk) : outcome (decl * list hstk) :=
  '(ns, r) <- p_ids ts ;; r1 <- p_colon r ;; '(t, r2) <- p_subtype r1 ;; '(v, r3) <- p_init r2 ;; p_semi (mk ns t v) r3.
(** end ( keyword )? ( identifier )? ; *)
Definition p_end (k : hkw) (ts : list hstk) : outcome (option str * list hstk) := r <- expect k_end ts ;; let '(l, r1) := opt_label (skip k r) in p_semi l r1.
Definition p_end_body (ts : list hstk) : outcome (option str * list hstk) :=
  r <- expect k_end ts ;;
  let '(l, r1) := opt_label (match r with Kw k_package :: Kw k_body :: r1 => r1 | _ => r end) in p_semi l r1.
(** end ( subprogram_kind )? ( designator )? ; *)
Definition p_end_sub (ts : list hstk) : outcome (unit * list hstk) :=
  r <- expect k_end ts ;;
  let r1 := match r with Kw (k_procedure | k_function) :: r1 => r1 | _ => r end in
  let r2 := match r1 with X (KLit (NL_id _ | NL_op _)) :: r2 => r2 | _ => r1 end in p_semi tt r2.
(** everything but subprogram bodies and packages *)
Definition p_simple_decl (k : hkw) (r : list hstk) : outcome (decl * list hstk) :=
  match k with
  | k_constant => p_typed DC_constant r
  | k_signal => p_typed (fun ns t v => DC_signal ns t None v) r
  | k_variable => p_typed (DC_variable false) r
  | k_shared => r1 <- expect k_variable r ;; p_typed (DC_variable true) r1
  | k_type =>
      '(n, r1) <- p_id r ;;
      match r1 with
      | Semi :: r2 => Ok (DC_type n None, r2)
      | _ => r2 <- expect k_is r1 ;; '(t, r3) <- p_tdef r2 ;; p_semi (DC_type n (Some t)) r3
      end
  | k_subtype => '(n, r1) <- p_id r ;; r2 <- expect k_is r1 ;; '(t, r3) <- p_subtype r2 ;; p_semi (DC_subtype n t) r3
  | k_alias =>
      '(n, r1) <- p_id r ;;
      '(t, r2) <- match r1 with Colon :: r2 => '(t, r3) <- p_subtype r2 ;; Ok (Some t, r3) | _ => Ok (None, r1) end ;;
      r3 <- expect k_is r2 ;; '(e, r4) <- x_name r3 ;; p_semi (DC_alias n t e None) r4
  | k_component => '(c, r1) <- p_component r ;; Ok (DC_component c, r1)
  | k_use => '(l, r1) <- p_use r ;; Ok (DC_use l, r1)
  | _ => no_vparse
  end.
Definition ends_decls (ts : list hstk) : bool := match ts with [] | Kw (k_begin | k_end) :: _ => true | _ => false end.
Fixpoint p_decl (fuel : nat) (p : place) (ts : list hstk) : outcome (decl * list hstk) :=
  match fuel with
  | 0 => OutOfFuel
  | S f =>
      '(d, r) <-
        match ts with
        | Kw (k_procedure | k_function | k_pure | k_impure) :: _ =>
            '(s, r) <- p_spec ts ;;
            match r with
            | Semi :: r1 => Ok (DC_subprogram s, r1)
            | _ =>
                r1 <- expect k_is r ;; '(ds, r2) <- p_decls f In_process r1 ;; r3 <- expect k_begin r2 ;;
                '(ss, r4) <- p_stms (4 * length r3 + 4) r3 ;; '(_, r5) <- p_end_sub r4 ;; Ok (DC_body s ds ss, r5)
            end
        | Kw k_package :: Kw k_body :: r =>
            '(n, r1) <- p_id r ;; r2 <- expect k_is r1 ;; '(ds, r3) <- p_decls f In_body r2 ;; '(_, r4) <- p_end_body r3 ;; Ok (DC_package_body n ds, r4)
        | Kw k_package :: r =>
            '(n, r1) <- p_id r ;; r2 <- expect k_is r1 ;; '(ds, r3) <- p_decls f In_package r2 ;; '(_, r4) <- p_end k_package r3 ;; Ok (DC_package n None ds, r4)
        | Kw k :: r => p_simple_decl k r
        | _ => no_vparse
        end ;;
      if allowed p d then Ok (d, r) else no_vparse
  end
with p_decls (fuel : nat) (p : place) (ts : list hstk) : outcome (list decl * list hstk) :=
  match fuel with
  | 0 => OutOfFuel
  | S f => if ends_decls ts then Ok ([], ts) else '(d, r) <- p_decl f p ts ;; '(l, r1) <- p_decls f p r ;; Ok (d :: l, r1)
  end.

(** ** Concurrent statements, vhdlParser.g4:874-1007 *)
(** association_list: what can stand behind a name *)
Definition p_assocs (ts : list hstk) : outcome (list (hassoc hexpr) * list hstk) :=
  '(e, r) <- x_name (X (KLit (NL_id [])) :: ts) ;; match e with HApply (HLit _) l => Ok (l, r) | _ => no_vparse end.
(** ( generic_map_aspect )?, ( port_map_aspect )? *)
Definition p_map (k : hkw) (ts : list hstk) : outcome (option (list (hassoc hexpr)) * list hstk) :=
  match ts with
  | Kw k' :: r => if hkw_beq k k' then r1 <- expect k_map r ;; '(l, r2) <- p_assocs r1 ;; Ok (Some l, r2) else Ok (None, ts)
  | _ => Ok (None, ts)
  end.
Definition p_maps (l : str) (u : iunit) (ts : list hstk) : outcome (cstm * list hstk) :=
  '(g, r) <- p_map k_generic ts ;; '(p, r1) <- p_map k_port r ;; p_semi (CS_inst l u g p) r1.
Definition p_cprocess (ts : list hstk) : outcome (csimple * list hstk) :=
  '(se, r1) <- p_sens ts ;; '(ds, r2) <- p_decls (2 * length r1 + 2) In_process (skip k_is r1) ;;
  r3 <- expect k_begin r2 ;; '(l, r4) <- p_stms (4 * length r3 + 4) r3 ;; '(e, r5) <- p_close k_process r4 ;; Ok (CP_process se ds l e, r5).
(** concurrent_statement_with_optional_label; [l]: the label, [ts]: what follows it.  With a label, a name before a
    semicolon is an instance, as component_instantiation_statement is the first of these alternatives. *)
Definition p_csimple (l : option str) (ts : list hstk) : outcome (cstm * list hstk) :=
  match ts with
  | Kw k_process :: r => '(s, r1) <- p_cprocess r ;; Ok (CS_simple l false s, r1)
  | Kw k_assert :: r => '(s, r1) <- p_assert r ;; match s with J_assert c m e => Ok (CS_simple l false (CP_assert c m e), r1) | _ => no_vparse end
  | Kw k_with :: _ => '(c, r1) <- p_conc ts ;; Ok (CS_simple l false (CP_assign c), r1)
  | _ =>
      '(t, r) <- x_target ts ;;
      match r with
      | X (KRel O_LE) :: _ => '(c, r1) <- p_conc ts ;; Ok (CS_simple l false (CP_assign c), r1)
      | _ =>
          if VhdlSyntaxModel.is_name t then
            match l with
            | Some l => p_maps l (IU_component false t) r
            | None => p_semi (CS_simple None false (CP_call t)) r
            end
          else no_vparse
      end
  end.
Definition p_gparam (ts : list hstk) : outcome ((str * hrange hexpr) * list hstk) :=
  '(i, r) <- p_id ts ;; r1 <- expect k_in r ;; '(x, r2) <- p_drange r1 ;; Ok ((i, x), r2).
Definition starts_decls (ts : list hstk) : bool :=
  match ts with
  | Kw (k_begin | k_constant | k_signal | k_variable | k_shared | k_type | k_subtype | k_alias | k_component | k_use | k_procedure | k_function | k_pure | k_impure | k_package) :: _ => true
  | _ => false
  end.
Fixpoint p_cstm (fuel : nat) (ts : list hstk) : outcome (cstm * list hstk) :=
  match fuel with
  | 0 => OutOfFuel
  | S f =>
      match p_label ts with
      | (Some l, Kw k_block :: r) =>
          let r1 := skip k_is r in
          '(ds, r2) <- p_decls (2 * length r1 + 2) In_block r1 ;; r3 <- expect k_begin r2 ;; '(ss, r4) <- p_cstms f r3 ;; '(e, r5) <- p_close k_block r4 ;;
          Ok (CS_block l None None None ds ss e, r5)
      | (Some l, Kw k_component :: r) => '(n, r1) <- x_name r ;; p_maps l (IU_component true n) r1
      | (Some l, Kw k_entity :: r) => '(n, r1) <- x_name r ;; p_maps l (IU_entity n None) r1
      | (Some l, Kw k_configuration :: r) => '(n, r1) <- x_name r ;; p_maps l (IU_configuration n) r1
      | (Some l, Kw k_for :: r) =>
          '(x, r1) <- p_gparam r ;; r2 <- expect k_generate r1 ;; '(b, r3) <- p_gbody f false r2 ;; '(e, r4) <- p_close k_generate r3 ;; Ok (CS_for l (fst x) (snd x) b e, r4)
      | (Some l, Kw k_if :: r) =>
          let '(a, r1) := p_label r in
          '(c, r2) <- x_expr r1 ;; r3 <- expect k_generate r2 ;; '(b, r4) <- p_gbody f false r3 ;; '(es, r5) <- p_gelifs f r4 ;; '(e, r6) <- p_gelse f r5 ;;
          '(n, r7) <- p_close k_generate r6 ;; Ok (CS_if l a c b es e n, r7)
      | (Some l, Kw k_case :: r) =>
          '(c, r1) <- x_expr r ;; r2 <- expect k_generate r1 ;; '(a, r3) <- p_galts f r2 ;; '(n, r4) <- p_close k_generate r3 ;;
          match a with [] => no_vparse | _ => Ok (CS_case l c a n, r4) end
      | (l, r) => p_csimple l r
      end
  end
with p_cstms (fuel : nat) (ts : list hstk) : outcome (list cstm * list hstk) :=
  match fuel with
  | 0 => OutOfFuel
  | S f => if ends_seq ts then Ok ([], ts) else '(s, r) <- p_cstm f ts ;; '(l, r1) <- p_cstms f r ;; Ok (s :: l, r1)
  end
with p_gbody (fuel : nat) (own_end : bool) (ts : list hstk) : outcome (gbody cstm * list hstk) :=
  match fuel with
  | 0 => OutOfFuel
  | S f =>
      if starts_decls ts then
        '(ds, r) <- p_decls (2 * length ts + 2) In_block ts ;; r1 <- expect k_begin r ;; '(ss, r2) <- p_cstms f r1 ;;
        if own_end then r3 <- expect k_end r2 ;; p_semi (GB true ds ss) (snd (opt_label r3)) else Ok (GB true ds ss, r2)
      else '(ss, r) <- p_cstms f ts ;; Ok (GB false [] ss, r)
  end
with p_gelifs (fuel : nat) (ts : list hstk) : outcome (list (option str * hexpr * gbody cstm) * list hstk) :=
  match fuel with
  | 0 => OutOfFuel
  | S f =>
      match ts with
      | Kw k_elsif :: r =>
          let '(a, r1) := p_label r in
          '(c, r2) <- x_expr r1 ;; r3 <- expect k_generate r2 ;; '(b, r4) <- p_gbody f false r3 ;; '(l, r5) <- p_gelifs f r4 ;; Ok ((a, c, b) :: l, r5)
      | _ => Ok ([], ts)
      end
  end
with p_gelse (fuel : nat) (ts : list hstk) : outcome (option (option str * gbody cstm) * list hstk) :=
  match fuel with
  | 0 => OutOfFuel
  | S f =>
      match ts with
      | Kw k_else :: r => let '(a, r1) := p_label r in r2 <- expect k_generate r1 ;; '(b, r3) <- p_gbody f false r2 ;; Ok (Some (a, b), r3)
      | _ => Ok (None, ts)
      end
  end
with p_galts (fuel : nat) (ts : list hstk) : outcome (list (option str * list (hchoice hexpr) * gbody cstm) * list hstk) :=
  match fuel with
  | 0 => OutOfFuel
  | S f =>
      match ts with
      | Kw k_when :: r =>
          let '(a, r0) := p_label r in
          '(cs, r1) <- p_many bar p_choice1 r0 ;;
          match r1 with
          | X KArrow :: r2 => '(b, r3) <- p_gbody f true r2 ;; '(l, r4) <- p_galts f r3 ;; Ok ((a, cs, b) :: l, r4)
          | _ => no_vparse
          end
      | _ => Ok ([], ts)
      end
  end.

(** ** Design units, vhdlParser.g4:154-181,1012-1058 *)
Fixpoint p_context (fuel : nat) (ts : list hstk) : outcome (list citem * list hstk) :=
  match fuel with
  | 0 => OutOfFuel
  | S f =>
      match ts with
      | Kw k_library :: r => '(l, r1) <- p_ids r ;; '(_, r2) <- p_semi tt r1 ;; '(c, r3) <- p_context f r2 ;; Ok (CI_library l :: c, r3)
      | Kw k_use :: r => '(l, r1) <- p_use r ;; '(c, r2) <- p_context f r1 ;; Ok (CI_use l :: c, r2)
      | _ => Ok ([], ts)
      end
  end.
Definition p_unit (ts : list hstk) : outcome (lunit * list hstk) :=
  match ts with
  | Kw k_entity :: r =>
      '(n, r1) <- p_id r ;; r2 <- expect k_is r1 ;; '(g, r3) <- p_clause k_generic r2 ;; '(p, r4) <- p_clause k_port r3 ;;
      '(ds, r5) <- p_decls (2 * length r4 + 2) In_entity r4 ;; '(_, r6) <- p_end k_entity r5 ;; Ok (LU_entity n g p ds [], r6)
  | Kw k_architecture :: r =>
      '(n, r1) <- p_id r ;; r2 <- expect k_of r1 ;; '(e, r3) <- x_name r2 ;; r4 <- expect k_is r3 ;;
      '(ds, r5) <- p_decls (2 * length r4 + 2) In_block r4 ;; r6 <- expect k_begin r5 ;; '(ss, r7) <- p_cstms (4 * length r6 + 4) r6 ;; '(_, r8) <- p_end k_architecture r7 ;;
      Ok (LU_arch n e ds ss, r8)
  | Kw k_package :: _ =>
      '(d, r) <- p_decl (2 * length ts + 2) In_block ts ;;
      match d with DC_package n g ds => Ok (LU_package n g ds, r) | DC_package_body n ds => Ok (LU_package_body n ds, r) | _ => no_vparse end
  | _ => no_vparse
  end.
Fixpoint p_file (fuel : nat) (ts : list hstk) : outcome (list dunit * list hstk) :=
  match fuel with
  | 0 => OutOfFuel
  | S f =>
      match ts with
      | [] => Ok ([], [])
      | _ => '(c, r) <- p_context (S (length ts)) ts ;; '(u, r1) <- p_unit r ;; '(l, r2) <- p_file f r1 ;; Ok ((c, u) :: l, r2)
      end
  end.

(** ** The tree that ANTLR takes where the grammar allows two, see [norm] in VhdlSyntaxModel.v *)
(** range, behind the word range: the name of an attribute is no subtype *)
Definition norm_rrange (r : hrange hexpr) : hrange hexpr := match r with R_name e => R_name (norm e) | R_explicit a d b => R_explicit (norm a) d (norm b) end.
Definition norm_sub (t : hexpr) : hexpr :=
  match t with
  | HSubtype ri n c =>
      HSubtype (match ri with Some (Res_name f) => Some (Res_name (norm f)) | _ => ri end) (norm n) (match c with Some (Con_range r) => Some (Con_range (norm_rrange r)) | _ => c end)
  | _ => norm t
  end.
Definition norm_drange (r : hrange hexpr) : hrange hexpr := match r with R_name (HSubtype _ _ _ as t) => R_name (norm_sub t) | _ => norm_range r end.
Definition norm_assoc (a : hassoc hexpr) : hassoc hexpr := match norm (HApply HNull [a]) with HApply _ [b] => b | _ => a end.
Definition norm_iface (i : iface) : iface :=
  match i with
  | IF_constant ns t v => IF_constant ns (norm_sub t) (option_map norm v)
  | IF_signal k ns m t b v => IF_signal k ns m (norm_sub t) b (option_map norm v)
  | IF_variable ns m t v => IF_variable ns m (norm_sub t) (option_map norm v)
  | _ => i
  end.
Definition norm_clause : option (list iface) -> option (list iface) := option_map (map norm_iface).
Definition norm_tdef (t : tdef) : tdef :=
  match t with
  | TD_integer r => TD_integer (norm_rrange r)
  | TD_unbounded l e => TD_unbounded (map norm l) (norm_sub e)
  | TD_constrained l e => TD_constrained (map norm_drange l) (norm_sub e)
  | TD_record l => TD_record (map (fun p => (fst p, norm_sub (snd p))) l)
  | _ => t
  end.
Definition norm_spec (s : subprog) : subprog :=
  match s with SP_procedure d ps => SP_procedure d (norm_clause ps) | SP_function p d ps t => SP_function p d (norm_clause ps) (norm t) end.
Fixpoint norm_decl (d : decl) : decl :=
  match d with
  | DC_constant ns t v => DC_constant ns (norm_sub t) (option_map norm v)
  | DC_signal ns t k v => DC_signal ns (norm_sub t) k (option_map norm v)
  | DC_variable sh ns t v => DC_variable sh ns (norm_sub t) (option_map norm v)
  | DC_type n t => DC_type n (option_map norm_tdef t)
  | DC_subtype n t => DC_subtype n (norm_sub t)
  | DC_alias n t e s => DC_alias n (option_map norm_sub t) (norm e) s
  | DC_subprogram s => DC_subprogram (norm_spec s)
  | DC_body s ds ss => DC_body (norm_spec s) (map norm_decl ds) (map norm_stm ss)
  | DC_package n g ds => DC_package n g (map norm_decl ds)
  | DC_package_body n ds => DC_package_body n (map norm_decl ds)
  | DC_component c => DC_component (mk_component (cp_name c) (norm_clause (cp_generics c)) (norm_clause (cp_ports c)))
  | DC_use l => DC_use (map norm l)
  | DC_dropped _ => d
  end.
Definition norm_iunit (u : iunit) : iunit := match u with IU_component k n => IU_component k (norm n) | IU_entity n a => IU_entity (norm n) a | IU_configuration n => IU_configuration (norm n) end.
Definition norm_csimple (s : csimple) : csimple :=
  match s with
  | CP_process se ds ss e => CP_process (norm_sens se) (map norm_decl ds) (map norm_stm ss) e
  | CP_call n => CP_call (norm n)
  | CP_assert c m s => CP_assert (norm c) (option_map norm m) (option_map norm s)
  | CP_assign c => CP_assign (norm_conc c)
  end.
Section NormBody.
Context (f : cstm -> cstm).
Definition norm_gbody (b : gbody cstm) : gbody cstm := match b with GB k ds ss => GB k (map norm_decl ds) (map f ss) end.
End NormBody.
Fixpoint norm_cstm (s : cstm) : cstm :=
  match s with
  | CS_block l g gs ps ds ss e => CS_block l g gs ps (map norm_decl ds) (map norm_cstm ss) e
  | CS_inst l u g p => CS_inst l (norm_iunit u) (option_map (map norm_assoc) g) (option_map (map norm_assoc) p)
  | CS_for l i r b e => CS_for l i (norm_drange r) (norm_gbody norm_cstm b) e
  | CS_if l a c b es el e =>
      CS_if l a (norm c) (norm_gbody norm_cstm b) (map (fun p => (fst (fst p), norm (snd (fst p)), norm_gbody norm_cstm (snd p))) es)
        (option_map (fun p => (fst p, norm_gbody norm_cstm (snd p))) el) e
  | CS_case l c alts e => CS_case l (norm c) (map (fun p => (fst (fst p), map norm_choice (snd (fst p)), norm_gbody norm_cstm (snd p))) alts) e
  | CS_simple l p s => CS_simple l p (norm_csimple s)
  end.
Definition norm_citem (c : citem) : citem := match c with CI_use l => CI_use (map norm l) | CI_context l => CI_context (map norm l) | CI_library l => CI_library l end.
Definition norm_lunit (u : lunit) : lunit :=
  match u with
  | LU_entity n g p ds ss => LU_entity n (norm_clause g) (norm_clause p) (map norm_decl ds) (map norm_csimple ss)
  | LU_arch n e ds ss => LU_arch n (norm e) (map norm_decl ds) (map norm_cstm ss)
  | LU_package n g ds => LU_package n g (map norm_decl ds)
  | LU_package_body n ds => LU_package_body n (map norm_decl ds)
  | _ => u
  end.
Definition norm_dunit (u : dunit) : dunit := (map norm_citem (fst u), norm_lunit (snd u)).

Definition parse_vfile (ts : list hstk) : outcome (list dunit) := whole (map norm_dunit) (p_file (S (length ts)) ts).
Definition convert_vhdl_text (ho : bool) : str -> outcome (list hobj) := from_text parse_vfile (conv_file ho).
