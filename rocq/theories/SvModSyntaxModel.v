(** How the generated Verilog parser groups the tokens of modules and files: rules source_text, description,
    module_declaration, module_item and below, grammars/sv2017Parser.g4.  As in SvStmSyntaxModel.v the parser looks as
    far ahead as it must; where two alternatives match, it takes the first one of the grammar.  Statements and
    expressions are parsed as in SvStmSyntaxModel.v and SvSyntaxModel.v.
    Simplified: comments (the documentation strings of the trees are empty, see C47) and attributes; named types,
    strings, events, enumerations, structures and unions, var, const, automatic and static; ref, interface and empty ports,
    ports with expressions; interconnect, strengths and delays; type parameters and min:typ:max values; +: and -: in
    dimensions; imports, functions, tasks, gates and everything that is skipped (GL_skipped, MT_skipped, DE_skipped) except
    for the misread instances are not modelled. *)
From Verif Require Import Base LitModel AstModel StmModel VhdlLexModel SvExprModel SvStmModel SvTypeModel SvDeclModel SvTfModel SvGenModel SvFileModel.
From Verif Require Import SvSyntaxModel SvLexModel SvStmSyntaxModel.

(** ** Tokens, sv2017Lexer.g4 *)
Inductive mkw :=
| m_module | m_macromodule | m_endmodule | m_extern | m_input | m_output | m_inout | m_signed | m_unsigned | m_parameter | m_localparam
| m_assign | m_genvar | m_generate | m_endgenerate.
Inductive mtk :=
| Y (t : stk)                                 (* a token of a statement *)
| M (k : mkw)
| Net (w : str) | Vec (w : str) | Atom (w : str) | Nonint (w : str).   (* net_type and the three groups of data_type_primitive *)

(** ** Statements and expressions in a module *)
Fixpoint ysplit (ts : list mtk) : list stk * list mtk :=
  match ts with Y t :: r => let '(a, b) := ysplit r in (t :: a, b) | _ => ([], ts) end.
Definition y_with {A : Type} (p : list stk -> outcome (A * list stk)) (ts : list mtk) : outcome (A * list mtk) :=
  let '(ys, rest) := ysplit ts in '(x, r) <- p ys ;; Ok (x, map Y r ++ rest).
Definition y_expr : list mtk -> outcome (vexpr * list mtk) := y_with x_expr.
Definition y_paren : list mtk -> outcome (vexpr * list mtk) := y_with lp_expr.
Definition y_name : list mtk -> outcome (option ident * list mtk) := y_with p_name.
Definition y_stm : list mtk -> outcome (vstm * list mtk) := y_with (fun ys => p_stm (stm_fuel ys) ys).
Definition y_assigns : list mtk -> outcome (list (vexpr * vexpr * str) * list mtk) := y_with (fun ys => p_inits (S (length ys)) ys).
Definition y_labels : list mtk -> outcome (list vexpr * list mtk) := y_with (fun ys => p_labels (S (length ys)) ys).
Notation yx t := (Y (X t)).
Definition m_semi {A : Type} (x : A) (ts : list mtk) : outcome (A * list mtk) := match ts with Y Semi :: r => Ok (x, r) | _ => no_parse end.
(** identifier *)
Definition m_id (ts : list mtk) : outcome (ident * list mtk) :=
  match ts with yx (KId s) :: r => Ok (IdPlain s, r) | yx (KEscId s) :: r => Ok (IdEsc s, r) | _ => no_parse end.
Definition starts_id (ts : list mtk) : bool := match ts with yx (KId _) :: _ | yx (KEscId _) :: _ => true | _ => false end.
(** ( ASSIGN expression )? *)
Definition m_value (ts : list mtk) : outcome (option vexpr * list mtk) :=
  match ts with Y (Asg A_ASSIGN) :: r => '(e, r1) <- y_expr r ;; Ok (Some e, r1) | _ => Ok (None, ts) end.
(** x ( COMMA x )*; where a list of parameters is followed by another declaration, the comma before it is left *)
Section Commas.
Context {A : Type} (more : list mtk -> bool) (p : list mtk -> outcome (A * list mtk)).
Fixpoint m_list (fuel : nat) (ts : list mtk) : outcome (list A * list mtk) :=
  match fuel with
  | 0 => Base.OutOfFuel
  | S f =>
      '(x, r) <- p ts ;;
      match r with
      | yx KComma :: r1 => if more r1 then '(l, r2) <- m_list f r1 ;; Ok (x :: l, r2) else Ok ([x], r)
      | _ => Ok ([x], r)
      end
  end.
End Commas.
Definition always (_ : list mtk) : bool := true.
Definition commas {A : Type} (p : list mtk -> outcome (A * list mtk)) (ts : list mtk) : outcome (list A * list mtk) := m_list always p (S (length ts)) ts.

(** ** Dimensions: range_expression, unpacked_dimension, packed_dimension, variable_dimension, sv2017Parser.g4:1158-1165,1249 *)
Fixpoint m_dims (fuel : nat) (ts : list mtk) : outcome (list vrange * list mtk) :=
  match fuel with
  | 0 => Base.OutOfFuel
  | S f =>
      match ts with
      | yx KLs :: r =>
          '(a, r1) <- y_expr r ;;
          match r1 with
          | yx KRs :: r2 => '(l, r3) <- m_dims f r2 ;; Ok (RG_one a :: l, r3)
          | yx KColon :: r2 =>
              '(b, r3) <- y_expr r2 ;;
              match r3 with yx KRs :: r4 => '(l, r5) <- m_dims f r4 ;; Ok (RG_two R_COLON a b :: l, r5) | _ => no_parse end
          | _ => no_parse
          end
      | _ => Ok ([], ts)
      end
  end.
Definition dims (ts : list mtk) : outcome (list vrange * list mtk) := m_dims (S (length ts)) ts.
(** A variable_dimension is first taken as a data type: a name in brackets is one. *)
Fixpoint like_type (e : vexpr) : bool :=
  match e with VPath _ => true | VBitSelect p _ | VRange p _ _ _ => like_type p | _ => false end.
Fixpoint vdims_of (l : list vrange) : outcome (list vdim) :=
  match l with
  | [] => Ok []
  | r :: l' =>
      d <- match r with
           | RG_one (VPath p) => Ok (VD_type (D_named p []))
           | RG_one e => if like_type e then no_parse else Ok (VD_range r)
           | _ => Ok (VD_range r)
           end ;;
      ds <- vdims_of l' ;; Ok (d :: ds)
  end.
Definition vdims (ts : list mtk) : outcome (list vdim * list mtk) := '(l, r) <- dims ts ;; ds <- vdims_of l ;; Ok (ds, r).

(** ** Types: data_type_primitive, data_type, implicit_data_type, data_type_or_implicit, net_or_var_data_type,
    sv2017Parser.g4:1176-1202,1453-1467 *)
Definition m_sign (ts : list mtk) : option signing * list mtk :=
  match ts with M m_signed :: r => (Some Signed, r) | M m_unsigned :: r => (Some Unsigned, r) | _ => (None, ts) end.
Definition m_prim (k : prim) (ts : list mtk) : outcome (option doi * list mtk) :=
  let '(s, r) := m_sign ts in '(ds, r1) <- vdims r ;; Ok (Some (DI_type (D_prim k s ds)), r1).
Definition m_implicit (ts : list mtk) : outcome (option doi * list mtk) :=
  let '(s, r) := m_sign ts in '(ds, r1) <- dims r ;; Ok (Some (DI_implicit (I_type s (map Some ds))), r1).
Definition m_type (ts : list mtk) : outcome (option doi * list mtk) :=
  match ts with
  | Vec w :: r => m_prim (P_vector w) r
  | Atom w :: r => m_prim (P_atom w) r
  | Nonint w :: r => '(ds, r1) <- vdims r ;; Ok (Some (DI_type (D_prim (P_nonint w) None ds)), r1)
  | M m_signed :: _ | M m_unsigned :: _ | yx KLs :: _ => m_implicit ts
  | _ => Ok (None, ts)
  end.
Definition m_nvtype (ts : list mtk) : outcome (option nvtype * list mtk) :=
  match ts with
  | Net w :: r => '(t, r1) <- m_type r ;; Ok (Some (N_net w t), r1)
  | _ => '(t, r) <- m_type ts ;; Ok (match t with Some t => Some (N_plain t) | None => None end, r)
  end.

(** ** Parameters: param_assignment, parameter_declaration, parameter_port_list, sv2017Parser.g4:786-799,1152-1156,1615-1626 *)
Definition m_passign (ts : list mtk) : outcome (passign * list mtk) :=
  '(i, r) <- m_id ts ;; '(ds, r1) <- dims r ;; '(v, r2) <- m_value r1 ;;
  Ok (PA i ds (match v with Some e => Some (PE_expr e) | None => None end), r2).
Definition m_passigns (ts : list mtk) : outcome (list passign * list mtk) := m_list starts_id m_passign (S (length ts)) ts.
Definition m_pbody (ts : list mtk) : outcome (pbody * list mtk) := '(t, r) <- m_type ts ;; '(l, r1) <- m_passigns r ;; Ok (PB_values t l, r1).
Definition m_pdecl (ts : list mtk) : outcome (pdecl * list mtk) :=
  match ts with
  | M m_parameter :: r => '(b, r1) <- m_pbody r ;; Ok (PD_param b, r1)
  | M m_localparam :: r => '(b, r1) <- m_pbody r ;; Ok (PD_local b, r1)
  | _ => '(t, r) <- m_type ts ;; match t with Some (DI_type t) => '(l, r1) <- m_passigns r ;; Ok (PD_typed t l, r1) | _ => no_parse end
  end.
Definition m_rp {A : Type} (x : A) (ts : list mtk) : outcome (A * list mtk) := match ts with yx KRp :: r => Ok (x, r) | _ => no_parse end.
Definition m_plist (ts : list mtk) : outcome (option plist * list mtk) :=
  match ts with
  | Y Hash :: yx KLp :: yx KRp :: r => Ok (Some PL_empty, r)
  | Y Hash :: yx KLp :: r =>
      if starts_id r then
        '(l, r1) <- m_passigns r ;;
        match r1 with yx KComma :: r2 => '(t, r3) <- commas m_pdecl r2 ;; m_rp (Some (PL_bare l t)) r3 | _ => m_rp (Some (PL_bare l [])) r1 end
      else '(l, r1) <- commas m_pdecl r ;; m_rp (Some (PL_decls l)) r1
  | _ => Ok (None, ts)
  end.

(** ** Ports: list_of_port_declarations, ansi_port_declaration, nonansi_port, nonansi_port_declaration,
    sv2017Parser.g4:165-170,1444,1628-1661 *)
Definition m_dir (ts : list mtk) : option vdir * list mtk :=
  match ts with M m_input :: r => (Some V_INPUT, r) | M m_output :: r => (Some V_OUTPUT, r) | M m_inout :: r => (Some V_INOUT, r) | _ => (None, ts) end.
(** identifier ( variable_dimension )* ( ASSIGN expression )? *)
Definition m_vitem (ts : list mtk) : outcome (vitem * list mtk) :=
  '(i, r) <- m_id ts ;; '(ds, r1) <- vdims r ;; '(v, r2) <- m_value r1 ;; Ok (mk_vitem i ds v, r2).
Definition m_ansi (ts : list mtk) : outcome (str * list attr * ansi * list mtk) :=
  let '(d, r) := m_dir ts in '(t, r1) <- m_nvtype r ;; '(v, r2) <- m_vitem r1 ;;
  Ok ([], [], AN_port d (match t with Some t => Some (T_nv t) | None => None end) v, r2).
Definition m_naport (ts : list mtk) : outcome (option (str * naport) * list mtk) :=
  '(i, r) <- m_id ts ;; Ok (Some ([], NA_expr (NE_one (mk_dotted i None []))), r).
Definition m_ports (ts : list mtk) : outcome (hports * list mtk) :=
  match ts with
  | yx KLp :: yx KRp :: r => Ok (HP_nonansi [], r)
  | yx KLp :: yx KDot :: yx (KOp S_MUL) :: yx KRp :: r => Ok (HP_all, r)
  | yx KLp :: r =>
      if starts_id r then '(l, r1) <- commas m_naport r ;; m_rp (HP_nonansi l) r1
      else '(l, r1) <- commas m_ansi r ;; m_rp (HP_ansi l) r1
  | _ => Ok (HP_none, ts)
  end.
(** identifier ( variable_dimension )* without a value *)
Definition m_iditem (ts : list mtk) : outcome (vitem * list mtk) := '(i, r) <- m_id ts ;; '(ds, r1) <- vdims r ;; Ok (mk_vitem i ds None, r1).
Definition m_nadecl (d : vdir) (ts : list mtk) : outcome (nadecl * list mtk) :=
  '(t, r) <- m_nvtype ts ;;
  match d with
  | V_INPUT => '(l, r1) <- commas m_iditem r ;; m_semi (ND_input t l) r1
  | V_OUTPUT => '(l, r1) <- commas m_vitem r ;; m_semi (ND_output t l) r1
  | V_INOUT => '(l, r1) <- commas m_iditem r ;; m_semi (ND_inout t l) r1
  | V_REF => no_parse
  end.

(** ** Instances: sv2017Parser.g4:642,1239-1253,2073-2096 *)
Definition m_opt_rp (ts : list mtk) : outcome (option vexpr * list mtk) :=
  match ts with yx KRp :: r => Ok (None, r) | _ => '(e, r) <- y_expr ts ;; m_rp (Some e) r end.
Definition m_npar (ts : list mtk) : outcome (ident * option pexp * list mtk) :=
  match ts with
  | yx KDot :: r =>
      '(i, r1) <- m_id r ;;
      match r1 with yx KLp :: r2 => '(e, r3) <- m_opt_rp r2 ;; Ok (i, match e with Some e => Some (PE_expr e) | None => None end, r3) | _ => no_parse end
  | _ => no_parse
  end.
Definition m_opar (ts : list mtk) : outcome (pexp * list mtk) := '(e, r) <- y_expr ts ;; Ok (PE_expr e, r).
Definition m_gvalues (ts : list mtk) : outcome (option gvalues * list mtk) :=
  match ts with
  | Y Hash :: yx KLp :: yx KRp :: r => Ok (Some (GV_ordered []), r)
  | Y Hash :: yx KLp :: yx KDot :: r => '(l, r1) <- commas m_npar (yx KDot :: r) ;; m_rp (Some (GV_named l)) r1
  | Y Hash :: yx KLp :: r => '(l, r1) <- commas m_opar r ;; m_rp (Some (GV_ordered l)) r1
  | _ => Ok (None, ts)
  end.
Definition m_nconn (ts : list mtk) : outcome (nconn * list mtk) :=
  match ts with
  | yx KDot :: yx (KOp S_MUL) :: r => Ok (NC_star, r)
  | yx KDot :: r =>
      '(i, r1) <- m_id r ;;
      match r1 with yx KLp :: r2 => '(e, r3) <- m_opt_rp r2 ;; Ok (NC_conn i e, r3) | _ => Ok (NC_name i, r1) end
  | _ => no_parse
  end.
Definition m_oconn (ts : list mtk) : outcome (option vexpr * list mtk) :=
  match ts with yx KRp :: _ | yx KComma :: _ => Ok (None, ts) | _ => '(e, r) <- y_expr ts ;; Ok (Some e, r) end.
Definition m_conns (ts : list mtk) : outcome (conns * list mtk) :=
  match ts with
  | yx KDot :: _ => '(l, r) <- commas m_nconn ts ;; m_rp (CO_named l) r
  | _ => '(l, r) <- commas m_oconn ts ;; m_rp (CO_ordered l) r
  end.
Definition m_hinst (ts : list mtk) : outcome (hinst * list mtk) :=
  '(i, r) <- m_id ts ;; '(ds, r1) <- dims r ;;
  match r1 with yx KLp :: r2 => '(c, r3) <- m_conns r2 ;; Ok (mk_hinst i ds c, r3) | _ => no_parse end.
(** udp_instantiation comes before the other instantiations in module_or_generate_item (sv2017Parser.g4:2222-2227) and
    takes those that it matches: one or two values behind the # can be a delay2, and two or more connections, the
    first of them a left hand side, can be the terminals of primitives. *)
Definition some {A : Type} (x : option A) : bool := match x with Some _ => true | None => false end.
Definition terminals (h : hinst) : bool :=
  match hi_conns h with CO_ordered (Some o :: l) => some (lval_of o) && negb (length l =? 0) && forallb some l | _ => false end.
Definition like_udp (i : inst) : bool :=
  match in_params i with Some (GV_ordered l) => ((length l =? 1) || (length l =? 2)) && forallb terminals (in_list i) | _ => false end.
Definition m_inst (ts : list mtk) : outcome (gleaf * list mtk) :=
  '(i, r) <- m_id ts ;; '(g, r1) <- m_gvalues r ;; '(l, r2) <- commas m_hinst r1 ;;
  let x := mk_inst i g l in m_semi (if like_udp x then GL_skipped else GL_inst x) r2.

(** ** Items: sv2017Parser.g4:171-176,1323-1328,1480,1567,1581-1614,1985-1988,2180-2227 *)
Definition m_nitem (ts : list mtk) : outcome (nitem * list mtk) :=
  '(i, r) <- m_id ts ;; '(ds, r1) <- dims r ;; '(v, r2) <- m_value r1 ;; Ok (mk_nitem i ds v, r2).
Definition m_data (ts : list mtk) : outcome (gleaf * list mtk) :=
  '(t, r) <- m_type ts ;; '(l, r1) <- commas m_vitem r ;; m_semi (GL_data (mk_data false false t l)) r1.
Definition m_always (k : always_kind) (ts : list mtk) : outcome (gleaf * list mtk) :=
  '(s, r) <- y_stm ts ;; match s with TNull _ => no_parse | _ => Ok (GL_always k [] s, r) end.
Definition m_leaf (ts : list mtk) : outcome (gleaf * list mtk) :=
  match ts with
  | Y Semi :: r => Ok (GL_semi, r)
  | M m_parameter :: r => '(b, r1) <- m_pbody r ;; m_semi (GL_param b) r1
  | M m_localparam :: r => '(b, r1) <- m_pbody r ;; m_semi (GL_local b) r1
  | M m_genvar :: r => '(l, r1) <- commas m_id r ;; m_semi (GL_genvar l) r1
  | M m_assign :: r => '(l, r1) <- y_assigns r ;; Ok (GL_assign l, r1)
  | Net w :: r => '(t, r1) <- m_type r ;; '(l, r2) <- commas m_nitem r1 ;; m_semi (GL_net (mk_net (NK_net w) false t l)) r2
  | Vec _ :: _ | Atom _ :: _ | Nonint _ :: _ => m_data ts
  | Y (Kw k_always) :: r => m_always K_always r
  | Y (Kw k_always_comb) :: r => m_always K_comb r
  | Y (Kw k_always_latch) :: r => m_always K_latch r
  | Y (Kw k_always_ff) :: r => m_always K_ff r
  | Y (Kw k_initial) :: r => '(s, r1) <- y_stm r ;; Ok (GL_initial s, r1)
  | yx _ :: _ => m_inst ts
  | _ => no_parse
  end.
(** genvar_initialization, genvar_iteration: sv2017Parser.g4:2138-2145 *)
Definition m_ginit (ts : list mtk) : outcome (ginit * list mtk) :=
  let '(g, r) := match ts with M m_genvar :: r => (true, r) | _ => (false, ts) end in
  '(i, r1) <- m_id r ;;
  match r1 with Y (Asg A_ASSIGN) :: r2 => '(e, r3) <- y_expr r2 ;; m_semi (mk_ginit g i e []) r3 | _ => no_parse end.
Definition m_gstep (ts : list mtk) : outcome (gstep * list mtk) :=
  match ts with
  | Y Inc :: r => '(i, r1) <- m_id r ;; m_rp (GS_incdec true true i) r1
  | Y Dec :: r => '(i, r1) <- m_id r ;; m_rp (GS_incdec true false i) r1
  | _ =>
      '(i, r) <- m_id ts ;;
      match r with
      | Y Inc :: r1 => m_rp (GS_incdec false true i) r1
      | Y Dec :: r1 => m_rp (GS_incdec false false i) r1
      | Y (Asg o) :: r1 => '(e, r2) <- y_expr r1 ;; m_rp (GS_assign i o e) r2
      | _ => no_parse
      end
  end.
Definition ends_gen (ts : list mtk) : bool := match ts with [] | Y (Kw k_end) :: _ | M m_endgenerate :: _ => true | _ => false end.
Definition skip_ycolon (ts : list mtk) : list mtk := match ts with yx KColon :: r => r | _ => ts end.
(** identifier COLON before KW_BEGIN *)
Definition m_pre (ts : list mtk) : option (option ident * list mtk) :=
  match ts with
  | Y (Kw k_begin) :: r => Some (None, r)
  | yx (KId s) :: yx KColon :: Y (Kw k_begin) :: r => Some (Some (IdPlain s), r)
  | yx (KEscId s) :: yx KColon :: Y (Kw k_begin) :: r => Some (Some (IdEsc s), r)
  | _ => None
  end.

(** ** Generate: generate_item, generate_begin_end_block, loop_generate_construct, if_generate_construct,
    case_generate_construct, generate_region, sv2017Parser.g4:2132-2172; an else belongs to the if that is being read *)
Fixpoint m_gen (fuel : nat) (ts : list mtk) : outcome (gitem * list mtk) :=
  match fuel with
  | 0 => Base.OutOfFuel
  | S f =>
      match m_pre ts with
      | Some (pre, r) =>
          '(n, r1) <- y_name r ;; '(l, r2) <- m_gens f r1 ;;
          match r2 with Y (Kw k_end) :: r3 => '(e, r4) <- y_name r3 ;; Ok (GI_block pre n e l, r4) | _ => no_parse end
      | None =>
          match ts with
          | M m_generate :: r => '(l, r1) <- m_gens f r ;; match r1 with M m_endgenerate :: r2 => Ok (GI_region l, r2) | _ => no_parse end
          | Y (Kw k_for) :: yx KLp :: r =>
              '(i, r1) <- m_ginit r ;; '(c, r2) <- y_expr r1 ;;
              match r2 with Y Semi :: r3 => '(s, r4) <- m_gstep r3 ;; '(b, r5) <- m_gen f r4 ;; Ok (GI_for i c s b, r5) | _ => no_parse end
          | Y (Kw k_if) :: r =>
              '(c, r1) <- y_paren r ;; '(t, r2) <- m_gen f r1 ;;
              match r2 with
              | Y (Kw k_else) :: r3 => '(e, r4) <- m_gen f r3 ;; Ok (GI_if [] c t (Some e), r4)
              | _ => Ok (GI_if [] c t None, r2)
              end
          | Y (Kw k_case) :: r => '(e, r1) <- y_paren r ;; '(l, r2) <- m_gcases f r1 ;; match l with [] => no_parse | _ => Ok (GI_case [] e l, r2) end
          | _ => '(l, r) <- m_leaf ts ;; Ok (GI_leaf l, r)
          end
      end
  end
with m_gens (fuel : nat) (ts : list mtk) : outcome (list gitem * list mtk) :=
  match fuel with
  | 0 => Base.OutOfFuel
  | S f => if ends_gen ts then Ok ([], ts) else '(g, r) <- m_gen f ts ;; '(l, r1) <- m_gens f r ;; Ok (g :: l, r1)
  end
with m_gcases (fuel : nat) (ts : list mtk) : outcome (list (list vexpr * gitem) * list mtk) :=
  match fuel with
  | 0 => Base.OutOfFuel
  | S f =>
      match ts with
      | Y (Kw k_endcase) :: r => Ok ([], r)
      | Y (Kw k_default) :: r => '(g, r1) <- m_gen f (skip_ycolon r) ;; '(l, r2) <- m_gcases f r1 ;; Ok (([], g) :: l, r2)
      | _ => '(es, r) <- y_labels ts ;; '(g, r1) <- m_gen f r ;; '(l, r2) <- m_gcases f r1 ;; Ok ((es, g) :: l, r2)
      end
  end.
Definition gen_fuel (ts : list mtk) : nat := 2 * length ts + 3.

(** ** Modules: sv2017Parser.g4:1439-1451,2233-2245 *)
(** An item begins with begin or a label only inside of generate. *)
Definition m_top (ts : list mtk) : outcome (mditem mdecl * list mtk) :=
  match m_pre ts with
  | Some _ => no_parse
  | None =>
      '(g, r) <- m_gen (gen_fuel ts) ts ;; Ok (match g with GI_region l => MT_region l | _ => MT_item [] [] g end, r)
  end.
Definition is_module (k : mkw) : bool := match k with m_module | m_macromodule => true | _ => false end.
(** module_header_common and the ports *)
Definition m_header (ts : list mtk) : outcome (mheader * hports * list mtk) :=
  match ts with
  | M k :: r =>
      if is_module k
      then '(i, r1) <- m_id r ;; '(g, r2) <- m_plist r1 ;; '(p, r3) <- m_ports r2 ;; m_semi (mk_mheader [] [] None i [] g, p) r3
      else no_parse
  | _ => no_parse
  end.
Fixpoint m_decl (fuel : nat) (ts : list mtk) : outcome (mdecl * list mtk) :=
  match fuel with
  | 0 => Base.OutOfFuel
  | S f =>
      match ts with
      | M m_extern :: r => '(hp, r1) <- m_header r ;; match snd hp with HP_all => no_parse | _ => Ok (MD true (fst hp) (snd hp) [], r1) end
      | _ =>
          '(hp, r1) <- m_header ts ;; '(l, r2) <- m_items f r1 ;;
          match r2 with M m_endmodule :: r3 => '(_, r4) <- y_name r3 ;; Ok (MD false (fst hp) (snd hp) l, r4) | _ => no_parse end
      end
  end
with m_items (fuel : nat) (ts : list mtk) : outcome (list (mditem mdecl) * list mtk) :=
  match fuel with
  | 0 => Base.OutOfFuel
  | S f =>
      match ts with
      | [] | M m_endmodule :: _ => Ok ([], ts)
      | M m_input :: r => '(n, r1) <- m_nadecl V_INPUT r ;; '(l, r2) <- m_items f r1 ;; Ok (MT_ports [] [] n :: l, r2)
      | M m_output :: r => '(n, r1) <- m_nadecl V_OUTPUT r ;; '(l, r2) <- m_items f r1 ;; Ok (MT_ports [] [] n :: l, r2)
      | M m_inout :: r => '(n, r1) <- m_nadecl V_INOUT r ;; '(l, r2) <- m_items f r1 ;; Ok (MT_ports [] [] n :: l, r2)
      | M m_extern :: _ | M m_module :: _ | M m_macromodule :: _ => '(m, r1) <- m_decl f ts ;; '(l, r2) <- m_items f r1 ;; Ok (MT_module m :: l, r2)
      | _ => '(i, r1) <- m_top ts ;; '(l, r2) <- m_items f r1 ;; Ok (i :: l, r2)
      end
  end.
Fixpoint m_source (fuel : nat) (ts : list mtk) : outcome (list description) :=
  match fuel with
  | 0 => Base.OutOfFuel
  | S f => match ts with [] => Ok [] | _ => '(m, r) <- m_decl f ts ;; l <- m_source f r ;; Ok (DE_module m :: l) end
  end.
(** source_text, sv2017Parser.g4:16 *)
Definition parse_source (ts : list mtk) : outcome (list description) := m_source (gen_fuel ts) ts.

(** ** From text *)
Definition mkw_table : list (str * mkw) :=
  [($"module", m_module); ($"macromodule", m_macromodule); ($"endmodule", m_endmodule); ($"extern", m_extern); ($"input", m_input); ($"output", m_output);
   ($"inout", m_inout); ($"signed", m_signed); ($"unsigned", m_unsigned); ($"parameter", m_parameter); ($"localparam", m_localparam); ($"assign", m_assign);
   ($"genvar", m_genvar); ($"generate", m_generate); ($"endgenerate", m_endgenerate)].
(** net_type, integer_vector_type, integer_atom_type, non_integer_type: sv2017Parser.g4:61-91 *)
Definition net_words : list str := [$"supply0"; $"supply1"; $"tri"; $"triand"; $"trior"; $"trireg"; $"tri0"; $"tri1"; $"uwire"; $"wire"; $"wand"; $"wor"].
Definition vec_words : list str := [$"bit"; $"logic"; $"reg"].
Definition atom_words : list str := [$"byte"; $"shortint"; $"int"; $"longint"; $"integer"; $"time"].
Definition nonint_words : list str := [$"shortreal"; $"real"; $"realtime"].
Definition one_of (s : str) (l : list str) : bool := existsb (seqb s) l.
Definition modtok_of (t : skind * str) : option mtk :=
  let y := match stmtok_of t with Some e => Some (Y e) | None => None end in
  match fst t with
  | S_KW k =>
      match assoc_str k mkw_table with
      | Some w => Some (M w)
      | None =>
          if one_of k net_words then Some (Net k) else if one_of k vec_words then Some (Vec k)
          else if one_of k atom_words then Some (Atom k) else if one_of k nonint_words then Some (Nonint k) else y
      end
  | _ => y
  end.
Fixpoint modtoks_of (l : list (skind * str)) : option (list mtk) :=
  match l with
  | [] => Some []
  | t :: l' => match modtok_of t, modtoks_of l' with Some x, Some r => Some (x :: r) | _, _ => None end
  end.
(** The AST of the text of a file behind the preprocessor. *)
Definition convert_file_text (v : lang) (s : str) : outcome (list fobj) :=
  l <- sv_lex v s ;; match modtoks_of l with Some ts => f <- parse_source ts ;; conv_source f | None => no_parse end.
