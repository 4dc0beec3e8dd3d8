(** How modules and files are written down: IEEE 1800-2017 clauses A.1.2, A.1.3, A.2.1, A.2.2.1, A.2.5, A.4.1, A.4.2 and
    A.6.1.  Nothing here refers to the parser.  Trees and tokens are those of SvFileModel.v and SvModSyntaxModel.v;
    statements and expressions are written as in SvStmSyntaxSpec.v and SvSyntaxSpec.v. *)
From Verif Require Import Base LitModel AstModel StmModel SvExprModel SvStmModel SvTypeModel SvDeclModel SvTfModel SvGenModel SvFileModel.
From Verif Require Import SvSyntaxModel SvSyntaxSpec SvStmSyntaxModel SvStmSyntaxSpec SvModSyntaxModel.

Definition idt (i : ident) : mtk := Y (id_stk i).
Definition ys (e : vexpr) : list mtk := map Y (xs e).
Definition ypar (e : vexpr) : list mtk := map Y (par e).
Definition yname (n : option ident) : list mtk := map Y (name_toks n).
(** = e, or nothing *)
Definition value_toks (v : option vexpr) : list mtk := match v with Some e => Y (Asg A_ASSIGN) :: ys e | None => [] end.
Definition opt_ys (v : option vexpr) : list mtk := match v with Some e => ys e | None => [] end.
(** x , y , z *)
Section Commas.
Context {A : Type} (w : A -> list mtk -> Prop).
Inductive w_commas : list A -> list mtk -> Prop :=
| wc_one x ts : w x ts -> w_commas [x] ts
| wc_more x l ts ts' : w x ts -> w_commas l ts' -> w_commas (x :: l) (ts ++ yx KComma :: ts').
End Commas.

(** ** Dimensions [ e ] and [ a : b ] *)
Definition rng_toks (r : vrange) : list mtk := match r with RG_one e => ys e | RG_two _ a b => ys a ++ yx KColon :: ys b end.
Definition rng_ok (r : vrange) : Prop := match r with RG_one e => proper e | RG_two R_COLON a b => proper a /\ proper b | _ => False end.
Definition dim_toks (l : list vrange) : list mtk := flat_map (fun r => yx KLs :: rng_toks r ++ [yx KRs]) l.
(** A name in brackets is left out where it can be a type. *)
Fixpoint may_be_type (e : vexpr) : bool := match e with VPath _ => true | VBitSelect p _ | VRange p _ _ _ => may_be_type p | _ => false end.
Definition size_ok (r : vrange) : Prop := rng_ok r /\ match r with RG_one e => may_be_type e = false | _ => True end.

(** ** Types *)
Definition sign_toks (s : option signing) : list mtk := match s with Some Signed => [M m_signed] | Some Unsigned => [M m_unsigned] | None => [] end.
Inductive w_type : doi -> list mtk -> Prop :=
| w_t_vector w s ds : Forall size_ok ds -> w_type (DI_type (D_prim (P_vector w) s (map VD_range ds))) (Vec w :: sign_toks s ++ dim_toks ds)
| w_t_atom w s ds : Forall size_ok ds -> w_type (DI_type (D_prim (P_atom w) s (map VD_range ds))) (Atom w :: sign_toks s ++ dim_toks ds)
| w_t_nonint w ds : Forall size_ok ds -> w_type (DI_type (D_prim (P_nonint w) None (map VD_range ds))) (Nonint w :: dim_toks ds)
| w_t_implicit s ds : s <> None \/ ds <> [] -> Forall rng_ok ds -> w_type (DI_implicit (I_type s (map Some ds))) (sign_toks s ++ dim_toks ds).
Inductive w_otype : option doi -> list mtk -> Prop := w_ot_none : w_otype None [] | w_ot_some t ts : w_type t ts -> w_otype (Some t) ts.
Inductive w_nvtype : option nvtype -> list mtk -> Prop :=
| w_nv_none : w_nvtype None []
| w_nv_net w t ts : w_otype t ts -> w_nvtype (Some (N_net w t)) (Net w :: ts)
| w_nv_plain t ts : w_type t ts -> w_nvtype (Some (N_plain t)) ts.

(** ** Parameters *)
Inductive w_passign : passign -> list mtk -> Prop :=
| w_pa i ds v : Forall rng_ok ds -> opt_proper v -> w_passign (PA i ds (option_map PE_expr v)) (idt i :: dim_toks ds ++ value_toks v).
Inductive w_pbody : pbody -> list mtk -> Prop :=
| w_pb t l tt ts : w_otype t tt -> w_commas w_passign l ts -> w_pbody (PB_values t l) (tt ++ ts).
Inductive w_pdecl : pdecl -> list mtk -> Prop :=
| w_pd_param b ts : w_pbody b ts -> w_pdecl (PD_param b) (M m_parameter :: ts)
| w_pd_local b ts : w_pbody b ts -> w_pdecl (PD_local b) (M m_localparam :: ts)
| w_pd_typed t l tt ts : w_type (DI_type t) tt -> w_commas w_passign l ts -> w_pdecl (PD_typed t l) (tt ++ ts).
Inductive w_plist : option plist -> list mtk -> Prop :=
| w_pl_none : w_plist None []
| w_pl_empty : w_plist (Some PL_empty) [Y Hash; yx KLp; yx KRp]
| w_pl_bare l ts : w_commas w_passign l ts -> w_plist (Some (PL_bare l [])) (Y Hash :: yx KLp :: ts ++ [yx KRp])
| w_pl_tail l ds ts ts' : w_commas w_passign l ts -> w_commas w_pdecl ds ts' -> w_plist (Some (PL_bare l ds)) (Y Hash :: yx KLp :: ts ++ yx KComma :: ts' ++ [yx KRp])
| w_pl_decls l ts : w_commas w_pdecl l ts -> w_plist (Some (PL_decls l)) (Y Hash :: yx KLp :: ts ++ [yx KRp]).

(** ** Ports *)
Definition dir_toks (d : option vdir) : list mtk :=
  match d with Some V_INPUT => [M m_input] | Some V_OUTPUT => [M m_output] | Some V_INOUT => [M m_inout] | _ => [] end.
Inductive w_vitem : vitem -> list mtk -> Prop :=
| w_vi i ds v : Forall size_ok ds -> opt_proper v -> w_vitem (mk_vitem i (map VD_range ds) v) (idt i :: dim_toks ds ++ value_toks v).
Definition w_iditem (v : vitem) (ts : list mtk) : Prop := w_vitem v ts /\ vi_value v = None.
Inductive w_ansi : str * list attr * ansi -> list mtk -> Prop :=
| w_an d t v tt ts : d <> Some V_REF -> w_nvtype t tt -> w_vitem v ts -> w_ansi ([], [], AN_port d (option_map T_nv t) v) (dir_toks d ++ tt ++ ts).
(** Without this the list is one of names. *)
Definition headed (p : str * list attr * ansi) : Prop := match p with (_, _, AN_port None None _) => False | _ => True end.
Inductive w_naport : option (str * naport) -> list mtk -> Prop := w_na i : w_naport (Some ([], NA_expr (NE_one (mk_dotted i None [])))) [idt i].
Inductive w_ports : hports -> list mtk -> Prop :=
| w_po_none : w_ports HP_none []
| w_po_empty : w_ports (HP_nonansi []) [yx KLp; yx KRp]
| w_po_all : w_ports HP_all [yx KLp; yx KDot; yx (KOp S_MUL); yx KRp]
| w_po_names l ts : w_commas w_naport l ts -> w_ports (HP_nonansi l) (yx KLp :: ts ++ [yx KRp])
| w_po_ansi p l ts : headed p -> w_commas w_ansi (p :: l) ts -> w_ports (HP_ansi (p :: l)) (yx KLp :: ts ++ [yx KRp]).
Inductive w_nadecl : nadecl -> list mtk -> Prop :=
| w_nd_input t l tt ts : w_nvtype t tt -> w_commas w_iditem l ts -> w_nadecl (ND_input t l) (M m_input :: tt ++ ts ++ [Y Semi])
| w_nd_output t l tt ts : w_nvtype t tt -> w_commas w_vitem l ts -> w_nadecl (ND_output t l) (M m_output :: tt ++ ts ++ [Y Semi])
| w_nd_inout t l tt ts : w_nvtype t tt -> w_commas w_iditem l ts -> w_nadecl (ND_inout t l) (M m_inout :: tt ++ ts ++ [Y Semi]).

(** ** Instances *)
Inductive w_opar : pexp -> list mtk -> Prop := w_op e : proper e -> w_opar (PE_expr e) (ys e).
Inductive w_npar : ident * option pexp -> list mtk -> Prop :=
| w_np i v : opt_proper v -> w_npar (i, option_map PE_expr v) (yx KDot :: idt i :: yx KLp :: opt_ys v ++ [yx KRp]).
Inductive w_gvalues : option gvalues -> list mtk -> Prop :=
| w_gv_none : w_gvalues None []
| w_gv_empty : w_gvalues (Some (GV_ordered [])) [Y Hash; yx KLp; yx KRp]
| w_gv_ordered l ts : w_commas w_opar l ts -> w_gvalues (Some (GV_ordered l)) (Y Hash :: yx KLp :: ts ++ [yx KRp])
| w_gv_named l ts : w_commas w_npar l ts -> w_gvalues (Some (GV_named l)) (Y Hash :: yx KLp :: ts ++ [yx KRp]).
Inductive w_oconn : option vexpr -> list mtk -> Prop := w_oc v : opt_proper v -> w_oconn v (opt_ys v).
Inductive w_nconn : nconn -> list mtk -> Prop :=
| w_nc_star : w_nconn NC_star [yx KDot; yx (KOp S_MUL)]
| w_nc_name i : w_nconn (NC_name i) [yx KDot; idt i]
| w_nc_conn i v : opt_proper v -> w_nconn (NC_conn i v) (yx KDot :: idt i :: yx KLp :: opt_ys v ++ [yx KRp]).
Inductive w_conns : conns -> list mtk -> Prop :=
| w_co_ordered l ts : w_commas w_oconn l ts -> w_conns (CO_ordered l) ts
| w_co_named l ts : w_commas w_nconn l ts -> w_conns (CO_named l) ts.
Inductive w_hinst : hinst -> list mtk -> Prop :=
| w_hi i ds c ts : Forall rng_ok ds -> w_conns c ts -> w_hinst (mk_hinst i ds c) (idt i :: dim_toks ds ++ yx KLp :: ts ++ [yx KRp]).
Inductive w_inst : inst -> list mtk -> Prop :=
| w_in i g l gs ts : w_gvalues g gs -> w_commas w_hinst l ts -> w_inst (mk_inst i g l) (idt i :: gs ++ ts ++ [Y Semi]).
(** The form of an instantiation that is one of primitives as well (A.5.4): one or two values, which are the delays,
    and in every instance two connections at least, the first one to a net. *)
Definition primitive_form (i : inst) : Prop :=
  (exists l, in_params i = Some (GV_ordered l) /\ (length l = 1 \/ length l = 2)) /\
  Forall (fun h => exists o c l d, hi_conns h = CO_ordered (Some o :: Some c :: map Some l) /\ lv_proper d /\ lv_toks d = show o) (in_list i).

(** ** Items *)
Inductive w_nitem : nitem -> list mtk -> Prop :=
| w_ni i ds v : Forall rng_ok ds -> opt_proper v -> w_nitem (mk_nitem i ds v) (idt i :: dim_toks ds ++ value_toks v).
Definition w_ident (i : ident) (ts : list mtk) : Prop := ts = [idt i].
Definition always_kw (k : always_kind) : kw := match k with K_always => k_always | K_comb => k_always_comb | K_ff => k_always_ff | K_latch => k_always_latch end.
Definition is_dtype (t : doi) : Prop := match t with DI_type _ => True | _ => False end.
Inductive w_ginit : ginit -> list mtk -> Prop :=
| w_gi g i e : proper e -> w_ginit (mk_ginit g i e []) ((if g then [M m_genvar] else []) ++ idt i :: Y (Asg A_ASSIGN) :: ys e).
Inductive w_gstep : gstep -> list mtk -> Prop :=
| w_gs_assign i o e : proper e -> w_gstep (GS_assign i o e) (idt i :: Y (Asg o) :: ys e)
| w_gs_pre b i : w_gstep (GS_incdec true b i) [Y (inc_tok b); idt i]
| w_gs_post b i : w_gstep (GS_incdec false b i) [idt i; Y (inc_tok b)].
(** An if without else ends the item: a following else would belong to it. *)
Fixpoint gopen (g : gitem) : bool :=
  match g with
  | GI_leaf (GL_always _ _ s) | GI_leaf (GL_initial s) => open_if s
  | GI_for _ _ _ b => gopen b
  | GI_if _ _ _ None => true
  | GI_if _ _ _ (Some e) => gopen e
  | _ => false
  end.
Definition pre_toks (n : option ident) : list mtk := match n with Some i => [idt i; yx KColon] | None => [] end.

Section Written.
(** [same]: the name behind an end has to be the one at the beginning (IEEE 1800-2017, 9.3.4, 23.2.1) *)
Context (same : bool).
Inductive w_leaf : gleaf -> list mtk -> Prop :=
| w_l_semi : w_leaf GL_semi [Y Semi]
| w_l_param b ts : w_pbody b ts -> w_leaf (GL_param b) (M m_parameter :: ts ++ [Y Semi])
| w_l_local b ts : w_pbody b ts -> w_leaf (GL_local b) (M m_localparam :: ts ++ [Y Semi])
| w_l_genvar l ts : w_commas w_ident l ts -> w_leaf (GL_genvar l) (M m_genvar :: ts ++ [Y Semi])
| w_l_assign l ts : w_inits l ts -> w_leaf (GL_assign l) (M m_assign :: map Y ts ++ [Y Semi])
| w_l_net w t l tt ts : w_otype t tt -> w_commas w_nitem l ts -> w_leaf (GL_net (mk_net (NK_net w) false t l)) (Net w :: tt ++ ts ++ [Y Semi])
| w_l_data t l tt ts : is_dtype t -> w_type t tt -> w_commas w_vitem l ts -> w_leaf (GL_data (mk_data false false (Some t) l)) (tt ++ ts ++ [Y Semi])
| w_l_always k s ts : w_stm same s ts -> (forall at_, s <> TNull at_) -> w_leaf (GL_always k [] s) (Y (Kw (always_kw k)) :: map Y ts)
| w_l_initial s ts : w_stm same s ts -> w_leaf (GL_initial s) (Y (Kw k_initial) :: map Y ts)
| w_l_inst i ts : w_inst i ts -> ~ primitive_form i -> w_leaf (GL_inst i) ts.
Inductive w_gen : gitem -> list mtk -> Prop :=
| w_g_leaf l ts : w_leaf l ts -> w_gen (GI_leaf l) ts
| w_g_block p n m l ts : end_name same n m -> w_gens l ts -> w_gen (GI_block p n m l) (pre_toks p ++ Y (Kw k_begin) :: yname n ++ ts ++ Y (Kw k_end) :: yname m)
| w_g_region l ts : w_gens l ts -> w_gen (GI_region l) (M m_generate :: ts ++ [M m_endgenerate])
| w_g_for i c s b is ss ts : w_ginit i is -> proper c -> w_gstep s ss -> w_gen b ts ->
    w_gen (GI_for i c s b) (Y (Kw k_for) :: yx KLp :: is ++ Y Semi :: ys c ++ Y Semi :: ss ++ yx KRp :: ts)
| w_g_if c t ts : proper c -> w_gen t ts -> w_gen (GI_if [] c t None) (Y (Kw k_if) :: ypar c ++ ts)
| w_g_if_else c t e ts es : proper c -> w_gen t ts -> gopen t = false -> w_gen e es -> w_gen (GI_if [] c t (Some e)) (Y (Kw k_if) :: ypar c ++ ts ++ Y (Kw k_else) :: es)
| w_g_case e l ts : proper e -> l <> [] -> w_gcases l ts -> w_gen (GI_case [] e l) (Y (Kw k_case) :: ypar e ++ ts ++ [Y (Kw k_endcase)])
with w_gens : list gitem -> list mtk -> Prop :=
| w_gs_nil : w_gens [] []
| w_gs_cons g l ts ts' : w_gen g ts -> w_gens l ts' -> w_gens (g :: l) (ts ++ ts')
with w_gcases : list (list vexpr * gitem) -> list mtk -> Prop :=
| w_gc_nil : w_gcases [] []
| w_gc_labels es g l ts ts' : es <> [] -> all_of proper es -> w_gen g ts -> w_gcases l ts' -> w_gcases ((es, g) :: l) (map Y (label_toks es) ++ yx KColon :: ts ++ ts')
| w_gc_default g l colon ts ts' : In colon [ []; [yx KColon] ] -> w_gen g ts -> w_gcases l ts' -> w_gcases (([], g) :: l) (Y (Kw k_default) :: colon ++ ts ++ ts').

(** ** Modules and files *)
Inductive w_header : mheader * hports -> list mtk -> Prop :=
| w_hd k i g p gs ps : In k [m_module; m_macromodule] -> w_plist g gs -> w_ports p ps -> w_header (mk_mheader [] [] None i [] g, p) (M k :: idt i :: gs ++ ps ++ [Y Semi]).
(** What may stand directly in a module: no block. *)
Inductive w_top : mditem mdecl -> list mtk -> Prop :=
| w_tp_region l ts : w_gens l ts -> w_top (MT_region l) (M m_generate :: ts ++ [M m_endgenerate])
| w_tp_item g ts : match g with GI_region _ | GI_block _ _ _ _ => False | _ => True end -> w_gen g ts -> w_top (MT_item [] [] g) ts.
Inductive w_module : mdecl -> list mtk -> Prop :=
| w_md h p l n hs ts : w_header (h, p) hs -> w_items l ts -> end_name same (Some (mh_name h)) n -> w_module (MD false h p l) (hs ++ ts ++ M m_endmodule :: yname n)
| w_md_extern h p hs : w_header (h, p) hs -> p <> HP_all -> w_module (MD true h p []) (M m_extern :: hs)
with w_items : list (mditem mdecl) -> list mtk -> Prop :=
| w_it_nil : w_items [] []
| w_it_top i l ts ts' : w_top i ts -> w_items l ts' -> w_items (i :: l) (ts ++ ts')
| w_it_ports n l ts ts' : w_nadecl n ts -> w_items l ts' -> w_items (MT_ports [] [] n :: l) (ts ++ ts')
| w_it_module m l ts ts' : w_module m ts -> w_items l ts' -> w_items (MT_module m :: l) (ts ++ ts').
Inductive w_file : list description -> list mtk -> Prop :=
| w_f_nil : w_file [] []
| w_f_cons m l ts ts' : w_module m ts -> w_file l ts' -> w_file (DE_module m :: l) (ts ++ ts').
End Written.
Scheme w_gen_mut := Induction for w_gen Sort Prop with w_gens_mut := Induction for w_gens Sort Prop with w_gcases_mut := Induction for w_gcases Sort Prop.
Combined Scheme w_gen_mutind from w_gen_mut, w_gens_mut, w_gcases_mut.
Scheme w_module_mut := Induction for w_module Sort Prop with w_items_mut := Induction for w_items Sort Prop.
Combined Scheme w_module_mutind from w_module_mut, w_items_mut.
(** A file as the standard wants it. *)
Definition is_file : list description -> list mtk -> Prop := w_file true.
