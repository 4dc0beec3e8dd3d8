(** How declarations, concurrent statements and design units of VHDL are written down: IEEE 1076-2008 clauses 3, 4, 5,
    6, 11 and 13.  Nothing here refers to the parser.  Trees are those of VhdlDeclModel.v, tokens those of
    VhdlStmSyntaxModel.v; expressions and sequential statements are written as in VhdlSyntaxSpec.v and VhdlStmSyntaxSpec.v.
    [strict]: a name behind the end of a construct repeats the name of the construct.  [full]: with labels at concurrent
    procedure calls, and with or without an end of their own behind the bodies of generate statements. *)
From Verif Require Import Base AstModel StmModel LitModel SvExprModel SvStmModel VhdlExprModel VhdlStmModel VhdlDeclModel VhdlSyntaxModel VhdlSyntaxSpec VhdlStmSyntaxModel VhdlStmSyntaxSpec VhdlUnitSyntaxModel.
Local Notation is_name := VhdlSyntaxModel.is_name.

(** ** Parts *)
Definition ids_toks (ns : list str) : list hstk := sep_by (X KComma) (fun n => [name_ n]) ns.
Definition word (b : bool) (k : hkw) : list hstk := if b then [Kw k] else [].
Definition init_toks (v : option hexpr) : list hstk := match v with Some e => VarAsg :: xs e | None => [] end.
(** ** Subtypes: [resolution] mark [range a to b].  The mark stands with its constraint (a to b), if it has one: both
    have the tokens of a slice. *)
(** behind the word range *)
Definition legal_rrange (r : hrange hexpr) : Prop := match r with R_name e => legal_name e /\ exists n a, e = HAttr n false a | R_explicit a _ b => legal_simple a /\ legal_simple b end.
Definition constr_toks (c : option (hconstr hexpr)) : list hstk := match c with Some (Con_range r) => Kw k_range :: range_toks r | _ => [] end.
Definition legal_constr (c : option (hconstr hexpr)) : Prop := match c with Some (Con_range r) => legal_rrange r | Some (Con_array _ _) => False | None => True end.
Definition res_toks (r : option (hres hexpr)) : list hstk := match r with Some (Res_name f) => xs f | _ => [] end.
Definition legal_res (r : option (hres hexpr)) : Prop := match r with Some (Res_name f) => legal_name f | Some Res_elem => False | None => True end.
Definition sub_toks (t : hexpr) : list hstk := match t with HSubtype r n c => res_toks r ++ xs n ++ constr_toks c | _ => [] end.
Definition legal_sub (t : hexpr) : Prop := match t with HSubtype r n c => legal_res r /\ legal_name n /\ legal_constr c | _ => False end.
(** a to b, a name, or a subtype with a range *)
Definition drange_toks (r : hrange hexpr) : list hstk := match r with R_name (HSubtype _ n c) => xs n ++ constr_toks c | _ => range_toks r end.
Definition legal_drange (r : hrange hexpr) : Prop :=
  match r with R_name (HSubtype ri n c) => ri = None /\ legal_name n /\ exists x, c = Some (Con_range x) /\ legal_rrange x | _ => legal_range r end.
(** a.b.c, a.b.all *)
Fixpoint selected (e : hexpr) : Prop := match e with HLit (NL_id _) => True | HDot n _ | HAll n => selected n | _ => False end.
Definition use_toks (l : list hexpr) : list hstk := Kw k_use :: sep_by (X KComma) xs l ++ [Semi].
Definition legal_use (l : list hexpr) : Prop := l <> [] /\ all selected l.

(** ** Interfaces *)
Definition mode_toks (m : option smode) : list hstk :=
  match m with
  | None => [] | Some Md_in => [Kw k_in] | Some Md_out => [Kw k_out] | Some Md_inout => [Kw k_inout] | Some Md_buffer => [Kw k_buffer] | Some Md_linkage => [Kw k_linkage]
  end.
Inductive w_iface : iface -> list hstk -> Prop :=
| wi_constant ns b t v : ns <> [] -> legal_sub t -> legal_opt v ->
    w_iface (IF_constant ns t v) (Kw k_constant :: ids_toks ns ++ Colon :: word b k_in ++ sub_toks t ++ init_toks v)
| wi_signal k ns m t v : ns <> [] -> legal_sub t -> legal_opt v ->
    w_iface (IF_signal k ns m t false v) (word k k_signal ++ ids_toks ns ++ Colon :: mode_toks m ++ sub_toks t ++ init_toks v)
| wi_variable ns m t v : ns <> [] -> legal_sub t -> legal_opt v ->
    w_iface (IF_variable ns m t v) (Kw k_variable :: ids_toks ns ++ Colon :: mode_toks m ++ sub_toks t ++ init_toks v).
(** x ; y ; z *)
Section Lists.
Context {A : Type} (s : hstk) (w : A -> list hstk -> Prop).
Inductive w_sep : list A -> list hstk -> Prop :=
| ws_one x ts : w x ts -> w_sep [x] ts
| ws_more x l ts ts' : w x ts -> w_sep l ts' -> w_sep (x :: l) (ts ++ s :: ts').
End Lists.
Inductive w_ifaces : list iface -> list hstk -> Prop := w_ifs l ts : w_sep Semi w_iface l ts -> w_ifaces l (X KLp :: ts ++ [X KRp]).
Inductive w_clause (k : hkw) : option (list iface) -> list hstk -> Prop :=
| wcl_none : w_clause k None []
| wcl_some l ts : w_ifaces l ts -> w_clause k (Some l) (Kw k :: ts ++ [Semi]).

(** ** Types *)
Definition elit_toks (e : elit) : list hstk := match e with El_id s => [name_ s] | El_char t => [X (KLit (NL_char t))] end.
Definition elem_toks (p : list str * hexpr) : list hstk := ids_toks (fst p) ++ Colon :: sub_toks (snd p) ++ [Semi].
Section Units.
Context (strict : bool).
(** [n]: the name of a construct, [m]: the one behind its end *)
Definition end_is (n : str) (m : option str) : Prop := match m with None => True | Some e => strict = true -> same_name n e end.
Inductive w_tdef (n : str) : tdef -> list hstk -> Prop :=
| wt_enum l : l <> [] -> w_tdef n (TD_enum l) (X KLp :: sep_by (X KComma) elit_toks l ++ [X KRp])
| wt_integer r : legal_rrange r -> w_tdef n (TD_integer r) (Kw k_range :: range_toks r)
| wt_unbounded l t : l <> [] -> all legal_name l -> legal_sub t ->
    w_tdef n (TD_unbounded l t) (Kw k_array :: X KLp :: sep_by (X KComma) (fun m => xs m ++ [Kw k_range; Box]) l ++ X KRp :: Kw k_of :: sub_toks t)
| wt_constrained l t : l <> [] -> all legal_drange l -> legal_sub t ->
    w_tdef n (TD_constrained l t) (Kw k_array :: X KLp :: sep_by (X KComma) drange_toks l ++ X KRp :: Kw k_of :: sub_toks t)
| wt_record l m : l <> [] -> all (fun p => fst p <> [] /\ legal_sub (snd p)) l -> end_is n m ->
    w_tdef n (TD_record l) (Kw k_record :: flat_map elem_toks l ++ Kw k_end :: Kw k_record :: label_toks m).

(** ** Subprograms and components *)
Definition desig_tok (d : desig) : hstk := match d with Ds_id s => name_ s | Ds_op t => X (KLit (NL_op t)) end.
Inductive w_params : option (list iface) -> list hstk -> Prop :=
| wp_none : w_params None []
| wp_some b l ts : w_ifaces l ts -> w_params (Some l) (word b k_parameter ++ ts).
Inductive w_spec : subprog -> list hstk -> Prop :=
| wsp_procedure d ps ts : w_params ps ts -> w_spec (SP_procedure d ps) (Kw k_procedure :: desig_tok d :: ts)
| wsp_function p d ps t ts : w_params ps ts -> legal_name t ->
    w_spec (SP_function p d ps t) (match p with Some true => [Kw k_pure] | Some false => [Kw k_impure] | None => [] end ++ Kw k_function :: desig_tok d :: ts ++ Kw k_return :: xs t).
Definition kind_of (s : subprog) : hkw := match s with SP_procedure _ _ => k_procedure | SP_function _ _ _ _ => k_function end.
Definition desig_of (s : subprog) : desig := match s with SP_procedure d _ | SP_function _ d _ _ => d end.
Definition end_desig (d : desig) (m : option desig) : Prop :=
  match m with
  | None => True
  | Some e => strict = true -> match d, e with Ds_id a, Ds_id b | Ds_op a, Ds_op b => same_name a b | _, _ => False end
  end.
Inductive w_component : component -> list hstk -> Prop :=
| wco n b g p gt pt m : w_clause k_generic g gt -> w_clause k_port p pt -> end_is n m ->
    w_component (mk_component n g p) (name_ n :: word b k_is ++ gt ++ pt ++ close_toks k_component m).

(** ** Declarations.  Variables are shared outside of processes and subprograms. *)
Definition in_process (p : place) : bool := match p with In_process => true | _ => false end.
Definition signals (p : place) : Prop := match p with In_process | In_body => False | _ => True end.
Definition components (p : place) : Prop := match p with In_block | In_package => True | _ => False end.
Inductive w_decl : place -> decl -> list hstk -> Prop :=
| wd_constant p ns t v : ns <> [] -> legal_sub t -> legal_opt v ->
    w_decl p (DC_constant ns t v) (Kw k_constant :: ids_toks ns ++ Colon :: sub_toks t ++ init_toks v ++ [Semi])
| wd_signal p ns t v : signals p -> ns <> [] -> legal_sub t -> legal_opt v ->
    w_decl p (DC_signal ns t None v) (Kw k_signal :: ids_toks ns ++ Colon :: sub_toks t ++ init_toks v ++ [Semi])
| wd_variable p ns t v : ns <> [] -> legal_sub t -> legal_opt v ->
    w_decl p (DC_variable (negb (in_process p)) ns t v) (word (negb (in_process p)) k_shared ++ Kw k_variable :: ids_toks ns ++ Colon :: sub_toks t ++ init_toks v ++ [Semi])
| wd_incomplete p n : w_decl p (DC_type n None) [Kw k_type; name_ n; Semi]
| wd_type p n t ts : w_tdef n t ts -> w_decl p (DC_type n (Some t)) (Kw k_type :: name_ n :: Kw k_is :: ts ++ [Semi])
| wd_subtype p n t : legal_sub t -> w_decl p (DC_subtype n t) (Kw k_subtype :: name_ n :: Kw k_is :: sub_toks t ++ [Semi])
| wd_alias p n t e : match t with Some t => legal_sub t | None => True end -> legal_name e ->
    w_decl p (DC_alias n t e None) (Kw k_alias :: name_ n :: match t with Some t => Colon :: sub_toks t | None => [] end ++ Kw k_is :: xs e ++ [Semi])
| wd_subprogram p s ts : w_spec s ts -> w_decl p (DC_subprogram s) (ts ++ [Semi])
| wd_body p s ds ss b m ts ts' : p <> In_package -> w_spec s ts -> w_decls In_process ds ts' -> all (legal_stm strict) ss -> end_desig (desig_of s) m ->
    w_decl p (DC_body s ds ss)
      (ts ++ Kw k_is :: ts' ++ Kw k_begin :: seq_toks stm_toks ss ++ Kw k_end :: word b (kind_of s) ++ match m with Some d => [desig_tok d] | None => [] end ++ [Semi])
| wd_package p n ds b m ts : w_decls In_package ds ts -> end_is n m ->
    w_decl p (DC_package n None ds) (Kw k_package :: name_ n :: Kw k_is :: ts ++ Kw k_end :: word b k_package ++ label_toks m ++ [Semi])
| wd_package_body p n ds (b : bool) m ts : p <> In_package -> w_decls In_body ds ts -> end_is n m ->
    w_decl p (DC_package_body n ds)
      (Kw k_package :: Kw k_body :: name_ n :: Kw k_is :: ts ++ Kw k_end :: (if b then [Kw k_package; Kw k_body] else []) ++ label_toks m ++ [Semi])
| wd_component p c ts : components p -> w_component c ts -> w_decl p (DC_component c) (Kw k_component :: ts)
| wd_use p l : legal_use l -> w_decl p (DC_use l) (use_toks l)
with w_decls : place -> list decl -> list hstk -> Prop :=
| wds_nil p : w_decls p [] []
| wds_cons p d l ts ts' : w_decl p d ts -> w_decls p l ts' -> w_decls p (d :: l) (ts ++ ts').

(** ** Concurrent statements *)
Context (full : bool).
Definition assocs_toks (l : list (hassoc hexpr)) : list hstk := map X (KLp :: commas (show_assoc vshow) l ++ [KRp]).
Definition map_toks (k : hkw) (m : option (list (hassoc hexpr))) : list hstk := match m with Some l => Kw k :: Kw k_map :: assocs_toks l | None => [] end.
Definition legal_map (m : option (list (hassoc hexpr))) : Prop := match m with Some l => l <> [] /\ all (legal_assoc legal) l | None => True end.
(** The name of an architecture behind that of an entity has the tokens of an index. *)
Definition unit_toks (u : iunit) : list hstk :=
  match u with IU_component k n => word k k_component ++ xs n | IU_entity n _ => Kw k_entity :: xs n | IU_configuration n => Kw k_configuration :: xs n end.
Definition legal_unit (u : iunit) : Prop := match u with IU_component _ n | IU_configuration n => legal_name n | IU_entity n a => legal_name n /\ a = None end.
Inductive w_csimple : option str -> csimple -> list hstk -> Prop :=
| wcs_process l se b ds ss m ts : legal_sens se -> w_decls In_process ds ts -> all (legal_stm strict) ss -> match m with None => True | Some e => strict = true -> repeats_label l m end ->
    w_csimple l (CP_process se ds ss m) (Kw k_process :: sens_toks se ++ word b k_is ++ ts ++ Kw k_begin :: seq_toks stm_toks ss ++ close_toks k_process m)
| wcs_call l n : (full = false -> l = None) -> legal_name n -> w_csimple l (CP_call n) (xs n ++ [Semi])
| wcs_assert l c m s : legal c -> legal_opt m -> legal_opt s -> w_csimple l (CP_assert c m s) (Kw k_assert :: xs c ++ opt_ k_report m ++ opt_ k_severity s ++ [Semi])
| wcs_assign l c : legal_conc c -> w_csimple l (CP_assign c) (conc_toks c).
Definition colon_toks (l : option str) : list hstk := match l with Some s => [name_ s; Colon] | None => [] end.
(** end ; *)
Definition own_toks (o : bool) : list hstk := if o then [Kw k_end; Semi] else [].
Inductive w_cstm : cstm -> list hstk -> Prop :=
| wc_block l b ds ss m ts ts' : w_decls In_block ds ts -> w_cstms ss ts' -> end_is l m ->
    w_cstm (CS_block l None None None ds ss m) (name_ l :: Colon :: Kw k_block :: word b k_is ++ ts ++ Kw k_begin :: ts' ++ close_toks k_block m)
| wc_inst l u g p : legal_unit u -> legal_map g -> legal_map p -> w_cstm (CS_inst l u g p) (name_ l :: Colon :: unit_toks u ++ map_toks k_generic g ++ map_toks k_port p ++ [Semi])
| wc_for l i r b m ts : legal_drange r -> w_gbody b ts -> end_is l m ->
    w_cstm (CS_for l i r b m) (name_ l :: Colon :: Kw k_for :: name_ i :: Kw k_in :: drange_toks r ++ Kw k_generate :: ts ++ close_toks k_generate m)
| wc_if l a c b es e m ts ts' ts'' : legal c -> w_gbody b ts -> w_gelifs es ts' -> w_gelse e ts'' -> end_is l m ->
    w_cstm (CS_if l a c b es e m) (name_ l :: Colon :: Kw k_if :: colon_toks a ++ xs c ++ Kw k_generate :: ts ++ ts' ++ ts'' ++ close_toks k_generate m)
| wc_case l c alts m ts : legal c -> alts <> [] -> w_galts alts ts -> end_is l m ->
    w_cstm (CS_case l c alts m) (name_ l :: Colon :: Kw k_case :: xs c ++ Kw k_generate :: ts ++ close_toks k_generate m)
| wc_simple l s ts : w_csimple l s ts -> w_cstm (CS_simple l false s) (colon_toks l ++ ts)
with w_cstms : list cstm -> list hstk -> Prop :=
| wcs_nil : w_cstms [] []
| wcs_cons s l ts ts' : w_cstm s ts -> w_cstms l ts' -> w_cstms (s :: l) (ts ++ ts')
with w_gbody : gbody cstm -> list hstk -> Prop :=
| wg_plain ss o ts : w_cstms ss ts -> (full = false -> o = false) -> w_gbody (GB false [] ss) (ts ++ own_toks o)
| wg_begin ds ss o ts ts' : w_decls In_block ds ts -> w_cstms ss ts' -> (full = false -> o = false) -> w_gbody (GB true ds ss) (ts ++ Kw k_begin :: ts' ++ own_toks o)
with w_gelifs : list (option str * hexpr * gbody cstm) -> list hstk -> Prop :=
| wge_nil : w_gelifs [] []
| wge_cons a c b l ts ts' : legal c -> w_gbody b ts -> w_gelifs l ts' -> w_gelifs ((a, c, b) :: l) (Kw k_elsif :: colon_toks a ++ xs c ++ Kw k_generate :: ts ++ ts')
with w_gelse : option (option str * gbody cstm) -> list hstk -> Prop :=
| wgl_none : w_gelse None []
| wgl_some a b ts : w_gbody b ts -> w_gelse (Some (a, b)) (Kw k_else :: colon_toks a ++ Kw k_generate :: ts)
with w_galts : list (option str * list (hchoice hexpr) * gbody cstm) -> list hstk -> Prop :=
| wga_nil : w_galts [] []
| wga_plain a cs ss l ts ts' : legal_choices cs -> w_cstms ss ts -> w_galts l ts' ->
    w_galts ((a, cs, GB false [] ss) :: l) (Kw k_when :: colon_toks a ++ choices_toks cs ++ X KArrow :: ts ++ ts')
| wga_any a cs b l ts ts' : full = true -> legal_choices cs -> w_gbody b ts -> w_galts l ts' ->
    w_galts ((a, cs, b) :: l) (Kw k_when :: colon_toks a ++ choices_toks cs ++ X KArrow :: ts ++ ts')
| wga_begin a cs ds ss m l ts ts' ts'' : legal_choices cs -> w_decls In_block ds ts -> w_cstms ss ts' -> w_galts l ts'' -> match m with Some e => strict = true -> repeats_label a m | None => True end ->
    w_galts ((a, cs, GB true ds ss) :: l) (Kw k_when :: colon_toks a ++ choices_toks cs ++ X KArrow :: ts ++ Kw k_begin :: ts' ++ Kw k_end :: label_toks m ++ Semi :: ts'').

(** ** Design units and files *)
Inductive w_citem : citem -> list hstk -> Prop :=
| wci_library l : l <> [] -> w_citem (CI_library l) (Kw k_library :: ids_toks l ++ [Semi])
| wci_use l : legal_use l -> w_citem (CI_use l) (use_toks l).
Inductive w_lunit : lunit -> list hstk -> Prop :=
| wu_entity n g p ds b m gt pt ts : w_clause k_generic g gt -> w_clause k_port p pt -> w_decls In_entity ds ts -> end_is n m ->
    w_lunit (LU_entity n g p ds []) (Kw k_entity :: name_ n :: Kw k_is :: gt ++ pt ++ ts ++ Kw k_end :: word b k_entity ++ label_toks m ++ [Semi])
| wu_arch n e ds ss b m ts ts' : legal_name e -> w_decls In_block ds ts -> w_cstms ss ts' -> end_is n m ->
    w_lunit (LU_arch n e ds ss) (Kw k_architecture :: name_ n :: Kw k_of :: xs e ++ Kw k_is :: ts ++ Kw k_begin :: ts' ++ Kw k_end :: word b k_architecture ++ label_toks m ++ [Semi])
| wu_package n ds ts : w_decl In_block (DC_package n None ds) ts -> w_lunit (LU_package n None ds) ts
| wu_package_body n ds ts : w_decl In_block (DC_package_body n ds) ts -> w_lunit (LU_package_body n ds) ts.
Inductive w_dunit : dunit -> list hstk -> Prop :=
| wdu_unit u ts : w_lunit u ts -> w_dunit ([], u) ts
| wdu_context c l u ts ts' : w_citem c ts -> w_dunit (l, u) ts' -> w_dunit (c :: l, u) (ts ++ ts').
Inductive w_file : list dunit -> list hstk -> Prop :=
| wf_nil : w_file [] []
| wf_cons u l ts ts' : w_dunit u ts -> w_file l ts' -> w_file (u :: l) (ts ++ ts').
End Units.
