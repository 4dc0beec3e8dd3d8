(** C75: Types and declarations of Verilog keep their meaning. *)
From Verif Require Import Base AstModel LitModel SvExprModel SvExprSpec StmModel SvStmDemo SvTypeModel SvDeclModel SvDeclSpec SvInstSpec SvInstProofs SvDeclProofs SvGenModel SvTypeSpec SvTypeProofs.

(** In each theorem: the declarations mean the objects [r]; then the conversion succeeds and its result means the same
    objects: names, base types, signs, dimensions in order, values, directions and flags.  For every interpretation of
    expressions (C26).  Missing: what the predicates kept_... of SvTypeSpec.v exclude, see the refutations. *)
Theorem C75_types_partial (A : algebra) (dflt : base A) (t : dtype) (T : typ A) :
  kept_dtype t = true -> v_dtype A t = Some T -> exists x, conv_dtype t = Ok x /\ m_typ A dflt x = Some T.
Proof. intros Hk H. destruct (dtype_sim A dflt t T Hk H) as (x & Hx & (Ht & _) & _). exists x. auto. Qed.
Print Assumptions C75_types_partial.
Theorem C75_variables_partial (A : algebra) (d : data_decl) (r : list (object A)) :
  kept_data d = true -> v_data A d = Some r -> exists xs, conv_data d = Ok xs /\ omapM (m_object A false) xs = Some r.
Proof. exact (data_sim A d r). Qed.
Print Assumptions C75_variables_partial.
Theorem C75_nets_partial (A : algebra) (n : net_decl) (r : list (object A)) :
  kept_net_decl n = true -> v_net_decl A n = Some r -> exists xs, conv_net_decl n = Ok xs /\ omapM (m_object A false) xs = Some r.
Proof. exact (net_decl_sim A n r). Qed.
Print Assumptions C75_nets_partial.
Theorem C75_genvars_partial (A : algebra) (l : list ident) (r : list (object A)) :
  omapM (v_genvar A) l = Some r -> exists xs, mapM conv_genvar l = Ok xs /\ omapM (m_object A false) xs = Some r.
Proof. exact (genvar_sim A l r). Qed.
Print Assumptions C75_genvars_partial.
Theorem C75_port_declarations_partial (A : algebra) (n : nadecl) (r : list (object A)) :
  kept_nadecl n = true -> v_nadecl A n = Some r -> exists xs, conv_nadecl n = Ok xs /\ omapM (m_object A false) xs = Some r.
Proof. exact (nadecl_sim A n r). Qed.
Print Assumptions C75_port_declarations_partial.
(** The header of a module; what a port takes over from the port before it is written down by spell_out (C39). *)
Theorem C75_ports_partial (A : algebra) (l : list ansi) (r : list (object A)) :
  plain_ports None l = true -> forallb kept_ansi (spell_out V_INOUT None l) = true -> omapM (v_ansi A) (spell_out V_INOUT None l) = Some r ->
  exists xs, header_ports l = Ok xs /\ omapM (m_object A false) xs = Some r.
Proof. exact (header_sim A l r). Qed.
Print Assumptions C75_ports_partial.
Theorem C75_parameters_partial (A : algebra) (p : plist) (r : list (object A)) :
  has_tail p = false -> full_params p = true -> forallb kept_pone (list_ones p) = true -> omapM (v_pone A) (list_ones p) = Some r ->
  exists xs, conv_plist p = Ok xs /\ omapM (m_object A true) xs = Some r.
Proof. exact (plist_sim A p r). Qed.
Print Assumptions C75_parameters_partial.

(** ** What is lost: different source, the same result *)
(** The kind of a net without width: tri x; wand signed x; *)
Theorem C75_net_kind_refuted kw s l : conv_net_decl (mk_net (NK_net kw) false None l) = conv_net_decl (mk_net (NK_net $"wire") false None l) /\
  conv_net_decl (mk_net (NK_net kw) false (Some (DI_implicit (I_type s []))) l) = conv_net_decl (mk_net (NK_net $"wire") false (Some (DI_implicit (I_type s []))) l).
Proof. split; reflexivity. Qed.
Print Assumptions C75_net_kind_refuted.
(** The kind of a net with a data type: tri logic x; *)
Theorem C75_net_data_type_refuted kw kw' t l : conv_net_decl (mk_net (NK_net kw) false (Some (DI_type t)) l) = conv_net_decl (mk_net (NK_net kw') false (Some (DI_type t)) l).
Proof. reflexivity. Qed.
Print Assumptions C75_net_data_type_refuted.
(** t x; with a type t the user has declared: its name is lost. *)
Theorem C75_user_type_refuted i j b t l : conv_net_decl (mk_net (NK_user i) b t l) = conv_net_decl (mk_net (NK_user j) b t l).
Proof. reflexivity. Qed.
Print Assumptions C75_user_type_refuted.
(** Packed and unpacked dimensions: logic [a] x and logic x [a]; logic [a] [b] x and logic [a] x [b]. *)
Theorem C75_packed_refuted c au i v kw s a r1 r2 : conv_data (mk_data c au (Some (DI_type (D_prim (P_vector kw) s [VD_range a]))) [mk_vitem i [] v]) = Ok r1 ->
  conv_data (mk_data c au (Some (DI_type (D_prim (P_vector kw) s []))) [mk_vitem i [VD_range a] v]) = Ok r2 -> r1 = r2.
Proof.
  unfold conv_data, conv_decl_assignments, conv_vdims. cbn [dd_type dd_list dd_const dd_automatic conv_doi conv_dtype mapM vi_dims conv_vdim bind]. destruct (conv_range a) as [x| | |]; try discriminate. cbn [bind].
  intros H1 H2. apply bind_inv in H1 as (l1 & H1 & E1). apply bind_inv in H2 as (l2 & H2 & E2). injection E1 as <-. injection E2 as <-.
  apply bind_inv in H1 as (y1 & H1 & E1). apply bind_inv in H2 as (y2 & H2 & E2). injection E1 as <-. injection E2 as <-.
  apply bind_inv in H1 as (t1 & C1 & H1). apply bind_inv in H2 as (t2 & C2 & H2). apply clone_e_same in C1 as ->. apply clone_e_same in C2 as ->.
  replace (snd (apply_dims (snd (apply_dims (conv_prim (P_vector kw) s) [Some x])) [])) with (snd (apply_dims (snd (apply_dims (conv_prim (P_vector kw) s) [])) [Some x])) in H1 by (destruct s; reflexivity).
  change (conv_vitem (snd (apply_dims (snd (apply_dims (conv_prim (P_vector kw) s) [])) [Some x])) (mk_vitem i [] v)) with (conv_vitem (snd (apply_dims (snd (apply_dims (conv_prim (P_vector kw) s) [])) [Some x])) (mk_vitem i [VD_range a] v)) in H1.
  rewrite H1 in H2. injection H2 as <-. reflexivity.
Qed.
Print Assumptions C75_packed_refuted.
Theorem C75_packed_second_refuted c au i v kw s m n k b r1 r2 : conv_data (mk_data c au (Some (DI_type (D_prim (P_vector kw) s [VD_range (RG_two m n k); VD_range b]))) [mk_vitem i [] v]) = Ok r1 ->
  conv_data (mk_data c au (Some (DI_type (D_prim (P_vector kw) s [VD_range (RG_two m n k)]))) [mk_vitem i [VD_range b] v]) = Ok r2 -> r1 = r2.
Proof.
  unfold conv_data, conv_decl_assignments, conv_vdims. cbn [dd_type dd_list dd_const dd_automatic conv_doi conv_dtype mapM vi_dims conv_vdim bind]. destruct (conv_range (RG_two m n k)) as [x| | |] eqn:Ex; try discriminate.
  cbn [bind]. destruct (conv_range b) as [y| | |] eqn:Ey; try discriminate. cbn [bind].
  intros H1 H2. apply bind_inv in H1 as (l1 & H1 & E1). apply bind_inv in H2 as (l2 & H2 & E2). injection E1 as <-. injection E2 as <-.
  apply bind_inv in H1 as (y1 & H1 & E1). apply bind_inv in H2 as (y2 & H2 & E2). injection E1 as <-. injection E2 as <-.
  apply bind_inv in H1 as (t1 & C1 & H1). apply bind_inv in H2 as (t2 & C2 & H2). apply clone_e_same in C1 as ->. apply clone_e_same in C2 as ->.
  assert (Hx : exists o l, x = EOp o l). { cbn [conv_range] in Ex. apply bind_inv in Ex as (a0 & _ & Ex). apply bind_inv in Ex as (b0 & _ & Ex). destruct m; injection Ex as <-; eexists; eexists; reflexivity. }
  destruct Hx as (o & l & ->).
  change (conv_vitem (snd (apply_dims (snd (apply_dims (conv_prim (P_vector kw) s) [Some (EOp o l); Some y])) [])) (mk_vitem i [] v)) with (conv_vitem (snd (apply_dims (snd (apply_dims (conv_prim (P_vector kw) s) [Some (EOp o l); Some y])) [])) (mk_vitem i [VD_range b] v)) in H1.
  replace (snd (apply_dims (snd (apply_dims (conv_prim (P_vector kw) s) [Some (EOp o l); Some y])) [])) with (snd (apply_dims (snd (apply_dims (conv_prim (P_vector kw) s) [Some (EOp o l)])) [Some y])) in H1 by (destruct s; reflexivity).
  rewrite H1 in H2. injection H2 as <-. reflexivity.
Qed.
Print Assumptions C75_packed_second_refuted.
(** An associative array with any key and an array without size. *)
Theorem C75_any_key_refuted l1 l2 : conv_vdims (l1 ++ VD_star :: l2) = conv_vdims (l1 ++ VD_open :: l2).
Proof. unfold conv_vdims. induction l1 as [|d l IH]; [reflexivity|]. cbn [app mapM]. fold (mapM conv_vdim). rewrite IH. reflexivity. Qed.
Print Assumptions C75_any_key_refuted.
(** Enumerations and structures, whatever their members are. *)
Theorem C75_enum_struct_refuted ds : conv_dtype (D_enum ds) = conv_dtype (D_struct ds).
Proof. reflexivity. Qed.
Print Assumptions C75_enum_struct_refuted.
(** A virtual interface and a type of the same name. *)
Theorem C75_virtual_refuted i : conv_dtype (D_virtual i None None) = conv_dtype (D_named (VPathOf false H_none [(i, None)]) []).
Proof. cbn [conv_dtype conv_path]. unfold conv_items, SvExprModel.conv_item, visit_ident. cbn [fst]. destruct (ident_str i) as [n| | |]; reflexivity. Qed.
Print Assumptions C75_virtual_refuted.
(** var [a] x and wire [a] x; parameter [a] p and what wire [a] p would be. *)
Theorem C75_width_only_refuted s d ds : conv_doi (Some (DI_implicit (I_type s (d :: ds)))) None = conv_doi (Some (DI_implicit (I_type s (d :: ds)))) (Some (EId $"wire")).
Proof. reflexivity. Qed.
Print Assumptions C75_width_only_refuted.

(** ** Examples *)
Definition i_ (s : string) : ident := IdPlain $s.
Definition rng (a b : string) : vrange := RG_two R_COLON (vnum a) (vnum b).
Definition vi (s : string) (ds : list vdim) (v : option vexpr) : vitem := mk_vitem (i_ s) ds v.
Definition n_ (A : algebra) (s : string) : V A := a_number A (-1) 10 $s.
Definition dim_ (A : algebra) (a b : string) : dim A := Dim A (Two A FromTo (n_ A a) (n_ A b)).
(** const logic signed [7:0] a [3:0] [], b [int] = k; *)
Definition ex_data : data_decl := mk_data true false (Some (DI_type (D_prim (P_vector $"logic") (Some Signed) [VD_range (rng "7" "0")])))
  [vi "a" [VD_range (rng "3" "0"); VD_open] None; vi "b" [VD_type (D_prim (P_atom $"int") None [])] (Some (vid "k"))].
Example C75_variables_ex (A : algebra) : kept_data ex_data = true /\
  v_data A ex_data = Some
    [mk_object A $"a" (Typ (Word $"logic") (Some Signed) [dim_ A "7" "0"] [dim_ A "3" "0"; Unsized A]) None DIR_INTERNAL false true true;
     mk_object A $"b" (Typ (Word $"logic") (Some Signed) [dim_ A "7" "0"] [Key A (plain (Word $"int"))]) (Some (ValOf A (a_name A $"k"))) DIR_INTERNAL false true true].
Proof. split; reflexivity. Qed.
(** tri [7:0] a [3:0], b = k; *)
Definition ex_net : net_decl := mk_net (NK_net $"tri") false (Some (DI_implicit (I_type None [Some (rng "7" "0")]))) [mk_nitem (i_ "a") [rng "3" "0"] None; mk_nitem (i_ "b") [] (Some (vid "k"))].
Example C75_nets_ex (A : algebra) : kept_net_decl ex_net = true /\
  v_net_decl A ex_net = Some
    [mk_object A $"a" (Typ (Word $"tri") None [dim_ A "7" "0"] [dim_ A "3" "0"]) None DIR_INTERNAL false false false;
     mk_object A $"b" (Typ (Word $"tri") None [dim_ A "7" "0"] []) (Some (ValOf A (a_name A $"k"))) DIR_INTERNAL false false false].
Proof. split; reflexivity. Qed.
Example C75_genvars_ex (A : algebra) : omapM (v_genvar A) [i_ "i"; i_ "j"] =
  Some [mk_object A $"i" (plain (Word $"genvar")) None DIR_INTERNAL false false false; mk_object A $"j" (plain (Word $"genvar")) None DIR_INTERNAL false false false].
Proof. reflexivity. Qed.
(** output reg [7:0] q, r [3:0];   ref int c; *)
Example C75_port_declarations_ex (A : algebra) : let d := ND_output (Some (N_plain (DI_type (D_prim (P_vector $"reg") None [VD_range (rng "7" "0")])))) [vi "q" [] None; vi "r" [VD_range (rng "3" "0")] None] in
  kept_nadecl d = true /\ v_nadecl A d = Some
    [mk_object A $"q" (Typ (Word $"reg") None [dim_ A "7" "0"] []) None DIR_OUT false false false;
     mk_object A $"r" (Typ (Word $"reg") None [dim_ A "7" "0"] [dim_ A "3" "0"]) None DIR_OUT false false false].
Proof. split; reflexivity. Qed.
(** (input a, b, output reg [7:0] q, r, input var c, inout d [3:0]) *)
Definition ex_ports : list ansi :=
  [AN_port (Some V_INPUT) None (vi "a" [] None); AN_port None None (vi "b" [] None);
   AN_port (Some V_OUTPUT) (Some (T_nv (N_plain (DI_type (D_prim (P_vector $"reg") None [VD_range (rng "7" "0")]))))) (vi "q" [] None); AN_port None None (vi "r" [] None);
   AN_port (Some V_INPUT) (Some (T_nv (N_var None))) (vi "c" [] None); AN_port (Some V_INOUT) None (vi "d" [VD_range (rng "3" "0")] None)].
Example C75_ports_ex (A : algebra) : plain_ports None ex_ports = true /\ forallb kept_ansi (spell_out V_INOUT None ex_ports) = true /\
  omapM (v_ansi A) (spell_out V_INOUT None ex_ports) = Some
    [mk_object A $"a" (plain (Word $"wire")) None DIR_IN false false false; mk_object A $"b" (plain (Word $"wire")) None DIR_IN false false false;
     mk_object A $"q" (Typ (Word $"reg") None [dim_ A "7" "0"] []) None DIR_OUT false false false; mk_object A $"r" (Typ (Word $"reg") None [dim_ A "7" "0"] []) None DIR_OUT false false false;
     mk_object A $"c" (plain (Word $"logic")) None DIR_IN true false false; mk_object A $"d" (Typ (Word $"wire") None [] [dim_ A "3" "0"]) None DIR_INOUT false false false].
Proof. repeat split; reflexivity. Qed.
(** #(parameter P = 3, Q = k, localparam int L = 7, type T = real, parameter type U) *)
Definition ex_params : plist := PL_decls
  [PD_param (PB_values None [PA (i_ "P") [] (Some (PE_expr (vnum "3"))); PA (i_ "Q") [] (Some (PE_expr (vid "k")))]);
   PD_local (PB_values (Some (DI_type (D_prim (P_atom $"int") None []))) [PA (i_ "L") [] (Some (PE_expr (vnum "7")))]);
   PD_types [(i_ "T", Some (D_prim (P_nonint $"real") None []))]; PD_param (PB_types [(i_ "U", None)])].
Example C75_parameters_ex (A : algebra) : has_tail ex_params = false /\ full_params ex_params = true /\ forallb kept_pone (list_ones ex_params) = true /\
  omapM (v_pone A) (list_ones ex_params) = Some
    [mk_object A $"P" (plain FromValue) (Some (ValOf A (n_ A "3"))) DIR_INTERNAL false false false; mk_object A $"Q" (plain FromValue) (Some (ValOf A (a_name A $"k"))) DIR_INTERNAL false false false;
     mk_object A $"L" (plain (Word $"int")) (Some (ValOf A (n_ A "7"))) DIR_INTERNAL false true false;
     mk_object A $"T" (plain IsType) (Some (TypeVal A (plain (Word $"real")))) DIR_INTERNAL false false false; mk_object A $"U" (plain IsType) None DIR_INTERNAL false false false].
Proof. repeat split; reflexivity. Qed.
(** type(int unsigned), p::t, byte signed *)
Example C75_types_ex (A : algebra) :
  v_dtype A (D_typeref_type (D_prim (P_atom $"int") (Some Unsigned) [])) = Some (plain (TypeOfType A (Typ (Word $"int") (Some Unsigned) [] []))) /\
  v_dtype A (D_named (VPathOf false H_none [(i_ "p", None); (i_ "t", None)]) []) = Some (plain (Named A (a_scope A (a_name A $"p") $"t"))) /\
  forallb kept_dtype [D_typeref_type (D_prim (P_atom $"int") (Some Unsigned) []); D_named (VPathOf false H_none [(i_ "p", None); (i_ "t", None)]) []] = true.
Proof. repeat split; reflexivity. Qed.
(** The sources of the refutations have different meanings. *)
Example C75_net_kind_ex (A : algebra) : v_net_decl A (mk_net (NK_net $"tri") false None [mk_nitem (i_ "x") [] None]) <> v_net_decl A (mk_net (NK_net $"wire") false None [mk_nitem (i_ "x") [] None]).
Proof. cbn. discriminate. Qed.
Example C75_packed_ex (A : algebra) : let t ds := Some (DI_type (D_prim (P_vector $"logic") None ds)) in
  v_data A (mk_data false false (t [VD_range (rng "3" "0")]) [vi "x" [] None]) <> v_data A (mk_data false false (t []) [vi "x" [VD_range (rng "3" "0")] None]) /\
  v_data A (mk_data false false (t [VD_range (rng "3" "0"); VD_range (rng "1" "0")]) [vi "x" [] None]) <> v_data A (mk_data false false (t [VD_range (rng "3" "0")]) [vi "x" [VD_range (rng "1" "0")] None]) /\
  (exists r, conv_data (mk_data false false (t []) [vi "x" [VD_range (rng "3" "0")] None]) = Ok r) /\ (exists r, conv_data (mk_data false false (t [VD_range (rng "3" "0")]) [vi "x" [VD_range (rng "1" "0")] None]) = Ok r).
Proof. split; [cbn; discriminate|]. split; [cbn; discriminate|]. split; eexists; reflexivity. Qed.
Example C75_any_key_ex (A : algebra) : v_vdim A VD_star <> v_vdim A VD_open. Proof. cbn. discriminate. Qed.
Example C75_width_only_ex (A : algebra) : v_doi A R_var (Some (DI_implicit (I_type None [Some (rng "3" "0")]))) <> v_doi A (R_net $"wire") (Some (DI_implicit (I_type None [Some (rng "3" "0")]))).
Proof. cbn. discriminate. Qed.
(** The type of x in t x; is not told: the result reads as a wire. *)
Example C75_user_type_ex (A : algebra) : exists r, conv_net_decl (mk_net (NK_user (i_ "t")) false None [mk_nitem (i_ "x") [] None]) = Ok r /\
  omapM (m_object A false) r = Some [mk_object A $"x" (plain (Word $"wire")) None DIR_INTERNAL false false false] /\
  v_net_decl A (mk_net (NK_user (i_ "t")) false None [mk_nitem (i_ "x") [] None]) = Some [mk_object A $"x" (plain (Named A (a_name A $"t"))) None DIR_INTERNAL false false false].
Proof. eexists. repeat split; reflexivity. Qed.
