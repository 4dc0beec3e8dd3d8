(** C45: a declaration of several identifiers equals several declarations. *)
From Verif Require Import Base AstModel LitModel SvExprModel StmModel SvTypeModel SvDeclModel SvDeclSpec SvDeclProofs P_C27 VhdlExprModel VhdlStmModel VhdlDeclModel VhdlDecl2Proofs.
From Verif Require VhdlDeclSpec VhdlStmDemo.

(** Verilog variables: every type, all dimensions, values and flags. *)
Theorem C45_variables (d : data_decl) (r : list iddef) :
  conv_data d = Ok r -> Forall2 (fun v x => conv_data (data_one d v) = Ok [x]) (dd_list d) r.
Proof. exact (data_each d r). Qed.
Print Assumptions C45_variables.
(** Nets.  Missing: declarations with a strength, vectored, scalared or interconnect, which are dropped. *)
Theorem C45_nets_partial (n : net_decl) (r : list iddef) :
  nd_special n = false -> conv_net_decl n = Ok r -> Forall2 (fun v x => conv_net_decl (net_one n v) = Ok [x]) (nd_list n) r.
Proof. exact (net_each n r). Qed.
Print Assumptions C45_nets_partial.
Theorem C45_special_nets_refuted n : nd_special n = true -> conv_net_decl n = Ok [].
Proof. unfold conv_net_decl. intros ->. reflexivity. Qed.
Print Assumptions C45_special_nets_refuted.
(** Non-ANSI port declarations.  Missing: types without a range (refuted below). *)
Theorem C45_port_declarations_partial (n : nadecl) (r : list iddef) :
  sized_decl n = true -> conv_nadecl n = Ok r -> Forall2 (fun v x => conv_nadecl (set_list n [v]) = Ok [x]) (names_of n) r.
Proof. exact (nadecl_each n r). Qed.
Print Assumptions C45_port_declarations_partial.
(** input logic a [3:0], b;  gives b the dimension of a. *)
Theorem C45_leaking_dimension_refuted :
  let w := VD_range (RG_two R_COLON (num "3") (num "0")) in
  let t := D_prim (P_vector $"logic") None in
  let d ds l := ND_input (Some (N_plain (DI_type (t ds)))) l in
  let v (s : string) ds := mk_vitem (IdPlain $s) ds None in
  match conv_nadecl (d [] [v "a"%string [w]; v "b"%string []]), conv_nadecl (d [] [v "b"%string []]), conv_nadecl (d [w] [v "b"%string []]) with
  | Ok [_; b], Ok [b'], Ok [b''] => b <> b' /\ b = b''
  | _, _, _ => False
  end.
Proof. vm_compute. split; [discriminate|reflexivity]. Qed.
Print Assumptions C45_leaking_dimension_refuted.

(** logic signed [7:0] a [1:0] = x, b, c = y;  and  wire a = x, b [3:0]; *)
Example C45_ex :
  let w a b := VD_range (RG_two R_COLON (num a) (num b)) in
  let d := mk_data false true (Some (DI_type (D_prim (P_vector $"logic") (Some Signed) [w "7"%string "0"%string])))
             [mk_vitem (IdPlain $"a") [w "1"%string "0"%string] (Some (n "x")); mk_vitem (IdPlain $"b") [] None; mk_vitem (IdPlain $"c") [] (Some (n "y"))] in
  match conv_data d with
  | Ok [a; b; c] => map d_name [a; b; c] = [$"a"; $"b"; $"c"] /\ d_type b = d_type c /\ d_type a = EOp INDEX [d_type b; EOp DOWNTO [EInt (-1) (Digits $"1" 10); EInt (-1) (Digits $"0" 10)]] /\
                    map d_value [a; b; c] = [Some (EId $"x"); None; Some (EId $"y")]
  | _ => False
  end.
Proof. vm_compute. repeat split. Qed.
Example C45_ex_nets :
  let d := mk_net (NK_net $"wire") false None [mk_nitem (IdPlain $"a") [] (Some (n "x")); mk_nitem (IdPlain $"b") [RG_two R_COLON (num "3") (num "0")] None] in
  nd_special d = false /\ match conv_net_decl d with Ok [a; b] => d_value a = Some (EId $"x") /\ d_type a = type_auto /\ d_type b <> d_type a | _ => False end.
Proof. vm_compute. repeat split. discriminate. Qed.

(** VHDL constants, signals, variables, elements of records and use clauses; constants, signals and
    variables of ports, generics and parameters. *)
Theorem C45_vhdl_declarations ho d r : conv_decl ho d = Ok r -> concatM (conv_decl ho) (VhdlDeclSpec.decl_ones d) = Ok r.
Proof. exact (decl_each ho d r). Qed.
Print Assumptions C45_vhdl_declarations.
Theorem C45_vhdl_interfaces l r : conv_ifaces l = Ok r -> conv_ifaces (flat_map VhdlDeclSpec.iface_ones l) = Ok r.
Proof. exact (ifaces_each l r). Qed.
Print Assumptions C45_vhdl_interfaces.
(** One object per identifier, with its name. *)
Theorem C45_vhdl_names ns t v l : extract ns t v = Ok l -> map d_name l = ns.
Proof. intros H. apply extract_inv in H as (ty & e & _ & _ & ->). rewrite map_map. cbn [d_name new_iddef]. apply map_id. Qed.
Print Assumptions C45_vhdl_names.
Example C45_ex_vhdl : match conv_decl false (DC_variable true [$"a"; $"b"] (VhdlStmDemo.hid "T") (Some (HAgg [([Ch_others], VhdlStmDemo.hnum "0")]))) with
  | Ok [O_id a; O_id b] => d_name a = $"a" /\ d_name b = $"b" /\ d_type a = d_type b /\ d_value a = d_value b /\ d_value a <> None /\ d_shared b = true
  | _ => False
  end.
Proof. vm_compute. repeat split. discriminate. Qed.
