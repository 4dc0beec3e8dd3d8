(** C40: the declarations of a non-ANSI module are merged into its ports. *)
From Verif Require Import Base AstModel LitModel SvExprModel StmModel SvTypeModel SvDeclModel SvModuleSpec SvModuleProofs P_C27.

(** The ports keep the order of the header, ports that are only declared follow in the order of their
    declarations; each has the last type, the last value and the last direction given for its name; the
    variables with the name of a port are gone from the body, the rest of the body is unchanged.
    Missing: ports with a name of their own, concatenations, signedness (refuted below). *)
Theorem C40_ports_partial (X : Type) (header : list iddef) (items : list (mitem X)) (ps : list iddef) (os : list (mobj X)) :
  NoDup (map d_name header) -> regular header items = true -> conv_module header items = Ok (ps, os) ->
  map d_name ps = port_names header items /\
  os = filter (not_port (port_names header items)) (objs_of items) /\
  Forall (fun x => d_type x = port_type header items (d_name x) /\ d_value x = port_value header items (d_name x) /\
                   Some (d_dir x) = port_dir header items (d_name x) /\ d_latched x = port_latched header items (d_name x)) ps.
Proof. exact (module_ok header items ps os). Qed.
Print Assumptions C40_ports_partial.

Definition vec k s ds := D_prim (P_vector $k) s ds.
Definition rng a b := VD_range (RG_two R_COLON (num a) (num b)).
Definition item s := mk_vitem (IdPlain $s) [] None.
Definition hport s := NA_expr (NE_one (mk_dotted (IdPlain $s) None [])).
(** Ports and port declarations from the source. *)
Definition module_of (h : list naport) (ds : list nadecl) (vs : list data_decl) : outcome (list iddef * list (mobj nat)) :=
  ps <- mapM conv_naport h ;; d <- concatM conv_nadecl ds ;; v <- concatM conv_data vs ;;
  conv_module ps [MI_ports d; MI_objs (MO_other 0 :: map MO_id v)].
(** module m (a, b); output b; input [3:0] a; reg b; reg c; *)
Example C40_ex :
  match module_of [hport "a"; hport "b"]
          [ND_output None [item "b"]; ND_input (Some (N_plain (DI_implicit (I_type None [Some (RG_two R_COLON (num "3") (num "0"))])))) [item "a"]]
          [mk_data false false (Some (DI_type (vec "reg" None []))) [item "b"; item "c"]] with
  | Ok (ps, os) => map d_name ps = [$"a"; $"b"] /\ map d_dir ps = [DIR_IN; DIR_OUT] /\ length os = 2 /\
      nth 1 (map d_type ps) ENull = EOp PARAMETRIZATION [EId $"reg"; null_sym; null_sym]
  | _ => False
  end.
Proof. vm_compute. repeat split. Qed.
Example C40_ex_regular :
  match mapM conv_naport [hport "a"; hport "b"], conv_nadecl (ND_output None [item "b"; item "a"]) with
  | Ok h, Ok d => regular h [MI_ports d; MI_objs [MO_other 7]] = true /\ map d_name h = [$"a"; $"b"]
  | _, _ => False
  end.
Proof. vm_compute. split; reflexivity. Qed.

(** module m (.a(b)); input b;  has the one port a, but b is added as a second one and a has no direction. *)
Theorem C40_named_port_refuted :
  match module_of [NA_named (IdPlain $"a") (Some (NE_one (mk_dotted (IdPlain $"b") None [])))] [ND_input None [item "b"]] [] with
  | Ok (ps, _) => map d_name ps = [$"a"; $"b"] /\ map d_dir ps = [DIR_INTERNAL; DIR_IN]
  | _ => False
  end.
Proof. vm_compute. split; reflexivity. Qed.
Print Assumptions C40_named_port_refuted.
(** module m ({a, b}); input a, b;  has one port. *)
Theorem C40_concatenation_refuted :
  match module_of [NA_expr (NE_concat [mk_dotted (IdPlain $"a") None []; mk_dotted (IdPlain $"b") None []])] [ND_input None [item "a"; item "b"]] [] with
  | Ok (ps, _) => map d_name ps = [[]; $"a"; $"b"]
  | _ => False
  end.
Proof. reflexivity. Qed.
Print Assumptions C40_concatenation_refuted.
(** output signed [3:0] a; reg [3:0] a;  declares a signed port; the AST is the one of an unsigned port. *)
Theorem C40_sign_refuted :
  let m s := module_of [hport "a"] [ND_output (Some (N_plain (DI_implicit (I_type s [Some (RG_two R_COLON (num "3") (num "0"))])))) [item "a"]]
               [mk_data false false (Some (DI_type (vec "reg" None [rng "3" "0"]))) [item "a"]] in
  m (Some Signed) = m None /\ match m None with Ok _ => True | _ => False end.
Proof. vm_compute. split; reflexivity. Qed.
Print Assumptions C40_sign_refuted.
(** module m (a[3:0]); input [7:0] a;  has a 4 bit port; the part select of the header is dropped. *)
Theorem C40_select_refuted :
  let m h := module_of [h] [ND_input (Some (N_plain (DI_implicit (I_type None [Some (RG_two R_COLON (num "7") (num "0"))])))) [item "a"]] [] in
  m (NA_expr (NE_one (mk_dotted (IdPlain $"a") None [RG_two R_COLON (num "3") (num "0")]))) = m (hport "a") /\ match m (hport "a") with Ok _ => True | _ => False end.
Proof. vm_compute. split; reflexivity. Qed.
Print Assumptions C40_select_refuted.
(** module m (.a(b)); output a = 1; is legal neither way, yet the conversion reads a null pointer check that
    fails: a header port with a value and a declaration with a value. *)
Theorem C40_value_conflict : forall v w t d,
  add_decl [new_var $"a" t (Some v)] (set_port (new_var $"a" t (Some w)) d false) = UB "assert(p->value == nullptr)".
Proof. reflexivity. Qed.
Print Assumptions C40_value_conflict.
