(** C39: in an ANSI port list direction and type are inherited from the previous port. *)
From Verif Require Import Base AstModel LitModel SvExprModel StmModel SvTypeModel SvDeclModel SvDeclSpec SvDeclProofs P_C27.

(** Each port of the list is the port one gets from a header with this port alone and with the inherited
    direction and type written down.  Missing: interface ports, inherited var types, dimensions after a name
    whose type has no range (all refuted below). *)
Theorem C39_inheritance_partial (l : list ansi) (r : list iddef) :
  plain_ports None l = true -> header_ports l = Ok r ->
  Forall2 (fun p x => header_ports [p] = Ok [x]) (spell_out V_INOUT None l) r.
Proof. exact (header_each l r). Qed.
Print Assumptions C39_inheritance_partial.

Definition port d t s ds := AN_port d t (mk_vitem (IdPlain $s) ds None).
Definition logic_t ds := Some (T_nv (N_plain (DI_type (D_prim (P_vector $"logic") None ds)))).
Definition width a b := VD_range (RG_two R_COLON (num a) (num b)).
(** (input logic [7:0] a, b [1:0], output c, d, .e(x + 1), inout f) *)
Example C39_ex :
  let l := [port (Some V_INPUT) (logic_t [width "7" "0"]) "a" []; port None None "b" [width "1" "0"]; port (Some V_OUTPUT) None "c" []; port None None "d" [];
            AN_expr None (IdPlain $"e") (Some (VBinary B_PLUS (n "x") (num "1"))); port (Some V_INOUT) None "f" []] in
  plain_ports None l = true /\
  match header_ports l with
  | Ok r => map d_name r = [$"a"; $"b"; $"c"; $"d"; $"e"; $"f"] /\ map d_dir r = [DIR_IN; DIR_IN; DIR_OUT; DIR_OUT; DIR_OUT; DIR_INOUT]
  | _ => False
  end.
Proof. vm_compute. repeat split. Qed.

(** (input logic a [3:0], b): the dimension of a becomes the width of a and of b; the AST is the one of
    (input logic [3:0] a, b). *)
Theorem C39_leaking_dimension_refuted :
  header_ports [port (Some V_INPUT) (logic_t []) "a" [width "3" "0"]; port None None "b" []]
  = header_ports [port (Some V_INPUT) (logic_t [width "3" "0"]) "a" []; port None None "b" []]
  /\ header_ports (spell_out V_INOUT None [port (Some V_INPUT) (logic_t []) "a" [width "3" "0"]; port None None "b" []])
     <> header_ports [port (Some V_INPUT) (logic_t []) "a" [width "3" "0"]; port None None "b" []].
Proof. split; [reflexivity|]. vm_compute. discriminate. Qed.
Print Assumptions C39_leaking_dimension_refuted.
(** (output var logic [3:0] a, b): b is not a variable. *)
Theorem C39_var_refuted :
  match header_ports [port (Some V_OUTPUT) (Some (T_nv (N_var (Some (DI_type (D_prim (P_vector $"logic") None [width "3" "0"])))))) "a" []; port None None "b" []] with
  | Ok [a; b] => d_latched a = true /\ d_latched b = false
  | _ => False
  end.
Proof. vm_compute. split; reflexivity. Qed.
Print Assumptions C39_var_refuted.
(** (input a, bus_if b): the interface port, which has no direction, becomes an input. *)
Theorem C39_interface_refuted :
  match header_ports [port (Some V_INPUT) None "a" []; port None (Some (T_iface (Some (IdPlain $"bus_if")) None)) "b" []] with
  | Ok [a; b] => d_dir b = DIR_IN
  | _ => False
  end.
Proof. reflexivity. Qed.
Print Assumptions C39_interface_refuted.
(** In an extern module a first port without direction keeps the direction unknown. *)
Theorem C39_extern_refuted :
  match conv_ansi_ports [port None (logic_t []) "a" []] with Ok [a] => d_dir a = DIR_UNKNOWN | _ => False end.
Proof. reflexivity. Qed.
Print Assumptions C39_extern_refuted.
