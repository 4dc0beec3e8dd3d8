(** C41: every parameter of a parameter port list is in the AST, in order. *)
From Verif Require Import Base AstModel LitModel SvExprModel StmModel SvTypeModel SvDeclModel SvDeclSpec SvDeclProofs P_C27.

(** One definition per declared parameter, with its name, type, default value and kind (local or not).
    Missing: parameters declared after a plain list (refuted below). *)
Theorem C41_parameters_partial (p : plist) (r : list iddef) :
  has_tail p = false -> conv_plist p = Ok r -> Forall2 defines (list_ones p) r.
Proof. exact (plist_ok p r). Qed.
Print Assumptions C41_parameters_partial.
(** After a plain list exactly the parameters of this list are in the AST. *)
Theorem C41_plain_list_law (l : list passign) (tail : list pdecl) (r : list iddef) :
  conv_plist (PL_bare l tail) = Ok r -> Forall2 defines (map (one_value false (PT_of None)) l) r.
Proof. exact (plist_tail l tail r). Qed.
Print Assumptions C41_plain_list_law.
(** #(A = 1, parameter B = 2) has no B. *)
Theorem C41_mixed_list_refuted :
  let p := PL_bare [PA (IdPlain $"A") [] (Some (PE_expr (num "1")))] [PD_param (PB_values None [PA (IdPlain $"B") [] (Some (PE_expr (num "2")))])] in
  length (list_ones p) = 2 /\ match conv_plist p with Ok r => map d_name r = [$"A"] | _ => False end.
Proof. vm_compute. split; reflexivity. Qed.
Print Assumptions C41_mixed_list_refuted.
(** The unpacked dimensions of a parameter are not in the AST. *)
Theorem C41_dimensions_refuted i ds v : conv_passign (PA i ds v) = conv_passign (PA i [] v).
Proof. reflexivity. Qed.
Print Assumptions C41_dimensions_refuted.

(** #(type T = string, parameter int A = 1, B = 2, localparam C = 3) *)
Example C41_ex :
  let v (s k : string) := PA (IdPlain $s) [] (Some (PE_expr (num k))) in
  let p := PL_decls [PD_types [(IdPlain $"T", Some D_string)];
                     PD_param (PB_values (Some (DI_type (D_prim (P_atom $"int") None []))) [v "A"%string "1"%string; v "B"%string "2"%string]);
                     PD_local (PB_values None [v "C"%string "3"%string])] in
  has_tail p = false /\
  match conv_plist p with
  | Ok r => map d_name r = [$"T"; $"A"; $"B"; $"C"] /\ map d_const r = [false; false; false; true] /\
            map d_type r = [ESym symb_T; EId $"int"; EId $"int"; type_auto]
  | _ => False
  end.
Proof. vm_compute. repeat split. Qed.
