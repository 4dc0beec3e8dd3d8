(** C66: VHDL type declarations keep their definition. *)
From Verif Require Import Base AstModel StmModel LitModel SvExprModel SvExprSpec SvDeclModel VhdlExprModel VhdlExprSpec VhdlStmModel VhdlStmDemo VhdlDeclModel VhdlDeclSpec VhdlDecl2Proofs.

(** Enumerations, numbers, physical units, arrays, records, incomplete types and subtypes, for every
    interpretation of the expressions.  Missing: access, file and protected types (refuted below), based
    literals in units; integer and floating types are not distinguished (refuted below). *)
Theorem C66_types_partial (A : halgebra) (ho : bool) (d : decl) (x : str * tdecl A) :
  s_tdecl A d = Some x -> exists o, conv_decl ho d = Ok [o] /\ m_tdecl A o = Some x.
Proof. exact (tdecl_sim A ho d x). Qed.
Print Assumptions C66_types_partial.
Theorem C66_floating_refuted ho n r : conv_decl ho (DC_type n (Some (TD_integer r))) = conv_decl ho (DC_type n (Some (TD_floating r))).
Proof. reflexivity. Qed.
Print Assumptions C66_floating_refuted.
Theorem C66_access_refuted ho n t t' :
  conv_decl ho (DC_type n (Some (TD_access t))) = conv_decl ho (DC_type n (Some (TD_access t'))) /\
  conv_decl ho (DC_type n (Some (TD_access t))) = conv_decl ho (DC_type n (Some (TD_file t'))) /\
  conv_decl ho (DC_type n (Some (TD_access t))) = conv_decl ho (DC_type n (Some TD_protected)).
Proof. repeat split. Qed.
Print Assumptions C66_access_refuted.

Definition r_ a b := R_explicit (hnum a) To (hnum b).
Definition ex_types : list decl :=
  [DC_type $"e" (Some (TD_enum [El_id $"red"; El_char $"'x'"]));
   DC_type $"t" (Some (TD_physical (r_ "0" "9") $"fs" [($"ps", (Some (false, $"1000"), hid "fs")); ($"q", (None, hid "ps"))]));
   DC_type $"m" (Some (TD_unbounded [hid "natural"; hid "e"] (hid "bit")));
   DC_type $"a" (Some (TD_constrained [r_ "0" "7"; R_name (hid "e")] (hid "bit")));
   DC_type $"r" (Some (TD_record [([$"x"; $"y"], hid "bit"); ([$"z"], hid "a")]));
   DC_subtype $"s" (HSubtype None (hid "integer") (Some (Con_range (r_ "0" "3")))); DC_type $"fwd" None].
Example C66_ex : match conv_decls false ex_types with
  | Ok [O_type _ symb_T (Some (TV_enum [(Some red, None); (None, Some _)])); O_type _ symb_T (Some (TV_physical _ [(fs, None); (ps, Some p); (q, Some _)]));
        O_type _ symb_T (Some (TV_expr m)); O_type _ symb_T (Some (TV_expr a)); O_type _ symb_T (Some (TV_record [x; y; z])); O_type _ symb_T_SUBTYPE (Some (TV_expr s)); O_type f symb_T None] =>
      red = $"red" /\ p = EOp UNIT_SPEC [EInt (-1) (Val 1000); EId $"fs"] /\ a = EOp INDEX [EId $"bit"; EOp TO [EInt (-1) (Val 0); EInt (-1) (Val 7)]; EId $"e"] /\
      m = EOp INDEX [EId $"bit"; EOp RANGE [EId $"natural"; ESym symb_OPEN]; EOp RANGE [EId $"e"; ESym symb_OPEN]] /\ map d_name [x; y; z] = [$"x"; $"y"; $"z"] /\ d_type x = d_type y
  | _ => False
  end.
Proof. vm_compute. repeat split. Qed.
Example C66_ex_hyp (A : halgebra) : forallb (fun d => match s_tdecl A d with Some _ => true | None => false end) ex_types = true.
Proof. reflexivity. Qed.
