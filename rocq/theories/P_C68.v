(** C68: the hierarchy-only mode (VHDL) keeps the design units and the instances. *)
From Verif Require Import Base AstModel StmModel SvExprModel SvDeclModel VhdlExprModel VhdlStmModel VhdlStmDemo VhdlDeclModel VhdlDeclSpec VhdlHierProofs.

(** A file that converts also converts in the mode, to the AST without what [thin] removes. *)
Theorem C68_hierarchy (l : list dunit) (r : list hobj) : conv_file false l = Ok r -> conv_file true l = Ok (map thin r).
Proof. exact (file_thin l r). Qed.
Print Assumptions C68_hierarchy.
(** So libraries, imports, design units and all instances with their scopes are those of the full AST. *)
Theorem C68_units (l : list dunit) (r r' : list hobj) : conv_file false l = Ok r -> conv_file true l = Ok r' ->
  map head_of r' = map head_of r /\ map unit_instances r' = map unit_instances r.
Proof.
  intros H H'. rewrite (file_thin l r H) in H'. injection H' as <-. rewrite !map_map. split; apply map_ext; intros o; [apply head_thin|apply unit_thin].
Qed.
Print Assumptions C68_units.
(** Interfaces, packages and declarations of architectures are removed. *)
Theorem C68_removed (l : list dunit) (r' : list hobj) : conv_file true l = Ok r' -> forall o, In o r' ->
  match o with O_module_dec _ g p x => g = [] /\ p = [] /\ x = [] | O_space _ _ x => x = [] | O_module_def _ _ x => forallb is_statement x = true | _ => True end.
Proof. exact (file_removed l r'). Qed.
Print Assumptions C68_removed.

(** library ieee; use ieee.a.all; entity e is port (x : in bit); end;  architecture a of e is signal s : bit; begin b: block signal t : bit; begin u: w port map (x); end block; end; *)
Definition ex_file : list dunit :=
  [([CI_library [$"ieee"; $"lib"]; CI_use [HAll (HDot (hid "ieee") (NL_id $"a"))]], LU_entity $"e" None (Some [IF_signal false [$"x"] (Some Md_in) (hid "bit") false None]) [] []);
   ([], LU_arch $"a" (hid "e") [DC_signal [$"s"] (hid "bit") None None]
     [CS_block $"b" None None None [DC_signal [$"t"] (hid "bit") None None] [CS_inst $"u" (IU_component false (hid "w")) None (Some [Assoc None (Act (D_expr false (hid "x")))])] None]);
   ([], LU_package $"p" None [DC_constant [$"c"] (hid "bit") (Some (hnum "1"))])].
Example C68_ex :
  match conv_file false ex_file, conv_file true ex_file with
  | Ok [_; _; O_import [i1; i2; i3]; O_module_dec _ _ [x] _; O_module_def _ _ [O_id s; _] as a; O_space _ true [O_id c]],
    Ok [O_library l1; O_library l2; O_import _; O_module_dec e [] [] []; O_module_def a' of_ [O_block h [O_id t; O_inst u]]; O_space p true []] =>
      l1 = $"ieee" /\ l2 = $"lib" /\ [i1; i2; i3] = [EId $"ieee"; EId $"a"; ESym symb_ALL] /\ e = $"e" /\ p = $"p" /\ labels h = [$"b"] /\ unit_instances a = [([[$"b"]], u)] /\ ci_name u = EId $"u"
  | _, _ => False
  end.
Proof. vm_compute. repeat split. Qed.
