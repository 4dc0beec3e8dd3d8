(** C77: Every VHDL file that converts reaches Python, and Python shows its AST. *)
From Verif Require Import Base AstModel StmModel EncodingSpec PyModel PySpec PyObjModel PyObjSpec PyObjProofs PyTreeModel PySeenSpec PySeenProofs.
From Verif Require Import LitModel VhdlExprModel VhdlStmModel VhdlDeclModel VhdlTextSpec VhdlPyProofs3.
Import PySpec PyObjModel PyObjSpec.

(** Every AST without null pointers, unknown directions, do-while loops and texts that are not UTF-8 becomes a Python
    object, from which the AST can be read as [seen_obj] describes it. *)
Theorem C77_seen l : forallb readable_obj l = true -> exists p, py_context l = Ok p /\ tells_file p (map seen_obj l).
Proof. exact (file_seen l). Qed.
(** Two of them with the same Python object differ only in what [seen_obj] leaves out. *)
Theorem C77_same_object l1 l2 p : forallb readable_obj l1 = true -> forallb readable_obj l2 = true -> py_context l1 = Ok p -> py_context l2 = Ok p ->
  map seen_obj l1 = map seen_obj l2.
Proof.
  intros H1 H2 E1 E2. destruct (file_seen l1 H1) as (p1 & F1 & T1). destruct (file_seen l2 H2) as (p2 & F2 & T2). rewrite F1 in E1. rewrite F2 in E2. injection E1 as ->. injection E2 as ->.
  destruct T1 as (_ & q1 & A1 & B1), T2 as (_ & q2 & A2 & B2). rewrite A1 in A2. injection A2 as <-. clear - B1 B2. revert B2. generalize (map seen_obj l2) as m. induction B1 as [|p o q l H B IH]; intros m B2; inversion B2 as [|? o' ? m' H' B2']; subst; [reflexivity|].
  f_equal; [exact (tells_det o p o' H H')|exact (IH m' B2')].
Qed.
(** A VHDL file which converts to an AST is converted to Python, when its identifiers and strings are UTF-8 without NUL, its
    numbers and character literals are ASCII, and no process or subprogram has a selected signal assignment. *)
Theorem C77_vhdl_partial ho l r : Forall printable (file_words l) -> conv_file ho l = Ok r ->
  exists p, vhdl_to_python ho l = Ok p /\ tells_file p (map seen_obj (map of_hobj r)).
Proof.
  intros W H. destruct (file_seen _ (vhdl_readable ho l r W H)) as (p & E & T). exists p. split; [|exact T]. unfold vhdl_to_python. rewrite H. exact E.
Qed.

(** Not so: a character literal that is not ASCII fails the whole file. *)
Definition a_character (t : str) : list dunit := [([], LU_package $"p" None [DC_constant [$"c"] (HSubtype None (HLit (NL_id $"character")) None) (Some (HLit (NL_char t)))])].
Theorem C77_character_refuted c t : (128 <= N_of_ascii c)%N -> (exists r, conv_file false (a_character ("'" :: c :: t)%char) = Ok r) /\
  vhdl_to_python false (a_character ("'" :: c :: t)%char) = py_error "UnicodeDecodeError".
Proof.
  intros H. split; [eexists; reflexivity|]. destruct c as [[] [] [] [] [] [] [] []]; try (exfalso; revert H; cbv; congruence); reflexivity.
Qed.
(** A selected signal assignment in a process fails the whole file, whatever else is in the process. *)
Definition a_select (sel t : hexpr) (l : list selwave) : list dunit :=
  [([], LU_arch $"a" (HLit (NL_id $"e")) [] [CS_simple None false (CP_process HSens_none [] [HS None (J_signal_select sel t l)] None)])].
Theorem C77_select_refuted ho sel t l : (exists r, conv_file ho (a_select sel t l) = Ok r) /\ vhdl_to_python ho (a_select sel t l) = py_error "ToPy::toPy called for nullptr".
Proof. destruct ho; (split; [eexists; reflexivity|reflexivity]). Qed.

Print Assumptions C77_seen.
Print Assumptions C77_same_object.
Print Assumptions C77_vhdl_partial.
Print Assumptions C77_character_refuted.
Print Assumptions C77_select_refuted.

(** A file with a string (of the two bytes of one letter), a bit string, a character, a label and an instance. *)
Definition name (s : str) : hexpr := HLit (NL_id s).
Definition ex_file : list dunit :=
  [([CI_library [$"ieee"]; CI_use [HAll (HDot (name $"ieee") (NL_id $"std_logic_1164"))]],
    LU_entity $"e" None (Some [IF_signal false [$"a"; $"b"] (Some Md_out) (HSubtype None (name $"bit") None) false None]) [] []);
   ([], LU_arch $"rtl" (name $"e") [DC_constant [$"s"] (HSubtype None (name $"string") None) (Some (HLit (NL_op (dq :: ascii_of_nat 195 :: ascii_of_nat 169 :: dq :: dq :: [dq]))))]
     [CS_simple (Some $"p") false (CP_process HSens_all [] [HS (Some $"l") (J_if (HLit (NL_char $"'1'")) [HS None J_null] [] None (Some $"l"))] None);
      CS_inst $"u" (IU_entity (name $"f") None) None (Some [Assoc None (Act (D_expr false (HBits (("x"%char :: dq :: $"F") ++ [dq]))))])])].
Example C77_ex : Forall printable (file_words ex_file) /\ (exists r, conv_file false ex_file = Ok r) /\
  match vhdl_to_python false ex_file with
  | Ok p => match attr p "objs" with PList [_; _; e; a] => cls e = Some "HdlModuleDec"%string /\ attr a "name" = PStr $"rtl" | _ => False end
  | _ => False
  end.
Proof.
  split; [|split].
  - unfold ex_file. cbn. repeat constructor; try discriminate. exists (ascii_of_nat 195 :: ascii_of_nat 169 :: dq :: [dq]). reflexivity.
  - eexists. vm_compute. reflexivity.
  - vm_compute. repeat split.
Qed.
