(** C73: modules, packages, functions and whole files reach Python unchanged. *)
From Verif Require Import Base AstModel OpSpec StmModel PyModel PySpec PyProofs PyObjModel PyObjSpec PyObjProofs PyOpenProofs PyTreeModel.
From Verif Require Import SvDeclModel VhdlDeclModel.
Import PySpec PyObjModel PyObjSpec.

(** Every object without the exceptions named below becomes a Python object that tells it, with open read as null. *)
Theorem C73_object_partial o : sendable_obj (obj_no_open o) = true -> exists p, py_obj o = Ok p /\ tells p (obj_no_open o).
Proof. intros H. rewrite <- obj_open. exact (obj_told _ H). Qed.
Theorem C73_file_partial l : forallb sendable_obj (map obj_no_open l) = true -> exists p, py_context l = Ok p /\ tells_file p (map obj_no_open l).
Proof. intros H. rewrite <- file_open. exact (file_told _ H). Qed.
(** What a Python object tells is one object of the AST. *)
Theorem C73_one_object p o1 o2 : tells p o1 -> tells p o2 -> o1 = o2.
Proof. exact (tells_det o1 p o2). Qed.
(** Statements inside of objects are converted like statements alone (C69). *)
Theorem C73_statement s : py_obj (of_stm s) = py_stm s.
Proof. exact (of_stm_same s). Qed.

(** open and null are the same everywhere. *)
Theorem C73_open_refuted o : py_obj (obj_no_open o) = py_obj o.
Proof. exact (obj_open o). Qed.
(** The documentation of an instance is lost. *)
Theorem C73_instance_doc_refuted c d a : py_obj (B_inst c d a) = py_obj (B_inst c [] a).
Proof. reflexivity. Qed.
(** A single object that is not converted fails the whole file: *)
Theorem C73_one_fails_all_refuted l1 o l2 e : forallb sendable_obj l1 = true -> py_obj o = Throw e -> py_context (l1 ++ o :: l2) = Throw e.
Proof.
  intros H E. unfold py_context. assert (SvExprModel.mapM py_obj (l1 ++ o :: l2) = Throw e) as ->; [|reflexivity].
  induction l1 as [|a l1 IH]; [cbn [app SvExprModel.mapM]; rewrite E; reflexivity|].
  cbn [forallb] in H. apply andb_prop in H as [Ha H]. cbn [app SvExprModel.mapM]. destruct (obj_told a Ha) as (p & -> & _). cbn [bind].
  rewrite (IH H). reflexivity.
Qed.
(** for example a module with a port of unknown direction. *)
Theorem C73_direction_refuted h gs n ps l : sendable_nhdr h = true -> forallb sendable_def gs = true -> sendable_text n = true ->
  py_obj (B_dec h gs (new_iddef n ENull None DIR_UNKNOWN false :: ps) l) = py_error "Invalid direction value".
Proof.
  intros Hh G U. cbn [py_obj]. unfold sendable_nhdr in Hh. apply andb_prop in Hh as [Hh _]. apply andb_prop in Hh as [Hn Hd].
  destruct (name_ok _ Hn) as (k & K & _). destruct (doc_ok _ Hd) as (k' & K' & _). unfold py_nhdr. rewrite K, K'. cbn [bind].
  destruct (mapM_shows py_iddef sendable_def defines gs) as (r & R & _); [apply Forall_forall; intros x _; apply def_ok|exact G|]. rewrite R. cbn [bind SvExprModel.mapM].
  unfold py_iddef at 1. cbn [d_name d_doc d_type d_value d_dir new_iddef]. destruct (name_ok n U) as (q & Q & _). rewrite Q. reflexivity.
Qed.
(** A value of an enumeration that is not converted ends the process. *)
Theorem C73_member_refuted n e m l x : sendable_text n = true -> py_expr e = Throw x -> exists s, py_tval (TV_enum ((Some n, Some e) :: l)) = UB s /\ py_tval (TV_physical (EId $"a") ((n, Some e) :: m)) = UB s.
Proof. intros U E. eexists. cbn [py_tval SvExprModel.mapM map some_name]. unfold py_member. cbn [fst snd some_name]. rewrite (py_str_ok n U), E. repeat split. Qed.

Print Assumptions C73_object_partial.
Print Assumptions C73_file_partial.
Print Assumptions C73_one_object.
Print Assumptions C73_statement.
Print Assumptions C73_open_refuted.
Print Assumptions C73_instance_doc_refuted.
Print Assumptions C73_one_fails_all_refuted.
Print Assumptions C73_direction_refuted.
Print Assumptions C73_member_refuted.

(** An entity with a generic and a port, and an architecture with an instance that leaves a port open. *)
Definition ex_file : list obj :=
  [B_dec (plain $"e") [new_iddef $"w" (EId $"natural") (Some (EInt (-1) (Digits $"8" 10))) DIR_IN false] [new_iddef $"p" (EId $"bit") None DIR_OUT true] [];
   B_def (plain $"a") (Some (EId $"e")) None [B_inst (mk_compinst (EId $"u") (EId $"e") [] [EOp ARROW [EId $"p"; ESym symb_OPEN]]) [] []]].
Example C73_ex : forallb sendable_obj (map obj_no_open ex_file) = true
  /\ match py_context ex_file with Ok p => match attr p "objs" with PList [d; a] => attr d "name" = PStr $"e" /\ attr a "module_name" = PObj "HdlValueId" [("val" ~> PStr $"e")] | _ => False end | _ => False end.
Proof. vm_compute. repeat split. Qed.
