(** C69: statements and definitions reach Python unchanged. *)
From Verif Require Import Base AstModel OpSpec StmModel PyModel PySpec PyProofs PyStmProofs.

(** Every definition without the exceptions named below becomes an object that defines the same. *)
Theorem C69_definition_partial d : sendable_def d = true -> exists p, py_iddef d = Ok p /\ defines p d.
Proof. exact (def_ok d). Qed.
(** Every statement without the exceptions named below becomes an object that says the same: its kind, labels, doc, attributes,
    conditions and, recursively, its parts can be read from it. *)
Theorem C69_statement_partial s : sendable_stm s = true -> exists p, py_stm s = Ok p /\ says p s.
Proof. exact (stm_said s). Qed.
(** An object says one thing. *)
Theorem C69_one_definition p a b : defines p a -> defines p b -> a = b.
Proof. exact (defines_det p a b). Qed.
Theorem C69_one_statement p a b : says p a -> says p b -> a = b.
Proof. exact (says_det a p b). Qed.

(** The exceptions.  A statement that is a value (a call) loses its label, doc and attributes. *)
Theorem C69_call_label_refuted h e : py_stm (SExpr h e) = py_stm (SExpr hdr0 e).
Proof. reflexivity. Qed.
(** "return null" and "return" are the same object, as are an initial value null and none. *)
Theorem C69_return_null_refuted : py_stm (SReturn hdr0 (Some (ESym symb_NULL))) <> py_stm (SReturn hdr0 None)
  /\ forall p q, py_stm (SReturn hdr0 (Some (ESym symb_NULL))) = Ok p -> py_stm (SReturn hdr0 None) = Ok q -> forall f, attr p f = attr q f.
Proof.
  split; [discriminate|]. intros p q Hp Hq f. injection Hp as <-. injection Hq as <-. cbn [attr assoc app]. destruct (String.eqb f "val") eqn:E; [|reflexivity].
  apply String.eqb_eq in E as ->. reflexivity.
Qed.
(** A do-while loop fails the conversion of everything around it. *)
Theorem C69_do_refuted h b c h2 j l1 l2 : (forall s, In s l1 -> sendable_stm s = true) -> exists e, py_stm (SBlock h2 j (l1 ++ SDoWhile h b c :: l2)) = Throw e.
Proof.
  intros H. assert (M : exists x, SvExprModel.mapM py_stm (l1 ++ SDoWhile h b c :: l2) = Throw x).
  { induction l1 as [|a l1 IH]; [eexists; reflexivity|]. cbn [app SvExprModel.mapM]. destruct (stm_said a (H a (or_introl eq_refl))) as (p & -> & _). cbn [bind].
    destruct (IH (fun e I => H e (or_intror I))) as [x ->]. exists x. reflexivity. }
  destruct M as [x M]. cbn [py_stm]. rewrite M. eexists. reflexivity.
Qed.
(** An assignment with a text that is not UTF-8 releases a null pointer. *)
Theorem C69_assign_refuted h d td ed b : py_stm (SAssign h d (EStr [ascii_of_nat 255]) td ed b) = UB "Py_DECREF(NULL)".
Proof. reflexivity. Qed.
(** A loop without body object terminates the program. *)
Theorem C69_null_body_refuted h c : sendable c = true -> py_stm (SWhile h c SNull) = UB "std::bad_typeid: terminate".
Proof. intros H. cbn [py_stm]. destruct (expr_shown c H) as (p & -> & _). reflexivity. Qed.

Print Assumptions C69_definition_partial.
Print Assumptions C69_statement_partial.
Print Assumptions C69_one_definition.
Print Assumptions C69_one_statement.
Print Assumptions C69_call_label_refuted.
Print Assumptions C69_return_null_refuted.
Print Assumptions C69_do_refuted.
Print Assumptions C69_assign_refuted.
Print Assumptions C69_null_body_refuted.

Example C69_ex : let s := SIf (mk_hdr [$"l"] $"doc" [] false) (EId $"c")
    (SBlock hdr0 SEQ [SAssign hdr0 (EId $"a") (EInt 1 (Digits $"1" 2)) None None false]) [] (Some (SNop hdr0)) in
  sendable_stm s = true
  /\ match py_stm s with
     | Ok p => cls p = Some "HdlStmIf"%string /\ attr p "labels" = PList [PStr $"l"] /\ attr p "doc" = PStr $"doc"
               /\ cls (attr p "if_true") = Some "HdlStmBlock"%string /\ cls (attr p "if_false") = Some "HdlStmNop"%string
     | _ => False
     end.
Proof. vm_compute. repeat split; reflexivity. Qed.
