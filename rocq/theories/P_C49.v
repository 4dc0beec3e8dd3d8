(** C49: values reach Python unchanged. *)
From Verif Require Import Base AstModel OpSpec StmModel PyModel PySpec PyProofs.

(** Every value without the exceptions named below becomes an object that shows it: its class, digits, base, width,
    operator and operands can be read from it. *)
Theorem C49_shown_partial e : sendable e = true -> exists p, py_expr e = Ok p /\ shows p e.
Proof. exact (expr_shown e). Qed.
(** What an object shows is one value, so different values become different objects. *)
Theorem C49_one_value p e1 e2 : shows p e1 -> shows p e2 -> e1 = e2.
Proof. exact (shows_det e1 p e2). Qed.
Theorem C49_distinct_partial e1 e2 : sendable e1 = true -> sendable e2 = true -> py_expr e1 = py_expr e2 -> e1 = e2.
Proof.
  exact (fun H1 H2 E => match expr_shown e1 H1, expr_shown e2 H2 with
    ex_intro _ p (conj A S1), ex_intro _ q (conj B S2) =>
      shows_det e1 p e2 S1 (eq_rect q (fun x => shows x e2) S2 p (match eq_trans (eq_sym B) (eq_trans (eq_sym E) A) in _ = y return match y with Ok z => q = z | _ => True end with eq_refl => eq_refl end)) end).
Qed.

(** OPEN and NULL are the same object. *)
Theorem C49_open_refuted : py_expr (ESym symb_OPEN) = py_expr (ESym symb_NULL) /\ ESym symb_OPEN <> ESym symb_NULL.
Proof. split; [reflexivity|discriminate]. Qed.
(** A width of 0 is lost. *)
Theorem C49_zero_width_refuted : py_expr (EInt 0 (Digits $"1" 16)) = py_expr (EInt (-1) (Digits $"1" 16)).
Proof. reflexivity. Qed.
(** The text behind a NUL character is lost. *)
Theorem C49_nul_refuted : py_expr (EStr ($"a" ++ [c0] ++ $"b")) = py_expr (EStr $"a").
Proof. reflexivity. Qed.
(** A value that is missing where one is needed fails the whole conversion. *)
Theorem C49_missing_refuted l1 l2 o : (forall e, In e l1 -> sendable e = true) -> exists e, py_expr (EOp o (l1 ++ ENull :: l2)) = Throw e.
Proof.
  intros H. assert (M : exists x, SvExprModel.mapM py_expr (l1 ++ ENull :: l2) = Throw x).
  { induction l1 as [|a l1 IH]; [eexists; reflexivity|]. cbn [app SvExprModel.mapM]. destruct (expr_shown a (H a (or_introl eq_refl))) as (p & -> & _). cbn [bind].
    destruct (IH (fun e I => H e (or_intror I))) as [x ->]. exists x. reflexivity. }
  destruct M as [x M]. cbn [py_expr]. rewrite (P_C29.C29_names o). cbn [bind]. rewrite M. eexists. reflexivity.
Qed.

Print Assumptions C49_shown_partial.
Print Assumptions C49_one_value.
Print Assumptions C49_distinct_partial.
Print Assumptions C49_open_refuted.
Print Assumptions C49_zero_width_refuted.
Print Assumptions C49_nul_refuted.
Print Assumptions C49_missing_refuted.

Example C49_ex : let e := EOp ADD [EId $"a"; EInt 8 (Digits $"f0" 16); EArr [ESym symb_ALL; EStr $"x"]] in
  sendable e = true
  /\ py_expr e = Ok (PObj "HdlOp" [("fn" ~> PEnum "HdlOpType" "ADD"); ("ops" ~> PList [
       PObj "HdlValueId" [("val" ~> PStr $"a")];
       PObj "HdlValueInt" [("val" ~> PStr $"f0"); ("bits" ~> PInt 8); ("base" ~> PInt 16)];
       PList [PClass "HdlAll"; PStr $"x"]])]).
Proof. split; reflexivity. Qed.
