(** C46: imports and use clauses are kept one by one. *)
From Verif Require Import Base AstModel LitModel SvExprModel SvInstProofs SvDeclModel SvDeclProofs SvImportModel VhdlExprModel VhdlStmModel VhdlStmDemo VhdlDeclModel VhdlDeclProofs VhdlDecl2Proofs.

(** a.b.c : identifiers, characters and operators.  a.b.all *)
Definition dotted (p : nlit) (l : list nlit) : hexpr := fold_left HDot l (HLit p).
Lemma leaf_flat l x : conv_nlit l = Ok x -> flatten x = [x].
Proof.
  destruct l; cbn [conv_nlit]; unfold visit_vhdl_string, visit_character; intros H; [injection H as <-; reflexivity| |]; repeat binv H; injection H as <-; reflexivity.
Qed.
Lemma dotted_flat l : forall e x xs ys, hconv e = Ok x -> flatten x = xs -> mapM conv_nlit l = Ok ys -> exists y, hconv (fold_left HDot l e) = Ok y /\ flatten y = xs ++ ys.
Proof.
  induction l as [|a l IH]; intros e x xs ys He Hx H.
  - injection H as <-. exists x. rewrite app_nil_r. split; assumption.
  - change (mapM conv_nlit (a :: l)) with (y <- conv_nlit a ;; r <- mapM conv_nlit l ;; Ok (y :: r)) in H. binv H. binv H. injection H as <-. cbn [fold_left].
    destruct (IH (HDot e a) (op2 DOT x x0) (xs ++ [x0]) x1) as (y & Hy & Fy); [cbn [hconv]; rewrite He; cbn [bind]; rewrite Hx0; reflexivity| |exact Hx1|].
    + unfold op2. cbn [flatten flat_map]. rewrite Hx, (leaf_flat _ _ Hx0). reflexivity.
    + exists y. split; [exact Hy|]. rewrite Fy, <- app_assoc. reflexivity.
Qed.
Theorem C46_vhdl_path p l xs : mapM conv_nlit (p :: l) = Ok xs ->
  conv_use (dotted p l) = Ok (O_import xs) /\ conv_use (HAll (dotted p l)) = Ok (O_import (xs ++ [ESym symb_ALL])).
Proof.
  intros H. change (mapM conv_nlit (p :: l)) with (y <- conv_nlit p ;; r <- mapM conv_nlit l ;; Ok (y :: r)) in H. binv H. binv H. injection H as <-.
  destruct (dotted_flat l (HLit p) x [x] x0 Hx (leaf_flat _ _ Hx) Hx0) as (y & Hy & Fy). unfold dotted, conv_use. cbn [hconv]. rewrite Hy. cbn [bind]. split.
  - rewrite Fy. reflexivity.
  - unfold op2. cbn [flatten flat_map]. rewrite Fy. reflexivity.
Qed.
Print Assumptions C46_vhdl_path.
(** One import per name, in a context clause and in declarations; one object per library. *)
Theorem C46_vhdl_each l r : mapM conv_use l = Ok r -> length r = length l /\
  conv_citem (CI_use l) = Ok r /\ (forall ho, conv_decl ho (DC_use l) = Ok r) /\ concatM conv_citem (map (fun n => CI_use [n]) l) = Ok r.
Proof.
  intros H. split; [apply mapM_ok_in in H; induction H; cbn; auto|]. split; [exact H|]. split; [intros; exact H|].
  revert r H. induction l as [|n l IH]; intros r H; [injection H as <-; reflexivity|].
  change (mapM conv_use (n :: l)) with (x <- conv_use n ;; y <- mapM conv_use l ;; Ok (x :: y)) in H. binv H. binv H. injection H as <-.
  cbn [map]. change (x :: x0) with ([x] ++ x0). apply concatM_cons; [|apply IH; exact Hx0]. cbn [conv_citem mapM]. rewrite Hx. reflexivity.
Qed.
Print Assumptions C46_vhdl_each.
(** References to contexts are skipped. *)
Theorem C46_context_refuted l : conv_citem (CI_context l) = Ok [].
Proof. reflexivity. Qed.
Print Assumptions C46_context_refuted.
(** SystemVerilog: one item is kept; several items become one object with all their parts. *)
Theorem C46_sv_single_partial p n : conv_import [(IdPlain p, Some (IdPlain n))] = Ok [[EId p; EId n]] /\ conv_import [(IdPlain p, None)] = Ok [[EId p; ESym symb_ALL]].
Proof. split; reflexivity. Qed.
Print Assumptions C46_sv_single_partial.
Theorem C46_sv_several_refuted l r : conv_import l = Ok r -> length r = 1 /\ length (List.concat r) = 2 * length l.
Proof.
  unfold conv_import. intros H. binv H. injection H as <-. split; [reflexivity|]. cbn [List.concat]. rewrite app_nil_r. apply mapM_ok_in in Hx.
  induction Hx as [|i y l r Hi Hx IH]; [reflexivity|]. cbn [List.concat]. rewrite app_length, IH. unfold conv_import_item in Hi. repeat binv Hi. injection Hi as <-. cbn [length]. rewrite Nat.mul_succ_r, Nat.add_comm. reflexivity.
Qed.
Print Assumptions C46_sv_several_refuted.
(** Imports in the header of a module are dropped. *)
Theorem C46_sv_header_refuted l : conv_header_imports l = Ok [].
Proof. reflexivity. Qed.
Print Assumptions C46_sv_header_refuted.

Example C46_ex : mapM conv_use [HAll (HDot (HDot (hid "ieee") (NL_id $"p")) (NL_id $"t")); HDot (HDot (hid "work") (NL_id $"q")) (NL_id $"f")] =
  Ok [O_import [EId $"ieee"; EId $"p"; EId $"t"; ESym symb_ALL]; O_import [EId $"work"; EId $"q"; EId $"f"]].
Proof. reflexivity. Qed.
Example C46_ex_sv : conv_import [(IdPlain $"a", Some (IdPlain $"x")); (IdPlain $"b", None)] = Ok [[EId $"a"; EId $"x"; EId $"b"; ESym symb_ALL]].
Proof. reflexivity. Qed.
