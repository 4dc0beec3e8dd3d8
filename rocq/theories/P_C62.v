(** C62: VHDL processes. *)
From Verif Require Import Base AstModel StmModel SvExprModel SvExprSpec VhdlExprModel VhdlExprSpec VhdlExprProofs SvStmDemo VhdlStmModel VhdlStmSpec VhdlStmProofs VhdlStmDemo.

(** The process has the sensitivity list of the source, and its body first makes the declarations and then
    executes the statements in order. *)
Theorem C62_process_partial (A : halgebra) (M : hmachine A) (n : nat) se ds l x k : hv_process A M n se ds l = Some (x, k) ->
  exists o k', conv_process se ds l = Ok o /\ mh_process A M n o = Some (x, k') /\ forall s, k' s = k s.
Proof. exact (process_sim A M n se ds l x k). Qed.
Print Assumptions C62_process_partial.
Example C62_example : let l := [hset "a" "1"; hst (J_if (heq "a" "1") [hset "b" "2"] [] None None)] in
  match hv_process hdemo hdemo_machine 3 (HSens [hid "clk"; hid "rst"]) [SDef (new_iddef $"a" (EId $"integer") None DIR_INTERNAL true)] l with
  | Some (SensNames _ [x; y], k) => (fst x, fst y, hwatch [$"a"; $"b"] (Some k)) = ($"clk", $"rst", Some ([1; 2]%Z, [])) | _ => False end.
Proof. vm_compute. reflexivity. Qed.
(** The three forms of sensitivity stay apart. *)
Theorem C62_sensitivity_kept se se' ds ds' l l' h h' a a' b b' : conv_process se ds l = Ok (SProcess h a ALWAYS_NONE b) -> conv_process se' ds' l' = Ok (SProcess h' a' ALWAYS_NONE b') ->
  a = a' -> (se = HSens_none <-> se' = HSens_none) /\
    match se, se' with HSens l, HSens l' => mapM hconv l = mapM hconv l' | _, _ => True end.
Proof.
  unfold conv_process. intros H H' E. destruct se as [| |s], se' as [| |s']; cbn [bind] in H, H'; try destruct (mapM hconv s) eqn:E1; try destruct (mapM hconv s') eqn:E2; cbn [bind] in H, H'; try discriminate;
  destruct (mapM conv_hstm l) as [r| | |]; try discriminate; destruct (mapM conv_hstm l') as [r'| | |]; try discriminate; cbn [bind] in H, H'; inversion H; inversion H'; subst; (split; [split; congruence|]); congruence || exact I.
Qed.
Print Assumptions C62_sensitivity_kept.
(** A sequential selected assignment in a process puts a null pointer into its body. *)
Theorem C62_null_statement_refuted sel t l : conv_process HSens_none [] [hst (J_signal_select sel t l)] = Ok (SProcess hdr0 None ALWAYS_NONE (SBlock hdr0 SEQ [SNull])).
Proof. reflexivity. Qed.
Print Assumptions C62_null_statement_refuted.
