(** C59: a converted Verilog procedural statement behaves like the source.  [A] and [M] are arbitrary:
    any values, any state, any effect of the primitive actions.  [v_stm] is None outside of the supported
    fragment; P_C31 - P_C34, P_C44 and the refutations below show why. *)
From Verif Require Import Base AstModel StmModel SvExprModel SvExprSpec SvStmModel SvStmSpec SvStmProofs SvStmDemo.

Theorem C59_statement_partial (A : algebra) (M : machine A) (n : nat) (s : vstm) (k : beh A M) : v_stm A M n s = Some k ->
  exists o k', conv_stm s = Ok o /\ m_stm A M n o = Some k' /\ forall x, k' x = k x.
Proof. intros H. destruct (stm_sim A M n s k H) as (o & Ho & (k' & Hk & He) & _). exists o, k'. auto. Qed.
Print Assumptions C59_statement_partial.
(** Statements that are converted to one AST behave alike. *)
Theorem C59_not_merged_partial (A : algebra) (M : machine A) (n : nat) (s1 s2 : vstm) (k1 k2 : beh A M) :
  v_stm A M n s1 = Some k1 -> v_stm A M n s2 = Some k2 -> conv_stm s1 = conv_stm s2 -> forall x, k1 x = k2 x.
Proof.
  intros H1 H2 E x. destruct (C59_statement_partial A M n s1 k1 H1) as (o & k & Ho & Hk & He).
  destruct (C59_statement_partial A M n s2 k2 H2) as (o' & k' & Ho' & Hk' & He'). rewrite <- He, <- He'. congruence.
Qed.
Print Assumptions C59_not_merged_partial.

(** i = 0; repeat (3) begin i += 2; if (i == 4) j = 7; end *)
Definition ex_prog : vstm := st (I_block SEQ None [] [set_ "i" "0";
  st (I_repeat (vnum "3") (st (I_block SEQ None [] [add_ "i" "2"; st (I_if None (VBinary B_EQ (vid "i") (vnum "4")) [] (set_ "j" "7") None)])))]).
Example C59_example : run_src 5 [$"i"; $"j"] ex_prog = Some ([6; 7]%Z, []) /\ run_ast 5 [$"i"; $"j"] (conv_stm ex_prog) = Some ([6; 7]%Z, []).
Proof. split; vm_compute; reflexivity. Qed.

(** Unsupported statements (wait, disable, ->, force, assert, ...) are replaced by nothing, whatever they say. *)
Theorem C59_unsupported_refuted : (exists t1 t2, t1 <> t2 /\ conv_stm (st (I_unsupported t1)) = conv_stm (st (I_unsupported t2))) /\
  forall lb d t, exists h, conv_stm (TStm lb [] d (I_unsupported t)) = Ok (SNop h).
Proof.
  split.
  - exists $"wait (a) b = 1;", $"disable x;". split; [discriminate|reflexivity].
  - intros lb d t. destruct lb; eexists; reflexivity.
Qed.
Print Assumptions C59_unsupported_refuted.
