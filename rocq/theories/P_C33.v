(** C33: loops. *)
From Verif Require Import Base AstModel StmModel SvExprModel SvExprSpec SvStmModel SvStmSpec SvStmProofs SvStmDemo.

(** The loops other than do-while. *)
Definition loop_item (i : item vstm) : bool :=
  match i with I_forever _ | I_repeat _ _ | I_while _ _ | I_for _ _ _ _ | I_foreach _ _ _ => true | _ => false end.
(** Same behaviour for every bound [n] on the number of iterations: same tests, bodies and steps in the
    same order, same effect of break, continue and return. *)
Theorem C33_behaviour_partial (A : algebra) (M : machine A) (n : nat) lb at_ d i (k : beh A M) :
  loop_item i = true -> v_stm A M n (TStm lb at_ d i) = Some k ->
  exists o k', conv_stm (TStm lb at_ d i) = Ok o /\ m_stm A M n o = Some k' /\ forall x, k' x = k x.
Proof. intros _ H. destruct (stm_sim A M n _ k H) as (o & Ho & (k' & Hk & He) & _). exists o, k'. auto. Qed.
Print Assumptions C33_behaviour_partial.
Definition ex_for : vstm :=
  st (I_for (Some (FI_decl [(true, EId $"int", [(IdPlain $"i", vnum "0")])])) (Some (VBinary B_LT (vid "i") (vnum "9"))) [FS_assign (vid "i") A_PLUS (vnum "2")]
       (st (I_block SEQ None [] [add_ "s" "10"; st (I_if None (VBinary B_EQ (vid "i") (vnum "6")) [] (st I_break) None)]))).
Example C33_example : run_src 20 [$"s"; $"i"] ex_for = Some ([40; 6]%Z, []) /\ run_ast 20 [$"s"; $"i"] (conv_stm ex_for) = Some ([40; 6]%Z, []).
Proof. split; vm_compute; reflexivity. Qed.

(** do b while (c); is converted to while (c) b: the body is not executed before the first test. *)
Theorem C33_do_while_refuted :
  (forall lb at_ d b c, conv_stm (TStm lb at_ d (I_do b c)) = conv_stm (TStm lb at_ d (I_while c b))) /\
  (* r = 0; do r += 1; while (0) leaves r at 0 *)
  run_ast 5 [$"r"] (conv_stm (st (I_block SEQ None [] [set_ "r" "0"; st (I_do (add_ "r" "1") (vnum "0"))]))) = Some ([0]%Z, []).
Proof. split; [reflexivity|vm_compute; reflexivity]. Qed.
Print Assumptions C33_do_while_refuted.
(** foreach (a[i, , k]) and foreach (a[i, k]) are merged. *)
Theorem C33_foreach_refuted lb at_ d c l1 l2 b : conv_stm (TStm lb at_ d (I_foreach c (l1 ++ None :: l2) b)) = conv_stm (TStm lb at_ d (I_foreach c (l1 ++ l2) b)).
Proof.
  assert (conv_loop_vars (l1 ++ None :: l2) = conv_loop_vars (l1 ++ l2)) as E.
  { induction l1 as [|[i|] l1 IH]; [reflexivity| |exact IH]. cbn [app conv_loop_vars]. rewrite IH. reflexivity. }
  cbn [conv_stm conv_item]. rewrite E. reflexivity.
Qed.
Print Assumptions C33_foreach_refuted.
