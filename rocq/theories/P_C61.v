(** C61: converted VHDL statements behave like the source. *)
From Verif Require Import Base AstModel StmModel SvExprModel SvExprSpec VhdlExprModel VhdlExprSpec VhdlExprProofs SvStmDemo VhdlStmModel VhdlStmSpec VhdlStmProofs VhdlStmDemo.

Theorem C61_statement_partial (A : halgebra) (M : hmachine A) (n : nat) s k : hv_stm A M n s = Some k ->
  exists o k', conv_hstm s = Ok o /\ mh_stm A M n o = Some k' /\ forall x, k' x = k x.
Proof. intros H. destruct (hstm_sim A M n s k H) as (o & Ho & _ & k' & Hk & Hs). exists o, k'. auto. Qed.
Print Assumptions C61_statement_partial.
(** Statements with equal AST behave equally. *)
Theorem C61_not_merged_partial (A : halgebra) (M : hmachine A) (n : nat) s s' k k' : conv_hstm s = conv_hstm s' -> hv_stm A M n s = Some k -> hv_stm A M n s' = Some k' -> forall x, k x = k' x.
Proof.
  intros E H H' x. destruct (hstm_sim A M n s k H) as (o & Ho & _ & q & Hq & Hs). destruct (hstm_sim A M n s' k' H') as (o' & Ho' & _ & q' & Hq' & Hs').
  rewrite Ho, Ho' in E. injection E as ->. rewrite Hq in Hq'. injection Hq' as ->. rewrite <- Hs, <- Hs'. reflexivity.
Qed.
Print Assumptions C61_not_merged_partial.
(** Nested loops with labelled next and exit, case, if, calls, messages and waits. *)
Definition ex_loops : hstm :=
  hall_ [hset "sum" "0"; hset "k" "0";
    HS (Some $"outer") (J_for $"i" (R_explicit (hnum "1") To (hnum "5"))
      [HS (Some $"inner") (J_loop
         [hst (J_variable (hid "k") (HAdd O_PLUS (hid "k") (hnum "1")));
          hst (J_exit (Some $"outer") (Some (heq "i" "4")));
          hst (J_case false (hid "i") [([Ch (R_name (hnum "1")); Ch (R_name (hnum "2"))], [hst (J_variable (hid "sum") (HAdd O_PLUS (hid "sum") (hid "i"))); hst (J_next (Some $"outer") None)]); ([Ch_others], [hst J_null])] None);
          hst (J_if (heq "i" "3") [hst (J_report (hid "i") None); hst (J_exit None None)] [(heq "i" "9", [hset "sum" "0"])] (Some [hst (J_return None)]) None)] (Some $"inner"));
       hst (J_wait [] (Some (hid "clk")) (Some (hns "5")))] (Some $"outer"));
    hst (J_assert (heq "k" "4") (Some (hid "k")) None)].
Example C61_example : hrun_src 9 [$"sum"; $"k"; $"i"] ex_loops = Some ([3; 4; 4]%Z, [[3; 3; -1]; [4; 0; 0; 5]; [2; 1; 4; -1]]%Z) /\
  hrun_ast 9 [$"sum"; $"k"; $"i"] (conv_hstm ex_loops) = Some ([3; 4; 4]%Z, [[3; 3; -1]; [4; 0; 0; 5]; [2; 1; 4; -1]]%Z).
Proof. split; vm_compute; reflexivity. Qed.
(** The label after end loop is stored as another label of the same statement. *)
Theorem C61_end_label l b s : conv_seq conv_hstm b = Ok s -> conv_hstm (HS (Some l) (J_loop b (Some l))) = Ok (SWhile (mk_hdr [l; l] [] [] false) (EId $"True") s).
Proof. intros H. cbn [conv_hstm conv_hitem]. rewrite H. reflexivity. Qed.
Print Assumptions C61_end_label.
(** case? is case;  loop  is  while True loop, whatever True is declared as. *)
Theorem C61_matching_case_refuted lb sel l e : conv_hstm (HS lb (J_case true sel l e)) = conv_hstm (HS lb (J_case false sel l e)).
Proof. reflexivity. Qed.
Print Assumptions C61_matching_case_refuted.
Theorem C61_true_refuted lb b e : conv_hstm (HS lb (J_while (hid "True") b e)) = conv_hstm (HS lb (J_loop b e)).
Proof. reflexivity. Qed.
Print Assumptions C61_true_refuted.
(** Two alternatives with others: undefined behaviour (an assert). *)
Theorem C61_two_others lb sel x b b' s s' e : hconv sel = Ok x -> conv_seq conv_hstm b = Ok s -> conv_seq conv_hstm b' = Ok s' ->
  exists m, conv_hstm (HS lb (J_case false sel [([Ch_others], b); ([Ch_others], b')] e)) = UB m.
Proof.
  intros Hx Hb Hb'. cbn [conv_hstm conv_hitem]. rewrite Hx. cbn [bind mapM]. unfold conv_alt. cbn [fst snd mapM conv_choice bind]. rewrite Hb, Hb'. cbn [bind combine List.concat app split_choices is_others].
  eexists. reflexivity.
Qed.
Print Assumptions C61_two_others.
