(** C34: # and @ in front of a statement. *)
From Verif Require Import Base AstModel StmModel SvExprModel SvExprSpec SvStmModel SvStmSpec SvStmProofs SvStmDemo.

(** The wait happens first, then the statement; fork blocks after # are excluded by [v_stm]. *)
Theorem C34_behaviour_partial (A : algebra) (M : machine A) (n : nat) lb at_ d t b (k : beh A M) :
  v_stm A M n (TStm lb at_ d (I_timing t b)) = Some k ->
  exists o k' w kb, v_timing A t = Some w /\ v_stm A M n b = Some kb /\ conv_stm (TStm lb at_ d (I_timing t b)) = Ok o /\ m_stm A M n o = Some k' /\
    forall x, k' x = kb (p_wait M w x).
Proof.
  intros H. destruct (stm_sim A M n _ k H) as (o & Ho & (k' & Hk & He) & _). cbn [v_stm] in H. destruct (v_attrs_ok A at_); [|discriminate]. cbn [v_item_stm] in H.
  destruct (v_timing A t) as [w|]; [|discriminate]. cbn [obind] in H. destruct (v_stm A M n b) as [kb|]; [|discriminate]. cbn [obind] in H. exists o, k', w, kb.
  repeat split; auto. intros x. rewrite He.
  assert (k = seq A M (act A M (p_wait M w)) kb) as -> by (destruct w; [|injection H as <-; reflexivity]; destruct b as [|? ? ? i]; [injection H as <-; reflexivity|]; destruct i; try (injection H as <-; reflexivity); destruct j; try discriminate; injection H as <-; reflexivity).
  reflexivity.
Qed.
Print Assumptions C34_behaviour_partial.
Definition ex_delay : vstm := st (I_block SEQ None [] [set_ "d" "7"; st (I_timing (T_delay (DV_path (vid "d"))) (set_ "d" "8")); st (I_timing (T_event (EC_expr [EvItem (Some E_posedge) (vid "clk") None])) (set_ "r" "1"))]).
Example C34_example : run_src 5 [$"d"; $"r"] ex_delay = Some ([8; 1]%Z, [[7]; [-2]]%Z) /\ run_ast 5 [$"d"; $"r"] (conv_stm ex_delay) = Some ([8; 1]%Z, [[7]; [-2]]%Z).
Proof. split; vm_compute; reflexivity. Qed.

(** In front of a fork the wait becomes one more branch, next to the others. *)
Theorem C34_fork_refuted j ds l r x dl : j <> SEQ -> mapM conv_stm l = Ok r -> conv_delay dl = Ok x ->
  conv_stm (st (I_timing (T_delay dl) (st (I_block j None ds l)))) = Ok (SProcess hdr0 None ALWAYS_NONE (SBlock hdr0 j (SWait hdr0 [x] :: ds ++ r))).
Proof. intros _ Hl Hx. cbn [st conv_stm conv_item conv_timing]. rewrite Hx. cbn [bind]. rewrite Hl. reflexivity. Qed.
Print Assumptions C34_fork_refuted.
(** So a branch may run before the delay: [d] of  d = 7; #d fork d = 8; join  is read as 8. *)
Theorem C34_fork_order_refuted :
  run_ast 5 [] (conv_stm (st (I_block SEQ None [] [set_ "d" "7"; st (I_timing (T_delay (DV_path (vid "d"))) (st (I_block PAR_JOIN None [] [set_ "d" "8"])))]))) = Some ([], [[8]]%Z).
Proof. vm_compute. reflexivity. Qed.
Print Assumptions C34_fork_order_refuted.
