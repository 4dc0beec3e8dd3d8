(** C60: always and initial constructs. *)
From Verif Require Import Base AstModel StmModel SvExprModel SvExprSpec SvStmModel SvStmSpec SvProcProofs SvStmDemo.

(** always / always_ff with a statement that starts with @ or #, always_comb / always_latch with one that
    does not: the process behaves like the source, for every bound on the number of rounds. *)
Theorem C60_always_partial (A : algebra) (M : machine A) (n : nat) kind d s (k : beh A M) :
  v_process A M n kind s = Some k -> supported kind s = true ->
  exists o k', conv_always kind d s = Ok o /\ m_process A M n o = Some k' /\ forall x, k' x = k x.
Proof. exact (always_sim A M n kind d s k). Qed.
Print Assumptions C60_always_partial.
(** initial runs its statement once and then waits forever; forks at the top are excluded. *)
Theorem C60_initial_partial (A : algebra) (M : machine A) (n : nat) s (k0 k : beh A M) :
  v_stm A M n s = Some k0 -> v_initial A M n s = Some k -> par_block s = false -> n <> 0 ->
  exists o k', conv_initial s = Ok o /\ m_process A M n o = Some k' /\ forall x, no_jump (k0 x) -> k' x = k x.
Proof. exact (initial_sim A M n s k0 k). Qed.
Print Assumptions C60_initial_partial.
Definition clocked : vstm := st (I_timing (T_event (EC_expr [EvItem (Some E_posedge) (vid "clk") None])) (add_ "r" "1")).
Definition started : vstm := st (I_block SEQ None [] [set_ "a" "1"; st (I_timing (T_delay (DV_number $"5")) (set_ "a" "2"))]).
Example C60_example :
  (match conv_always K_ff [] clocked with Ok o => match m_process demo demo_machine 3 o with Some k => k ([], []) | None => Halted ([], []) end | _ => Halted ([], []) end) = OutOfFuel /\
  supported K_ff clocked = true /\ supported K_comb (set_ "a" "1") = true /\
  match conv_initial started with Ok o => match m_process demo demo_machine 1 o with Some k => match k ([], []) with Halted s => Some (look (fst s) $"a", snd s) | _ => None end | None => None end | _ => None end = Some (2%Z, [[5%Z]]).
Proof. repeat split; vm_compute; reflexivity. Qed.

(** always without @ or # directly after it, as in  always begin #5 c = 1; end,  is not converted to a
    process at all. *)
Theorem C60_always_refuted s o : conv_stm s = Ok o -> timed s = false -> forall d, conv_always K_always d s = Ok o /\ (forall h se t b, o <> SProcess h se t b).
Proof. intros H Ht d. unfold conv_always. rewrite H. split; [reflexivity|]. intros h se t b ->. apply untimed_process in H. congruence. Qed.
Print Assumptions C60_always_refuted.
Example C60_always_refuted_case : timed (st (I_block SEQ None [] [st (I_timing (T_delay (DV_number $"5")) (set_ "c" "1"))])) = false /\
  match conv_always K_always [] (st (I_block SEQ None [] [st (I_timing (T_delay (DV_number $"5")) (set_ "c" "1"))])) with Ok (SBlock _ _ _) => True | _ => False end.
Proof. split; vm_compute; [reflexivity|exact I]. Qed.
(** initial fork ... join_any / join_none: the final wait becomes a branch, so the process does not stop
    and starts again. *)
Theorem C60_initial_fork_refuted j ds l r : j <> SEQ -> mapM conv_stm l = Ok r ->
  conv_initial (st (I_block j None ds l)) = Ok (SProcess hdr0 None ALWAYS_NONE (SBlock hdr0 j ((ds ++ r) ++ [SWait hdr0 []]))).
Proof. intros _ H. unfold conv_initial. cbn [st conv_stm conv_item]. rewrite H. reflexivity. Qed.
Print Assumptions C60_initial_fork_refuted.
