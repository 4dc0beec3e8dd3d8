(** C32: case statements. *)
From Verif Require Import Base AstModel StmModel SvExprModel SvExprSpec SvStmModel SvStmSpec SvStmProofs SvShapeSpec SvShapeProofs SvStmDemo.

(** The first item with a matching label is executed, else the default, wherever it stands: see
    [v_items_], [v_default] in SvStmSpec.v.  Matching is arbitrary. *)
Theorem C32_behaviour_partial (A : algebra) (M : machine A) (n : nat) lb at_ d u kind sel l (k : beh A M) :
  v_stm A M n (TStm lb at_ d (I_case u kind sel l)) = Some k ->
  exists o k', conv_stm (TStm lb at_ d (I_case u kind sel l)) = Ok o /\ m_stm A M n o = Some k' /\ forall x, k' x = k x.
Proof. intros H. destruct (stm_sim A M n _ k H) as (o & Ho & (k' & Hk & He) & _). exists o, k'. auto. Qed.
Print Assumptions C32_behaviour_partial.
(** More than one default is rejected. *)
Theorem C32_two_defaults lb at_ d u kind sel l x cs : conv sel = Ok x -> mapM (conv_citem conv_stm) l = Ok cs -> 2 <= ndefaults l ->
  conv_stm (TStm lb at_ d (I_case u kind sel l)) = Throw (RuntimeError $"VerStatementParser.visitCase_statement case with multiple default").
Proof. exact (two_defaults lb at_ d u kind sel l x cs). Qed.
Print Assumptions C32_two_defaults.
Definition ex_case : vstm := st (I_case None CASE (vid "a") [([vnum "1"; vnum "2"], set_ "r" "10"); ([], set_ "r" "99"); ([vnum "2"; vnum "3"], set_ "r" "20")]).
Example C32_example :
  map (fun v => run_src 5 [$"r"] (st (I_block SEQ None [] [set_ "a" v; ex_case]))) ["1"; "2"; "3"; "4"]%string = map (fun z => Some ([z], [])) [10; 10; 20; 99]%Z /\
  map (fun v => run_ast 5 [$"r"] (conv_stm (st (I_block SEQ None [] [set_ "a" v; ex_case])))) ["1"; "2"; "3"; "4"]%string = map (fun z => Some ([z], [])) [10; 10; 20; 99]%Z /\
  conv_stm (st (I_case None CASE (vid "a") [([], set_ "r" "1"); ([vnum "1"], set_ "r" "2"); ([], set_ "r" "3")])) = Throw (RuntimeError $"VerStatementParser.visitCase_statement case with multiple default").
Proof. repeat split; vm_compute; reflexivity. Qed.

(** The items of case ... inside and case ... matches are dropped: the statement does nothing. *)
Theorem C32_inside_refuted lb at_ d u sel l1 l2 : conv_stm (TStm lb at_ d (I_case_inside u sel l1)) = conv_stm (TStm lb at_ d (I_case_inside u sel l2)).
Proof. reflexivity. Qed.
Print Assumptions C32_inside_refuted.
Theorem C32_matches_refuted lb at_ d u kind sel l1 l2 : conv_stm (TStm lb at_ d (I_case_matches u kind sel l1)) = conv_stm (TStm lb at_ d (I_case_matches u kind sel l2)).
Proof. reflexivity. Qed.
Print Assumptions C32_matches_refuted.
Theorem C32_items_dropped_refuted : exists u k sel l x, l <> [] /\ conv_stm (st (I_case_inside u sel l)) = Ok (SCase hdr0 CASE_UNIQ_NONE CASE x [] None) /\ conv_stm (st (I_case_matches u k sel l)) = Ok (SCase hdr0 CASE_UNIQ_NONE k x [] None).
Proof. exists None, CASEZ, (vid "a"), [([vnum "1"], set_ "r" "1")], (EId $"a"). split; [discriminate|]. split; vm_compute; reflexivity. Qed.
Print Assumptions C32_items_dropped_refuted.
