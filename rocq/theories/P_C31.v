(** C31: if / else-if chains. *)
From Verif Require Import Base AstModel StmModel SvExprModel SvExprSpec SvStmModel SvStmSpec SvStmProofs SvShapeSpec SvShapeProofs SvStmDemo.

(** Same behaviour, for every interpretation of the conditions and branches; else branches may be ifs. *)
Theorem C31_behaviour_partial (A : algebra) (M : machine A) (n : nat) lb at_ d c t e (k : beh A M) :
  v_stm A M n (TStm lb at_ d (I_if None c [] t e)) = Some k ->
  exists o k', conv_stm (TStm lb at_ d (I_if None c [] t e)) = Ok o /\ m_stm A M n o = Some k' /\ forall x, k' x = k x.
Proof. intros H. destruct (stm_sim A M n _ k H) as (o & Ho & (k' & Hk & He) & _). exists o, k'. auto. Qed.
Print Assumptions C31_behaviour_partial.
(** A chain of any length becomes one statement: the conditions and branches in order, and all comments. *)
Theorem C31_flattened c s d rest e x o qs oe : conv c = Ok x -> conv_stm s = Ok o ->
  Forall2 (fun (p : link) (q : expr * stm) => conv (fst (fst p)) = Ok (fst q) /\ conv_stm (snd (fst p)) = Ok (snd q)) rest qs ->
  else_ok e oe -> conv_stm (chain c s d rest e) = Ok (SIf (mk_hdr [] (join_docs (d :: map snd rest)) [] false) x o qs oe).
Proof. exact (chain_flat rest c s d e x o qs oe). Qed.
Print Assumptions C31_flattened.
Definition ex_chain : vstm := chain (VBinary B_EQ (vid "a") (vnum "1")) (set_ "r" "10") $"first" [(VBinary B_EQ (vid "a") (vnum "2"), set_ "r" "20", $""); (VBinary B_EQ (vid "a") (vnum "3"), set_ "r" "30", $"third")] (Some (set_ "r" "40")).
Example C31_example :
  map (fun v => run_src 5 [$"r"] (st (I_block SEQ None [] [set_ "a" v; ex_chain]))) ["1"; "2"; "3"; "4"]%string = map (fun z => Some ([z], [])) [10; 20; 30; 40]%Z /\
  map (fun v => run_ast 5 [$"r"] (conv_stm (st (I_block SEQ None [] [set_ "a" v; ex_chain])))) ["1"; "2"; "3"; "4"]%string = map (fun z => Some ([z], [])) [10; 20; 30; 40]%Z /\
  match conv_stm ex_chain with Ok (SIf h _ _ l (Some _)) => doc h = $"first" ++ [nl] ++ $"third" /\ length l = 2 | _ => False end.
Proof. repeat split; vm_compute; reflexivity. Qed.

(** The label and the attributes of an if after else are lost. *)
Theorem C31_label_refuted c t c2 t2 e : forall x a y b oe, conv c = Ok x -> conv_stm t = Ok a -> conv c2 = Ok y -> conv_stm t2 = Ok b -> else_ok e oe ->
  forall l, conv_stm (st (I_if None c [] t (Some (TStm (Some (IdPlain l)) [] [] (I_if None c2 [] t2 e))))) =
            conv_stm (st (I_if None c [] t (Some (st (I_if None c2 [] t2 e))))).
Proof.
  intros x a y b oe Hc Ht Hc2 Ht2 He l. cbn [st conv_stm conv_item]. rewrite Hc. cbn [bind]. rewrite Ht. cbn [bind]. rewrite Hc2. cbn [bind]. rewrite Ht2. cbn [bind].
  destruct e as [e|], oe as [oe|]; cbn [else_ok] in He; try contradiction; [|reflexivity]. destruct He as (He & Hn). rewrite He. cbn [bind]. destruct oe; try reflexivity. exfalso. exact (Hn _ _ _ _ _ eq_refl).
Qed.
Print Assumptions C31_label_refuted.
Theorem C31_attributes_refuted : exists c t c2 t2 at_, at_ <> [] /\
  conv_stm (st (I_if None c [] t (Some (TStm None at_ [] (I_if None c2 [] t2 None))))) = conv_stm (st (I_if None c [] t (Some (st (I_if None c2 [] t2 None))))).
Proof. exists (vid "a"), (set_ "r" "1"), (vid "b"), (set_ "r" "2"), [(IdPlain $"full", None)]. split; [discriminate|vm_compute; reflexivity]. Qed.
Print Assumptions C31_attributes_refuted.
(** unique, unique0 and priority in front of an if are lost. *)
Theorem C31_unique_refuted u lb at_ d c t e : conv_stm (TStm lb at_ d (I_if u c [] t e)) = conv_stm (TStm lb at_ d (I_if None c [] t e)).
Proof. reflexivity. Qed.
Print Assumptions C31_unique_refuted.
(** Of a condition  c &&& c2  only c is kept, so another branch is executed. *)
Theorem C31_conjunction_refuted :
  (forall u lb at_ d c cs t e, conv_stm (TStm lb at_ d (I_if u c cs t e)) = conv_stm (TStm lb at_ d (I_if u c [] t e))) /\
  let both := st (I_block SEQ None [] [set_ "a" "1"; set_ "b" "0"; st (I_if None (vid "a") [vid "b"] (set_ "r" "1") (Some (set_ "r" "2")))]) in
  run_ast 5 [$"a"; $"b"; $"r"] (conv_stm both) = Some ([1; 0; 1]%Z, []).
Proof. split; [reflexivity|vm_compute; reflexivity]. Qed.
Print Assumptions C31_conjunction_refuted.
