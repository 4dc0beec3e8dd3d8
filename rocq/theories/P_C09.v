(** C09: persistent macros survive, macros of a source do not leak. *)
From Verif Require Import Base OutBufferModel PpLexerModel PpParserModel MacroDefModel PpModel PpSpec PpDbProofs.

(** After preprocessing any string, whatever the outcome (exceptions and undefined behaviour
    included): the persistent part of the database is what it was, every persistent macro is
    unaltered, and preprocessing the next input starts from exactly the same state as if this
    input had never been processed. *)
Theorem C09_persistence_str l fs d dirs s : uniq d ->
  let st' := snd (verilog_pp_str l fs d dirs s) in
  delete_non_persistent (ps_db st') = delete_non_persistent d
  /\ (forall k e, db_find d k = Some e -> e_persistent e = true -> db_find (ps_db st') k = Some e)
  /\ forall l2 dirs2, pp_init l2 (ps_db st') dirs2 = pp_init l2 d dirs2.
Proof. exact (persistent_survive l fs d dirs s). Qed.
Print Assumptions C09_persistence_str.

Theorem C09_persistence_file l fs d dirs s : uniq d ->
  let st' := snd (verilog_pp_file l fs d dirs s) in
  delete_non_persistent (ps_db st') = delete_non_persistent d
  /\ (forall k e, db_find d k = Some e -> e_persistent e = true -> db_find (ps_db st') k = Some e)
  /\ forall l2 dirs2, pp_init l2 (ps_db st') dirs2 = pp_init l2 d dirs2.
Proof. exact (persistent_survive_file l fs d dirs s). Qed.
Print Assumptions C09_persistence_file.

Fixpoint run_all (l : lang) (fs : fsys) (d : db) (dirs : list str) (inputs : list str) : db :=
  match inputs with
  | [] => d
  | s :: r => run_all l fs (ps_db (snd (verilog_pp_str l fs d dirs s))) dirs r
  end.
Lemma run_all_np l fs dirs : forall inputs d, uniq d ->
  delete_non_persistent (run_all l fs d dirs inputs) = delete_non_persistent d.
Proof.
  induction inputs as [|s r IH]; intros d Hu; [reflexivity|]. cbn [run_all].
  destruct (persistent_survive l fs d dirs s Hu) as (E & _). rewrite IH; [exact E|].
  exact (proj1 (proj1 (sp_all l fs d dirs) s (uniq_init l d dirs Hu))).
Qed.
(** Any sequence of inputs: the result for the next one does not depend on them. *)
Theorem C09_sequence l fs dirs inputs d s : uniq d ->
  verilog_pp_str l fs (run_all l fs d dirs inputs) dirs s = verilog_pp_str l fs d dirs s.
Proof.
  intros Hu. unfold verilog_pp_str, pp_init. rewrite (run_all_np l fs dirs inputs d Hu). reflexivity.
Qed.
Print Assumptions C09_sequence.

Definition user_db : db :=
  [($"P", mkEntry true MLine); ($"Q", mkEntry true (MUser (mkMacro $"Q" false [] [FStr $"q"])))].
Example C09_uniq : uniq user_db.
Proof. repeat constructor; cbn; intuition discriminate. Qed.
Example C09_ex :
  let r := verilog_pp_str SV2012 (fun _ => None) user_db []
             ($"`define A 1" ++ [nl] ++ $"`undef Q" ++ [nl] ++ $"`undefineall" ++ [nl] ++ $"`Q") in
  text_of r = Ok ([nl; nl; nl] ++ $"q") /\ db_find (ps_db (snd r)) $"A" = None.
Proof. vm_compute. split; reflexivity. Qed.
