(** C10: output line accounting is exact. *)
From Verif Require Import Base OutBufferModel PpModel PpSpec PpLineProofs.

(** Every buffer that any sequence of operations can produce. *)
Theorem C10_accounting b : history b -> accounted b.
Proof. exact (history_accounted b). Qed.
Print Assumptions C10_accounting.

(** The buffer of every successful run. *)
Theorem C10_run_str l fs d dirs s b st : db_ok d -> verilog_pp_str l fs d dirs s = (Ok b, st) -> accounted b.
Proof. exact (run_accounted l fs d dirs s b st). Qed.
Print Assumptions C10_run_str.
Theorem C10_run_file l fs d dirs s b st : db_ok d -> verilog_pp_file l fs d dirs s = (Ok b, st) -> accounted b.
Proof. exact (run_accounted_file l fs d dirs s b st). Qed.
Print Assumptions C10_run_file.

Example C10_ex : exists b st,
  verilog_pp_str SV2012 (fun _ => None) [] []
    ($"`define A x" ++ [nl; nl] ++ $"`A" ++ [nl; nl; nl; nl; nl; nl] ++ $"y") = (Ok b, st)
  /\ ob_line b = 8%Z /\ 2 <= length (ob_map b).
Proof. do 2 eexists. split; [vm_compute; reflexivity|]. vm_compute. split; [reflexivity|lia]. Qed.
Example C10_history : exists b, history b /\ length (ob_map b) = 3 /\ ob_line b = 3%Z.
Proof.
  assert (forall f, history (mkBuf [] [mkItem 0 f 0] 0 0 0)) as H.
  { intros f. apply (h_file (mkBuf [] [] 0 0 0) f 0); [apply (h_new 0); reflexivity|reflexivity]. }
  eexists. split.
  - eapply h_merge.
    + apply h_put with (s := $"a" ++ [nl]). apply (H $"f").
    + apply h_put with (s := [nl; nl]). eapply (h_line _ 9); [apply (H $"g")|vm_compute; reflexivity].
  - vm_compute. split; reflexivity.
Qed.
