(** C06: conditional compilation keeps exactly the first branch whose condition holds. *)
From Verif Require Import Base OutBufferModel PpLexerModel PpParserModel PpModel PpSpec PpCondProofs.

(** Full property, for `ifdef (any number of `elsif) and for `ifndef without `elsif; output and
    all state changes are those of the selected body, whatever it contains. *)
Theorem C06_first_true_partial l fs rs rf src added neg bs e out st :
  neg = false \/ length (branch_names bs) <= 1 ->
  visit_text l fs rs rf src added (TCond neg bs e) out st
  = visit_body l fs rs rf src added
      (first_true (std_conditions (ps_db st) neg (branch_names bs)) (branch_bodies bs) (else_body e)) out st.
Proof.
  exact (fun H => eq_trans (visit_branches_code l fs rs rf src added neg e out st bs)
    (f_equal (fun c => visit_body l fs rs rf src added (first_true c (branch_bodies bs) (else_body e)) out st)
             (code_std (ps_db st) neg (branch_names bs) H))).
Qed.
Print Assumptions C06_first_true_partial.

(** What the code does in all cases: in `ifndef every condition is negated. *)
Theorem C06_code_law l fs rs rf src added neg bs e out st :
  visit_text l fs rs rf src added (TCond neg bs e) out st
  = visit_body l fs rs rf src added
      (first_true (code_conditions (ps_db st) neg (branch_names bs)) (branch_bodies bs) (else_body e)) out st.
Proof. exact (visit_branches_code l fs rs rf src added neg e out st bs). Qed.
Print Assumptions C06_code_law.

Definition nofs : fsys := fun _ => None.
Definition src6 : str :=
  $"`define A 1" ++ [nl] ++ $"`define B 1" ++ [nl] ++ $"`ifndef A" ++ [nl] ++ $"x" ++ [nl]
  ++ $"`elsif B" ++ [nl] ++ $"y" ++ [nl] ++ $"`else" ++ [nl] ++ $"z" ++ [nl] ++ $"`endif" ++ [nl].
(** A and B are defined: IEEE 1800 selects y, the code selects z. *)
Theorem C06_ifndef_elsif_refuted :
  (exists t, text_of (verilog_pp_str SV2012 nofs [] [] src6) = Ok t /\ In "z"%char t /\ ~ In "y"%char t)
  /\ first_true (std_conditions [($"A", mkEntry false MLine); ($"B", mkEntry false MLine)] true [$"A"; $"B"])
                [$"x"; $"y"] (Some $"z") = Some $"y".
Proof.
  split; [|vm_compute; reflexivity]. eexists. split; [vm_compute; reflexivity|]. split; cbn; [tauto|].
  intros H; repeat (destruct H as [H|H]; [discriminate|]); exact H.
Qed.
Print Assumptions C06_ifndef_elsif_refuted.

(** End to end examples of the positive case: the second branch, the else branch, nothing. *)
Definition cond6 (defs : str) : str :=
  defs ++ $"`ifdef A" ++ [nl] ++ $"x" ++ [nl] ++ $"`elsif B" ++ [nl] ++ $"y" ++ [nl]
  ++ $"`else" ++ [nl] ++ $"z" ++ [nl] ++ $"`endif" ++ [nl].
Definition letters (o : outcome str) : str :=
  match o with Ok t => filter (fun c => negb (ceqb c nl)) t | _ => $"?" end.
Example C06_ex1 : letters (text_of (verilog_pp_str SV2012 nofs [] [] (cond6 ($"`define B 1" ++ [nl])))) = $"y".
Proof. vm_compute. reflexivity. Qed.
Example C06_ex2 : letters (text_of (verilog_pp_str SV2012 nofs [] [] (cond6 []))) = $"z".
Proof. vm_compute. reflexivity. Qed.
Example C06_ex3 : letters (text_of (verilog_pp_str SV2012 nofs [] [] (cond6 ($"`define A 1" ++ [nl] ++ $"`define B 1" ++ [nl])))) = $"x".
Proof. vm_compute. reflexivity. Qed.
