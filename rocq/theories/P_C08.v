(** C08: undef is memory safe. *)
From Verif Require Import Base OutBufferModel PpLexerModel PpParserModel MacroDefModel PpModel PpSpec PpCondProofs.

(** Safe, and without effect, for names that are undefined or persistent ... *)
Theorem C08_undef_safe_partial name st :
  (forall e, db_find (ps_db st) name = Some e -> e_persistent e = true) ->
  visit_undef name st = (Ok tt, st).
Proof. exact (undef_safe name st). Qed.
Print Assumptions C08_undef_safe_partial.

(** ... but every undef of a macro that a source defined uses the erased iterator. *)
Theorem C08_undef_exact name st e : db_find (ps_db st) name = Some e -> e_persistent e = false ->
  fst (visit_undef name st) = UB "visitUndef: m->second after defineDB.erase(m)".
Proof. exact (undef_exact name st e). Qed.
Print Assumptions C08_undef_exact.

Theorem C08_undef_refuted :
  text_of (verilog_pp_str SV2012 (fun _ => None) [] [] ($"`define A 1" ++ [nl] ++ $"`undef A" ++ [nl]))
  = UB "visitUndef: m->second after defineDB.erase(m)".
Proof. vm_compute. reflexivity. Qed.
Print Assumptions C08_undef_refuted.

Example C08_ex :
  text_of (verilog_pp_str SV2012 (fun _ => None) [] [] ($"`undef A" ++ [nl] ++ $"x")) = Ok ([nl] ++ $"x").
Proof. vm_compute. reflexivity. Qed.
