(** C13: use of an undefined macro is always an error. *)
From Verif Require Import Base OutBufferModel PpLexerModel PpParserModel PpModel PpSpec PpCondProofs.

(** ParseException whose message names file, line, column and the macro; the rest of the input
    is not processed. *)
Theorem C13_undefined_call l fs rs rf src added m ts out st :
  db_find (ps_db st) (call_name (mc_tok m)) = None ->
  visit_texts l fs rs rf src added (TCons (TCall m) ts) out st
  = (Throw (ParseException (src ++ $":" ++ nat_str (tk_line (mc_tok m)) ++ $":" ++ nat_str (tk_col (mc_tok m))
                            ++ $":Error: " ++ call_name (mc_tok m) ++ $" is not defined")), st).
Proof. exact (undefined_in_sequence l fs rs rf src added m ts out st). Qed.
Print Assumptions C13_undefined_call.

Theorem C13_undefined_include l fs rs rf src added tok m out st :
  db_find (ps_db st) (call_name (mc_tok m)) = None ->
  visit_text l fs rs rf src added (TInclude tok (inr m)) out st
  = (Throw (ParseException (src ++ $":" ++ nat_str (tk_line (mc_tok m)) ++ $":" ++ nat_str (tk_col (mc_tok m))
                            ++ $":Error: " ++ call_name (mc_tok m) ++ $" is not defined")), st).
Proof. exact (undefined_include l fs rs rf src added tok m out st). Qed.
Print Assumptions C13_undefined_include.

(** Conversely a call that expands was defined. *)
Theorem C13_expanded_is_defined l src m out d t : expand_call l src m out d = Ok t ->
  exists e, db_find d (call_name (mc_tok m)) = Some e.
Proof. exact (defined_call l src m out d t). Qed.
Print Assumptions C13_expanded_is_defined.

Example C13_ex :
  text_of (verilog_pp_str SV2012 (fun _ => None) [] [] ($"a" ++ [nl] ++ $" `FOO b"))
  = Throw (ParseException $"<string>:2:2:Error: FOO is not defined").
Proof. vm_compute. reflexivity. Qed.
