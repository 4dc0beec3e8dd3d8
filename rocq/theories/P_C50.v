(** C50: the preprocessor is memory safe on every input. *)
From Verif Require Import Base OutBufferModel PpLexerModel PpParserModel PpModel PpSpec LexSafeProofs PpRunProofs.

(** Whatever the input, only the two listed kinds of undefined behaviour can occur and only the
    listed exceptions can be thrown. *)
Theorem C50_str_partial l fs d dirs s : db_ok d ->
  match fst (verilog_pp_str l fs d dirs s) with
  | Ok _ => True
  | Throw e => known_exn e
  | UB w => known_ub w
  | OutOfFuel => False
  end.
Proof.
  intros H. pose proof (verilog_pp_str_spec l fs d dirs s H) as P.
  destruct (verilog_pp_str l fs d dirs s) as [[| | |] st]; cbn in *; auto.
Qed.
Print Assumptions C50_str_partial.
Theorem C50_file_partial l fs d dirs s : db_ok d ->
  match fst (verilog_pp_file l fs d dirs s) with
  | Ok _ => True
  | Throw e => known_exn e
  | UB w => known_ub w
  | OutOfFuel => False
  end.
Proof.
  intros H. pose proof (verilog_pp_file_spec l fs d dirs s H) as P.
  destruct (verilog_pp_file l fs d dirs s) as [[| | |] st]; cbn in *; auto.
Qed.
Print Assumptions C50_file_partial.
(** The lexer never pops an empty mode stack; its only failures are a syntax error and one assertion. *)
Theorem C50_lexer s :
  match lex s with Ok _ => True | Throw e => e = syntax_error
                 | UB w => w = "assert(!define_param_LP_seen)"%string | OutOfFuel => False end.
Proof. exact (lex_safe s). Qed.
Print Assumptions C50_lexer.

(** Both are reachable. *)
Theorem C50_memory_safety_refuted :
  text_of (verilog_pp_str SV2012 (fun _ => None) [] [] $"`define A((") = UB "assert(!define_param_LP_seen)"
  /\ text_of (verilog_pp_str SV2012 (fun _ => None) [] [] ($"`define A 1" ++ [nl] ++ $"`undef A" ++ [nl]))
     = UB "visitUndef: m->second after defineDB.erase(m)"
  /\ text_of (verilog_pp_str SV2012 (fun _ => None) [] [$"d"] ($"`define A" ++ [nl] ++ $"`include `A" ++ [nl]))
     = Throw (OutOfRange $"basic_string::substr").
Proof. vm_compute. repeat split; reflexivity. Qed.
Print Assumptions C50_memory_safety_refuted.
