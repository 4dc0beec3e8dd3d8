(** C05: recursion of macros and includes is bounded. *)
From Verif Require Import Base OutBufferModel PpLexerModel PpParserModel PpModel StrUtilsModel PpSpec PpRunProofs PpLimitProofs.

(** [run_str n] is the preprocessor that gives up ([OutOfFuel]) after [n] nested levels of
    macro rescanning and file inclusion.  It never gives up at [enough_fuel] = 232 levels, and
    any larger allowance yields the same result, for every source, file system and database. *)
Theorem C05_terminates_str l fs d dirs s : db_ok d ->
  fst (verilog_pp_str l fs d dirs s) <> OutOfFuel /\
  forall n, enough_fuel <= n ->
    run_str n l fs s (mkBuf [] [] 0 0 0) (pp_init l d dirs) = verilog_pp_str l fs d dirs s.
Proof. exact (fun H => conj (pp_str_terminates l fs d dirs s H) (fun n => pp_str_fuel l fs d dirs s n H)). Qed.
Print Assumptions C05_terminates_str.

Theorem C05_terminates_file l fs d dirs s : db_ok d ->
  fst (verilog_pp_file l fs d dirs s) <> OutOfFuel /\
  forall n, enough_fuel <= n ->
    run_file n l fs s (mkBuf [] [] 0 0 0) (pp_init l d dirs) = verilog_pp_file l fs d dirs s.
Proof. exact (fun H => conj (pp_file_terminates l fs d dirs s H) (fun n => pp_file_fuel l fs d dirs s n H)). Qed.
Print Assumptions C05_terminates_file.

(** An expansion that needs rescanning is a ParseException when 128 expansions are open, and is
    rescanned (with itself pushed on the stack) when there are fewer. *)
Theorem C05_macro_limit l rs src m out st r : expand_call l src m out (ps_db st) = Ok r -> In bt r ->
  (128 <= length (ps_mstack st) ->
     exists msg, call_text l rs src m out st = (Throw (ParseException msg), st)) /\
  (length (ps_mstack st) < 128 -> (0 <= ob_begin out)%Z -> 1 <= tk_line (mc_tok m) ->
     call_text l rs src m out st =
     (b <-- rs r (mkBuf [] [] 0 0 (ob_begin out + Z.of_nat (tk_line (mc_tok m)) - 1)) ;;;
      modify (fun s => set_mstack s (removelast (ps_mstack s))) ;;;
      if lang_ge l SV2005 then lift (unescape_string_dblquotes (ob_text b)) else ret (ob_text b))
       (set_mstack st (ps_mstack st ++ [call_name (mc_tok m)]))).
Proof. exact (macro_limit l rs src m out st r). Qed.
Print Assumptions C05_macro_limit.

Theorem C05_include_limit l fs rs rf src added tok p out st name :
  find_include fs (ps_incdirs st) p = Ok (Some name) -> 100 < length (ps_incstack st) ->
  exists msg, visit_include l fs rs rf src added tok (inl p) out st = (Throw (ParseException msg), st).
Proof. exact (include_limit l fs rs rf src added tok p out st name). Qed.
Print Assumptions C05_include_limit.

Definition nofs : fsys := fun _ => None.
Example C05_db_ok : db_ok []. Proof. constructor. Qed.
(** Self recursion and mutual recursion end with an exception. *)
Example C05_self : exists msg,
  text_of (verilog_pp_str SV2012 nofs [] [] ($"`define A x `A" ++ [nl] ++ $"`A")) = Throw (ParseException msg).
Proof. vm_compute. eauto. Qed.
Example C05_mutual : exists msg,
  text_of (verilog_pp_str SV2012 nofs [] []
     ($"`define A `B" ++ [nl] ++ $"`define B `A" ++ [nl] ++ $"`B")) = Throw (ParseException msg).
Proof. vm_compute. eauto. Qed.
(** A file that includes itself. *)
Example C05_include_self : exists msg,
  text_of (verilog_pp_file SV2012 (fun f => if seqb f $"d/f.v" then Some ($"`include ""f.v""" ++ [nl]) else None)
             [] [$"d"] $"d/f.v") = Throw (ParseException msg).
Proof. vm_compute. eauto. Qed.
(** A chain of n macros, each calling the next; the last one is plain text. *)
Fixpoint chain (i n : nat) : str :=
  match n with
  | O => $"`define M" ++ nat_str i ++ $" end" ++ [nl]
  | S n' => $"`define M" ++ nat_str i ++ $" `M" ++ nat_str (S i) ++ [nl] ++ chain (S i) n'
  end.
Example C05_chain_ok :
  text_of (verilog_pp_str SV2012 nofs [] [] (chain 0 128 ++ $"`M0")) = Ok $"end".
Proof. vm_compute. reflexivity. Qed.
Example C05_chain_too_long : exists msg,
  text_of (verilog_pp_str SV2012 nofs [] [] (chain 0 129 ++ $"`M0")) = Throw (ParseException msg).
Proof. vm_compute. eauto. Qed.
