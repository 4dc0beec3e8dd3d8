(** C52: __LINE__ and __FILE__ give the position of their use. *)
From Verif Require Import Base OutBufferModel PpLexerModel PpParserModel MacroDefModel PpModel PpSpec PpLimitProofs PpCallProofs.

(** In every language __LINE__ expands to the line of its token plus the start line of the buffer.
    In the buffer of a file the start is 0 (C05 and C12), so it is the line of the use in that file;
    an expansion on line n is rescanned with start n - 1, so on its first line the value is n.
    Missing: the line set by a `line directive is ignored (refuted below). *)
Theorem C52_line_partial l rs src m out st e : db_find (ps_db st) (call_name (mc_tok m)) = Some e -> e_def e = MLine ->
  call_has_args (mc_tok m) = false -> (0 <= ob_begin out)%Z ->
  call_text l rs src m out st = (Ok (Z_str (ob_begin out + Z.of_nat (tk_line (mc_tok m)))), st).
Proof. exact (line_law l rs src m out st e). Qed.
Print Assumptions C52_line_partial.
(** A macro whose text is a use of __LINE__ gives the line of the macro's own use, at any depth of the expansion. *)
Theorem C52_line_in_macro fuel l fs src m out st e : is_verilog l = true ->
  expand_call l src m out (ps_db st) = Ok $"`__LINE__" -> db_find (ps_db st) $"__LINE__" = Some e -> e_def e = MLine ->
  length (ps_mstack st) < 128 -> 1 <= tk_line (mc_tok m) -> (0 <= ob_begin out)%Z -> (ob_begin out + Z.of_nat (tk_line (mc_tok m)) < 2 ^ 62)%Z ->
  call_text l (run_str (S fuel) l fs) src m out st = (Ok (Z_str (ob_begin out + Z.of_nat (tk_line (mc_tok m)))), st).
Proof. exact (line_in_macro fuel l fs src m out st e). Qed.
Print Assumptions C52_line_in_macro.

(** __FILE__ is the file of the last entry of the line map, between double quotes; entries of the
    buffer stay those of the own file until an include is merged (C11).  Missing: after an include. *)
Theorem C52_file_partial src m out st e it mp : db_find (ps_db st) (call_name (mc_tok m)) = Some e -> e_def e = MFile ->
  call_has_args (mc_tok m) = false -> ob_map out = mp ++ [it] ->
  raw_expansion src m out (ps_db st) = Ok ([dq] ++ lm_file it ++ [dq]).
Proof. exact (file_law src m out st e it mp). Qed.
Print Assumptions C52_file_partial.

Definition fs52 : fsys := fun f => if seqb f $"d/m.v" then Some ($"x" ++ [nl]) else None.
Example C52_plain : text_of (verilog_pp_str SV2012 fs52 [] [] ([nl; nl] ++ $"`__LINE__ `__FILE__")) = Ok ([nl; nl] ++ $"3 ""<string>""").
Proof. vm_compute. reflexivity. Qed.

Example C52_macro : text_of (verilog_pp_str SV2012 fs52 [] [] ($"`define L `__LINE__" ++ [nl; nl] ++ $"`L")) = Ok ([nl; nl] ++ $"3").
Proof. vm_compute. reflexivity. Qed.

(** After an include __FILE__ names the included file. *)
Theorem C52_file_refuted :
  text_of (verilog_pp_str SV2012 fs52 [] [$"d"] ($"`include ""m.v""" ++ [nl] ++ $"`__FILE__")) = Ok ($"x" ++ [nl] ++ $"""d/m.v""").
Proof. vm_compute. reflexivity. Qed.
(** `undefineall also removes the predefined macros. *)
Theorem C52_undefineall_refuted :
  text_of (verilog_pp_str SV2012 fs52 [] [] ($"`undefineall" ++ [nl] ++ $"`__LINE__"))
  = Throw (ParseException $"<string>:2:1:Error: __LINE__ is not defined").
Proof. vm_compute. reflexivity. Qed.
(** A `line directive does not change __LINE__, and its file name keeps its quotes. *)
Theorem C52_line_directive_refuted :
  text_of (verilog_pp_str SV2012 fs52 [] [] ($"`line 100 ""f.v"" 0" ++ [nl] ++ $"`__LINE__ `__FILE__"))
  = Ok ([nl] ++ $"2 """"f.v""""").
Proof. vm_compute. reflexivity. Qed.
Print Assumptions C52_file_refuted.
Print Assumptions C52_undefineall_refuted.
Print Assumptions C52_line_directive_refuted.
