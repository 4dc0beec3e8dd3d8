(** C15: token pasting and macro quotes. *)
From Verif Require Import Base StrSpec OutBufferModel RegexModel PpLexerModel PpParserModel MacroDefModel PpModel PpSpec PpCallProofs.

(** From SystemVerilog 2005 on, the expansion of a call is its raw replacement in which every
    [``] is removed and then every [`\`] became a backslash. *)
Theorem C15_pasting l src m out d r0 : lang_ge l SV2005 = true -> raw_expansion src m out d = Ok r0 ->
  exists r1 r2, replaced [bt; bt] [] r0 r1 /\ replaced [bt; bs; bt] [bs] r1 r2
                /\ expand_call l src m out d = Ok r2.
Proof. exact (pasting_law l src m out d r0). Qed.
Print Assumptions C15_pasting.

(** Before SystemVerilog 2005 nothing is pasted. *)
Theorem C15_verilog l src m out d : lang_ge l SV2005 = false ->
  expand_call l src m out d = raw_expansion src m out d.
Proof. exact (no_pasting_before l src m out d). Qed.
Print Assumptions C15_verilog.

(** If the expansion contains no further macro call, the text inserted in the output is the
    expansion with the macro quotes resolved as the standard describes ([unquote], StrSpec);
    an odd number of them is an error, and the preprocessor state is unchanged.
    The first alternative: a text with macro quotes is rescanned, and the lexer may reject it. *)
Theorem C15_quotes fuel l fs src m out st r : is_verilog l = true -> lang_ge l SV2005 = true ->
  expand_call l src m out (ps_db st) = Ok r -> only_macro_quotes r -> length (ps_mstack st) < 128 ->
  1 <= tk_line (mc_tok m) -> (0 <= ob_begin out)%Z -> (ob_begin out + Z.of_nat (tk_line (mc_tok m)) < 2 ^ 62)%Z ->
  (exists st', lex r = Throw syntax_error /\ In bt r /\ call_text l (run_str (S fuel) l fs) src m out st = (Throw syntax_error, st')) \/
  call_text l (run_str (S fuel) l fs) src m out st
  = match unquote None false r with
    | Some t => (Ok t, st)
    | None => (Throw (ParseException $"Unfinished `"" string"), st)
    end.
Proof. exact (quotes_law fuel l fs src m out st r). Qed.
Print Assumptions C15_quotes.

(** An expansion without a backtick is inserted unchanged. *)
Theorem C15_plain l rs src m out st r : expand_call l src m out (ps_db st) = Ok r -> ~ In bt r ->
  call_text l rs src m out st = (Ok r, st).
Proof. exact (plain_expansion l rs src m out st r). Qed.
Print Assumptions C15_plain.

Definition fs15 : fsys := fun _ => None.
Example C15_paste_run :
  text_of (verilog_pp_str SV2012 fs15 [] [] ($"`define P(a,b) a``_``b" ++ [nl] ++ $"`P(x,y)")) = Ok ([nl] ++ $"x_y").
Proof. vm_compute. reflexivity. Qed.
Example C15_quote_run :
  text_of (verilog_pp_str SV2012 fs15 [] [] ($"`define M(m) `""m: `\`""left side`\`"" `""" ++ [nl] ++ $"`M(foo)"))
  = Ok ([nl] ++ $"""foo: \""left side\"" """).
Proof. vm_compute. reflexivity. Qed.
