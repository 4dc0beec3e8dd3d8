(** C01: directive-free text survives preprocessing byte for byte. *)
From Verif Require Import Base PpLexerModel OutBufferModel PpModel PpPlainProofs.

(** The entry point for strings: the output text is the input text and the container state is
    untouched, or the text is not a token sequence at all and a syntax error is raised. *)
Theorem C01_string_identity l fs d dirs s : is_verilog l = true -> ~ In bt s ->
  (lex s = Throw syntax_error
   /\ verilog_pp_str l fs d dirs s = (Throw syntax_error, pp_init l d dirs))
  \/ (exists ts b, lex s = Ok ts
      /\ verilog_pp_str l fs d dirs s = (Ok b, pp_init l d dirs) /\ ob_text b = s).
Proof. exact (fun Hl Hb => pp_str_plain l fs d dirs s Hl (no_bt_benign s Hb)). Qed.
Print Assumptions C01_string_identity.

(** The same for a file. *)
Theorem C01_file_identity l fs d dirs file s : is_verilog l = true -> ~ In bt s -> fs file = Some s ->
  (lex s = Throw syntax_error
   /\ fst (verilog_pp_file l fs d dirs file) = Throw syntax_error)
  \/ (exists ts b, lex s = Ok ts
      /\ verilog_pp_file l fs d dirs file = (Ok b, pp_init l d dirs) /\ ob_text b = s).
Proof. exact (fun Hl Hb => pp_file_plain l fs d dirs file s Hl (no_bt_benign s Hb)). Qed.
Print Assumptions C01_file_identity.

(** Text free of backticks, slashes, quotes and backslashes is never rejected. *)
Theorem C01_simple_text_accepted l fs d dirs s : is_verilog l = true ->
  Forall (fun c => c <> bt /\ c <> "/"%char /\ c <> dq /\ c <> bs) s ->
  exists b, verilog_pp_str l fs d dirs s = (Ok b, pp_init l d dirs) /\ ob_text b = s.
Proof. exact (pp_str_simple l fs d dirs s). Qed.
Print Assumptions C01_simple_text_accepted.

Definition sample : str :=
  $"module m; // line comment" ++ [nl] ++ $"  /* block */ initial $display(""a b\n"");" ++ [nl]
  ++ $"  wire \esc+id ;" ++ [nl] ++ $"endmodule" ++ [nl].
Example C01_sample : ~ In bt sample
  /\ text_of (verilog_pp_str SV2012 (fun _ => None) [] [] sample) = Ok sample.
Proof.
  split; [|vm_compute; reflexivity].
  intros H. assert (existsb (ceqb bt) sample = true) as E
    by (apply existsb_exists; exists bt; split; [exact H|reflexivity]).
  vm_compute in E. discriminate.
Qed.
Example C01_rejected : lex $"a ""unterminated" = Throw syntax_error.
Proof. vm_compute. reflexivity. Qed.
