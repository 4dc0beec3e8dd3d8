(** C51: included text stays separated from the text behind the include. *)
From Verif Require Import Base OutBufferModel PpLexerModel PpParserModel PpModel PpSpec PpCondProofs.

(** The included text is appended as it is; the newline of the directive is not.  Hence the text
    is separated from what follows if the included text itself ends with a newline. *)
Theorem C51_included_text_partial l fs rs rf src added tok p out st out' st' : p <> [] ->
  visit_include l fs rs rf src added tok (inl p) out st = (Ok out', st') ->
  exists b, ob_text out' = ob_text out ++ ob_text b /\
    exists name st0 st1, rf name (mkBuf [] [] 0 0 0) st0 = (Ok b, st1) /\
      (forall t, ob_text b = t ++ [nl] -> exists t', ob_text out' = t' ++ [nl]).
Proof.
  intros Hp H. destruct (include_found l fs rs rf src added tok p out st out' st' Hp H)
    as (name & b & st0 & st1 & _ & _ & E & -> & _).
  exists b. split; [reflexivity|]. exists name, st0, st1. split; [exact E|].
  intros t Ht. exists (ob_text out ++ t). cbn [buf_append ob_text]. rewrite Ht. apply app_assoc.
Qed.
Print Assumptions C51_included_text_partial.

(** Without a newline at the end of the included file the next line is glued to it: the last word
    of the file and the first word behind the directive become one word. *)
Definition fs51 : fsys := fun f =>
  if seqb f $"d/m.v" then Some ($"module m;" ++ [nl] ++ $"endmodule") else None.
Theorem C51_separated_refuted :
  text_of (verilog_pp_str SV2012 fs51 [] [$"d"] ($"`include ""m.v""" ++ [nl] ++ $"module n;" ++ [nl] ++ $"endmodule"))
  = Ok ($"module m;" ++ [nl] ++ $"endmodulemodule n;" ++ [nl] ++ $"endmodule").
Proof. vm_compute. reflexivity. Qed.
Print Assumptions C51_separated_refuted.

(** The same happens around a long disabled block. *)
Theorem C51_conditional_refuted :
  text_of (verilog_pp_str SV2012 fs51 [] [] ($"a`ifdef X" ++ [nl; nl; nl; nl; nl] ++ $"`endif" ++ [nl] ++ $"b")) = Ok $"ab".
Proof. vm_compute. reflexivity. Qed.
Print Assumptions C51_conditional_refuted.
