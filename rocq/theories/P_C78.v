(** C78: a source of text, macros and conditionals means what the standard says. *)
From Verif Require Import Base BaseFacts StrSpec OutBufferModel PpLexerModel PpParserModel MacroDefModel PpModel PpArgSpec PpSrcSpec PpSrcRunProofs PpSrcWfTac.

(** Every source of PpSrcSpec that has a meaning is preprocessed into exactly that text. *)
Theorem C78_source_partial : forall l fs d dirs p out,
  is_verilog l = true -> Forall (fun x => e_persistent (snd x) = false) d ->
  wf p [] -> meaning (lang_ge l SV2005) p out -> (Z.of_nat (1 + lines (render p)) < 2 ^ 61)%Z ->
  exists b st, verilog_pp_str l fs d dirs (render p) = (Ok b, st) /\ ob_text b = out.
Proof. exact source_meaning. Qed.
Print Assumptions C78_source_partial.
Theorem C78_file_partial : forall l fs d dirs file p out,
  is_verilog l = true -> Forall (fun x => e_persistent (snd x) = false) d ->
  fs file = Some (render p) -> wf p [] -> meaning (lang_ge l SV2005) p out -> (Z.of_nat (1 + lines (render p)) < 2 ^ 61)%Z ->
  exists b st, verilog_pp_file l fs d dirs file = (Ok b, st) /\ ob_text b = out.
Proof. exact source_meaning_file. Qed.
Print Assumptions C78_file_partial.

(** A source with macros with and without parameters that use each other, joined names, a string, a
    comment behind a definition, a conditional with three branches and both kinds of line ends. *)
Definition chars (s : str) : item := IText (map PChar s).
Definition p78 : items :=
  Cons (IDef [sp] $"W" None [sp] $"8" [sp] (Some $" width") Lf)
  (Cons (IDef [sp] $"RANGE" (Some [([], $"w", []); ([sp], $"init", [])]) [tab] $"[w``_1:0] s = ""w\""b"" + `INC(init)" [] None CrLf)
  (Cons (IDef [sp] $"INC" (Some [([], $"x", [])]) [sp] $"(x + 1)" [] None Lf)
  (Cons (IDef0 [sp] $"FAST" [] Lf)
  (Cons (chars $"reg ")
  (Cons (ICall $"RANGE" (Some [$"W"; $" `W "]))
  (Cons (chars (";"%char :: [nl]))
  (Cons (IIf false (More [sp] $"SLOW" (Cons (chars ([nl] ++ $"a" ++ [nl])) Nil)
                   (One [sp] $"FAST" (Cons (chars ([nl] ++ $"b ")) (Cons (ICall $"W" None) (Cons (chars [nl]) Nil)))))
             (Else (SEol Lf) (Cons (chars ($"c" ++ [nl])) Nil)) (SEol Lf))
  (Cons (IText [PLine $" end" Lf]) Nil)))))))).
Example C78_text : render p78 =
  $"`define W 8 // width" ++ [nl] ++ $"`define RANGE(w, init)" ++ [tab] ++ $"[w``_1:0] s = ""w\""b"" + `INC(init)" ++ [cr; nl] ++ $"`define INC(x) (x + 1)" ++ [nl] ++ $"`define FAST" ++ [nl] ++ $"reg `RANGE(W, `W );" ++ [nl]
  ++ $"`ifdef SLOW" ++ [nl] ++ $"a" ++ [nl] ++ $"`elsif FAST" ++ [nl] ++ $"b `W" ++ [nl] ++ $"`else" ++ [nl] ++ $"c" ++ [nl] ++ $"`endif" ++ [nl] ++ $"// end" ++ [nl].
Proof. reflexivity. Qed.
Example C78_wf : wf p78 [].
Proof.
  unfold p78. cbn [wf wf_item wf_branches wf_else chars].
  wf_source.
  apply (db_str $"[w``_1:0] s = " $"w\""b" $" + `INC(init)"); [apply code_part_ok; reflexivity| | | |apply body_plain; reflexivity].
  - repeat first [apply sb_nil|apply sb_pair; [discriminate|discriminate|]|apply sb_char; [discriminate|discriminate|discriminate|discriminate|]].
  - intros t E. apply (f_equal (@rev ascii)) in E. rewrite rev_app_distr in E. discriminate.
  - cbn. intuition discriminate.
Qed.
Example C78_meaning : meaning true p78
  ($"reg [W_1:0] s = ""w\""b"" + (8 + 1);" ++ [nl; nl; nl] ++ [nl] ++ $"b 8" ++ [nl] ++ [nl; nl; nl] ++ $"// end" ++ [nl]).
Proof.
  unfold p78, chars. meaning_of.
  - use_args $"[W``_1:0] s = ""w\""b"" + `INC(`W)" (Cons (IText (map PChar $"[W_1:0] s = " ++ [PStr $"w\""b"] ++ map PChar $" + ")) (Cons (ICall $"INC" (Some [$"`W"])) Nil)).
    + use_args $"(`W + 1)" (Cons (IText (map PChar $"(")) (Cons (ICall $"W" None) (Cons (IText (map PChar $" + 1)")) Nil))).
      * use_plain (Cons (IText [PChar "8"%char]) Nil); reflexivity.
      * reflexivity.
      * reflexivity.
    + reflexivity.
    + reflexivity.
  - use_plain (Cons (IText [PChar "8"%char]) Nil); reflexivity.
  - vm_compute. reflexivity.
Qed.
(** ... so the theorem applies to it. *)
Example C78_example : exists b st, verilog_pp_str SV2012 (fun _ => None) [] [] (render p78) = (Ok b, st)
  /\ ob_text b = $"reg [W_1:0] s = ""w\""b"" + (8 + 1);" ++ [nl; nl; nl] ++ [nl] ++ $"b 8" ++ [nl] ++ [nl; nl; nl] ++ $"// end" ++ [nl].
Proof. eapply C78_source_partial; [reflexivity|constructor|exact C78_wf|exact C78_meaning|reflexivity]. Qed.
