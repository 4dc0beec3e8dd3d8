(** Effect of the two nesting limits. *)
From Verif Require Import Base BaseFacts OutBufferModel RegexModel PpLexerModel PpParserModel MacroDefModel
  StrUtilsModel PpModel PpFacts LexSafeProofs PpSpec PpRunProofs PpMonoProofs.

Lemma pp_str_terminates l fs d dirs s : db_ok d ->
  fst (verilog_pp_str l fs d dirs s) <> OutOfFuel.
Proof.
  intros H E. pose proof (verilog_pp_str_spec l fs d dirs s H) as P. unfold spec in P.
  destruct (verilog_pp_str l fs d dirs s) as [[| | |] st]; cbn [fst] in E; try discriminate. exact P.
Qed.
Lemma pp_file_terminates l fs d dirs s : db_ok d ->
  fst (verilog_pp_file l fs d dirs s) <> OutOfFuel.
Proof.
  intros H E. pose proof (verilog_pp_file_spec l fs d dirs s H) as P. unfold spec in P.
  destruct (verilog_pp_file l fs d dirs s) as [[| | |] st]; cbn [fst] in E; try discriminate. exact P.
Qed.
Lemma pp_str_fuel l fs d dirs s n : db_ok d -> enough_fuel <= n ->
  run_str n l fs s (mkBuf [] [] 0 0 0) (pp_init l d dirs) = verilog_pp_str l fs d dirs s.
Proof.
  intros H Hn. change (verilog_pp_str l fs d dirs s) with (run_str enough_fuel l fs s (mkBuf [] [] 0 0 0) (pp_init l d dirs)).
  apply run_str_more; [|exact Hn]. exact (pp_str_terminates l fs d dirs s H).
Qed.
Lemma pp_file_fuel l fs d dirs s n : db_ok d -> enough_fuel <= n ->
  run_file n l fs s (mkBuf [] [] 0 0 0) (pp_init l d dirs) = verilog_pp_file l fs d dirs s.
Proof.
  intros H Hn. rewrite verilog_pp_file_eq.
  apply run_file_more; [|exact Hn]. rewrite <- verilog_pp_file_eq. exact (pp_file_terminates l fs d dirs s H).
Qed.

Lemma macro_limit l rs src m out st r : expand_call l src m out (ps_db st) = Ok r -> In bt r ->
  (128 <= length (ps_mstack st) ->
     exists msg, call_text l rs src m out st = (Throw (ParseException msg), st)) /\
  (length (ps_mstack st) < 128 -> (0 <= ob_begin out)%Z -> 1 <= tk_line (mc_tok m) ->
     call_text l rs src m out st =
     (b <-- rs r (mkBuf [] [] 0 0 (ob_begin out + Z.of_nat (tk_line (mc_tok m)) - 1)) ;;;
      modify (fun s => set_mstack s (removelast (ps_mstack s))) ;;;
      if lang_ge l SV2005 then lift (unescape_string_dblquotes (ob_text b)) else ret (ob_text b))
       (set_mstack st (ps_mstack st ++ [call_name (mc_tok m)]))).
Proof.
  intros E Hin.
  assert (find [bt] r <> None) as Hf.
  { rewrite find_None. intros F. apply in_split in Hin as (x & y & ->). exact (F x y eq_refl). }
  split; intros H.
  - unfold call_text, mbind, get, lift. rewrite E. destruct (find [bt] r) as [i|]; [|congruence].
    unfold max_macro_call_stack_size. destruct (Nat.leb_spec 128 (length (ps_mstack st))); [|lia].
    unfold input_error. eexists. reflexivity.
  - intros Hb Ht. unfold call_text, mbind, get, modify, lift, ret. rewrite E. destruct (find [bt] r) as [i|]; [|congruence].
    unfold max_macro_call_stack_size. destruct (Nat.leb_spec 128 (length (ps_mstack st))); [lia|].
    unfold new_buf. destruct (Z.ltb_spec (ob_begin out + Z.of_nat (tk_line (mc_tok m)) - 1) 0); [lia|].
    destruct (rs r _ _) as [[b|e|w|] s]; reflexivity.
Qed.

Lemma include_limit l fs rs rf src added tok p out st name :
  find_include fs (ps_incdirs st) p = Ok (Some name) -> 100 < length (ps_incstack st) ->
  exists msg, visit_include l fs rs rf src added tok (inl p) out st = (Throw (ParseException msg), st).
Proof.
  intros E H. unfold visit_include, mbind at 1 2 3, ret at 1, get, lift at 1. rewrite E. unfold include_depth_limit.
  destruct (Nat.ltb_spec 100 (length (ps_incstack st))); [|lia]. unfold lift, input_error. eexists. reflexivity.
Qed.
