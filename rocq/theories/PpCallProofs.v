(** Expansion of one macro call: token pasting and macro quotes. *)
From Coq Require Import DecimalString.
From Verif Require Import Base BaseFacts StrUtilsModel StrSpec StrUtilsProofs OutBufferModel RegexModel PpLexerModel
  PpParserModel MacroDefModel PpModel PpFacts PpSpec OutBufferProofs PpPlainProofs.

Lemma expand_call_raw l src m out d :
  expand_call l src m out d =
  (r <- raw_expansion src m out d ;;
   if lang_ge l SV2005 then
     r2 <- replace_substring r [bt; bt] [] ;; replace_substring r2 [bt; bs; bt] [bs]
   else Ok r).
Proof.
  unfold expand_call, raw_expansion. destruct (db_find d (call_name (mc_tok m))) as [e|]; [|reflexivity].
  cbv zeta. destruct (requires_args (e_def e)); cbn [andb negb].
  - destruct (wrap_parse_exn _ _ _); reflexivity.
  - destruct (wrap_parse_exn _ _ _); reflexivity.
Qed.
Lemma pasting_law l src m out d r0 : lang_ge l SV2005 = true -> raw_expansion src m out d = Ok r0 ->
  exists r1 r2, replaced [bt; bt] [] r0 r1 /\ replaced [bt; bs; bt] [bs] r1 r2
                /\ expand_call l src m out d = Ok r2.
Proof.
  intros Hl E. rewrite expand_call_raw, E, Hl. cbn [bind].
  destruct (replace_substring_total r0 [bt; bt] [] ltac:(discriminate)) as (r1 & E1 & R1 & _).
  destruct (replace_substring_total r1 [bt; bs; bt] [bs] ltac:(discriminate)) as (r2 & E2 & R2 & _).
  exists r1, r2. rewrite E1. cbn [bind]. auto.
Qed.
Lemma no_pasting_before l src m out d : lang_ge l SV2005 = false ->
  expand_call l src m out d = raw_expansion src m out d.
Proof. intros H. rewrite expand_call_raw, H. destruct (raw_expansion src m out d); reflexivity. Qed.

(** The quoting step, when the expansion contains no other macro call. *)
Lemma quotes_law fuel l fs src m out st r : is_verilog l = true -> lang_ge l SV2005 = true ->
  expand_call l src m out (ps_db st) = Ok r -> only_macro_quotes r -> length (ps_mstack st) < 128 ->
  1 <= tk_line (mc_tok m) -> (0 <= ob_begin out)%Z -> (ob_begin out + Z.of_nat (tk_line (mc_tok m)) < 2 ^ 62)%Z ->
  (exists st', lex r = Throw syntax_error /\ In bt r /\ call_text l (run_str (S fuel) l fs) src m out st = (Throw syntax_error, st')) \/
  call_text l (run_str (S fuel) l fs) src m out st
  = match unquote None false r with
    | Some t => (Ok t, st)
    | None => (Throw (ParseException $"Unfinished `"" string"), st)
    end.
Proof.
  intros Hv Hl E Hq Hs H1 H2 H3.
  assert (forall s (st : pst), (unescape_string_dblquotes s, st) = match unquote None false s with
    | Some t => (Ok t, st) | None => (Throw (ParseException $"Unfinished `"" string"), st) end) as U.
  { intros s st0. rewrite unescape_spec. destruct (unquote None false s); reflexivity. }
  unfold call_text, mbind, get, modify, lift, ret. rewrite E, Hl.
  destruct (find [bt] r) as [i|] eqn:F; [|right; apply U].
  unfold max_macro_call_stack_size. destruct (Nat.leb_spec 128 (length (ps_mstack st))); [lia|].
  unfold new_buf. destruct (Z.ltb_spec (ob_begin out + Z.of_nat (tk_line (mc_tok m)) - 1) 0); [lia|].
  destruct (run_str_benign fuel l fs r (ob_begin out + Z.of_nat (tk_line (mc_tok m)) - 1)
             (set_mstack st (ps_mstack st ++ [call_name (mc_tok m)])) Hv Hq ltac:(lia))
    as [(EL & ->)|(ts & b & _ & -> & Eb)].
  - left. eexists. split; [exact EL|]. split; [|reflexivity].
    apply find_Some in F as (a & b & -> & _). apply in_or_app. right. left. reflexivity.
  - right. rewrite Eb. rewrite U. destruct st as [d inc ist ms]. unfold set_mstack. cbn [ps_db ps_incdirs ps_mstack].
    rewrite removelast_last. reflexivity.
Qed.

Lemma no_bt_unquote r : ~ In bt r -> unquote None false r = Some r.
Proof.
  intros H. rewrite unquote_none; [reflexivity|]. apply find_None. intros a b E. rewrite E in H. apply H. apply in_or_app. right. left. reflexivity.
Qed.
(** An expansion without any backtick is used as it is. *)
Lemma plain_expansion l rs src m out st r : expand_call l src m out (ps_db st) = Ok r -> ~ In bt r ->
  call_text l rs src m out st = (Ok r, st).
Proof.
  intros E H. unfold call_text, mbind, get, lift, ret. rewrite E.
  assert (find [bt] r = None) as ->.
  { apply find_None. intros a b ->. apply H. apply in_or_app. right. left. reflexivity. }
  destruct (lang_ge l SV2005); [|reflexivity]. rewrite unescape_spec, no_bt_unquote by exact H. reflexivity.
Qed.

(** __LINE__ *)
Definition digit (c : ascii) : Prop := In c $"0123456789".
Lemma uint_digits u : Forall digit (s2l (NilEmpty.string_of_uint u)).
Proof. induction u; cbn; constructor; auto; unfold digit; cbn; tauto. Qed.
Lemma Z_str_digits z : (0 <= z)%Z -> Forall digit (Z_str z).
Proof. destruct z; intros H; [repeat constructor; cbn; tauto|apply uint_digits|lia]. Qed.
Lemma digit_no_bt s : Forall digit s -> ~ In bt s.
Proof. intros H Hin. rewrite Forall_forall in H. specialize (H _ Hin). cbn in H. repeat (destruct H as [H|H]; [discriminate|]). exact H. Qed.
Lemma no_bt_occurs p s : In bt p -> ~ In bt s -> ~ occurs p s.
Proof. intros Hp Hs (a & b & ->). apply Hs. apply in_or_app. right. apply in_or_app. left. exact Hp. Qed.
Lemma line_law l rs src m out st e : db_find (ps_db st) (call_name (mc_tok m)) = Some e -> e_def e = MLine ->
  call_has_args (mc_tok m) = false -> (0 <= ob_begin out)%Z ->
  call_text l rs src m out st = (Ok (Z_str (ob_begin out + Z.of_nat (tk_line (mc_tok m)))), st).
Proof.
  intros H1 H2 H3 H4. set (t := Z_str (ob_begin out + Z.of_nat (tk_line (mc_tok m)))).
  assert (~ In bt t) as Ht by (apply digit_no_bt, Z_str_digits; lia).
  apply plain_expansion; [|exact Ht]. rewrite expand_call_raw. unfold raw_expansion. rewrite H1, H2, H3.
  cbn [requires_args def_replace wrap_parse_exn bind]. fold t. destruct (lang_ge l SV2005); [|reflexivity].
  rewrite replace_substring_absent; [|discriminate|apply no_bt_occurs; [cbn; tauto|exact Ht]].
  cbn [bind]. apply replace_substring_absent; [discriminate|apply no_bt_occurs; [cbn; tauto|exact Ht]].
Qed.
Lemma file_law src m out st e it mp : db_find (ps_db st) (call_name (mc_tok m)) = Some e -> e_def e = MFile ->
  call_has_args (mc_tok m) = false -> ob_map out = mp ++ [it] ->
  raw_expansion src m out (ps_db st) = Ok ([dq] ++ lm_file it ++ [dq]).
Proof.
  intros H1 H2 H3 H4. unfold raw_expansion. rewrite H1, H2, H3. cbn [requires_args def_replace].
  rewrite H4, rev_app_distr. cbn [rev app wrap_parse_exn bind]. reflexivity.
Qed.

(** A macro that expands to a use of __LINE__: the line of the call. *)
Lemma start_line (k : Z) : (0 <= k < 2 ^ 62)%Z -> (0 <? to_size (0 - (0 + to_ssize k + k)))%Z && (to_size (0 - (0 + to_ssize k + k)) <=? NEWLINE_TRESHOLD)%Z = false.
Proof.
  intros Hk. change (2 ^ 62)%Z with 4611686018427387904%Z in Hk.
  assert (to_ssize k = k) as ->.
  { unfold to_ssize. rewrite two63_val, two64_val. cbv zeta. rewrite Z.mod_small by lia. destruct (Z.ltb_spec k 9223372036854775808); lia. }
  unfold to_size, NEWLINE_TRESHOLD. rewrite two64_val. apply andb_false_iff.
  replace (0 - (0 + k + k))%Z with (- (2 * k))%Z by lia. assert (k = 0 \/ 0 < k)%Z as [->|Hk0] by lia; [left; reflexivity|right].
  apply Z.leb_gt. rewrite Z.mod_opp_l_nz; rewrite ?Z.mod_small; lia.
Qed.
Lemma line_rescan fuel l fs n st e : is_verilog l = true -> db_find (ps_db st) $"__LINE__" = Some e -> e_def e = MLine -> (0 < n < 2 ^ 62)%Z ->
  exists b, run_str (S fuel) l fs $"`__LINE__" (mkBuf [] [] 0 0 (n - 1)) st = (Ok b, st) /\ ob_text b = Z_str n.
Proof.
  intros Hv Hd He Hn. rewrite run_str_S. unfold mbind, lift. unfold set_file_line. cbn [ob_map rev].
  rewrite run_preproc_eq, Hv. cbn [ob_text ob_map ob_line ob_off ob_begin app].
  replace (n - 1 + 0 - 0)%Z with (n - 1)%Z by lia.
  assert (P : pp_parse l $"`__LINE__" = pp_parse SV2012 $"`__LINE__") by (destruct l; reflexivity). rewrite P. clear P.
  let x := eval vm_compute in (pp_parse SV2012 $"`__LINE__") in change (pp_parse SV2012 $"`__LINE__") with x. cbv beta iota.
  cbn [visit_texts visit_text]. unfold visit_call, mbind, lift, ret.
  erewrite line_law; [|exact Hd|exact He|reflexivity|cbn [ob_begin]; lia]. cbn [mc_tok tk_line ob_begin].
  unfold set_line, lines_to_add. cbn [ob_line ob_off ob_begin ob_map rev app]. unfold line0. change (Z.of_nat 1 - 1)%Z with 0%Z. rewrite start_line by lia.
  unfold buf_put. cbn [ob_text app]. replace (n - 1 + Z.of_nat 1)%Z with n by lia. eexists. split; reflexivity.
Qed.
Lemma line_in_macro fuel l fs src m out st e : is_verilog l = true ->
  expand_call l src m out (ps_db st) = Ok $"`__LINE__" -> db_find (ps_db st) $"__LINE__" = Some e -> e_def e = MLine ->
  length (ps_mstack st) < 128 -> 1 <= tk_line (mc_tok m) -> (0 <= ob_begin out)%Z -> (ob_begin out + Z.of_nat (tk_line (mc_tok m)) < 2 ^ 62)%Z ->
  call_text l (run_str (S fuel) l fs) src m out st = (Ok (Z_str (ob_begin out + Z.of_nat (tk_line (mc_tok m)))), st).
Proof.
  intros Hv E Hd He Hs H1 H2 H3. set (n := (ob_begin out + Z.of_nat (tk_line (mc_tok m)))%Z) in *.
  set (st1 := set_mstack st (ps_mstack st ++ [call_name (mc_tok m)])).
  destruct (line_rescan fuel l fs n st1 e Hv Hd He ltac:(lia)) as (b & R & T).
  unfold call_text, mbind, get, modify, lift, ret. rewrite E. change (find [bt] $"`__LINE__") with (Some 0). cbv beta iota.
  unfold max_macro_call_stack_size. destruct (Nat.leb_spec 128 (length (ps_mstack st))); [lia|].
  fold n st1. unfold new_buf. destruct (Z.ltb_spec (n - 1) 0); [lia|]. rewrite R.
  assert (ST : set_mstack st1 (removelast (ps_mstack st1)) = st).
  { destruct st as [d inc ist ms]. unfold st1, set_mstack. cbn [ps_db ps_incdirs ps_mstack]. rewrite removelast_last. reflexivity. }
  rewrite ST, T. destruct (lang_ge l SV2005); [|reflexivity]. rewrite unescape_spec, no_bt_unquote; [reflexivity|].
  apply digit_no_bt, Z_str_digits. lia.
Qed.
