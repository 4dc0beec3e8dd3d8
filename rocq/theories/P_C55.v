(** C55: legal string literals are accepted. *)
From Verif Require Import Base BaseFacts OutBufferModel PpLexerModel PpParserModel MacroDefModel PpModel PpSpec PpCallProofs StrUtilsModel StrUtilsProofs PpLimitProofs StrSpec PpArgSpec PpSrcSpec PpSrcBodyProofs PpSrcParseProofs PpSrcTreeProofs PpSrcRunProofs PpSrcWfTac.

Definition fs55 : fsys := fun _ => None.
(** Each of the two literals is accepted alone; a literal that ends with an escaped backslash
    followed by another literal is not. *)
Theorem C55_text_refuted :
  text_of (verilog_pp_str SV2012 fs55 [] [] $"a = ""\\"";") = Ok $"a = ""\\"";" /\
  text_of (verilog_pp_str SV2012 fs55 [] [] $"b = ""c"";") = Ok $"b = ""c"";" /\
  text_of (verilog_pp_str SV2012 fs55 [] [] $"a = ""\\"", b = ""c"";") = Throw syntax_error.
Proof. vm_compute. repeat split; reflexivity. Qed.
Theorem C55_body_refuted :
  text_of (verilog_pp_str SV2012 fs55 [] [] ($"`define A ""x\\""" ++ [nl] ++ $"`A"))
  = Throw (ParseException $"<string>:1:1:Error: Unfinished string in definition of macro A.").
Proof. vm_compute. reflexivity. Qed.
Theorem C55_slashes_refuted :
  text_of (verilog_pp_str SV2012 fs55 [] [] ($"`define A `""http://x`""" ++ [nl] ++ $"`A"))
  = Throw (ParseException $"Unfinished `"" string").
Proof. vm_compute. reflexivity. Qed.
Print Assumptions C55_text_refuted.
Print Assumptions C55_body_refuted.
Print Assumptions C55_slashes_refuted.

(** ** What holds *)
(** Text without directives, with any number of string literals in it, is copied unchanged if no
    literal ends with an escaped backslash ([piece_ok]). *)
Theorem C55_text_partial : forall l fs d dirs ps,
  is_verilog l = true -> Forall (fun x => e_persistent (snd x) = false) d ->
  ps <> [] -> Forall piece_ok ps -> (Z.of_nat (1 + lines (text_of_pieces ps)) < 2 ^ 61)%Z ->
  exists b st, verilog_pp_str l fs d dirs (text_of_pieces ps) = (Ok b, st) /\ ob_text b = text_of_pieces ps.
Proof.
  intros l fs d dirs ps HL HD HN HP HZ. assert (R : render (Cons (IText ps) Nil) = text_of_pieces ps) by (cbn [render render_item]; apply app_nil_r).
  rewrite <- R. apply source_meaning; try assumption.
  - cbn [wf wf_item render app]. split; [|exact I]. split; [exact HN|]. split; [exact HP|]. left. reflexivity.
  - meaning_of. unfold catch_up. cbn [Nat.leb Nat.sub andb repeat app]. rewrite R, app_nil_r. reflexivity.
  - rewrite R. exact HZ.
Qed.
Print Assumptions C55_text_partial.

(** The same for a literal that is the body of a macro, if it contains no backtick. *)
Theorem C55_body_partial : forall l fs d dirs n b,
  is_verilog l = true -> Forall (fun x => e_persistent (snd x) = false) d ->
  macro_name n -> string_body b -> no_final_bs b -> ~ In bt b ->
  exists buf st, verilog_pp_str l fs d dirs ($"`define " ++ n ++ [sp] ++ (dq :: b ++ [dq]) ++ [nl] ++ bt :: n) = (Ok buf, st)
    /\ ob_text buf = [nl] ++ dq :: b ++ [dq].
Proof.
  intros l fs d dirs n b HL HD HN H1 H2 H3. set (body := dq :: b ++ [dq]). set (p := Cons (IDef [sp] n None [sp] body [] None Lf) (Cons (ICall n None) Nil)).
  assert (RI : render_item (IDef [sp] n None [sp] body [] None Lf) = $"`define " ++ n ++ [sp] ++ body ++ [nl]) by reflexivity.
  assert (R : render p = $"`define " ++ n ++ [sp] ++ body ++ [nl] ++ bt :: n).
  { cbn [p render]. rewrite RI. cbn [render_item args_text]. rewrite !app_nil_r, <- !app_assoc. reflexivity. }
  assert (LB : lines body = 0).
  { apply no_nl_count. intros [Q|Q]; [discriminate|]. apply in_app_or in Q as [Q|[Q|[]]]; [exact (string_body_nl b H1 Q)|discriminate]. }
  assert (LN : lines n = 0) by (apply ident_nl, HN).
  assert (L1 : lines (render_item (IDef [sp] n None [sp] body [] None Lf)) = 1).
  { rewrite RI, !lines_app, LB, LN. reflexivity. }
  assert (NB : ~ In bt body) by (intros [Q|Q]; [discriminate|]; apply in_app_or in Q as [Q|[Q|[]]]; [auto|discriminate]).
  rewrite <- R. apply source_meaning; try assumption.
  - unfold p. cbn [wf wf_item]. split; [|split; [|exact I]].
    + split; [split; [discriminate|repeat constructor]|]. split; [exact HN|]. split; [exact I|]. split; [repeat constructor|]. split; [discriminate|].
      split; [rewrite <- (app_nil_r body); exact (db_str [] b [] ltac:(apply code_part_ok; reflexivity) H1 H2 H3 (body_plain [] eq_refl))|]. split; [discriminate|].
      split; [intros (c & t & E & [-> | ->]); discriminate|]. split; [|split; [constructor|exact I]].
      intros (c & t & E & Hc). change body with ((dq :: b) ++ [dq]) in E. apply app_inj_tail in E as [_ E]. subst c. destruct Hc; discriminate.
    + split; [exact HN|]. split; [intros c t E; discriminate|]. intros [|? ?] ? _ E; discriminate.
  - eapply meaning_is; [eexists _, _; unfold p; eapply ev_cons; [apply ev_def; reflexivity|]; eapply ev_cons; [|apply ev_nil]; eapply ev_call|].
    + set (q := Cons (IText [PStr b]) Nil). assert (RQ : render q = body) by (cbn [q render render_item]; unfold text_of_pieces; cbn [map List.concat piece_text]; rewrite !app_nil_r; reflexivity).
      change max_depth with (S 128). eapply (expands_plain _ _ _ _ _ body q); [cbn [body_of option_map]; rewrite seqb_refl; reflexivity| | | | | |].
      * rewrite RQ. destruct (lang_ge l SV2005); [|reflexivity]. rewrite (replace_substring_absent body); [|discriminate|apply no_bt_occurs; [cbn; tauto|exact NB]]. cbn [bind]. apply replace_substring_absent; [discriminate|apply no_bt_occurs; [cbn; tauto|exact NB]].
      * cbn [wf wf_item q]. split; [|exact I]. split; [discriminate|]. split; [constructor; [exact (conj H1 H2)|constructor]|left; reflexivity].
      * cbn [q texts_and_calls]. split; [|exact I]. unfold text_of_pieces. cbn [map List.concat piece_text]. rewrite app_nil_r. exact NB.
      * unfold q. eapply sc_text. apply sc_nil.
      * unfold handy. rewrite RQ. change (count_nl body) with (lines body). rewrite LB. reflexivity.
      * unfold handy. rewrite catch_up_same. unfold text_of_pieces. cbn [map List.concat piece_text app]. rewrite !app_nil_r. change (dq :: b ++ [dq]) with body. change (count_nl body) with (lines body). rewrite LB. reflexivity.
    + rewrite L1. unfold text_of_pieces. cbn [map List.concat piece_text catch_up Nat.leb Nat.sub andb repeat app Nat.add]. rewrite !app_nil_r. reflexivity.
  - rewrite R, !lines_app. change (bt :: n) with ([bt] ++ n). rewrite lines_app, LN, LB. reflexivity.
Qed.
Print Assumptions C55_body_partial.
Example C55_example : exists b st, verilog_pp_str SV2012 fs55 [] [] $"a = ""x\\\""y//`z"" /* "" */ + ""\n"";" = (Ok b, st) /\ ob_text b = $"a = ""x\\\""y//`z"" /* "" */ + ""\n"";".
Proof.
  apply (C55_text_partial SV2012 fs55 [] [] (map PChar $"a = " ++ [PStr $"x\\\""y//`z"; PChar sp; PBlock $" "" "] ++ map PChar $" + " ++ [PStr $"\n"; PChar ";"%char])); try reflexivity; [constructor|discriminate|].
  repeat (apply Forall_cons; [try nope|]); try apply Forall_nil; try split.
  - constructor; try discriminate. apply sb_pair; try discriminate. apply sb_pair; try discriminate. repeat (constructor; try discriminate).
  - intros t E. apply (f_equal (@rev ascii)) in E. rewrite rev_app_distr in E. discriminate.
  - intros (a & b & E). do 3 (destruct a as [|? a]; [discriminate|injection E as _ E]). destruct a; discriminate.
  - apply sb_pair; try discriminate. constructor.
  - intros t E. apply (f_equal (@rev ascii)) in E. rewrite rev_app_distr in E. discriminate.
Qed.
