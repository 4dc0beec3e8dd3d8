(** C99: the macros that the user gives through preproc_macro_db are used in the sources as if they were defined before the
    first line, in every file that is read afterwards. *)
From Verif Require Import Base BaseFacts StrSpec AstModel LitModel StmModel OutBufferModel MacroDefModel MacroSpec MacroSubstProofs PpArgSpec PpModel PpSpec PpDbProofs PpSrcSpec PpSrcRunProofs PpSrcWfTac ApiModel.
From Verif Require StrUtilsProofs.
From Verif Require Import PyDbModel PyDbSpec PyGivenModel PyDbProofs PyGivenSpec PyGivenProofs.
From Verif Require Import SvExprModel SvStmModel SvTypeModel SvDeclModel SvTfModel SvGenModel SvFileModel SvFileProofs SvDeclProofs SvTextProofs ConvertModel ConvertSpec ConvertAllSpec VhdlLexSpec SvLexSpec SvSpellSpec SvModSyntaxModel SvModSyntaxSpec SvModSpellSpec SvSyntaxModel SvSyntaxSpec SvStmSyntaxModel SvStmSyntaxSpec SvStmSpellSpec P_C83 P_C86 P_C97.

(** update of the new database with texts that could stand behind `define: from then on exactly these macros are given. *)
Theorem C99_update (l : list (str * str)) : NoDup (map fst l) -> Forall (fun p => dbody (snd p)) l ->
  exists s d, run_ops db0 [update_with l] = Ok (s, [RUnit]) /\ define_db s = Ok d /\ uniq d /\ given_by (as_defined l) d.
Proof. intros N F. apply given_python; [exact N|]. eapply Forall_impl; [|exact F]. intros p B. exact (dbody_inside _ B None ltac:(discriminate) ltac:(discriminate)). Qed.
Print Assumptions C99_update.
(** The same after any history of operations that C48 covers: the macros given are those that the dict of C48 holds at the
    end, with their parameters and the default values. *)
Theorem C99_history (ops : list op) : history world0 ops ->
  exists s rs d, run_ops db0 ops = Ok (s, rs) /\ define_db s = Ok d /\ uniq d /\ given_by (held (fst (dict_run world0 ops))) d.
Proof. exact (given_history ops). Qed.
Print Assumptions C99_history.
(** Every source that has a meaning with these macros is preprocessed into exactly that text, from a string and from a file. *)
Theorem C99_preprocessed_partial (ops : list op) (v : lang) (fs : str -> option str) (dirs : list str) (p : items) (out : str) :
  history world0 ops -> PpModel.is_verilog v = true ->
  wf p [] -> meaning_with (lang_ge v SV2005) (held (fst (dict_run world0 ops))) p out -> (Z.of_nat (1 + lines (PpSrcSpec.render p)) < 2 ^ 61)%Z ->
  exists s rs d, run_ops db0 ops = Ok (s, rs) /\ define_db s = Ok d
    /\ (exists b st, verilog_pp_str v fs d dirs (PpSrcSpec.render p) = (Ok b, st) /\ ob_text b = out)
    /\ forall file, fs file = Some (PpSrcSpec.render p) -> exists b st, verilog_pp_file v fs d dirs file = (Ok b, st) /\ ob_text b = out.
Proof.
  intros H V W M L. destruct (C99_history ops H) as (s & rs & d & R & D & _ & G). exists s, rs, d. split; [exact R|split; [exact D|]]. split.
  - exact (source_meaning_with v fs d dirs _ p out V G W M L).
  - intros file E. exact (source_meaning_file_with v fs d dirs file _ p out V G E W M L).
Qed.
Print Assumptions C99_preprocessed_partial.

Definition gives_macros (e : macros) (d : db) : Prop := uniq d /\ given_by e d.
Lemma gives_after e d d' : gives_macros e d -> uniq d' -> delete_non_persistent d' = delete_non_persistent d -> gives_macros e d'.
Proof. intros [_ G] U E. split; [exact U|]. unfold given_by in *. rewrite E. exact G. Qed.
Lemma file_after v fs d dirs file e : gives_macros e d -> gives_macros e (ps_db (snd (verilog_pp_file v fs d dirs file))).
Proof.
  intros G. destruct (persistent_survive_file v fs d dirs file (proj1 G)) as (E & _). apply (gives_after e d); [exact G| |exact E].
  pose proof (proj2 (sp_all v fs d dirs) file) as SP. unfold same_persistent in SP. destruct (verilog_pp_file v fs d dirs file) as [o st]. exact (proj1 (SP (uniq_init v d dirs (proj1 G)))).
Qed.
Lemma str_after v fs d dirs t e : gives_macros e d -> gives_macros e (ps_db (snd (verilog_pp_str v fs d dirs t))).
Proof.
  intros G. destruct (persistent_survive v fs d dirs t (proj1 G)) as (E & _). apply (gives_after e d); [exact G| |exact E].
  pose proof (proj1 (sp_all v fs d dirs) t) as SP. unfold same_persistent in SP. destruct (verilog_pp_str v fs d dirs t) as [o st]. exact (proj1 (SP (uniq_init v d dirs (proj1 G)))).
Qed.
Lemma conv_split f g objs : conv_source (f ++ g) = Ok objs -> exists o1 o2, conv_source f = Ok o1 /\ conv_source g = Ok o2 /\ objs = o1 ++ o2.
Proof.
  revert objs. induction f as [|x f IH]; intros objs C; [exists [], objs; repeat split; exact C|]. cbn [app] in C. unfold conv_source in C. rewrite concat_cons in C. apply bind_inv in C as (a & Ha & C). apply bind_inv in C as (b & Hb & C). injection C as <-.
  destruct (IH b Hb) as (o1 & o2 & E1 & E2 & ->). exists (a ++ o1), o2. split; [unfold conv_source; rewrite concat_cons, Ha; cbn [bind]; unfold conv_source in E1; rewrite E1; reflexivity|split; [exact E2|apply app_assoc]].
Qed.
(** parse: the objects of all files, each read with the macros of the user.  The macros stay for the next call. *)
Theorem C99_files_partial (vs : str -> list report) (vv : bool -> str -> list fobj * option exn) (h : bool) (e : macros)
  (v : lang) (fs : str -> option fentry) (enc : str) (dirs : list str) (files : list str) (fl : list (list description)) (d : db) (ctx objs : list fobj) :
  PpModel.is_verilog v = true -> files <> [] -> gives_macros e d ->
  Forall2 (fun file f => exists text, fs file = Some (FFile text) /\ verilog_source_with e v text f) files fl -> conv_source (List.concat fl) = Ok objs ->
  exists d', py_parse fobj vs vv sv_errors sv_objects v h fs enc dirs files d ctx = (Ok (ctx ++ objs), ctx ++ objs, d') /\ gives_macros e d'.
Proof.
  intros V NF G F C. enough (K : exists os d', verilog_files_whole v fs dirs d files os d' /\ objs = List.concat os /\ gives_macros e d').
  { destruct K as (os & d' & W & -> & G'). exists d'. split; [|exact G']. apply C97_verilog_files; [exact V|exact NF|]. exists os. split; [exact W|split; reflexivity]. }
  clear NF ctx. revert d objs G C. induction F as [|file f files fl (text & E & S) _ IH]; intros d objs G C.
  - injection C as <-. exists [], d. split; [constructor|split; [reflexivity|exact G]].
  - cbn [List.concat] in C. apply conv_split in C as (o1 & o2 & C1 & C2 & ->). destruct S as [p out ps ts f' HW HM HL P S W].
    destruct (source_meaning_file_with v (pp_fs fs) d dirs file e p out V (proj2 G)) as (b & st & R & T); [unfold pp_fs; rewrite E; reflexivity|exact HW|exact HM|exact HL|].
    pose proof (file_after v (pp_fs fs) d dirs file e G) as G1. rewrite R in G1. destruct (IH _ _ G1 C2) as (os & d' & W' & -> & G').
    exists (o1 :: os), d'. split; [|split; [reflexivity|exact G']]. apply (vw_cons v fs dirs d file b st o1); [congruence|exact R| |exact W']. exists f'. split; [rewrite T; exact (tree_of v ps out ts f' P S W)|exact C1].
Qed.
Print Assumptions C99_files_partial.
Theorem C99_text_partial (vs : str -> list report) (vv : bool -> str -> list fobj * option exn) (h : bool) (e : macros)
  (v : lang) (fs : str -> option fentry) (enc : str) (dirs : list str) (text : str) (f : list description) (d : db) (ctx objs : list fobj) :
  PpModel.is_verilog v = true -> text <> [] -> gives_macros e d -> verilog_source_with e v text f -> conv_source f = Ok objs ->
  exists d', py_parse_str fobj vs vv sv_errors sv_objects v h fs enc dirs text d ctx = (Ok (ctx ++ objs), ctx ++ objs, d') /\ gives_macros e d'.
Proof.
  intros V NT G S C. destruct S as [p out ps ts f' HW HM HL P S W]. destruct (source_meaning_with v (pp_fs fs) d dirs e p out V (proj2 G) HW HM HL) as (b & st & R & T).
  exists (ps_db st). split; [|pose proof (str_after v (pp_fs fs) d dirs (PpSrcSpec.render p) e G) as G1; rewrite R in G1; exact G1].
  apply C97_verilog_text; [exact V|exact NT|]. exists b, st, objs. split; [exact R|]. split; [exists f'; split; [rewrite T; exact (tree_of v ps out ts f' P S W)|exact C]|repeat split].
Qed.
Print Assumptions C99_text_partial.

(** From the first operation in Python to the objects: any history of the database, then parse of any files, then parse_str. *)
Theorem C99_python_partial (vs : str -> list report) (vv : bool -> str -> list fobj * option exn) (h : bool) (ops : list op)
  (v : lang) (fs : str -> option fentry) (enc : str) (dirs : list str) (files : list str) (fl : list (list description))
  (text : str) (f : list description) (objs objs' : list fobj) : let e := held (fst (dict_run world0 ops)) in
  history world0 ops -> PpModel.is_verilog v = true -> files <> [] -> text <> [] ->
  Forall2 (fun file f => exists text, fs file = Some (FFile text) /\ verilog_source_with e v text f) files fl -> conv_source (List.concat fl) = Ok objs ->
  verilog_source_with e v text f -> conv_source f = Ok objs' ->
  exists s rs d d1 d2, run_ops db0 ops = Ok (s, rs) /\ define_db s = Ok d
    /\ py_parse fobj vs vv sv_errors sv_objects v h fs enc dirs files d [] = (Ok objs, objs, d1)
    /\ py_parse_str fobj vs vv sv_errors sv_objects v h fs enc dirs text d1 objs = (Ok (objs ++ objs'), objs ++ objs', d2)
    /\ gives_macros e d2.
Proof.
  intros e H V NF NT F C S C'. destruct (C99_history ops H) as (s & rs & d & R & D & U & G).
  destruct (C99_files_partial vs vv h e v fs enc dirs files fl d [] objs V NF (conj U G) F C) as (d1 & P1 & G1).
  destruct (C99_text_partial vs vv h e v fs enc dirs text f d1 objs objs' V NT G1 S C') as (d2 & P2 & G2).
  exists s, rs, d, d1, d2. auto 10.
Qed.
Print Assumptions C99_python_partial.

(** ** c.preproc_macro_db.update({"VAL": "8", "REAL": ""}) and then
       `ifndef REAL
       module sim; endmodule
       `else
       module m; wire w; assign w = `VAL; endmodule
       `endif *)
Definition user : list (str * str) := [($"VAL", $"8"); ($"REAL", $"")].
Definition user_source : items :=
  Cons (IIf true (One [sp] $"REAL" (Cons (chars ([nl] ++ $"module sim; endmodule" ++ [nl])) Nil))
             (Else (SEol Lf) (Cons (chars $"module m; wire w; assign w = ") (Cons (ICall $"VAL" None) (Cons (chars ($"; endmodule" ++ [nl])) Nil)))) (SEol Lf)) Nil.
Lemma with_is sv e p o out : meaning_with sv e p o -> o = out -> meaning_with sv e p out.
Proof. intros H <-. exact H. Qed.
Example C99_ex_source : verilog_source_with (as_defined user) SV2012 (PpSrcSpec.render user_source) one_file
  /\ PpSrcSpec.render user_source = $"`ifndef REAL" ++ [nl] ++ $"module sim; endmodule" ++ [nl] ++ $"`else" ++ [nl] ++ $"module m; wire w; assign w = `VAL; endmodule" ++ [nl] ++ $"`endif" ++ [nl].
Proof.
  split; [|reflexivity]. apply (a_source_with _ SV2012 user_source ([nl; nl; nl] ++ demo_out) (G_white [nl; nl; nl] :: one_parts) one_toks).
  - unfold user_source. cbn [wf wf_item wf_branches wf_else chars]. wf_source. intros _. do 3 eexists. reflexivity.
  - unfold user_source, chars, user, as_defined. cbn [map fst snd]. eapply with_is; [eexists _, _; evs|]. + use_plain (Cons (IText [PChar "8"%char]) Nil); reflexivity. + vm_compute. reflexivity.
  - reflexivity.
  - unfold plain_verilog, one_parts, demo_out. cbn [app s2l list_ascii_of_string]. repeat step.
  - unfold spelled_mod, one_toks, one_parts. cbn [elems app]. repeat (apply Forall2_cons; [cbn [spells_mtk spells_stk kw_text mkw_text]; first [reflexivity | solve [split; [reflexivity|sign_ok]] | solve [split; [reflexivity|split; sign_ok]] | (cbn [spells]; split; [reflexivity|split; [not_in|discriminate]])]|]). apply Forall2_nil.
  - refine (eq_ind _ (is_file one_file) _ one_toks _); [unfold one_file; apply w_f_cons; [|apply w_f_nil]|].
    + eapply (w_md true _ _ _ None); [apply (w_hd m_module); [left; reflexivity|apply w_pl_none|apply w_po_none]| |left; reflexivity].
      apply w_it_top; [apply w_tp_item; [exact Logic.I|]; apply w_g_leaf; apply w_l_net; [apply w_ot_none|]; apply wc_one; apply (w_ni _ [] None); [constructor|exact Logic.I]|].
      apply w_it_top; [apply w_tp_item; [exact Logic.I|]; apply w_g_leaf; apply w_l_assign; apply w_in_one; [good_lv|good_e]|apply w_it_nil].
    + reflexivity.
Qed.
(** The database of Python with these macros, and two files with this source: two modules m, and the macros are still there. *)
Definition user_files (f : str) : option fentry := if existsb (seqb f) [ $"a.v"; $"b.v" ] then Some (FFile (PpSrcSpec.render user_source)) else None.
Example C99_ex (vs : str -> list report) (vv : bool -> str -> list fobj * option exn) (h : bool) :
  exists s d d' o, run_ops db0 [update_with user] = Ok (s, [RUnit]) /\ define_db s = Ok d
    /\ py_parse fobj vs vv sv_errors sv_objects SV2012 h user_files $"utf-8" [] [ $"a.v"; $"b.v" ] d [] = (Ok [o; o], [o; o], d') /\ gives_macros (as_defined user) d'
    /\ match o with FO_def d [FO_id w; FO_other _ _ (SO_stm _)] => md_name d = $"m" /\ d_name w = $"w" | _ => False end.
Proof.
  destruct (C99_update user) as (s & d & R & D & U & G).
  - repeat constructor; cbn; intuition discriminate.
  - repeat apply Forall_cons; try apply Forall_nil; apply body_plain; reflexivity.
  - destruct (conv_source one_file) as [os| | |] eqn:E; try discriminate E. assert (C : conv_source (List.concat [one_file; one_file]) = Ok (match conv_source (List.concat [one_file; one_file]) with Ok o => o | _ => [] end)) by reflexivity.
    destruct (C99_files_partial vs vv h (as_defined user) SV2012 user_files $"utf-8" [] [ $"a.v"; $"b.v" ] [one_file; one_file] d [] _ eq_refl ltac:(discriminate) (conj U G)
      ltac:(repeat (apply Forall2_cons; [eexists; split; [reflexivity|exact (proj1 C99_ex_source)]|]); apply Forall2_nil) C) as (d' & P & G').
    exists s, d, d'. eexists. split; [exact R|split; [exact D|]]. split; [exact P|]. split; [exact G'|]. vm_compute. split; reflexivity.
Qed.
(** Macros that were overwritten, deleted or never stored are not given. *)
Definition some_ops : list op :=
  [OSetItem $"VAL" (PText $"9"); OSetItem $"TMP" (PText $"x"); ONew $"F" (Some [($"a", Some $"1"); ($"b", Some $"2")]) (Some $"a + b"); ODel $"TMP"; OUpdate [($"VAL", PText $"8"); ($"G", PMacro 2)]; OLen].
Example C99_ex_history : history world0 some_ops /\ held (fst (dict_run world0 some_ops)) = [($"VAL", (None, $"8")); ($"G", (Some [($"a", Some $"1"); ($"b", Some $"2")], $"a + b"))].
Proof.
  split; [|reflexivity].
  cbn -[terminated]. repeat split; try (intro; discriminate); try (unfold terminated; vm_compute; discriminate); try lia; try (intros [|[]]; discriminate).
  - repeat (apply Forall_cons || apply Forall_nil); (split; [discriminate|]); eexists _, []; (split; [reflexivity|split; [reflexivity|constructor]]).
  - repeat constructor; cbn; intuition discriminate.
  - intros a k' E. injection E as <-. unfold dget. cbn [List.find fst]. destruct (seqb _ k'); [intros J; discriminate J|]. destruct (seqb _ k') eqn:Q; [|intros J; discriminate J]. intros _. symmetry. apply seqb_eq. exact Q.
  - cbn. lia.
Qed.
(** `G( x ) with these macros, read as Verilog 2001: the second parameter has its default value. *)
Definition use_G : items := Cons (ICall $"G" (Some [ $" x " ])) (Cons (chars [nl]) Nil).
Example C99_ex_defaults : PpSrcSpec.render use_G = $"`G( x )" ++ [nl] /\ wf use_G []
  /\ meaning_with false (held (fst (dict_run world0 some_ops))) use_G ($"x + 2" ++ [nl]).
Proof.
  split; [reflexivity|]. split.
  - unfold use_G, chars. cbn [wf wf_item]. wf_source.
  - rewrite (proj2 C99_ex_history). unfold use_G, chars. eapply with_is; [eexists _, _; evs|].
    + exists (Some [($"a", Some $"1"); ($"b", Some $"2")]), $"a + b", $"x + 2", (Cons (IText (map PChar $"x + 2")) Nil). split; [reflexivity|]. split.
      * exists [ $"x" ], [ $"x"; $"2" ]. split; [exact (trims [ $" x " ])|]. split; [repeat split|]. split; vm_compute; reflexivity.
      * split; [reflexivity|]. split; [cbn [wf wf_item]; wf_source|]. split; [no_bt|]. split; [scs|]. split; reflexivity.
    + vm_compute. reflexivity.
Qed.
(** A macro with a default value in a whole source: VAL(a) with the default 8 and the text a, used as `VAL(). *)
Definition default_ops : list op := [ONew $"VAL" (Some [($"a", Some $"8")]) (Some $"a"); OUpdate [($"VAL", PMacro 0); ($"REAL", PNone)]].
Definition default_source : items :=
  Cons (IIf true (One [sp] $"REAL" (Cons (chars ([nl] ++ $"module sim; endmodule" ++ [nl])) Nil))
             (Else (SEol Lf) (Cons (chars $"module m; wire w; assign w = ") (Cons (ICall $"VAL" (Some [ [] ])) (Cons (chars ($"; endmodule" ++ [nl])) Nil)))) (SEol Lf)) Nil.
Lemma default_held : held (fst (dict_run world0 default_ops)) = [($"VAL", (Some [($"a", Some $"8")], $"a")); ($"REAL", (None, []))].
Proof. reflexivity. Qed.
Lemma default_history : history world0 default_ops.
Proof.
  cbn -[terminated]. repeat split; try (intro; discriminate); try (unfold terminated; vm_compute; discriminate); try lia; try (intros [|[]]; discriminate).
  - apply Forall_cons; [|apply Forall_nil]. split; [discriminate|]. eexists _, []. split; [reflexivity|split; [reflexivity|constructor]].
  - repeat constructor. intros [].
  - cbn. lia.
  - intros [].
Qed.
Example C99_ex_default_source : verilog_source_with (held (fst (dict_run world0 default_ops))) SV2012 (PpSrcSpec.render default_source) one_file
  /\ PpSrcSpec.render default_source = $"`ifndef REAL" ++ [nl] ++ $"module sim; endmodule" ++ [nl] ++ $"`else" ++ [nl] ++ $"module m; wire w; assign w = `VAL(); endmodule" ++ [nl] ++ $"`endif" ++ [nl].
Proof.
  split; [|reflexivity]. apply (a_source_with _ SV2012 default_source ([nl; nl; nl] ++ demo_out) (G_white [nl; nl; nl] :: one_parts) one_toks).
  - unfold default_source. cbn [wf wf_item wf_branches wf_else chars]. wf_source. intros _. do 3 eexists. reflexivity.
  - rewrite default_held. unfold default_source, chars. eapply with_is; [eexists _, _; evs|].
    + exists (Some [($"a", Some $"8")]), $"a", $"8", (Cons (IText [PChar "8"%char]) Nil). split; [reflexivity|]. split.
      * exists [ [] ], [ $"8" ]. split; [exact (trims [ [] ])|]. split; [repeat split|]. split; vm_compute; reflexivity.
      * split; [destruct (StrUtilsProofs.replace_substring_total $"8" [bt; bt] [] ltac:(discriminate)) as (u & E & R & _); injection E as <-; destruct (StrUtilsProofs.replace_substring_total $"8" [bt; bs; bt] [bs] ltac:(discriminate)) as (v & E & R2 & _); injection E as <-; exists $"8"; split; [exact R|exact R2]|].
        split; [cbn [wf wf_item]; wf_source|]. split; [no_bt|]. split; [scs|]. split; reflexivity.
    + vm_compute. reflexivity.
  - reflexivity.
  - unfold plain_verilog, one_parts, demo_out. cbn [app s2l list_ascii_of_string]. repeat step.
  - unfold spelled_mod, one_toks, one_parts. cbn [elems app]. repeat (apply Forall2_cons; [cbn [spells_mtk spells_stk kw_text mkw_text]; first [reflexivity | solve [split; [reflexivity|sign_ok]] | solve [split; [reflexivity|split; sign_ok]] | (cbn [spells]; split; [reflexivity|split; [not_in|discriminate]])]|]). apply Forall2_nil.
  - refine (eq_ind _ (is_file one_file) _ one_toks _); [unfold one_file; apply w_f_cons; [|apply w_f_nil]|].
    + eapply (w_md true _ _ _ None); [apply (w_hd m_module); [left; reflexivity|apply w_pl_none|apply w_po_none]| |left; reflexivity].
      apply w_it_top; [apply w_tp_item; [exact Logic.I|]; apply w_g_leaf; apply w_l_net; [apply w_ot_none|]; apply wc_one; apply (w_ni _ [] None); [constructor|exact Logic.I]|].
      apply w_it_top; [apply w_tp_item; [exact Logic.I|]; apply w_g_leaf; apply w_l_assign; apply w_in_one; [good_lv|good_e]|apply w_it_nil].
    + reflexivity.
Qed.
Example C99_ex_python (vs : str -> list report) (vv : bool -> str -> list fobj * option exn) (h : bool) :
  let fs f := if seqb f $"a.v" then Some (FFile (PpSrcSpec.render default_source)) else None in
  exists s rs d d1 d2 o, run_ops db0 default_ops = Ok (s, rs) /\ define_db s = Ok d
    /\ py_parse fobj vs vv sv_errors sv_objects SV2012 h fs $"utf-8" [] [ $"a.v" ] d [] = (Ok [o], [o], d1)
    /\ py_parse_str fobj vs vv sv_errors sv_objects SV2012 h fs $"utf-8" [] (PpSrcSpec.render default_source) d1 [o] = (Ok [o; o], [o; o], d2)
    /\ match o with FO_def d [FO_id w; FO_other _ _ (SO_stm _)] => md_name d = $"m" /\ d_name w = $"w" | _ => False end.
Proof.
  intros fs. destruct (conv_source one_file) as [os| | |] eqn:E; try discriminate E. assert (C : conv_source (List.concat [one_file]) = Ok (match conv_source one_file with Ok o => o | _ => [] end)) by reflexivity.
  destruct (C99_python_partial vs vv h default_ops SV2012 fs $"utf-8" [] [ $"a.v" ] [one_file] (PpSrcSpec.render default_source) one_file _ _ default_history eq_refl ltac:(discriminate) ltac:(discriminate)
    ltac:(repeat (apply Forall2_cons; [eexists; split; [reflexivity|exact (proj1 C99_ex_default_source)]|]); apply Forall2_nil) C (proj1 C99_ex_default_source) C) as (s & rs & d & d1 & d2 & R & D & P1 & P2 & _).
  exists s, rs, d, d1, d2. eexists. split; [exact R|split; [exact D|]]. split; [exact P1|]. split; [exact P2|]. vm_compute. split; reflexivity.
Qed.
