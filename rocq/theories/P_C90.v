(** C90: from VHDL files to Python objects.  [tells_file p l] (PyObjSpec.v): the attributes of the Python object p are those of the AST l; [seen_obj] (PySeenSpec.v): what of an AST
    reaches Python. *)
From Verif Require Import Base BaseFacts StrSpec AstModel StmModel LitModel SvExprModel SvExprSpec SvDeclModel VhdlExprModel VhdlExprSpec VhdlStmModel VhdlStmSpec VhdlDeclModel VhdlDeclSpec VhdlFileSpec VhdlWholeSpec VhdlWholeProofs VhdlHierProofs.
From Verif Require Import PyModel PySpec PyObjModel PyObjSpec PyObjProofs PyTreeModel PySeenSpec PySeenProofs VhdlTextSpec VhdlPyProofs3 VhdlWordsProofs VhdlPrintProofs.
From Verif Require Import EncodingModel OutBufferModel PpModel ApiModel VhdlSyntaxModel VhdlUnitSyntaxModel ConvertVhdlModel ConvertVhdlSpec ConvertPyModel VhdlStmDemo P_C68 P_C74 P_C87 P_C88 P_C89.
Import PySpec PyObjModel PyObjSpec.

Lemma shown objs ctx l : Forall printable (file_words l) -> forallb readable_obj (map of_hobj ctx) = true -> conv_file false (map norm_dunit l) = Ok objs ->
  exists p, py_context (map of_hobj (ctx ++ objs)) = Ok p /\ tells_file p (map seen_obj (map of_hobj (ctx ++ objs))).
Proof.
  intros W R C. apply file_seen. rewrite map_app, forallb_app, R. rewrite <- file_norm_w in W. exact (vhdl_readable false _ objs W C).
Qed.
Lemma sources_printable (fs : str -> option fentry) files ls : Forall2 (fun file l => exists text, fs file = Some (FFile text) /\ vhdl_source text l) files ls -> Forall printable (file_words (List.concat ls)).
Proof. induction 1 as [|file l files ls (text & _ & S) _ IH]; [constructor|]. cbn [List.concat]. unfold file_words in *. rewrite flat_map_app. apply Forall_app. split; [exact (source_printable text l S)|exact IH]. Qed.
(** The Python object shows the ASTs that were there before and behind them those of the files, and these have the meaning
    of the design units in the files. *)
Theorem C90_files (sy : lang -> str -> list report) (sv : lang -> bool -> str -> list hobj * option exn)
  (A : halgebra) (M : hmachine A) (fuel : nat) (N : Type)
  (test : VhdlDeclSpec.env N -> HV A -> bool) (range : VhdlDeclSpec.env N -> HV A -> list N) (matches : VhdlDeclSpec.env N -> HV A -> HV A -> bool)
  (fs : str -> option fentry) (enc : str) (dirs : list str) (files : list str) (ls : list (list dunit)) (d : db) (ctx : list hobj) (f : list (umean A M N)) :
  known_encoding enc -> files <> [] -> Forall2 (fun file l => exists text, fs file = Some (FFile text) /\ vhdl_source text l) files ls ->
  whole_file A M fuel (List.concat ls) = true -> s_file A M fuel N test range matches (List.concat ls) = Some f ->
  forallb readable_obj (map of_hobj ctx) = true ->
  exists objs p, parse_to_python sy sv false fs enc dirs files d ctx = (Ok p, ctx ++ objs, d)
    /\ tells_file p (map seen_obj (map of_hobj ctx) ++ map seen_obj (map of_hobj objs))
    /\ exists f', m_file A M fuel N test range matches objs = Some f' /\ Forall2 (usame A M N) f' f.
Proof.
  intros K NF F W H R. pose proof (sources_printable fs files ls F) as P. destruct (normal_total A M fuel _ W) as (objs & C). destruct (C88_meaning_partial sy sv A M fuel N test range matches fs enc dirs files ls d objs ctx f K NF F C H) as [E Q].
  destruct (shown objs ctx _ P R C) as (p & Ep & T). exists objs, p. unfold parse_to_python, shown_to_python. rewrite E. cbn [fst snd bind]. rewrite Ep. split; [reflexivity|split; [|exact Q]]. rewrite !map_app in T. exact T.
Qed.
Print Assumptions C90_files.
Theorem C90_string (sy : lang -> str -> list report) (sv : lang -> bool -> str -> list hobj * option exn)
  (A : halgebra) (M : hmachine A) (fuel : nat) (N : Type)
  (test : VhdlDeclSpec.env N -> HV A -> bool) (range : VhdlDeclSpec.env N -> HV A -> list N) (matches : VhdlDeclSpec.env N -> HV A -> HV A -> bool)
  (fs : str -> option fentry) (enc : str) (dirs : list str) (text : str) (l : list dunit) (d : db) (ctx : list hobj) (f : list (umean A M N)) :
  known_encoding enc -> text <> [] -> vhdl_source text l -> whole_file A M fuel l = true -> s_file A M fuel N test range matches l = Some f ->
  forallb readable_obj (map of_hobj ctx) = true ->
  exists objs p, parse_str_to_python sy sv false fs enc dirs text d ctx = (Ok p, ctx ++ objs, d)
    /\ tells_file p (map seen_obj (map of_hobj ctx) ++ map seen_obj (map of_hobj objs))
    /\ exists f', m_file A M fuel N test range matches objs = Some f' /\ Forall2 (usame A M N) f' f.
Proof.
  intros K NE S W H R. pose proof (source_printable text l S) as P. destruct (normal_total A M fuel _ W) as (objs & C). destruct (shown objs ctx _ P R C) as (p & Ep & T). exists objs, p. split; [|split].
  - destruct (tree_of enc text l K S) as (t & E & TT). unfold parse_str_to_python, shown_to_python, py_parse_str, parse_text, vhdl_parse_str. destruct text as [|c text]; [congruence|]. rewrite E, (run_text $"<string>" false t _ objs ctx TT C). cbn [returned fst snd bind]. rewrite Ep. reflexivity.
  - rewrite !map_app in T. exact T.
  - apply (VhdlFileProofs.file_ok A M fuel N test range matches _ objs f C). rewrite VhdlUnitNormProofs.file_kept. exact H.
Qed.
Print Assumptions C90_string.
(** What the convertor has from an earlier parse of VHDL sources meets the condition on ctx. *)
Theorem C90_earlier (h : bool) (text : str) (l : list dunit) (objs : list hobj) :
  vhdl_source text l -> conv_file h (map norm_dunit l) = Ok objs -> forallb readable_obj (map of_hobj objs) = true.
Proof. intros S C. pose proof (source_printable text l S) as W. rewrite <- file_norm_w in W. exact (vhdl_readable h _ objs W C). Qed.
Print Assumptions C90_earlier.
(** An exception of the parser gives no Python object, and the objects of the files before stay in the convertor. *)
Theorem C90_exception (sy : lang -> str -> list report) (sv : lang -> bool -> str -> list hobj * option exn)
  (h : bool) (fs : str -> option fentry) (enc : str) (dirs : list str) (good : list str) (bad : str) (rest : list str) (rs : list (list hobj)) (d : db) (ctx : list hobj) :
  known_encoding enc ->
  Forall2 (fun file r => exists text l, fs file = Some (FFile text) /\ vhdl_source text l /\ conv_file h (map norm_dunit l) = Ok r) good rs ->
  fs bad = None -> exists e, parse_to_python sy sv h fs enc dirs (good ++ bad :: rest) d ctx = (Throw e, ctx ++ List.concat rs, d).
Proof.
  intros K F B. unfold parse_to_python, shown_to_python, py_parse.
  assert (G : exists e, parse_files hobj vhdl_errors vhdl_objects sy sv VHDL h fs enc dirs (good ++ bad :: rest) d ctx = ((Throw e, ctx ++ List.concat rs), d)).
  { revert ctx. induction F as [|file r good rs (text & l & E & S & C) _ IH]; intros ctx.
    - cbn [app parse_files List.concat]. rewrite B, app_nil_r. cbn. eexists. reflexivity.
    - destruct (tree_of enc text l K S) as (t & Et & T). cbn [app parse_files]. rewrite E. unfold vhdl_parse_file. rewrite Et, (run_text file h t _ r ctx T C). cbn [fst snd List.concat]. rewrite app_assoc. apply IH. }
  destruct G as (e & G). exists e. destruct good; cbn [app] in *; rewrite G; reflexivity.
Qed.
Print Assumptions C90_exception.

(** The file of C87. *)
Example C90_ex (sy : lang -> str -> list report) (sv : lang -> bool -> str -> list hobj * option exn) fs d :
  exists objs p, parse_str_to_python sy sv false fs $"iso-8859-1" [] latin_text d [] = (Ok p, objs, d) /\ tells_file p (map seen_obj (map of_hobj objs)).
Proof.
  destruct (s_file hdemo hdemo_machine 9 Z test_ range_ matches_ file_units) as [f|] eqn:E; [|pose proof (proj1 C87_ex_means) as X; rewrite E in X; discriminate X].
  destruct (C90_string sy sv hdemo hdemo_machine 9 Z test_ range_ matches_ fs $"iso-8859-1" [] latin_text file_units d [] f) as (objs & p & P & T & _); [right; reflexivity|discriminate|exact (proj1 (proj2 C88_ex_source))|exact (proj1 C89_ex_whole)|exact E|reflexivity|]. exists objs, p. split; [exact P|exact T].
Qed.
