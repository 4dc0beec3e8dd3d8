(** C94: what a VHDL design means can be read off the Python objects.  [python_means] (VhdlReadSpec.v): the meaning of
    the objects that Python shows; [tells_file p l] (PyObjSpec.v): the attributes of the Python object p are those of the AST l. *)
From Verif Require Import Base BaseFacts StrSpec AstModel StmModel LitModel SvExprModel SvExprSpec SvDeclModel VhdlExprModel VhdlExprSpec VhdlStmModel VhdlStmSpec VhdlDeclModel VhdlDeclSpec VhdlFileSpec VhdlWholeSpec VhdlWholeProofs VhdlUnitNormProofs.
From Verif Require Import PyModel PySpec PyObjModel PyObjSpec PyObjProofs PyTreeModel PySeenSpec PySeenProofs VhdlTextSpec VhdlPyProofs3 VhdlWordsProofs VhdlPrintProofs.
From Verif Require Import EncodingModel OutBufferModel PpModel ApiModel VhdlSyntaxModel VhdlUnitSyntaxModel ConvertVhdlModel ConvertVhdlSpec ConvertPyModel VhdlStmDemo P_C68 P_C73 P_C74 P_C87 P_C88 P_C89 P_C90 VhdlReadSpec VhdlReadProofs.
Import PySpec PyObjModel PyObjSpec.

Lemma read_off (A : halgebra) (M : hmachine A) (fuel : nat) (N : Type) test range matches l objs f :
  conv_file false (map norm_dunit l) = Ok objs -> s_file A M fuel N test range matches l = Some f ->
  exists f', python_means A M fuel N test range matches (map of_hobj objs) = Some f' /\ Forall2 (usame A M N) f' f.
Proof.
  intros C H. destruct (VhdlFileProofs.file_ok A M fuel N test range matches (map norm_dunit l) objs f C) as (f' & E & F); [rewrite VhdlUnitNormProofs.file_kept; exact H|].
  exists f'. split; [|exact F]. unfold python_means. rewrite (file_back false _ objs C). exact E.
Qed.
(** The Python object of files that Python keeps all of (the literals null and open and the label of a call or an assertion are not kept,
    C73) has the meaning of the files. *)
Theorem C94_files_partial (sy : lang -> str -> list report) (sv : lang -> bool -> str -> list hobj * option exn)
  (A : halgebra) (M : hmachine A) (fuel : nat) (N : Type)
  (test : VhdlDeclSpec.env N -> HV A -> bool) (range : VhdlDeclSpec.env N -> HV A -> list N) (matches : VhdlDeclSpec.env N -> HV A -> HV A -> bool)
  (fs : str -> option fentry) (enc : str) (dirs : list str) (files : list str) (ls : list (list dunit)) (d : db) (objs : list hobj) (f : list (umean A M N)) :
  known_encoding enc -> files <> [] -> Forall2 (fun file l => exists text, fs file = Some (FFile text) /\ vhdl_source text l) files ls ->
  s_file A M fuel N test range matches (List.concat ls) = Some f ->
  conv_file false (map norm_dunit (List.concat ls)) = Ok objs -> map seen_obj (map of_hobj objs) = map of_hobj objs ->
  exists p tree f', fst (fst (parse_to_python sy sv false fs enc dirs files d [])) = Ok p /\ tells_file p tree
    /\ python_means A M fuel N test range matches tree = Some f' /\ Forall2 (usame A M N) f' f.
Proof.
  intros K NF F H C E. destruct (C88_meaning_partial sy sv A M fuel N test range matches fs enc dirs files ls d objs [] f K NF F C H) as (Q & _).
  destruct (shown objs [] _ (sources_printable fs files ls F) eq_refl C) as (p & Ep & T). cbn [app] in Ep, T. rewrite E in T.
  destruct (read_off A M fuel N test range matches _ objs f C H) as (f' & R & S). exists p, (map of_hobj objs), f'. unfold parse_to_python, shown_to_python. rewrite Q. cbn [fst snd bind app]. repeat split; try assumption; apply T.
Qed.
Print Assumptions C94_files_partial.
Theorem C94_string_partial (sy : lang -> str -> list report) (sv : lang -> bool -> str -> list hobj * option exn)
  (A : halgebra) (M : hmachine A) (fuel : nat) (N : Type)
  (test : VhdlDeclSpec.env N -> HV A -> bool) (range : VhdlDeclSpec.env N -> HV A -> list N) (matches : VhdlDeclSpec.env N -> HV A -> HV A -> bool)
  (fs : str -> option fentry) (enc : str) (dirs : list str) (text : str) (l : list dunit) (d : db) (objs : list hobj) (f : list (umean A M N)) :
  known_encoding enc -> text <> [] -> vhdl_source text l -> s_file A M fuel N test range matches l = Some f ->
  conv_file false (map norm_dunit l) = Ok objs -> map seen_obj (map of_hobj objs) = map of_hobj objs ->
  exists p tree f', fst (fst (parse_str_to_python sy sv false fs enc dirs text d [])) = Ok p /\ tells_file p tree
    /\ python_means A M fuel N test range matches tree = Some f' /\ Forall2 (usame A M N) f' f.
Proof.
  intros K NE S H C E. destruct (tree_of enc text l K S) as (t & Et & TT). destruct (shown objs [] _ (source_printable text l S) eq_refl C) as (p & Ep & T). cbn [app] in Ep, T. rewrite E in T.
  destruct (read_off A M fuel N test range matches _ objs f C H) as (f' & R & Q). exists p, (map of_hobj objs), f'.
  assert (P : fst (fst (parse_str_to_python sy sv false fs enc dirs text d [])) = py_context (map of_hobj objs)).
  { unfold parse_str_to_python, shown_to_python, py_parse_str, parse_text, vhdl_parse_str. destruct text as [|c text]; [congruence|]. rewrite Et, (run_text $"<string>" false t _ objs [] TT C). reflexivity. }
  rewrite P. repeat split; try assumption; apply T.
Qed.
Print Assumptions C94_string_partial.
(** The meaning that is read off a Python object is one. *)
Theorem C94_one_meaning (A : halgebra) (M : hmachine A) (fuel : nat) (N : Type)
  (test : VhdlDeclSpec.env N -> HV A -> bool) (range : VhdlDeclSpec.env N -> HV A -> list N) (matches : VhdlDeclSpec.env N -> HV A -> HV A -> bool)
  (p : pyval) (t1 t2 : list obj) (m1 m2 : list (umean A M N)) :
  tells_file p t1 -> tells_file p t2 -> python_means A M fuel N test range matches t1 = Some m1 -> python_means A M fuel N test range matches t2 = Some m2 -> m1 = m2.
Proof.
  intros T1 T2 E1 E2. assert (X : t1 = t2); [|subst t2; congruence]. destruct T1 as [_ (q1 & A1 & F1)], T2 as [_ (q2 & A2 & F2)]. rewrite A1 in A2. injection A2 as <-. clear - F1 F2. revert t2 F2. induction F1 as [|q o q1 t1 H F1 IH]; intros t2 F2; inversion F2; subst; [reflexivity|].
  f_equal; [eapply C73_one_object; eassumption|auto].
Qed.
Print Assumptions C94_one_meaning.

(** Without the condition it does not hold: [l : assert c;] and [assert c;] in an architecture differ in their label and Python shows
    the same objects. *)
Definition assert_file (a : str) (l : option str) : list dunit := [([], LU_arch a (HLit (NL_id $"e")) [] [CS_simple l false (CP_assert (HLit (NL_id $"c")) None None)])].
Theorem C94_label_refuted (A : halgebra) (M : hmachine A) (fuel : nat) (N : Type)
  (test : VhdlDeclSpec.env N -> HV A -> bool) (range : VhdlDeclSpec.env N -> HV A -> list N) (matches : VhdlDeclSpec.env N -> HV A -> HV A -> bool) (a l : str) :
  (exists o1 o2, conv_file false (map norm_dunit (assert_file a (Some l))) = Ok o1 /\ conv_file false (map norm_dunit (assert_file a None)) = Ok o2 /\ map seen_obj (map of_hobj o1) = map seen_obj (map of_hobj o2))
  /\ exists m1 m2, s_file A M fuel N test range matches (assert_file a (Some l)) = Some m1 /\ s_file A M fuel N test range matches (assert_file a None) = Some m2 /\ ~ Forall2 (usame A M N) m1 m2.
Proof.
  split.
  - eexists. eexists. split; [reflexivity|split; reflexivity].
  - eexists. eexists. split; [reflexivity|split; [reflexivity|]]. intros F. inversion F as [|x y q q' S _ E1 E2]; subst. inversion S as [| | |? ? i i' P|]; subst. inversion P as [|? ? ? ? Q _ E1 E2]; subst. destruct Q as [_ Q]. inversion Q.
Qed.
Print Assumptions C94_label_refuted.

(** The file of C87. *)
Example C94_ex (sy : lang -> str -> list report) (sv : lang -> bool -> str -> list hobj * option exn) fs d :
  exists p tree f', fst (fst (parse_str_to_python sy sv false fs $"iso-8859-1" [] latin_text d [])) = Ok p /\ tells_file p tree
    /\ python_means hdemo hdemo_machine 9 Z test_ range_ matches_ tree = Some f' /\ f' <> [].
Proof.
  destruct (s_file hdemo hdemo_machine 9 Z test_ range_ matches_ file_units) as [f|] eqn:E; [|pose proof (proj1 C87_ex_means) as X; rewrite E in X; discriminate X].
  assert (Y : exists objs, conv_file false (map norm_dunit file_units) = Ok objs /\ map seen_obj (map of_hobj objs) = map of_hobj objs) by (eexists; split; vm_compute; reflexivity). destruct Y as (objs & C & S).
  destruct (C94_string_partial sy sv hdemo hdemo_machine 9 Z test_ range_ matches_ fs $"iso-8859-1" [] latin_text file_units d objs f) as (p & tree & f' & P & T & R & F); [right; reflexivity|discriminate|exact (proj1 (proj2 C88_ex_source))|exact E|exact C|exact S|].
  exists p, tree, f'. repeat split; try assumption; try apply T. intros ->. inversion F; subst. pose proof (proj1 C87_ex_means) as X. rewrite E in X. discriminate X.
Qed.
