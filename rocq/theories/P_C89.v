(** C89: a VHDL file in which every part has a meaning is converted without an exception, and what the user gets has that
    meaning.  [whole_file A M fuel l] (VhdlWholeSpec.v): every part of the units l has a meaning (C74), also in the branches
    of generate statements that are not elaborated. *)
From Verif Require Import Base BaseFacts StrSpec AstModel StmModel LitModel SvExprModel SvExprSpec SvDeclModel SvDeclProofs SvFileProofs VhdlExprModel VhdlExprSpec VhdlStmModel VhdlStmSpec VhdlStmProofs VhdlDeclModel VhdlDeclSpec VhdlFileSpec VhdlDecl2Proofs VhdlFileProofs VhdlHierProofs VhdlWholeSpec VhdlWholeProofs.
From Verif Require Import EncodingModel EncodingSpec EncodingProofs OutBufferModel PpModel ApiModel VhdlUnitSyntaxModel VhdlUnitNormProofs ConvertVhdlModel ConvertVhdlSpec VhdlStmDemo P_C68 P_C74 P_C84 P_C87 P_C88.

(** The conversion of the tree, with and without hierarchyOnly. *)
Theorem C89_converted (A : halgebra) (M : hmachine A) (fuel : nat) (l : list dunit) :
  whole_file A M fuel l = true -> exists r, conv_file false l = Ok r /\ conv_file true l = Ok (map thin r).
Proof. intros H. destruct (file_total A M fuel l H) as (r & C). exists r. split; [exact C|exact (C68_hierarchy l r C)]. Qed.
Print Assumptions C89_converted.
(** From the files: no exception, the objects have the meaning of all units of all files in their order, and
    hierarchyOnly gives the same objects without what it leaves out (C68). *)
Theorem C89_files (sy : lang -> str -> list report) (sv : lang -> bool -> str -> list hobj * option exn)
  (A : halgebra) (M : hmachine A) (fuel : nat) (N : Type)
  (test : VhdlDeclSpec.env N -> HV A -> bool) (range : VhdlDeclSpec.env N -> HV A -> list N) (matches : VhdlDeclSpec.env N -> HV A -> HV A -> bool)
  (fs : str -> option fentry) (enc : str) (dirs : list str) (files : list str) (ls : list (list dunit)) (d : db) (ctx : list hobj) (f : list (umean A M N)) :
  known_encoding enc -> files <> [] -> Forall2 (fun file l => exists text, fs file = Some (FFile text) /\ vhdl_source text l) files ls ->
  whole_file A M fuel (List.concat ls) = true -> s_file A M fuel N test range matches (List.concat ls) = Some f ->
  exists objs, py_parse hobj vhdl_errors vhdl_objects sy sv VHDL false fs enc dirs files d ctx = (Ok (ctx ++ objs), ctx ++ objs, d)
    /\ py_parse hobj vhdl_errors vhdl_objects sy sv VHDL true fs enc dirs files d ctx = (Ok (ctx ++ map thin objs), ctx ++ map thin objs, d)
    /\ exists f', m_file A M fuel N test range matches objs = Some f' /\ Forall2 (usame A M N) f' f.
Proof.
  intros K NF F W H. destruct (normal_total A M fuel _ W) as (objs & C). exists objs. destruct (C88_meaning_partial sy sv A M fuel N test range matches fs enc dirs files ls d objs ctx f K NF F C H) as [P Q]. split; [exact P|split; [|exact Q]]. clear P Q H f.
  assert (exists rs, objs = List.concat rs /\ Forall2 (fun l r => conv_file false (map norm_dunit l) = Ok r) ls rs) as (rs & -> & R).
  { clear - C W. unfold whole_file in W. revert objs C W. induction ls as [|l ls IH]; intros objs C W; [injection C as <-; exists []; split; [reflexivity|constructor]|]. cbn [List.concat] in C, W. rewrite forallb_app in W. apply andb_prop in W as [W1 W2].
    destruct (normal_total A M fuel l W1) as (o1 & C1). destruct (normal_total A M fuel _ W2) as (o2 & C2). destruct (IH o2 C2 W2) as (rs & -> & R). exists (o1 :: rs). split; [|constructor; assumption].
    cbn [List.concat]. enough (conv_file false (map norm_dunit (l ++ List.concat ls)) = Ok (o1 ++ List.concat rs)) as E by (rewrite E in C; injection C as <-; reflexivity). rewrite map_app. apply concatM_app; assumption. }
  replace (map thin (List.concat rs)) with (List.concat (map (map thin) rs)) by (rewrite concat_map; reflexivity). apply C88_files_partial; [exact K|exact NF|].
  clear - F R. revert rs R. induction F as [|file l files ls (text & E & S) _ IH]; intros rs R; inversion R; subst; [constructor|]. cbn [map]. constructor; [|apply IH; assumption]. exists text, l. repeat split; try assumption. apply C68_hierarchy. assumption.
Qed.
Print Assumptions C89_files.
(** From a string. *)
Theorem C89_string (sy : lang -> str -> list report) (sv : lang -> bool -> str -> list hobj * option exn)
  (A : halgebra) (M : hmachine A) (fuel : nat) (N : Type)
  (test : VhdlDeclSpec.env N -> HV A -> bool) (range : VhdlDeclSpec.env N -> HV A -> list N) (matches : VhdlDeclSpec.env N -> HV A -> HV A -> bool)
  (fs : str -> option fentry) (enc : str) (dirs : list str) (text : str) (l : list dunit) (d : db) (ctx : list hobj) (f : list (umean A M N)) :
  known_encoding enc -> text <> [] -> vhdl_source text l -> whole_file A M fuel l = true -> s_file A M fuel N test range matches l = Some f ->
  exists objs, py_parse_str hobj vhdl_errors vhdl_objects sy sv VHDL false fs enc dirs text d ctx = (Ok (ctx ++ objs), ctx ++ objs, d)
    /\ exists f', m_file A M fuel N test range matches objs = Some f' /\ Forall2 (usame A M N) f' f.
Proof.
  intros K NE S W H. destruct (normal_total A M fuel l W) as (objs & C). exists objs. split.
  - destruct (tree_of enc text l K S) as (t & E & T). unfold py_parse_str, parse_text, vhdl_parse_str. destruct text as [|c text]; [congruence|]. rewrite E, (run_text $"<string>" false t _ objs ctx T C). reflexivity.
  - apply (file_ok A M fuel N test range matches _ objs f C). rewrite file_kept. exact H.
Qed.
Print Assumptions C89_string.

(** The file of C87 is such a file. *)
Example C89_ex_whole : whole_file hdemo hdemo_machine 9 file_units = true /\ whole_file hdemo hdemo_machine 9 ex_units = true.
Proof. vm_compute. split; reflexivity. Qed.
Example C89_ex_string (sy : lang -> str -> list report) (sv : lang -> bool -> str -> list hobj * option exn) fs d :
  exists objs, py_parse_str hobj vhdl_errors vhdl_objects sy sv VHDL false fs $"utf-8" [] file_text d [] = (Ok objs, objs, d).
Proof.
  destruct (s_file hdemo hdemo_machine 9 Z test_ range_ matches_ file_units) as [f|] eqn:E; [|pose proof (proj1 C87_ex_means) as X; rewrite E in X; discriminate X].
  destruct (C89_string sy sv hdemo hdemo_machine 9 Z test_ range_ matches_ fs $"utf-8" [] file_text file_units d [] f) as (objs & P & _); [left; reflexivity|discriminate|exact (proj1 C88_ex_source)|exact (proj1 C89_ex_whole)|exact E|]. exists objs. exact P.
Qed.
(** Branches that are not elaborated matter, though not to what the file means: a number above 2147483647 in one is
    undefined behaviour (atoi). *)
Definition dead_branch (t : string) : list dunit :=
  [([], LU_arch $"a" (hid "e") [] [CS_if $"g" None (hnum "0") (GB false [] [CS_simple None false (CP_assign (CC_wave (hid "s") (w1 (hnum t))))]) [] None None])].
Theorem C89_dead_branch_refuted : exists (A : halgebra) (M : hmachine A) fuel N test range matches l f,
  s_file A M fuel N test range matches l = Some f /\ forall ho, exists w, conv_file ho l = UB w.
Proof.
  exists hdemo, hdemo_machine, 9, Z, test_, range_, matches_, (dead_branch "2147483648").
  assert (X : defined (s_file hdemo hdemo_machine 9 Z test_ range_ matches_ (dead_branch "2147483648")) = true) by (vm_compute; reflexivity). apply is_defined in X as (f & X). exists f. split; [exact X|]. intros []; vm_compute; eauto.
Qed.
Print Assumptions C89_dead_branch_refuted.
Example C89_ex_dead : whole_file hdemo hdemo_machine 9 (dead_branch "2147483647") = true /\ whole_file hdemo hdemo_machine 9 (dead_branch "2147483648") = false.
Proof. vm_compute. split; reflexivity. Qed.
