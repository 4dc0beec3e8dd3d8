(** C48: the Python macro database behaves like a dictionary. *)
From Verif Require Import Base MacroDefModel MacroSpec MacroSubstProofs PpModel PyDbModel PyDbSpec PyDbProofs.
From Coq Require Import Permutation.

(** Every history of operations gives the results of a dict of macros, [history] saying which are covered.
    Missing: pop of a name that is present, setdefault that stores text, copy and direct iteration; objects used after [del] of their entry,
    del of an object stored under two names; parameters without default, the text of a macro that uses its first parameter, unterminated strings. *)
Theorem C48_dictionary_partial l : history world0 l -> exists s rs, run_ops db0 l = Ok (s, rs) /\ Forall2 agree rs (snd (dict_run world0 l)).
Proof. intros H. apply (run_refines l db0 world0 inv0); [intros a []|exact H]. Qed.
(** What get_body returns, for every macro: the text without the uses of the first parameter. *)
Theorem C48_body_law name hp ps body m : Forall (fun p => identifier (p_name p)) ps -> NoDup (map p_name ps) -> new_macro name hp ps body = Ok m ->
  exists t, get_body (m_params m) (m_body m) = Ok t /\
    subst_no_bracket (lookup (map p_name ps) (match ps with [] => [] | _ :: l => [] :: map p_name l end)) body = Some t.
Proof. exact (body_law name hp ps body m). Qed.
Print Assumptions C48_dictionary_partial.
Print Assumptions C48_body_law.

(** A history that is covered: two macros with parameters, text, an object under two names, update, deletion and reading. *)
Definition demo : list op :=
  [ONew $"M" (Some [($"x", Some $"1"); ($"y", Some $"2")]) (Some $"y + y"); OSetItem $"M" (PMacro 0); OSetItem $"W" (PText $"8"); OSetItem $"N" (PMacro 0);
   OUpdate [($"A", PText $"a"); ($"W", PText $"9"); ($"E", PNone)]; OLen; OKeys; OGetItem $"W"; OBody (PMacro 3); OBody (PMacro 0); OParams (PMacro 0); OName (PMacro 3);
   OContains $"Q"; OGet $"Q" PNone; OGetItem $"Q"; ODel $"W"; OContains $"W"; OItems; OSetDefault $"Z" (PMacro 2); OPop $"Y" (Some PNone); OClear; OLen].
Example C48_demo_history : history world0 demo.
Proof.
  assert (T : forall b, match subst_std (fun _ => None) b with Some _ => True | None => False end -> terminated b) by (intros b H; unfold terminated; destruct (subst_std _ b); [discriminate|contradiction]).
  cbn [history demo covered fst dict_step]. unfold storable. cbn [all_storable]. unfold storable.
  repeat match goal with |- _ /\ _ => split | |- True => exact I | |- terminated _ => apply T; vm_compute; exact I end.
  all: try (cbn; lia).
  all: try (cbn; intuition discriminate).
  all: try (cbn; split; [lia|intuition discriminate]).
  all: try reflexivity.
  - split; [constructor; [|constructor; [|constructor]]; (split; [discriminate|]); (eexists _, _; split; [reflexivity|split; [reflexivity|constructor]])|].
    repeat constructor; cbn; intuition discriminate.
  - intros a m H. injection H as <-. cbn. intros H. injection H as <-. exact I.
  - intros a m H. injection H as <-. cbn. intros H. injection H as <-. cbn. intros x y E. assert (In "x"%char (x ++ "x"%char :: y)) as N by (apply in_or_app; right; left; reflexivity). rewrite <- E in N. cbn in N. intuition discriminate.
  - intros a k' H. injection H as <-. intros H. apply dget_In in H; [|repeat constructor; cbn; intuition discriminate]. vm_compute in H.
    repeat (destruct H as [H|H]; [first [discriminate H|injection H as <-; reflexivity]|]). contradiction.
Qed.
Example C48_demo_run : match run_ops db0 demo with Ok (_, rs) =>
    rs = [RVal (PMacro 0); RUnit; RUnit; RUnit; RUnit; RLen 5; RKeys [$"A"; $"E"; $"M"; $"N"; $"W"]; RVal (PMacro 3); RText $"9"; RText $"y + y";
          RParams (Some [($"x", Some $"1"); ($"y", Some $"2")]); RText $"W"; RBool false; RVal PNone; RRaise KeyError; RUnit; RBool false;
          RItems [($"A", PMacro 2); ($"E", PMacro 4); ($"M", PMacro 0); ($"N", PMacro 0)]; RVal (PMacro 2); RVal PNone; RUnit; RLen 0]
  | _ => False end.
Proof. vm_compute. reflexivity. Qed.

(** pop returns the macro but does not remove the entry. *)
Theorem C48_pop_refuted : let l := [OSetItem $"a" (PText $"1"); OPop $"a" None; OContains $"a"] in
  snd (dict_run world0 l) = [RUnit; RVal (PMacro 0); RBool false] /\ (exists s, run_ops db0 l = Ok (s, [RUnit; RVal (PMacro 0); RBool true])).
Proof. split; [reflexivity|eexists; reflexivity]. Qed.
(** A macro stored under two names is destroyed when one name is deleted; reading the other is undefined behaviour. *)
Theorem C48_alias_refuted : let l := [OSetItem $"a" (PText $"1"); OGetItem $"a"; OSetItem $"b" (PMacro 0); ODel $"a"; OGetItem $"b"] in
  snd (dict_run world0 l) = [RUnit; RVal (PMacro 0); RUnit; RUnit; RVal (PMacro 0)] /\ run_ops db0 l = UB "use of a deleted macro".
Proof. split; vm_compute; reflexivity. Qed.
(** So is a macro that Python still holds when its entry is deleted. *)
Theorem C48_deleted_refuted : let l := [OSetItem $"a" (PText $"1"); OGetItem $"a"; ODel $"a"; OBody (PMacro 0)] in
  snd (dict_run world0 l) = [RUnit; RVal (PMacro 0); RUnit; RText $"1"] /\ run_ops db0 l = UB "use of a deleted macro".
Proof. split; vm_compute; reflexivity. Qed.
(** setdefault gives back the default and not the macro that it stored. *)
Theorem C48_setdefault_refuted : let l := [OSetDefault $"a" (PText $"1"); OSetDefault $"b" PNone; OGetItem $"b"] in
  snd (dict_run world0 l) = [RVal (PMacro 0); RVal (PMacro 1); RVal (PMacro 1)] /\ (exists s, run_ops db0 l = Ok (s, [RVal (PText $"1"); RVal PNone; RVal (PMacro 1)])).
Proof. split; [reflexivity|eexists; reflexivity]. Qed.
(** The first parameter disappears from the text that is read back. *)
Theorem C48_first_parameter_refuted : let l := [ONew $"M" (Some [($"x", Some $"1"); ($"y", Some $"2")]) (Some $"x + y"); OBody (PMacro 0)] in
  snd (dict_run world0 l) = [RVal (PMacro 0); RText $"x + y"] /\ (exists s, run_ops db0 l = Ok (s, [RVal (PMacro 0); RText $" + y"])).
Proof. split; [reflexivity|eexists; vm_compute; reflexivity]. Qed.
(** A parameter without default is dropped. *)
Theorem C48_parameter_refuted : let l := [ONew $"M" (Some [($"x", None)]) (Some $"x"); OParams (PMacro 0)] in
  snd (dict_run world0 l) = [RVal (PMacro 0); RParams (Some [($"x", None)])] /\ (exists s, run_ops db0 l = Ok (s, [RVal (PMacro 0); RParams (Some [])])).
Proof. split; [reflexivity|eexists; vm_compute; reflexivity]. Qed.
(** Text with an unterminated string ends the program: the C++ exception is not translated. *)
Theorem C48_unterminated_refuted : run_ops db0 [OSetItem $"a" (PText $"""")] = UB "C++ exception crosses Python".
Proof. vm_compute. reflexivity. Qed.
(** Neither copy nor iteration over the database itself work. *)
Theorem C48_copy_iter_refuted : run_ops db0 [OCopy; OIter] = Ok (db0, [RRaise AssertionError; RRaise AttributeError]).
Proof. reflexivity. Qed.
Print Assumptions C48_pop_refuted.
Print Assumptions C48_alias_refuted.
Print Assumptions C48_deleted_refuted.
Print Assumptions C48_setdefault_refuted.
Print Assumptions C48_first_parameter_refuted.
Print Assumptions C48_parameter_refuted.
Print Assumptions C48_unterminated_refuted.
Print Assumptions C48_copy_iter_refuted.
