(** C03: macro argument counts and defaults. *)
From Verif Require Import Base MacroDefModel MacroSpec MacroDefProofs.

(** A call is accepted exactly if parentheses are present exactly when the macro has parameters
    and the actuals are [acceptable]; then the text is rendered from values bound as the
    specification says; otherwise ParseException is raised. *)
Theorem C03_argument_binding name hp params body m args spec :
  new_macro name hp params body = Ok m ->
  (spec = hp /\ acceptable params args /\
   exists vals t, bound params args vals /\ macro_replace m args spec = Ok t
                  /\ render (m_body m) vals = Ok t)
  \/ (~ (spec = hp /\ acceptable params args) /\
      exists msg, macro_replace m args spec = Throw (ParseException msg)).
Proof. exact (macro_replace_cases name hp params body m args spec). Qed.
Print Assumptions C03_argument_binding.

(** The values are determined by the actuals. *)
Theorem C03_values_unique ps args vals vals' : bound ps args vals -> bound ps args vals' -> vals = vals'.
Proof. exact (bound_unique ps args vals vals'). Qed.
Print Assumptions C03_values_unique.

Definition ps3 : list param_info :=
  [mkParam $"a" false []; mkParam $"b" true $"B"; mkParam $"c" true $"C"].
Definition m3 : outcome macro_def := new_macro $"M" true ps3 $"a+b+c".
Example C03_hyp : exists m, m3 = Ok m. Proof. vm_compute. eauto. Qed.
Example C03_ex1 : (m <- m3 ;; macro_replace m [$"1"; []] true) = Ok $"1+B+C".
Proof. vm_compute. reflexivity. Qed.
Example C03_ex2 : exists msg, (m <- m3 ;; macro_replace m [$"1"; $"2"; $"3"; $"4"] true) = Throw (ParseException msg).
Proof. vm_compute. eauto. Qed.
Example C03_ex3 : (m <- m3 ;; macro_replace m [] true) = Ok $"+B+C".
Proof. vm_compute. reflexivity. Qed.
Example C03_ex4 : exists msg, (m <- m3 ;; macro_replace m [$"1"] false) = Throw (ParseException msg).
Proof. vm_compute. eauto. Qed.
Example C03_acceptable_ex : acceptable ps3 [$"1"; []] /\ ~ acceptable ps3 [$"1"; $"2"; $"3"; $"4"].
Proof.
  split; [|intros (H & _); cbn in H; lia]. split; [cbn; lia|].
  intros [|[|[|[|i]]]] p Hp Ha; cbn in *; try discriminate; inversion Hp; left; reflexivity.
Qed.
