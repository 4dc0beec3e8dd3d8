(** C04: macro expansion never indexes outside its argument vector. *)
From Verif Require Import Base MacroDefModel MacroDefProofs.

(** An out of range element access is the outcome [Throw OutOfRange] (checked access) or [UB]
    (unchecked access) of the model; neither can occur. *)
Theorem C04_expansion_in_range name hp params body m args spec :
  new_macro name hp params body = Ok m ->
  (exists t, macro_replace m args spec = Ok t)
  \/ (exists msg, macro_replace m args spec = Throw (ParseException msg)).
Proof. exact (macro_replace_safe name hp params body m args spec). Qed.
Print Assumptions C04_expansion_in_range.

(** The constructor itself is safe as well. *)
Theorem C04_constructor_safe name hp params body :
  (exists m, new_macro name hp params body = Ok m)
  \/ (exists msg, new_macro name hp params body = Throw (ParseException msg)).
Proof. exact (new_macro_safe name hp params body). Qed.
Print Assumptions C04_constructor_safe.

(** Repeated parameter names, too many and too few actuals included. *)
Definition m4 : outcome macro_def :=
  new_macro $"M" true [mkParam $"x" false []; mkParam $"x" false []] $"x x(x) ""x""".
Example C04_ex : exists m, m4 = Ok m. Proof. vm_compute. eauto. Qed.
(** Such an access is visible in the model. *)
Example C04_visible : exists msg, render [FArg 2] [$"a"; $"b"] = Throw (OutOfRange msg).
Proof. vm_compute. eauto. Qed.
