(** C16: text helpers. *)
From Verif Require Import Base StrUtilsModel StrSpec StrUtilsProofs.

Theorem C16_trim chars s : trimmed chars s (trim chars s)
  /\ forall t, trimmed chars s t -> t = trim chars s.
Proof. exact (conj (trim_spec chars s) (fun t H => trimmed_unique chars s t _ H (trim_spec chars s))). Qed.
Print Assumptions C16_trim.

Theorem C16_rtrim chars s : rtrimmed chars s (rtrim chars s).
Proof. exact (rtrim_spec chars s). Qed.
Print Assumptions C16_rtrim.

(** The white space of the helpers is exactly space, tab, newline and carriage return. *)
Theorem C16_ws c : In c ws_chars <-> c = sp \/ c = tab \/ c = nl \/ c = cr.
Proof. exact (ws_chars_spec c). Qed.
Print Assumptions C16_ws.

Theorem C16_replace s pat repl : pat <> [] ->
  exists t, replace_substring s pat repl = Ok t /\ replaced pat repl s t
            /\ forall t', replaced pat repl s t' -> t' = t.
Proof. exact (replace_substring_total s pat repl). Qed.
Print Assumptions C16_replace.

Theorem C16_replace_in_place s pat repl : pat <> [] ->
  exists t, replaceStringInPlace s pat repl = Ok t /\ replaced pat repl s t
            /\ forall t', replaced pat repl s t' -> t' = t.
Proof. exact (replace_substring_total s pat repl). Qed.
Print Assumptions C16_replace_in_place.

Theorem C16_replace_absent s pat repl : pat <> [] -> ~ occurs pat s -> replace_substring s pat repl = Ok s.
Proof. exact (replace_substring_absent s pat repl). Qed.
Print Assumptions C16_replace_absent.

(** The pattern must not be empty: the loop then never ends, whatever the bound. *)
Theorem C16_empty_pattern_diverges repl fuel s : replace_loop fuel s [] repl 0 = OutOfFuel.
Proof. exact (replace_loop_diverges repl fuel s 0 (Nat.le_0_l _)). Qed.
Print Assumptions C16_empty_pattern_diverges.

Example C16_trim_ex : trim ws_chars ($" " ++ [tab; nl] ++ $"a b " ++ [cr]) = $"a b".
Proof. reflexivity. Qed.
Example C16_replace_ex : replace_substring $"aXXXbXX" $"XX" $"X" = Ok $"aXXbX".
Proof. vm_compute. reflexivity. Qed.
Example C16_replaced_ex : replaced $"XX" $"X" $"aXXXb" $"aXXb".
Proof. destruct (replace_substring_total $"aXXXb" $"XX" $"X" ltac:(discriminate)) as (t & E & R & _).
  vm_compute in E. inversion E. subst t. exact R. Qed.
