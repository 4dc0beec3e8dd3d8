(** C02: substitution of macro parameters. *)
From Verif Require Import Base MacroDefModel MacroSpec MacroSubstProofs PpModel PpFacts PpLexerModel.

(** The expansion, exactly, for every macro: each whole identifier outside strings that is a
    parameter name and is not directly followed by an opening bracket is replaced, everything
    else is copied. *)
Theorem C02_substitution_law name hp params body m args vals t :
  Forall (fun p => identifier (p_name p)) params -> NoDup (map p_name params) ->
  new_macro name hp params body = Ok m ->
  bound params args vals -> length args <= length params ->
  (macro_replace m args hp = Ok t <->
   subst_no_bracket (lookup (map p_name params) vals) body = Some t).
Proof. exact (replace_subst name hp params body m args vals t). Qed.
Print Assumptions C02_substitution_law.

(** The standard demands [subst_std]. This holds if no parameter is directly followed by an
    opening bracket in the body; missing: bodies in which one is. *)
Theorem C02_substitution_partial name hp params body m args vals t :
  Forall (fun p => identifier (p_name p)) params -> NoDup (map p_name params) ->
  new_macro name hp params body = Ok m ->
  bound params args vals -> length args <= length params ->
  (forall a w c b, body = a ++ w ++ c :: b -> In w (map p_name params) -> open_bracket c = false) ->
  (macro_replace m args hp = Ok t <->
   subst_std (lookup (map p_name params) vals) body = Some t).
Proof. exact (replace_subst_std name hp params body m args vals t). Qed.
Print Assumptions C02_substitution_partial.

(** ... for such bodies the code differs from the standard. *)
Theorem C02_substitution_refuted : exists name hp params body m args vals t,
  Forall (fun p => identifier (p_name p)) params /\ NoDup (map p_name params) /\
  new_macro name hp params body = Ok m /\
  bound params args vals /\ length args <= length params /\
  subst_std (lookup (map p_name params) vals) body = Some t /\
  macro_replace m args hp <> Ok t.
Proof. exact replace_subst_bracket. Qed.
Print Assumptions C02_substitution_refuted.

(** The same seen through the API. *)
Theorem C02_end_to_end_refuted :
  text_of (verilog_pp_str SV2012 (fun _ => None) [] []
     ($"`define BIT(v) v[0]" ++ [nl] ++ $"`BIT(data)"))
  = Ok ([nl] ++ $"v[0]").
Proof. exact bracket_end_to_end. Qed.
Print Assumptions C02_end_to_end_refuted.

(** A macro is constructible exactly if its strings are terminated. *)
Theorem C02_constructible name hp params body :
  Forall (fun p => identifier (p_name p)) params -> NoDup (map p_name params) ->
  ((exists m, new_macro name hp params body = Ok m) <->
   subst_std (fun _ => None) body <> None).
Proof. exact (new_macro_constructible name hp params body). Qed.
Print Assumptions C02_constructible.

Definition ps2 : list param_info := [mkParam $"x" false []; mkParam $"xy" false []].
Example C02_hyp : Forall (fun p => identifier (p_name p)) ps2 /\ NoDup (map p_name ps2)
  /\ bound ps2 [$"1"; $"x"] [$"1"; $"x"].
Proof.
  split; [|split].
  - repeat constructor; eexists _, _; repeat split; repeat constructor.
  - repeat constructor; cbn; intuition discriminate.
  - split; [reflexivity|]. intros [|[|[|i]]] p v Hp Hv; cbn in *; try discriminate;
      inversion Hp; inversion Hv; reflexivity.
Qed.
Example C02_ex :
  (m <- new_macro $"M" true ps2 $"x+xy ""x"" _x x$ x*xy" ;; macro_replace m [$"1"; $"x"] true)
  = Ok $"1+x ""x"" _x x$ 1*x".
Proof. vm_compute. reflexivity. Qed.
