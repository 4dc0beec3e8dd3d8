(** C14: commas inside brackets, strings or nested calls never split the arguments of a macro call. *)
From Verif Require Import Base StrSpec PpLexerModel PpParserModel MacroDefModel PpModel PpArgSpec PpArgProofs.

(** The input of a call: backtick, name, arguments separated by commas between parentheses. *)
Definition call_of (n : str) (args : list str) : str := [bt] ++ n ++ $"(" ++ join args ++ $")".

(** A call anywhere in plain text: the closing parenthesis is the one after the last argument, whatever the text after it,
    and the values of the arguments are the trimmed texts between the separating commas. *)
Theorem C14_call_partial n args st rest l c : ident n -> args <> [] -> Forall argument args -> lx_mode st = DEFAULT_MODE ->
  exists tok toks l1 c1, tk_type tok = T_CALL_WITH_ARGS /\ tk_chan tok = CH_DEFAULT /\ call_name tok = n /\ tk_line tok = l /\
  forall ts, lex_loop (S (length rest)) (after_call st) rest l1 c1 = Ok ts ->
    lex_loop (S (length (call_of n args ++ rest))) st (call_of n args ++ rest) l c = Ok (tok :: toks ++ ts) /\
    exists m, parse_call tok (toks ++ ts) = Ok (m, ts) /\ mc_tok m = tok /\ values args (parse_macro_args (mc_children m) true false).
Proof. exact (call_arguments n args st rest l c). Qed.
(** An input that is one call is read as that call with these arguments, in every version of the language. *)
Theorem C14_input_partial lg n args : ident n -> args <> [] -> Forall argument args ->
  exists m, pp_parse lg (call_of n args) = Ok (TCons (TCall m) TNil) /\ call_name (mc_tok m) = n /\ call_has_args (mc_tok m) = true
    /\ values args (parse_macro_args (mc_children m) true false).
Proof. exact (call_input lg n args). Qed.
(** Every text in which brackets and quotes match is such a list of arguments; so all these texts are split. *)
Theorem C14_every_text_partial lg n t : ident n -> balanced true t ->
  exists args m, Forall argument args /\ join args = t /\ pp_parse lg ([bt] ++ n ++ $"(" ++ t ++ $")") = Ok (TCons (TCall m) TNil)
    /\ values args (parse_macro_args (mc_children m) true false).
Proof.
  intros Hn Hb. destruct (split_text t Hb) as (args & Ha & F & E). destruct (call_input lg n args Hn Ha F) as (m & P & _ & _ & V).
  exists args, m. split; [exact F|]. split; [exact E|]. split; [rewrite <- E; exact P|exact V].
Qed.
Print Assumptions C14_call_partial.
Print Assumptions C14_input_partial.
Print Assumptions C14_every_text_partial.
(** Missing: comments in arguments and string literals that end with an escaped backslash; both are read wrongly. *)

Definition args_of (s : str) : outcome (list str) :=
  t <- pp_parse SV2012 s ;; match t with TCons (TCall m) _ => Ok (parse_macro_args (mc_children m) true false) | _ => Ok [] end.

(** Not vacuous: nested brackets, a string with a comma and a bracket, an empty argument and a nested call. *)
Example C14_demo_args : Forall argument [$" f(a, {b, c}[1,2]) "; []; $"""x, ) \"" y"""; $"`N(1,2)"].
Proof.
  assert (Lit : forall s, forallb (fun c => negb (mem_c c ($"()[]{},/" ++ [dq]))) s = true -> forall b r, balanced b r -> balanced b (s ++ r)).
  { intros s; induction s as [|c s IH]; cbn [forallb]; intros H b r Hr; [exact Hr|]. apply andb_prop in H as [H1 H2]. cbn [app]. apply ba_char; [| |apply IH; assumption].
    - intros N. apply Bool.negb_true_iff in H1. cbn in N, H1. repeat (destruct N as [<-|N]; [discriminate H1|]). exact N.
    - intros (t & [E|E]); injection E as -> _; discriminate H1. }
  constructor; [|constructor; [apply ba_nil|constructor; [|constructor; [|constructor]]]].
  - apply (Lit $" f"); [reflexivity|]. apply (ba_group false "(" ")" $"a, {b, c}[1,2]" $" "); [left; tauto| |apply (Lit $" "); [reflexivity|apply ba_nil]].
    apply (Lit $"a"); [reflexivity|]. apply ba_comma; [reflexivity|]. apply (Lit $" "); [reflexivity|]. apply (ba_group true "{" "}" $"b, c" $"[1,2]"); [right; right; tauto| |].
    + apply (Lit $"b"); [reflexivity|]. apply ba_comma; [reflexivity|]. apply (Lit $" c"); [reflexivity|apply ba_nil].
    + apply (ba_group true "[" "]" $"1,2" []); [right; left; tauto| |apply ba_nil]. apply (Lit $"1"); [reflexivity|]. apply ba_comma; [reflexivity|]. apply (Lit $"2"); [reflexivity|apply ba_nil].
  - apply (ba_string false ($"x, ) \"" y") []); [| |apply ba_nil].
    + do 5 (apply sb_char; [discriminate|discriminate|discriminate|discriminate|]). apply sb_pair; [discriminate|discriminate|]. do 2 (apply sb_char; [discriminate|discriminate|discriminate|discriminate|]). apply sb_nil.
    + intros t E. apply (f_equal (fun l => last l sp)) in E. rewrite last_last in E. discriminate.
  - apply (Lit $"`N"); [reflexivity|]. apply (ba_group false "(" ")" $"1,2" []); [left; tauto| |apply ba_nil]. apply (Lit $"1"); [reflexivity|]. apply ba_comma; [reflexivity|]. apply (Lit $"2"); [reflexivity|apply ba_nil].
Qed.
Example C14_demo : args_of (call_of $"M" [$" f(a, {b, c}[1,2]) "; []; $"""x, ) \"" y"""; $"`N(1,2)"])
  = Ok [$"f(a, {b, c}[1,2])"; []; $"""x, ) \"" y"""; $"`N(1,2)"].
Proof. vm_compute. reflexivity. Qed.

(** A string that ends with an escaped backslash is not closed by its quote if another quote follows: the call is a syntax error. *)
Theorem C14_backslash_refuted : args_of ($"`M(""\\"", ""b"")") = Throw syntax_error.
Proof. vm_compute. reflexivity. Qed.
(** A comma in a comment splits the argument when text stands before the comment, and does not when the comment comes first. *)
Theorem C14_comment_refuted : args_of ($"`M(a /* , */ b)") = Ok [$"a /*"; $"*/ b"] /\ args_of ($"`M(/* , */ b)") = Ok [$"/* , */ b"].
Proof. split; vm_compute; reflexivity. Qed.
Print Assumptions C14_backslash_refuted.
Print Assumptions C14_comment_refuted.
