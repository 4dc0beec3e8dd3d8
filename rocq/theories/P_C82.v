(** C82: the text of a Verilog expression is cut into the lexical elements of IEEE 1800 clause 5, and
    text, tokens and AST together have the meaning of the expression.  [is_verilog v ps s]: the text s of
    version v consists of the elements, white space and comments ps (SvLexSpec.v); [plain_verilog]: without
    what the lexer reads in another way. *)
From Verif Require Import Base BaseFacts StrSpec AstModel LitModel LitSpec SvExprModel SvExprSpec SvExprProofs SvSyntaxModel SvSyntaxSpec SvSyntaxProofs SvSyntaxComplete.
From Verif Require Import VhdlLexSpec SvLexModel SvLexSpec SvSpellSpec SvTextProofs SvCoverProofs.

(** Every text becomes the tokens of its elements, in order, with their texts. *)
Theorem C82_tokens_partial (v : lang) (ps : list part) (s : str) : plain_verilog v ps s -> sv_lex v s = Ok (map (token_for v) (elems ps)).
Proof. exact (lex_cut v ps s). Qed.
Print Assumptions C82_tokens_partial.
(** There is only one way to read a text. *)
Theorem C82_unambiguous_partial v ps ps' s : plain_verilog v ps s -> plain_verilog v ps' s -> elems ps = elems ps'.
Proof.
  intros H H'. assert (E := C82_tokens_partial _ _ _ H). rewrite (C82_tokens_partial _ _ _ H') in E. injection E as E.
  apply (tokens_inj v); [exact (cut_ok _ _ _ _ H)|exact (cut_ok _ _ _ _ H')|symmetry; exact E].
Qed.
Print Assumptions C82_unambiguous_partial.
(** White space and comments do not matter. *)
Theorem C82_layout_partial v ps ps' s s' : plain_verilog v ps s -> plain_verilog v ps' s' -> elems ps = elems ps' -> sv_lex v s = sv_lex v s' /\ convert_verilog_text v s = convert_verilog_text v s'.
Proof.
  intros H H' E. assert (G : sv_lex v s = sv_lex v s') by (rewrite (C82_tokens_partial _ _ _ H), (C82_tokens_partial _ _ _ H'), E; reflexivity). split; [exact G|]. unfold convert_verilog_text. rewrite G. reflexivity.
Qed.
Print Assumptions C82_layout_partial.
(** From text to meaning: a proper expression, written with any spelling and layout, becomes an AST with
    the meaning of the expression. *)
Theorem C82_meaning_partial (A : algebra) (v : lang) (e : vexpr) (x : V A) ps s :
  proper e -> vmeaning A e = Some x -> plain_verilog v ps s -> spelled v (show e) (elems ps) ->
  exists a, convert_verilog_text v s = Ok a /\ meaning A a = Some x.
Proof.
  intros P HM H S. destruct (conv_sim A e x HM) as (a & C & Hm & _). exists a. split; [|exact Hm].
  unfold convert_verilog_text. rewrite (C82_tokens_partial _ _ _ H). cbn [bind]. rewrite (spelled_toks _ _ _ S), (parse_show e P). exact C.
Qed.
Print Assumptions C82_meaning_partial.
(** Any text at all: it is refused, or it consists of its tokens with layout between them; identifiers are
    no reserved words. *)
Theorem C82_nothing_lost (v : lang) (s : str) :
  sv_lex v s = Throw (ParseException $"token recognition error") \/
  exists ts, sv_lex v s = Ok ts /\ made_of (map snd ts) s /\
    Forall (fun kt => match fst kt with
                      | S_KW k => snd kt = k
                      | S_C_IDENTIFIER | S_SIMPLE_IDENTIFIER => word_form (snd kt) /\ (~ In (snd kt) (unsettled v) -> ~ In (snd kt) (reserved_words v))
                      | S_SIGN d => snd kt = d
                      | _ => True end) ts.
Proof.
  destruct (s_loop_ends v (length s) false s (le_n _)) as [[ts H]|H]; [right|left; exact H]. exists ts. split; [exact H|]. apply s_loop_steps in H. split; [exact (steps_made _ _ _ _ H)|exact (steps_ok _ _ _ _ H)].
Qed.
Print Assumptions C82_nothing_lost.

(** ** What is read in another way *)
Ltac fact := first [exact Logic.I | reflexivity | tauto | discriminate | (intros; discriminate) | (split; fact) | (left; fact) | (right; fact)].
Ltac all_ok := repeat (apply Forall_cons; [reflexivity|]); apply Forall_nil.
Ltac word_ok := eexists _, _; split; [reflexivity|split; [reflexivity|all_ok]].
Ltac sign_ok := vm_compute; repeat (first [left; reflexivity|right]).
Ltac longest := let d := fresh in let I := fresh in let P := fresh in intros d I P; vm_compute in I; repeat (destruct I as [<-|I]; [first [discriminate P|apply Nat.leb_le; reflexivity]|]); destruct I.
Ltac next p := match goal with |- cut ?Q ?v (_ :: ?ps) ?s => let r := eval cbn in (skipn (length (part_text p)) s) in change s with (part_text p ++ r); apply cut_cons end.
(** a--b: two minus signs in Verilog 2005 are one token -- *)
Definition minuses : list part := [G_elem (T_word $"a"); G_elem (T_sign $"-"); G_elem (T_sign $"-"); G_elem (T_word $"b")].
(** a string with backslash q *)
Definition escape : list part := [G_elem (T_string [bs; "q"%char])].
Lemma minuses_verilog : is_verilog VERILOG2005 minuses $"a--b".
Proof.
  unfold is_verilog, minuses.
  next (G_elem (T_word $"a")); [word_ok|split; [reflexivity|intros; discriminate]|exact Logic.I|].
  next (G_elem (T_sign $"-")); [sign_ok|split; [longest|split; intros; discriminate]|exact Logic.I|].
  next (G_elem (T_sign $"-")); [sign_ok|split; [longest|split; intros; discriminate]|exact Logic.I|].
  next (G_elem (T_word $"b")); [word_ok|split; [exact Logic.I|intros; discriminate]|exact Logic.I|]. constructor.
Qed.
Lemma escape_verilog v : is_verilog v escape [dq; bs; "q"%char; dq].
Proof.
  unfold is_verilog, escape. next (G_elem (T_string [bs; "q"%char])); [|exact Logic.I|exact Logic.I|constructor]. apply sb_escape; [discriminate|exact Logic.I|constructor].
Qed.
Lemma word_verilog v w : (exists c t, w = c :: t /\ word_start c = true /\ all word_char t) -> w <> $"edge" -> is_verilog v [G_elem (T_word w)] w.
Proof. intros H N. rewrite <- (app_nil_r w) at 2. apply (cut_cons (fun _ _ => True) v (G_elem (T_word w)) [] []); [exact H|split; [exact Logic.I|intros E; contradiction]|exact Logic.I|constructor]. Qed.
Theorem C82_refuted :
  (is_verilog VERILOG2005 minuses $"a--b" /\ sv_lex VERILOG2005 $"a--b" = Ok [(S_C_IDENTIFIER, $"a"); (S_SIGN $"--", $"--"); (S_C_IDENTIFIER, $"b")]
   /\ convert_verilog_text VERILOG2005 $"a--b" = no_parse)
  /\ (forall v, is_verilog v escape [dq; bs; "q"%char; dq] /\ sv_lex v [dq; bs; "q"%char; dq] = Throw (ParseException $"token recognition error"))
  /\ (is_verilog VERILOG2005 [G_elem (T_word $"include")] $"include" /\ In $"include" (reserved_words VERILOG2005) /\ sv_lex VERILOG2005 $"include" = Ok [(S_C_IDENTIFIER, $"include")])
  /\ (is_verilog VERILOG2001_NOCONFIG [G_elem (T_word $"cell")] $"cell" /\ ~ In $"cell" (reserved_words VERILOG2001_NOCONFIG) /\ sv_lex VERILOG2001_NOCONFIG $"cell" = Ok [(S_KW $"cell", $"cell")]).
Proof.
  split; [|split; [|split]].
  - split; [exact minuses_verilog|]. split; vm_compute; reflexivity.
  - intros v. split; [exact (escape_verilog v)|]. destruct v; vm_compute; reflexivity.
  - split; [apply word_verilog; [word_ok|discriminate]|]. split; [vm_compute; repeat (first [left; reflexivity|right])|vm_compute; reflexivity].
  - split; [apply word_verilog; [word_ok|discriminate]|]. split; [|vm_compute; reflexivity]. intros I. vm_compute in I. repeat (destruct I as [I|I]; [discriminate I|]). exact I.
Qed.
Print Assumptions C82_refuted.

(** ** 8'sh F_f+ // low<nl>\a+b [-1.5e+3]/**/ ~^{x$1 ,"a\n"} , that is
    8'sh F_f + \a+b [-1.5e+3] ~^ {x$1, "a\n"} *)
Definition sample : list part :=
  [G_elem (T_based $"8" $"s" "h" $" " $"F_f"); G_elem (T_sign $"+"); G_white $" "; G_line $" low" [nl]; G_elem (T_escaped $"a+b" $" "); G_elem (T_sign $"["); G_elem (T_sign $"-"); G_elem (T_exp $"1.5" $"e+3"); G_elem (T_sign $"]");
   G_block []; G_white $" "; G_elem (T_sign $"~^"); G_elem (T_sign $"{"); G_elem (T_word $"x$1"); G_white [tab]; G_elem (T_sign $","); G_elem (T_string ($"a" ++ [bs; "n"%char])); G_elem (T_sign $"}")].
Definition sample_text : str := Eval vm_compute in flat_map part_text sample.
Definition sample_tree : vexpr :=
  VBinary B_NXOR
    (VBinary B_PLUS (VLit (L_NUMBER (TokSized $"8'sh F_f")))
       (VBitSelect (VPath (VPathOf false H_none [(IdEsc (bs :: $"a+b "), None)])) (VUnary U_MINUS (VLit (L_REAL $"1.5e+3")))))
    (VConcat [VPath (VPathOf false H_none [(IdPlain $"x$1", None)]); VLit (L_STRING (dq :: $"a" ++ [bs; "n"%char; dq]))]).
Lemma no_nl : ~ In nl $" low". Proof. cbn. intuition discriminate. Qed.
Lemma no_end : ~ occurs $"*/" []. Proof. intros (a & b & E). destruct a; discriminate E. Qed.
Ltac sign_step d := next (G_elem (T_sign d)); [sign_ok|split; [longest|split; intros; discriminate]|longest|].
Example C82_ex_cut : plain_verilog VERILOG2001 sample sample_text.
Proof.
  unfold plain_verilog, sample, sample_text.
  next (G_elem (T_based $"8" $"s" "h" $" " $"F_f")); [|split; [reflexivity|right; reflexivity]|exact Logic.I|].
  { split; [right; exists "8"%char, []; split; [reflexivity|split; [reflexivity|constructor]]|]. split; [right; left; reflexivity|]. split; [all_ok|]. right; right; right. split; [left; reflexivity|]. eexists _, _. split; [reflexivity|]. split; [reflexivity|all_ok]. }
  sign_step $"+".
  next (G_white $" "); [split; [discriminate|all_ok]|reflexivity|exact Logic.I|].
  next (G_line $" low" [nl]); [split; [exact no_nl|right; left; reflexivity]|intros; discriminate|exact Logic.I|].
  next (G_elem (T_escaped $"a+b" $" ")); [split; [discriminate|split; [all_ok|split; [discriminate|all_ok]]]|reflexivity|exact Logic.I|].
  sign_step $"[". sign_step $"-".
  next (G_elem (T_exp $"1.5" $"e+3")); [|reflexivity|exact Logic.I|].
  { split; [right; exists $"1", $"5"; split; [reflexivity|split; eexists _, []; split; try reflexivity; split; try reflexivity; constructor]|]. exists "e"%char, $"+", $"3". split; [reflexivity|]. split; [left; reflexivity|]. split; [right; left; reflexivity|]. eexists _, []. split; [reflexivity|]. split; [reflexivity|constructor]. }
  sign_step $"]".
  next (G_block []); [exact no_end|exact Logic.I|exact Logic.I|]. next (G_white $" "); [split; [discriminate|all_ok]|reflexivity|exact Logic.I|].
  sign_step $"~^". sign_step $"{". next (G_elem (T_word $"x$1")); [word_ok|split; [reflexivity|intros; discriminate]|split; [intros I; repeat (destruct I as [I|I]; [discriminate I|]); exact I|discriminate]|].
  next (G_white [tab]); [split; [discriminate|all_ok]|reflexivity|exact Logic.I|]. sign_step $",".
  next (G_elem (T_string ($"a" ++ [bs; "n"%char]))); [|exact Logic.I| |].
  { cbn. apply sb_char; [cbn; intuition discriminate|]. apply sb_escape; [discriminate|exact Logic.I|constructor]. }
  { cbn. apply sb_char; [cbn; intuition discriminate|]. apply sb_escape; [discriminate|left; cbn; tauto|constructor]. }
  sign_step $"}". constructor.
Qed.
Example C82_ex_spelled : spelled VERILOG2001 (show sample_tree) (elems sample) /\ proper sample_tree.
Proof.
  split.
  - unfold spelled, sample_tree, sample. cbn [show elems lit_toks path_toks id_tok comma_toks un_sym bin_sym app]. repeat (apply Forall2_cons; [cbn; first [reflexivity | (split; [reflexivity|split; [intros H; vm_compute in H; repeat (destruct H as [H|H]; [discriminate H|]); exact H|discriminate]])]|]). apply Forall2_nil.
  - unfold sample_tree. cbn [proper strength_of strength to_the_right separated all_args all_of]. repeat split; try discriminate; try (repeat constructor); try lia.
Qed.
Example C82_ex : exists a, convert_verilog_text VERILOG2001 sample_text = Ok a /\ length sample_text = 50.
Proof. vm_compute. eexists. split; reflexivity. Qed.
(** 8'hFf*a_1/**/[2] *)
Definition small_sample : list part :=
  [G_elem (T_based $"8" [] "h" [] $"Ff"); G_elem (T_sign $"*"); G_elem (T_word $"a_1"); G_block []; G_elem (T_sign $"["); G_elem (T_unsigned $"2"); G_elem (T_sign $"]")].
Definition small_tree : vexpr :=
  VBinary B_MUL (VLit (L_NUMBER (TokSized $"8'hFf"))) (VBitSelect (VPath (VPathOf false H_none [(IdPlain $"a_1", None)])) (VLit (L_NUMBER (TokUnsigned $"2")))).
Example C82_ex_meaning (A : algebra) :
  plain_verilog VERILOG1995 small_sample $"8'hFf*a_1/**/[2]" /\ spelled VERILOG1995 (show small_tree) (elems small_sample) /\ proper small_tree /\ exists x, vmeaning A small_tree = Some x.
Proof.
  split; [|split; [|split; [|eexists; vm_compute; reflexivity]]].
  - unfold plain_verilog, small_sample.
    next (G_elem (T_based $"8" [] "h" [] $"Ff")); [|split; [reflexivity|right; reflexivity]|exact Logic.I|].
    { split; [right; exists "8"%char, []; split; [reflexivity|split; [reflexivity|constructor]]|]. split; [left; reflexivity|]. split; [constructor|]. right; right; right. split; [left; reflexivity|]. eexists _, _. split; [reflexivity|]. split; [reflexivity|all_ok]. }
    sign_step $"*". next (G_elem (T_word $"a_1")); [word_ok|split; [reflexivity|intros; discriminate]|split; [intros []|discriminate]|]. next (G_block []); [exact no_end|exact Logic.I|exact Logic.I|].
    sign_step $"[". next (G_elem (T_unsigned $"2")); [eexists _, []; split; [reflexivity|split; [reflexivity|constructor]]|reflexivity|exact Logic.I|]. sign_step $"]". constructor.
  - unfold spelled, small_tree, small_sample. cbn [show elems lit_toks path_toks id_tok comma_toks un_sym bin_sym app]. repeat (apply Forall2_cons; [cbn; first [reflexivity | (split; [reflexivity|split; [intros H; vm_compute in H; repeat (destruct H as [H|H]; [discriminate H|]); exact H|discriminate]])]|]). apply Forall2_nil.
  - unfold small_tree. cbn [proper strength_of strength to_the_right separated all_args all_of]. repeat split; try discriminate; try (repeat constructor); try lia.
Qed.
