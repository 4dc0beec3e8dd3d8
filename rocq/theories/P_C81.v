(** C81: the text of a VHDL expression is cut into the lexical elements of IEEE 1076 clause 15, and text,
    tokens and AST together have the meaning of the expression.  [is_vhdl ps s]: the text s consists of the
    elements, white space and comments ps (VhdlLexSpec.v); [plain_vhdl]: without what the lexer does not
    know. *)
From Verif Require Import Base BaseFacts StrSpec AstModel LitModel LitSpec SvExprModel SvExprSpec VhdlExprModel VhdlExprSpec VhdlExprProofs VhdlSyntaxModel VhdlSyntaxSpec VhdlSyntaxProofs VhdlNormProofs.
From Verif Require Import VhdlLexModel VhdlLexSpec VhdlSpellSpec VhdlTextProofs VhdlCoverProofs.

(** Every text becomes the tokens of its elements, in order, with their texts; reserved words in any case. *)
Theorem C81_tokens_partial (ps : list piece) (s : str) : plain_vhdl ps s -> vhdl_lex s = Ok (map token_of (lexemes ps)).
Proof. exact (lex_reads None ps s). Qed.
Print Assumptions C81_tokens_partial.
(** There is only one way to read a text. *)
Theorem C81_unambiguous_partial ps ps' s : plain_vhdl ps s -> plain_vhdl ps' s -> lexemes ps = lexemes ps'.
Proof.
  intros H H'. assert (E := C81_tokens_partial _ _ H). rewrite (C81_tokens_partial _ _ H') in E. injection E as E.
  apply tokens_inj; [exact (reads_ok _ _ _ _ H)|exact (reads_ok _ _ _ _ H')|symmetry; exact E].
Qed.
Print Assumptions C81_unambiguous_partial.
(** White space and comments do not matter. *)
Theorem C81_layout_partial ps ps' s s' : plain_vhdl ps s -> plain_vhdl ps' s' -> lexemes ps = lexemes ps' -> vhdl_lex s = vhdl_lex s' /\ convert_vhdl_text s = convert_vhdl_text s'.
Proof.
  intros H H' E. assert (G : vhdl_lex s = vhdl_lex s') by (rewrite (C81_tokens_partial _ _ H), (C81_tokens_partial _ _ H'), E; reflexivity). split; [exact G|]. unfold convert_vhdl_text. rewrite G. reflexivity.
Qed.
Print Assumptions C81_layout_partial.
(** From text to meaning: a legal expression, written with any spelling and layout, becomes an AST with
    the meaning of the expression. *)
Theorem C81_meaning_partial (A : halgebra) (e : hexpr) (v : HV A) ps s :
  legal e -> hvmeaning A e = Some v -> plain_vhdl ps s -> spelled false (vshow e) (lexemes ps) ->
  exists a, convert_vhdl_text s = Ok a /\ hmeaning A a = Some v.
Proof.
  intros L HM H S. rewrite <- (norm_meaning A e) in HM. destruct (hconv_sim A (norm e) v HM) as (a & C & Hm & _). exists a. split; [|exact Hm].
  unfold convert_vhdl_text. rewrite (C81_tokens_partial _ _ H). cbn [bind]. rewrite (spelled_toks _ _ _ S), (parse_vshow e L). exact C.
Qed.
Print Assumptions C81_meaning_partial.
(** Any text at all: it is refused, or it consists of its tokens with layout between them; reserved words
    and identifiers are told apart. *)
Theorem C81_nothing_lost (s : str) :
  vhdl_lex s = Throw (ParseException $"token recognition error") \/
  exists ts, vhdl_lex s = Ok ts /\ made_of (map snd ts) s /\
    Forall (fun kt => match fst kt with
                      | V_KW k => In k reserved /\ map small (snd kt) = k
                      | V_BASIC_IDENTIFIER => run alnum (snd kt) /\ letter (hd sp (snd kt)) = true /\ ~ In (map small (snd kt)) reserved
                      | _ => True end) ts.
Proof.
  destruct (v_loop_ends (length s) s (le_n _)) as [[ts H]|H]; [right|left; exact H]. exists ts. split; [exact H|]. apply v_loop_steps in H. split; [exact (steps_made _ _ H)|exact (steps_ok _ _ H)].
Qed.
Print Assumptions C81_nothing_lost.

(** ** What is read in another way *)
Ltac fact := first [exact Logic.I | reflexivity | tauto | discriminate | (intros; discriminate) | (split; fact) | (left; fact) | (right; fact)].
Ltac word_ok := split; [repeat first [apply run_one; reflexivity | apply run_under; [reflexivity|] | apply run_next; [reflexivity|]]|reflexivity].
Ltac all_ok := repeat (apply Forall_cons; [first [reflexivity | (split; [reflexivity|split; discriminate])]|]); apply Forall_nil.
Ltac delim_ok := cbn; auto 45.
Ltac next p := match goal with |- reads ?Q ?pr (_ :: ?ps) ?s => let r := eval cbn in (skipn (length (piece_text p)) s) in change s with (piece_text p ++ r); apply reads_cons end.
Tactic Notation "step" constr(p) "by" tactic(t) := next p; [t|fact|fact|fact|].
(** (parenthesis, comma): the apostrophe before ( is taken for that of a qualified expression *)
Definition quotes : list piece := [P_lex (L_delim $"("); P_lex (L_char "("); P_lex (L_delim $","); P_lex (L_char "a"); P_lex (L_delim $")")].
(** x'a'b: the attribute a is taken for the literal 'a' *)
Definition attributes : list piece := [P_lex (L_word $"x"); P_lex (L_delim $"'"); P_lex (L_word $"a"); P_lex (L_delim $"'"); P_lex (L_word $"b")].
Definition vtab : ascii := ascii_of_nat 11.
Definition text_of (ps : list piece) : str := flat_map piece_text ps.
Lemma quotes_vhdl : is_vhdl quotes (text_of quotes).
Proof.
  unfold is_vhdl, quotes, text_of. cbn. step (P_lex (L_delim $"(")) by delim_ok. step (P_lex (L_char "(")) by fact. step (P_lex (L_delim $",")) by delim_ok.
  step (P_lex (L_char "a")) by fact. step (P_lex (L_delim $")")) by delim_ok. constructor.
Qed.
Lemma attributes_vhdl : is_vhdl attributes (text_of attributes).
Proof.
  unfold is_vhdl, attributes, text_of. cbn. step (P_lex (L_word $"x")) by word_ok. step (P_lex (L_delim $"'")) by delim_ok. step (P_lex (L_word $"a")) by word_ok.
  step (P_lex (L_delim $"'")) by delim_ok. step (P_lex (L_word $"b")) by word_ok. constructor.
Qed.
Theorem C81_refuted :
  (is_vhdl quotes (text_of quotes) /\ vhdl_lex (text_of quotes) = Ok [(V_DELIM $"(", $"("); (V_DELIM $"'", $"'"); (V_DELIM $"(", $"("); (V_CHARACTER_LITERAL, $"','"); (V_BASIC_IDENTIFIER, $"a"); (V_DELIM $"'", $"'"); (V_DELIM $")", $")")])
  /\ (is_vhdl attributes (text_of attributes) /\ vhdl_lex (text_of attributes) = Ok [(V_BASIC_IDENTIFIER, $"x"); (V_CHARACTER_LITERAL, $"'a'"); (V_BASIC_IDENTIFIER, $"b")])
  /\ (is_vhdl [P_blank vtab] [vtab] /\ vhdl_lex [vtab] = Throw (ParseException $"token recognition error"))
  /\ (is_vhdl [P_lex (L_extended [dq])] [bs; dq; bs] /\ vhdl_lex [bs; dq; bs] <> Ok [token_of (L_extended [dq])]).
Proof.
  split; [split; [exact quotes_vhdl|vm_compute; reflexivity]|]. split; [split; [exact attributes_vhdl|vm_compute; reflexivity]|]. split; (split; [|vm_compute; first [reflexivity|discriminate]]).
  - change [vtab] with (piece_text (P_blank vtab) ++ []). apply reads_cons; [fact|fact|fact|fact|constructor].
  - change [bs; dq; bs] with (piece_text (P_lex (L_extended [dq])) ++ []). apply reads_cons; [split; [discriminate|all_ok]|fact|fact|fact|constructor].
Qed.
Print Assumptions C81_refuted.

(** ** 16x"0F" -- low<nl> AND/**/\a b\'Range(1) /= f("x""y", t'('1')) *)
Definition sample : list piece :=
  [P_lex (L_bits $"16x" $"0F"); P_blank sp; P_line $" low"; P_blank nl; P_lex (L_word $"AND"); P_block []; P_lex (L_extended $"a b"); P_lex (L_delim $"'"); P_lex (L_word $"Range"); P_lex (L_delim $"(");
   P_lex (L_decimal $"1"); P_lex (L_delim $")"); P_blank tab; P_lex (L_delim $"/="); P_lex (L_word $"f"); P_lex (L_delim $"("); P_lex (L_string ($"x" ++ [dq] ++ $"y")); P_lex (L_delim $","); P_blank sp;
   P_lex (L_word $"t"); P_lex (L_delim $"'"); P_lex (L_delim $"("); P_lex (L_char "1"); P_lex (L_delim $")"); P_lex (L_delim $")")].
Definition sample_text : str := Eval vm_compute in text_of sample.
Definition sample_tree : hexpr :=
  let id s := HLit (NL_id s) in
  HLog O_AND (HBits ($"16x" ++ [dq] ++ $"0F" ++ [dq]))
    (HRel O_NE (HApply (HAttr (HLit (NL_id (bs :: $"a b" ++ [bs]))) false $"Range") [pos (HNum false $"1" None)])
               (HApply (id $"f") [pos (HLit (NL_op (dq :: $"x" ++ [dq; dq] ++ $"y" ++ [dq]))); pos (HQual (id $"t") [([], HLit (NL_char $"'1'"))])])).
Lemma no_nl : ~ In nl $" low". Proof. cbn. intuition discriminate. Qed.
Lemma no_end : ~ occurs $"*/" []. Proof. intros (a & b & E). destruct a; discriminate E. Qed.
Example C81_ex_reads : plain_vhdl sample sample_text.
Proof.
  unfold plain_vhdl, sample, sample_text.
  next (P_lex (L_bits $"16x" $"0F")); [|fact|fact|fact|]. { split; [|all_ok]. exists $"16", $"x". split; [reflexivity|]. split; [right; apply run_next; [reflexivity|apply run_one; reflexivity]|cbn; auto]. }
  step (P_blank sp) by fact. step (P_line $" low") by exact no_nl. step (P_blank nl) by fact.
  step (P_lex (L_word $"AND")) by word_ok. step (P_block []) by exact no_end. next (P_lex (L_extended $"a b")); [split; [discriminate|all_ok]|fact|fact|cbn; intuition discriminate|].
  step (P_lex (L_delim $"'")) by delim_ok. step (P_lex (L_word $"Range")) by word_ok. step (P_lex (L_delim $"(")) by delim_ok.
  next (P_lex (L_decimal $"1")); [|fact|fact|fact|]. { exists $"1", [], []. split; [reflexivity|]. split; [apply run_one; reflexivity|]. split; left; reflexivity. }
  step (P_lex (L_delim $")")) by delim_ok. step (P_blank tab) by fact. step (P_lex (L_delim $"/=")) by delim_ok. step (P_lex (L_word $"f")) by word_ok.
  step (P_lex (L_delim $"(")) by delim_ok. step (P_lex (L_string ($"x" ++ [dq] ++ $"y"))) by all_ok. step (P_lex (L_delim $",")) by delim_ok. step (P_blank sp) by fact.
  step (P_lex (L_word $"t")) by word_ok. step (P_lex (L_delim $"'")) by delim_ok. step (P_lex (L_delim $"(")) by delim_ok. step (P_lex (L_char "1")) by fact.
  step (P_lex (L_delim $")")) by delim_ok. step (P_lex (L_delim $")")) by delim_ok. constructor.
Qed.
Example C81_ex_spelled : spelled false (vshow sample_tree) (lexemes sample) /\ legal sample_tree.
Proof.
  split.
  - cbn [vshow sample_tree]. unfold sample, lexemes. cbn. repeat (apply sp_cons; [cbn; first [reflexivity | (split; [reflexivity|first [reflexivity | (left; reflexivity) | (right; intros H; repeat (destruct H as [H|H]; [discriminate H|]); exact H)]])]|]). apply sp_nil.
  - unfold sample_tree, pos. cbn [legal category is_name all legal_assoc legal_desig legal_elem legal_choice fst snd]. unfold c_primary, c_factor, c_term, c_simple, c_shift, c_relation, c_logical. repeat split; try discriminate; try lia.
Qed.
Example C81_ex : exists a, convert_vhdl_text sample_text = Ok a /\ length sample_text = 57.
Proof. vm_compute. eexists. split; reflexivity. Qed.
Example C81_ex_meaning (A : halgebra) : exists v, hvmeaning A sample_tree = Some v.
Proof. eexists. vm_compute. reflexivity. Qed.
