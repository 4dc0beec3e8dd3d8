(** C84: sequential statements, processes and concurrent assignments of VHDL are parsed as IEEE 1076-2008 writes
    them, and text, tokens and AST together behave like the statement.  [legal_stm true s]: s is a statement of the
    standard, [stm_toks s]: its tokens (VhdlStmSyntaxSpec.v); [legal_stm false]: any label may stand behind an end. *)
From Verif Require Import Base BaseFacts StrSpec AstModel StmModel LitModel LitSpec SvExprModel SvExprSpec VhdlExprModel VhdlExprSpec VhdlStmModel VhdlStmSpec VhdlStmProofs VhdlSyntaxModel VhdlSyntaxSpec.
From Verif Require Import VhdlLexModel VhdlLexSpec VhdlSpellSpec VhdlTextProofs VhdlCoverProofs VhdlStmSyntaxModel VhdlStmSyntaxSpec VhdlStmSyntaxProofs VhdlStmNormProofs VhdlStmSpellSpec VhdlStmTextProofs.

(** Every statement of the standard is read as this statement, apart from the tree ANTLR chooses for its names. *)
Theorem C84_statements_partial (s : hstm) : legal_stm true s -> parse_vstatement (stm_toks s) = Ok (norm_stm s).
Proof. exact (parse_stm_ok true s). Qed.
Print Assumptions C84_statements_partial.
Theorem C84_process_partial (b : bool) (n : option str) (se : hsens) (l : list hstm) : legal_sens se -> all (legal_stm true) l ->
  parse_vprocess (process_toks b n se l) = Ok (norm_sens se, map norm_stm l).
Proof. exact (parse_process_ok true b n se l). Qed.
Print Assumptions C84_process_partial.
Theorem C84_concurrent_partial (c : hconc) : legal_conc c -> parse_conc (conc_toks c) = Ok (norm_conc c).
Proof. exact (parse_conc_ok c). Qed.
Print Assumptions C84_concurrent_partial.
(** Two statements of the standard are never written with the same tokens. *)
Lemma raw_read strict s : legal_stm strict s -> p_stm (4 * length (stm_toks s) + 4) (stm_toks s) = Ok (s, []).
Proof. intros H. pose proof (stm_ok strict s H [] (4 * length (stm_toks s) + 4) ltac:(lia)) as E. rewrite app_nil_r in E. exact E. Qed.
Theorem C84_unambiguous (s s' : hstm) : legal_stm true s -> legal_stm true s' -> stm_toks s = stm_toks s' -> s = s'.
Proof. intros H H' E. pose proof (raw_read true s H) as P. rewrite E, (raw_read true s' H') in P. injection P as ->. reflexivity. Qed.
Print Assumptions C84_unambiguous.

(** ** From text to behaviour *)
Lemma text_read {A B : Type} (parse : list hstk -> outcome A) (conv : A -> outcome B) ts ps text : spelled_hstm false ts (lexemes ps) -> plain_vhdl ps text ->
  from_text parse conv text = x <- parse ts ;; conv x.
Proof. intros S P. unfold from_text. rewrite (lex_reads None ps text P). cbn [bind]. rewrite (spelled_hstm_toks _ _ _ S). reflexivity. Qed.
(** The text of a statement, in any spelling and layout, becomes an AST that behaves like the statement. *)
Theorem C84_behaviour_partial (A : halgebra) (M : hmachine A) (n : nat) (s : hstm) (k : hbeh A M) (ps : list piece) (text : str) :
  legal_stm true s -> spelled_hstm false (stm_toks s) (lexemes ps) -> plain_vhdl ps text -> hv_stm A M n s = Some k ->
  exists o k', convert_vstatement_text text = Ok o /\ mh_stm A M n o = Some k' /\ forall x, k' x = k x.
Proof.
  intros L S P H. rewrite <- (stm_kept A M n s) in H. destruct (hstm_sim A M n (norm_stm s) k H) as (o & Ho & _ & k' & Hk & He). exists o, k'. split; [|auto].
  unfold convert_vstatement_text. rewrite (text_read _ _ _ _ _ S P), (parse_stm_ok true s L). exact Ho.
Qed.
Print Assumptions C84_behaviour_partial.
Theorem C84_process_behaviour_partial (A : halgebra) (M : hmachine A) (n : nat) (b : bool) (e : option str) (se : hsens) (l : list hstm) x (k : hbeh A M) (ps : list piece) (text : str) :
  legal_sens se -> all (legal_stm true) l -> spelled_hstm false (process_toks b e se l) (lexemes ps) -> plain_vhdl ps text -> hv_process A M n se [] l = Some (x, k) ->
  exists o k', convert_vprocess_text text = Ok o /\ mh_process A M n o = Some (x, k') /\ forall s, k' s = k s.
Proof.
  intros L LL S P H. rewrite <- (process_kept A M n se l) in H. destruct (process_sim A M n _ _ _ x k H) as (o & k' & Ho & R). exists o, k'. split; [|exact R].
  unfold convert_vprocess_text. rewrite (text_read _ _ _ _ _ S P), (parse_process_ok true b e se l L LL). exact Ho.
Qed.
Print Assumptions C84_process_behaviour_partial.
Theorem C84_concurrent_behaviour_partial (A : halgebra) (M : hmachine A) (n : nat) (c : hconc) (k : hbeh A M) (ps : list piece) (text : str) :
  legal_conc c -> spelled_hstm false (conc_toks c) (lexemes ps) -> plain_vhdl ps text -> hv_conc A M c = Some k ->
  exists o k', convert_conc_text text = Ok o /\ mh_stm A M n o = Some k' /\ forall x, k' x = k x.
Proof.
  intros L S P H. rewrite <- (conc_kept A M c) in H. destruct (conc_sim A M n _ _ H) as (o & Ho & _ & k' & Hk & He). exists o, k'. split; [|auto].
  unfold convert_conc_text. rewrite (text_read _ _ _ _ _ S P), (parse_conc_ok c L). exact Ho.
Qed.
Print Assumptions C84_concurrent_behaviour_partial.

(** ** What the standard forbids *)
(** a: loop end loop b; *)
Definition other_label (a b : str) : list hstk := [name_ a; Colon; Kw k_loop; Kw k_end; Kw k_loop; name_ b; Semi].
Theorem C84_end_label_refuted (a b : str) : ~ same_name a b ->
  parse_vstatement (other_label a b) = Ok (HS (Some a) (J_loop [] (Some b))) /\ forall s, legal_stm true s -> stm_toks s <> other_label a b.
Proof.
  intros N. split; [reflexivity|]. intros s L E. pose proof (raw_read true s L) as P. rewrite E in P. cbv in P. injection P as <-. exact (N (proj2 L)).
Qed.
Print Assumptions C84_end_label_refuted.
(** case? x is when others => null; end case; *)
Definition no_quest (x : str) : list hstk := [Kw k_case; Quest; name_ x; Kw k_is; Kw k_when; X KOthers; X KArrow; X KNull; Semi; Kw k_end; Kw k_case; Semi].
Theorem C84_matching_case_refuted (x : str) :
  parse_vstatement (no_quest x) = Ok (HS None (J_case true (HLit (NL_id x)) [([Ch_others], [HS None J_null])] None)) /\ forall s, legal_stm true s -> stm_toks s <> no_quest x.
Proof.
  split; [reflexivity|]. intros s L E. pose proof (raw_read true s L) as P. rewrite E in P. cbv in P. injection P as <-. discriminate E.
Qed.
Print Assumptions C84_matching_case_refuted.

(** ** PROCESS (clk) BEGIN l1: if clk = '1' then q <= d; elsif r then null; end if L1; END process; *)
Lemma is_listed w l : existsb (seqb w) l = true -> In w l.
Proof. intros H. apply existsb_exists in H as (x & I & E). apply seqb_eq in E. subst. exact I. Qed.
Lemma not_listed w l : existsb (seqb w) l = false -> ~ In w l.
Proof. intros H I. assert (E : existsb (seqb w) l = true) by (apply existsb_exists; exists w; split; [exact I|apply seqb_eq; reflexivity]). congruence. Qed.
Ltac fact := first [exact Logic.I | reflexivity | tauto | discriminate | (intros; discriminate) | (split; fact) | (left; fact) | (right; fact)].
Ltac word_ok := split; [repeat first [apply run_one; reflexivity | apply run_under; [reflexivity|] | apply run_next; [reflexivity|]]|reflexivity].
Ltac delim_ok := cbn; auto 45.
Ltac next p := match goal with |- reads ?Q ?pr (_ :: ?ps) ?s => let r := eval cbn in (skipn (length (piece_text p)) s) in change s with (piece_text p ++ r); apply reads_cons end.
Ltac step := match goal with
  | |- reads _ _ (P_lex (L_word ?w) :: _) _ => next (P_lex (L_word w)); [word_ok|fact|fact|fact|]
  | |- reads _ _ (P_lex (L_delim ?d) :: _) _ => next (P_lex (L_delim d)); [delim_ok|fact|fact|fact|]
  | |- reads _ _ (P_lex (L_char ?c) :: _) _ => next (P_lex (L_char c)); [fact|fact|fact|fact|]
  | |- reads _ _ (P_blank ?c :: _) _ => next (P_blank c); [fact|fact|fact|fact|]
  | |- reads _ _ [] _ => constructor
  end.
Definition w_ (s : string) : piece := P_lex (L_word $s).
Definition d_ (s : string) : piece := P_lex (L_delim $s).
Definition demo_pieces : list piece := Eval cbv [w_ d_] in
  [w_ "PROCESS"; P_blank sp; d_ "("; w_ "clk"; d_ ")"; P_blank sp; w_ "BEGIN"; P_blank nl; w_ "l1"; d_ ":"; P_blank sp; w_ "if"; P_blank sp; w_ "clk"; P_blank sp; d_ "="; P_blank sp; P_lex (L_char "1"); P_blank sp;
   w_ "then"; P_blank sp; w_ "q"; d_ "<="; w_ "d"; d_ ";"; P_blank sp; w_ "elsif"; P_blank sp; w_ "r"; P_blank sp; w_ "then"; P_blank sp; w_ "null"; d_ ";"; P_blank sp;
   w_ "end"; P_blank sp; w_ "if"; P_blank sp; w_ "L1"; d_ ";"; P_blank nl; w_ "END"; P_blank sp; w_ "process"; d_ ";"].
Definition demo_text : str := Eval vm_compute in flat_map piece_text demo_pieces.
Definition id_ (s : string) : hexpr := HLit (NL_id $s).
Definition demo_if : hstm :=
  HS (Some $"l1") (J_if (HRel O_EQ (id_ "clk") (HLit (NL_char $"'1'"))) [HS None (J_signal (id_ "q") None (W_elems (id_ "d", None) []))] [(id_ "r", [HS None J_null])] None (Some $"L1")).
Example C84_ex_legal : legal_sens (HSens [id_ "clk"]) /\ all (legal_stm true) [demo_if].
Proof.
  split; [split; [discriminate|repeat split]|]. cbn [all legal_stm demo_if legal_item fst snd]. repeat split; try exact Logic.I; try (cbn; unfold c_primary, c_factor, c_term, c_simple, c_shift, c_relation, c_logical; lia); try (left; reflexivity).
  right. split; [cbn; intuition discriminate|reflexivity].
Qed.
Example C84_ex_text : spelled_hstm false (process_toks false None (HSens [id_ "clk"]) [demo_if]) (lexemes demo_pieces) /\ plain_vhdl demo_pieces demo_text.
Proof.
  split.
  - unfold demo_pieces. cbn [lexemes process_toks sens_toks sep_by xs vshow map app id_ demo_if seq_toks flat_map stm_toks item_toks close_toks label_toks fst snd]. cbn.
    repeat (apply sph_cons; [cbn [spells_hstk hkw_text]; first [reflexivity | (split; [reflexivity|eexists; split; reflexivity]) | (cbn [spells name_]; split; [reflexivity|right; apply not_listed; vm_compute; reflexivity]) | (split; reflexivity)]|]). constructor.
  - unfold plain_vhdl, demo_pieces, demo_text. repeat step.
Qed.
Example C84_ex_behaves (A : halgebra) (M : hmachine A) : exists x k, hv_process A M 9 (HSens [id_ "clk"]) [] [demo_if] = Some (x, k).
Proof. eexists _, _. vm_compute. reflexivity. Qed.
Example C84_ex_parse : match convert_vprocess_text demo_text with Ok (SProcess _ (Some [EId c]) ALWAYS_NONE (SBlock _ SEQ [SIf _ _ _ [_] None])) => c = $"clk" | _ => False end.
Proof. vm_compute. reflexivity. Qed.
(** with s select q <= a when 0 | 3 downto 2, b when others; *)
Definition demo_select : hconc :=
  CC_select false (id_ "s") (id_ "q") [(W_elems (id_ "a", None) [], [Ch (R_name (HNum false $"0" None)); Ch (R_explicit (HNum false $"3" None) Downto (HNum false $"2" None))]); (W_elems (id_ "b", None) [], [Ch_others])].
Example C84_ex_select (A : halgebra) (M : hmachine A) : legal_conc demo_select /\ exists k, hv_conc A M demo_select = Some k.
Proof. split; [|eexists; vm_compute; reflexivity]. cbn. repeat split; try discriminate; unfold c_primary, c_factor, c_term, c_simple, c_shift, c_relation, c_logical; try lia; try (left; reflexivity); try exact Logic.I; auto. all: cbn; unfold c_primary; lia. Qed.
(** A loop in a loop, a case with choices, a wait and a jump. *)
Example C84_ex_loops : match convert_vstatement_text $"o: for i in 7 downto 0 loop while a(i) = '0' loop case s is when 1 | 2 to 3 => x := x + 1; when others => exit o when x > 4; end case; wait on clk until rst for 5 ns; end loop; end loop o;" with
  | Ok (SForIn _ _ _ (SBlock _ SEQ [SWhile _ _ (SBlock _ SEQ [SCase _ _ CASE _ [_; _] (Some _); SWait _ _])])) => True | _ => False end.
Proof. vm_compute. exact Logic.I. Qed.
