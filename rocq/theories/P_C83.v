(** C83: procedural statements of Verilog are parsed as IEEE 1800-2017 clause A.6 writes them, and text, tokens
    and AST together behave like the statement.  [is_statement s ts]: ts are the tokens of the statement s
    (SvStmSyntaxSpec.v); [w_stm false]: the same, but any name may stand behind the end of a block. *)
From Verif Require Import Base BaseFacts StrSpec AstModel LitModel LitSpec StmModel SvExprModel SvExprSpec SvStmModel SvStmSpec SvStmProofs SvProcProofs SvSyntaxModel SvSyntaxSpec SvSyntaxProofs.
From Verif Require Import VhdlLexSpec SvLexModel SvLexSpec SvSpellSpec SvTextProofs SvStmSyntaxModel SvStmSyntaxSpec SvLvalueProofs SvStmSyntaxComplete SvStmSyntaxSound SvStmSpellSpec SvStmTextProofs.

(** Every statement of the standard is read as this statement. *)
Theorem C83_statements (s : vstm) (ts : list stk) : is_statement s ts -> parse_statement ts = Ok s.
Proof. exact (parse_written true s ts). Qed.
Print Assumptions C83_statements.
(** Exactly these token sequences are read, apart from the names behind the ends of blocks and &&&. *)
Theorem C83_grammar_partial (s : vstm) (ts : list stk) : ~ In (X KAnd3) ts -> (parse_statement ts = Ok s <-> w_stm false s ts).
Proof. intros N. split; [intros H; exact (parse_read ts s H N)|exact (parse_written false s ts)]. Qed.
Print Assumptions C83_grammar_partial.
(** The grammar is not ambiguous. *)
Theorem C83_unambiguous (s s' : vstm) (ts : list stk) : is_statement s ts -> is_statement s' ts -> s = s'.
Proof. intros H H'. apply C83_statements in H, H'. congruence. Qed.
Print Assumptions C83_unambiguous.
(** The parser always comes to an end: there is a statement or a parse error. *)
Theorem C83_terminates (ts : list stk) : parse_statement ts <> Base.OutOfFuel /\ forall w, parse_statement ts <> UB w.
Proof. exact (parse_runs ts). Qed.
Print Assumptions C83_terminates.
(** An else belongs to the nearest if: if (c) if (d) s else t. *)
Theorem C83_else (c d : vexpr) (s t : vstm) ss ts : proper c -> proper d -> is_statement s ss -> open_if s = false -> is_statement t ts ->
  parse_statement (Kw k_if :: par c ++ Kw k_if :: par d ++ ss ++ Kw k_else :: ts)
  = Ok (TStm None [] [] (I_if None c [] (TStm None [] [] (I_if None d [] s (Some t))) None)).
Proof.
  intros C D S O T. apply C83_statements. apply w_plain. apply (w_if true None c _ (Kw k_if :: par d ++ ss ++ Kw k_else :: ts)); [discriminate|exact C|]. apply w_plain. apply (w_if_else true None d s t ss ts); [discriminate|exact D|exact S|exact O|exact T].
Qed.
Print Assumptions C83_else.

(** ** From text to behaviour *)
(** The text of a statement, in any spelling and layout, becomes an AST that behaves like the statement. *)
Theorem C83_behaviour_partial (A : algebra) (M : machine A) (n : nat) (v : lang) (s : vstm) (k : beh A M) (ts : list stk) (ps : list part) (text : str) :
  is_statement s ts -> spelled_stm v ts (elems ps) -> plain_verilog v ps text -> v_stm A M n s = Some k ->
  exists o k', convert_statement_text v text = Ok o /\ m_stm A M n o = Some k' /\ forall x, k' x = k x.
Proof.
  intros W S P H. destruct (stm_sim A M n s k H) as (o & Ho & (k' & Hk & He) & _). exists o, k'. split; [|auto].
  unfold convert_statement_text. rewrite (lex_cut v ps text P). cbn [bind]. rewrite (spelled_stm_toks v ts _ S), (C83_statements s ts W). exact Ho.
Qed.
Print Assumptions C83_behaviour_partial.
Lemma process_text v p ts ps text : w_process true p ts -> spelled_stm v ts (elems ps) -> plain_verilog v ps text -> convert_process_text v text = conv_process p.
Proof.
  intros W S P. unfold convert_process_text. rewrite (lex_cut v ps text P). cbn [bind]. rewrite (spelled_stm_toks v ts _ S).
  assert (E : parse_process ts = Ok p).
  { destruct W as [k s ts W N|s ts W]; pose proof (parse_written true s ts W) as E.
    - destruct k; cbn [parse_process]; rewrite E; cbn [bind]; (destruct s; [destruct (N at_ eq_refl)|reflexivity]).
    - cbn [parse_process]. rewrite E. reflexivity. }
  rewrite E. reflexivity.
Qed.
Theorem C83_always_partial (A : algebra) (M : machine A) (n : nat) (v : lang) kind (s : vstm) (k : beh A M) ts ps text :
  w_process true (P_always kind s) ts -> spelled_stm v ts (elems ps) -> plain_verilog v ps text -> v_process A M n kind s = Some k -> supported kind s = true ->
  exists o k', convert_process_text v text = Ok o /\ m_process A M n o = Some k' /\ forall x, k' x = k x.
Proof. intros W S P H U. destruct (always_sim A M n kind [] s k H U) as (o & k' & Ho & Hk & He). exists o, k'. split; [|auto]. rewrite (process_text v _ ts ps text W S P). exact Ho. Qed.
Print Assumptions C83_always_partial.
Theorem C83_initial_partial (A : algebra) (M : machine A) (n : nat) (v : lang) (s : vstm) (k0 k : beh A M) ts ps text :
  w_process true (P_initial s) ts -> spelled_stm v ts (elems ps) -> plain_verilog v ps text -> v_stm A M n s = Some k0 -> v_initial A M n s = Some k -> par_block s = false -> n <> 0 ->
  exists o k', convert_process_text v text = Ok o /\ m_process A M n o = Some k' /\ forall x, no_jump (k0 x) -> k' x = k x.
Proof. intros W S P H H1 B N. destruct (initial_sim A M n s k0 k H H1 B N) as (o & k' & Ho & Hk & He). exists o, k'. split; [|auto]. rewrite (process_text v _ ts ps text W S P). exact Ho. Qed.
Print Assumptions C83_initial_partial.

(** ** What the standard forbids: begin : a end : b *)
Definition one_name (a b : str) : list stk := [Kw k_begin; X KColon; X (KId a); Kw k_end; X KColon; X (KId b)].
Theorem C83_end_name_refuted (a b : str) : a <> b -> parse_statement (one_name a b) = Ok (TStm None [] [] (I_block SEQ (Some (IdPlain a)) [] [])) /\ forall s, ~ is_statement s (one_name a b).
Proof.
  intros N. assert (E : parse_statement (one_name a b) = Ok (TStm None [] [] (I_block SEQ (Some (IdPlain a)) [] []))) by reflexivity. split; [exact E|].
  intros s W. pose proof (C83_statements s _ W) as E2. assert (s = TStm None [] [] (I_block SEQ (Some (IdPlain a)) [] [])) as -> by congruence.
  inversion W as [|i ts WI EI ET|]. subst. inversion WI as [| | | | | | | | | | | | | | | | | | |j n m l ts EN WS EJ ET| | ]. subst. inversion WS. subst. cbn in ET. destruct m as [[m|m]|]; try discriminate ET. injection ET as ->.
  destruct EN as [Z|[Z|Z]]; [discriminate Z|injection Z as ->; exact (N eq_refl)|discriminate Z].
Qed.
Print Assumptions C83_end_name_refuted.
(** A name may even stand behind the end of a block that has none. *)
Theorem C83_no_name_refuted (b : str) : parse_statement [Kw k_begin; Kw k_end; X KColon; X (KId b)] = Ok (TStm None [] [] (I_block SEQ None [] [])) /\ forall s, ~ is_statement s [Kw k_begin; Kw k_end; X KColon; X (KId b)].
Proof.
  split; [reflexivity|]. intros s W. pose proof (C83_statements s _ W) as E2. assert (s = TStm None [] [] (I_block SEQ None [] [])) as -> by (vm_compute in E2; congruence).
  inversion W as [|i ts WI EI ET|]. subst. inversion WI as [| | | | | | | | | | | | | | | | | | |j n m l ts EN WS EJ ET| | ]. subst. inversion WS. subst. cbn in ET. destruct m as [[m|m]|]; try discriminate ET.
  destruct EN as [Z|[Z|Z]]; discriminate Z.
Qed.
Print Assumptions C83_no_name_refuted.

(** ** always @(posedge clk) if (r) q <= 0; else begin : b q <= q+1; end *)
Ltac all_ok := repeat (apply Forall_cons; [reflexivity|]); apply Forall_nil.
Ltac word_ok := eexists _, _; split; [reflexivity|split; [reflexivity|all_ok]].
Lemma is_listed w l : existsb (seqb w) l = true -> In w l.
Proof. intros H. apply existsb_exists in H as (x & I & E). apply seqb_eq in E. subst. exact I. Qed.
Lemma not_listed w l : existsb (seqb w) l = false -> ~ In w l.
Proof. intros H I. assert (E : existsb (seqb w) l = true) by (apply existsb_exists; exists w; split; [exact I|apply seqb_eq; reflexivity]). congruence. Qed.
Lemma is_longest ds d rest : forallb (fun x => negb (is_prefix x (d ++ rest)) || (length x <=? length d)) (ds ++ [ $"//"; $"/*" ]) = true -> longest_of ds d rest.
Proof. intros H x I P. apply (proj1 (forallb_forall _ _) H) in I. rewrite P in I. apply Nat.leb_le. exact I. Qed.
Ltac sign_ok := apply is_listed; vm_compute; reflexivity.
Ltac longest := apply is_longest; vm_compute; reflexivity.
Ltac next p := match goal with |- cut ?Q ?v (_ :: ?ps) ?s => let r := eval cbn in (skipn (length (part_text p)) s) in change s with (part_text p ++ r); apply cut_cons end.
Ltac not_in := apply not_listed; vm_compute; reflexivity.
Ltac step := match goal with
  | |- cut _ _ (G_elem (T_sign ?d) :: _) _ => next (G_elem (T_sign d)); [sign_ok|split; [longest|split; intros; discriminate]|longest|]
  | |- cut _ _ (G_elem (T_word ?w) :: _) _ => next (G_elem (T_word w)); [word_ok|split; [first [reflexivity|exact Logic.I]|intros; discriminate]|split; [not_in|discriminate]|]
  | |- cut _ _ (G_elem (T_unsigned ?n) :: _) _ => next (G_elem (T_unsigned n)); [eexists _, []; split; [reflexivity|split; [reflexivity|constructor]]|first [reflexivity|exact Logic.I]|exact Logic.I|]
  | |- cut _ _ (G_white ?w :: _) _ => next (G_white w); [split; [discriminate|all_ok]|first [reflexivity|exact Logic.I]|exact Logic.I|]
  | |- cut _ _ [] _ => apply cut_nil
  end.
Definition w_ (s : string) : part := G_elem (T_word $s).
Definition s_ (s : string) : part := G_elem (T_sign $s).
Definition sp_ : part := G_white $" ".
Definition demo_parts : list part := Eval cbv [w_ s_ sp_] in
  [w_ "always"; sp_; s_ "@"; s_ "("; w_ "posedge"; sp_; w_ "clk"; s_ ")"; sp_; w_ "if"; sp_; s_ "("; w_ "r"; s_ ")"; sp_; w_ "q"; sp_; s_ "<="; sp_; G_elem (T_unsigned $"0"); s_ ";"; sp_;
   w_ "else"; sp_; w_ "begin"; sp_; s_ ":"; sp_; w_ "b"; sp_; w_ "q"; sp_; s_ "<="; sp_; w_ "q"; s_ "+"; G_elem (T_unsigned $"1"); s_ ";"; sp_; w_ "end"].
Definition demo_text : str := $"always @(posedge clk) if (r) q <= 0; else begin : b q <= q+1; end".
Definition ident_ (s : string) : vexpr := VPath (VPathOf false H_none [(IdPlain $s, None)]).
Definition target_ (s : string) : vexpr := VLvHier (VPathOf false H_none [(IdPlain $s, None)]) [] [] None.
Definition num_ (s : string) : vexpr := VLit (L_NUMBER (TokUnsigned $s)).
Definition demo_body : vstm :=
  TStm None [] [] (I_if None (ident_ "r") [] (TStm None [] [] (I_nonblocking (target_ "q") None (num_ "0")))
    (Some (TStm None [] [] (I_block SEQ (Some (IdPlain $"b")) [] [TStm None [] [] (I_nonblocking (target_ "q") None (VBinary B_PLUS (ident_ "q") (num_ "1")))])))).
Definition demo_stm : vstm := TStm None [] [] (I_timing (T_event (EC_expr [EvItem (Some E_posedge) (ident_ "clk") None])) demo_body).
Definition x_ (s : string) : stk := X (KId $s).
Definition demo_toks : list stk :=
  [At; X KLp; Kw k_posedge; x_ "clk"; X KRp] ++ [Kw k_if; X KLp; x_ "r"; X KRp; x_ "q"; X (KOp S_LE); X (KUnsigned $"0"); Semi; Kw k_else; Kw k_begin; X KColon; x_ "b"; x_ "q"; X (KOp S_LE); x_ "q"; X (KOp S_PLUS); X (KUnsigned $"1"); Semi; Kw k_end].
Ltac good_lv := split; [split; [discriminate|repeat constructor]|split; [constructor|split; [constructor|exact Logic.I]]].
Ltac good_e := cbn [proper strength_of strength to_the_right separated all_args all_of]; repeat split; try discriminate; try (repeat constructor); try lia.
Example C83_ex_statement : is_statement demo_stm demo_toks.
Proof.
  apply w_plain. apply (w_at true (EC_expr [EvItem (Some E_posedge) (ident_ "clk") None]) demo_body [At; X KLp; Kw k_posedge; x_ "clk"; X KRp]).
  { apply (w_ec_expr [EvItem (Some E_posedge) (ident_ "clk") None] [Kw k_posedge; x_ "clk"]). apply w_evs_one. apply (w_ev (Some E_posedge) (ident_ "clk")); [good_e|exact Logic.I]. }
  apply w_plain. apply (w_if_else true None (ident_ "r") _ _ [x_ "q"; X (KOp S_LE); X (KUnsigned $"0"); Semi] [Kw k_begin; X KColon; x_ "b"; x_ "q"; X (KOp S_LE); x_ "q"; X (KOp S_PLUS); X (KUnsigned $"1"); Semi; Kw k_end]); [discriminate|good_e| |reflexivity|].
  - apply w_plain. apply (w_nonblocking true (target_ "q") (num_ "0")); [good_lv|good_e].
  - apply w_plain. apply (w_block true SEQ (Some (IdPlain $"b")) None _ [x_ "q"; X (KOp S_LE); x_ "q"; X (KOp S_PLUS); X (KUnsigned $"1"); Semi]); [left; reflexivity|].
    apply (w_stms_cons true _ [] [x_ "q"; X (KOp S_LE); x_ "q"; X (KOp S_PLUS); X (KUnsigned $"1"); Semi] []); [|constructor]. apply w_plain. apply (w_nonblocking true (target_ "q") (VBinary B_PLUS (ident_ "q") (num_ "1"))); [good_lv|good_e].
Qed.
Example C83_ex_process (A : algebra) (M : machine A) :
  w_process true (P_always K_always demo_stm) (Kw k_always :: demo_toks) /\ spelled_stm VERILOG2001 (Kw k_always :: demo_toks) (elems demo_parts) /\ plain_verilog VERILOG2001 demo_parts demo_text
  /\ (exists k, v_process A M 9 K_always demo_stm = Some k) /\ supported K_always demo_stm = true.
Proof.
  split; [apply w_always; [exact C83_ex_statement|discriminate]|]. split; [|split; [|split; [eexists; vm_compute; reflexivity|reflexivity]]].
  - unfold spelled_stm, demo_toks, demo_parts. cbn [elems app]. repeat (apply Forall2_cons; [cbn [spells_stk kw_text]; first [reflexivity | solve [split; [reflexivity|sign_ok]] | (cbn [x_ spells]; split; [reflexivity|split; [not_in|discriminate]])]|]). apply Forall2_nil.
  - unfold plain_verilog, demo_parts, demo_text. repeat step.
Qed.
(** begin : t for (i = 0; i < 8; i = i + 1) fork a[i] = #3 i; join case (s) 0, 1: x = 2; default y = 3; endcase end *)
Example C83_ex_parse : match convert_statement_text VERILOG2001 $"begin : t for (i = 0; i < 8; i = i + 1) fork a[i] = #3 i; join case (s) 0, 1: x = 2; default y = 3; endcase end" with
  | Ok (SBlock h SEQ [SFor _ _ _ _ (SBlock _ PAR_JOIN [_]); SCase _ _ CASE _ [_; _] (Some _)]) => True | _ => False end.
Proof. vm_compute. exact Logic.I. Qed.
