(** Macro arguments: the lexer and the parser find exactly the arguments of the grammar in PpArgSpec. *)
From Verif Require Import Base BaseFacts RegexModel RegexProofs StrSpec StrUtilsModel StrUtilsProofs PpLexerModel PpLexProofs PpParserModel MacroDefModel PpModel PpArgSpec.

(** ** Runs of the lexer *)
Definition emitted (e : emit) (txt : str) (line col : nat) : list token := match e with Skip => [] | Emit t ch x => [mkTok t ch x txt line col] end.
Inductive run : lexst -> str -> nat -> nat -> list token -> lexst -> str -> nat -> nat -> Prop :=
| run_nil st s l c : run st s l c [] st s l c
| run_step st x s l c r st1 e l1 c1 toks st2 s2 l2 c2 : x <> [] -> best_rule (mode_rules (lx_mode st)) (x ++ s) None = Some (r, length x) ->
    rule_act r st x = Ok (st1, e) -> advance x l c = (l1, c1) -> run st1 s l1 c1 toks st2 s2 l2 c2 ->
    run st (x ++ s) l c (emitted e x l c ++ toks) st2 s2 l2 c2.
Definition lex_all (st : lexst) (s : str) (l c : nat) : outcome (list token) := lex_loop (S (length s)) st s l c.
Lemma run_app st s l c t1 st1 s1 l1 c1 t2 st2 s2 l2 c2 : run st s l c t1 st1 s1 l1 c1 -> run st1 s1 l1 c1 t2 st2 s2 l2 c2 -> run st s l c (t1 ++ t2) st2 s2 l2 c2.
Proof. induction 1; intros HH; [exact HH|]. rewrite <- app_assoc. econstructor; eauto. Qed.
Lemma run_one st x s l c r st1 e l1 c1 : x <> [] -> best_rule (mode_rules (lx_mode st)) (x ++ s) None = Some (r, length x) ->
  rule_act r st x = Ok (st1, e) -> advance x l c = (l1, c1) -> run st (x ++ s) l c (emitted e x l c) st1 s l1 c1.
Proof. intros. rewrite <- (app_nil_r (emitted e x l c)). econstructor; eauto. constructor. Qed.
Lemma run_lex st s l c toks st2 s2 l2 c2 : run st s l c toks st2 s2 l2 c2 -> lex_all st s l c = (r <- lex_all st2 s2 l2 c2 ;; Ok (toks ++ r)).
Proof.
  induction 1 as [st s l c|st x s l c r st1 e l1 c1 toks st2 s2 l2 c2 Hx Hb Ha Hd _ IH].
  - destruct (lex_all st s l c); reflexivity.
  - destruct x as [|a x]; [congruence|]. unfold lex_all at 1. cbn [app length]. rewrite lex_loop_S. cbn [app length] in Hb. rewrite Hb.
    change (a :: x ++ s) with ((a :: x) ++ s). rewrite (firstn_app_len (a :: x) s : firstn (S (length x)) ((a :: x) ++ s) = a :: x), (skipn_app_len (a :: x) s : skipn (S (length x)) ((a :: x) ++ s) = s). rewrite Ha. cbn [bind]. rewrite Hd.
    rewrite (lex_loop_fuel _ (S (length s))) by (cbn [app length]; rewrite ?app_length; cbn; lia). fold (lex_all st1 s l1 c1). rewrite IH.
    destruct (lex_all st2 s2 l2 c2); cbn [bind]; try reflexivity. destruct e; reflexivity.
Qed.

(** The rule that matches when all the others do not. *)
Lemma best_is rs x s r : In r rs -> x <> [] -> M (rule_re r) x s ->
  (forall r' y z, In r' rs -> y <> [] -> y ++ z = x ++ s -> M (rule_re r') y z -> r' = r /\ length y <= length x \/ length y < length x) ->
  best_rule rs (x ++ s) None = Some (r, length x).
Proof.
  intros Hin Hx HM Hu. destruct (best_rule_max rs (x ++ s) r (length x) Hin ltac:(rewrite app_length; lia)) as (r' & n & E & Hn).
  { rewrite firstn_app_len, skipn_app_len. exact HM. }
  pose proof (best_rule_In _ _ _ _ E) as Hin'. destruct (best_rule_longest _ _ _ _ E) as (L1 & L2 & _).
  assert (length x <> 0) by (destruct x; [congruence|cbn; lia]).
  assert (length (firstn n (x ++ s)) = n) as EN by (rewrite firstn_length; lia).
  destruct (Hu r' (firstn n (x ++ s)) (skipn n (x ++ s)) Hin') as [(-> & H2)|H2]; [|apply firstn_skipn|exact L2| |].
  - intros EE. rewrite EE in EN. cbn in EN. lia.
  - rewrite E. repeat f_equal. lia.
  - lia.
Qed.

(** ** The rules inside the parentheses *)
Definition special : str := $"[]()" ++ [dq] ++ $"{},".
Lemma plain_special c : plain c <-> ~ In c special.
Proof. unfold plain, special. cbn. tauto. Qed.
Lemma M_comment t x rest y : M (Seq (lit t) x) y rest -> exists z, y = t ++ z.
Proof. intros H. apply M_Seq_iff in H as (a & b & -> & H & _). apply M_lit in H as ->. eauto. Qed.
Lemma M_line y rest : M LINE_COMMENT_re y rest -> exists z, y = "/"%char :: "/"%char :: z.
Proof. intros H. apply (M_comment $"//") in H as (z & ->). eexists. reflexivity. Qed.
Lemma M_block y rest : M COMMENT_re y rest -> exists z, y = "/"%char :: "*"%char :: z.
Proof. intros H. apply (M_comment $"/*") in H as (z & ->). eexists. reflexivity. Qed.
Definition str_item : re := Alt (Seq (one [bs]) (Alt (one [dq]) CRLF)) (not1 [dq; cr; nl]).
Lemma M_STR y rest : M STR_re y rest -> exists b, y = dq :: b ++ [dq] /\ M (Star str_item) b (dq :: rest).
Proof.
  intros H. apply M_Seq_iff in H as (a & b & -> & H1 & H2). apply M_one in H1 as (d & -> & [<-|[]]). apply M_Seq_iff in H2 as (u & v & -> & H1 & H2).
  apply M_one in H2 as (d & -> & [<-|[]]). exists u. split; [reflexivity|exact H1].
Qed.
Lemma M_code y rest : M (Plus (not1 special)) y rest <-> y <> [] /\ Forall (fun c => ~ In c special) y.
Proof.
  unfold Plus. rewrite M_Seq_iff. split.
  - intros (a & b & -> & H1 & H2). apply M_not1 in H1 as (d & -> & H1). apply M_Star_not1 in H2. split; [discriminate|constructor; assumption].
  - intros [H1 H2]. destruct y as [|d y]; [congruence|]. inversion H2; subst. exists [d], y. repeat split; [apply M_not1; eauto|apply M_Star_not1; assumption].
Qed.
Definition head_of (r : rule) (y : str) : Prop :=
  match r with
  | R_E_LINE_COMMENT | R_E_COMMENT => comment_start y
  | R_E_CODE => y <> [] /\ Forall (fun c => ~ In c special) y
  | R_E_LP => y = $"(" | R_E_RP => y = $")" | R_E_LBR => y = $"{" | R_E_RBR => y = $"}" | R_E_LSQR => y = $"[" | R_E_RSQR => y = $"]" | R_E_COMMA => y = $","
  | R_E_STR => exists b, y = dq :: b ++ [dq]
  | _ => False
  end.
Lemma expr_heads r y z : In r (mode_rules EXPR_MODE) -> M (rule_re r) y z -> head_of r y.
Proof.
  cbn [mode_rules In]. intros H HM. repeat (destruct H as [<-|H]); [..|contradiction]; cbn [rule_re head_of] in *;
    try (apply M_one in HM as (d & -> & [<-|[]]); reflexivity).
  - apply M_line in HM as (t & ->). exists t. left. reflexivity.
  - apply M_block in HM as (t & ->). exists t. right. reflexivity.
  - apply M_code in HM. exact HM.
  - apply M_STR in HM as (b & -> & _). exists b. reflexivity.
Qed.
Lemma head_char r y : head_of r y -> exists c y', y = c :: y' /\
  match r with
  | R_E_LINE_COMMENT | R_E_COMMENT => c = "/"%char | R_E_CODE => ~ In c special
  | R_E_LP => c = "("%char | R_E_RP => c = ")"%char | R_E_LBR => c = "{"%char | R_E_RBR => c = "}"%char | R_E_LSQR => c = "["%char | R_E_RSQR => c = "]"%char
  | R_E_COMMA => c = ","%char | R_E_STR => c = dq | _ => False end.
Proof.
  intros H. destruct r; cbn [head_of] in H; try contradiction; try (subst y; eexists _, _; split; reflexivity);
    try (destruct H as (t & [->| ->]); eexists _, _; split; reflexivity).
  - destruct H as [H F]. destruct y as [|c y]; [congruence|]. inversion F; subst. eauto.
  - destruct H as (b & ->). eauto.
Qed.
Lemma expr_single r c s : In r (mode_rules EXPR_MODE) -> In (c, r) [("("%char, R_E_LP); (")"%char, R_E_RP); ("{"%char, R_E_LBR); ("}"%char, R_E_RBR); ("["%char, R_E_LSQR); ("]"%char, R_E_RSQR); (","%char, R_E_COMMA)] ->
  best_rule (mode_rules EXPR_MODE) ([c] ++ s) None = Some (r, 1).
Proof.
  intros Hin Hc. apply (best_is _ [c] s r Hin); [discriminate| |].
  - cbn [In] in Hc. repeat (destruct Hc as [Hc|Hc]; [injection Hc as <- <-; apply M_one; eexists; split; [reflexivity|left; reflexivity]|]). contradiction.
  - intros r' y z Hr Hy E HM. left. destruct (head_char r' y (expr_heads _ _ _ Hr HM)) as (d & y' & -> & Hd). cbn [app] in E. injection E as -> E.
    assert (r' = r) as ->.
    { cbn [In] in Hc. repeat (destruct Hc as [Hc|Hc]; [injection Hc as <- <-; destruct r'; cbn in Hd; try contradiction; try discriminate; try reflexivity; exfalso; apply Hd; unfold special; cbn; tauto|]). contradiction. }
    split; [reflexivity|]. pose proof (expr_heads _ _ _ Hr HM) as H.
    cbn [In] in Hc. repeat (destruct Hc as [Hc|Hc]; [injection Hc as <- <-; cbn [head_of] in H; rewrite H; cbn; lia|]). contradiction.
Qed.
Lemma expr_code w s : w <> [] -> Forall plain w -> ~ comment_start (w ++ s) -> (forall c r, s = c :: r -> ~ plain c) ->
  best_rule (mode_rules EXPR_MODE) (w ++ s) None = Some (R_E_CODE, length w).
Proof.
  intros Hw F NC NS. apply best_is; [cbn; tauto|exact Hw| |].
  - cbn [rule_re]. change (not1 _) with (not1 special). apply M_code. split; [exact Hw|]. eapply Forall_impl; [|exact F]. intros c. apply plain_special.
  - intros r' y z Hr Hy E HM. left. pose proof (expr_heads _ _ _ Hr HM) as H. destruct (head_char r' y H) as (d & y' & -> & Hd).
    destruct w as [|c w]; [congruence|]. cbn [app] in E. injection E as -> E. inversion F as [|? ? Fc Fw]; subst. apply plain_special in Fc.
    destruct r'; cbn in Hd; try contradiction; try (subst c; exfalso; apply Fc; unfold special; cbn; tauto); try (exfalso; apply NC; cbn [head_of] in H; destruct H as (t & [H|H]); injection H as -> ->; eexists; cbn [app] in *; rewrite <- E; cbn [app]; eauto).
    split; [reflexivity|]. cbn [head_of] in H. destruct H as [_ H]. inversion H as [|? ? _ H']; subst. cbn [length]. apply le_n_S.
    clear - E H' NS Fw. revert y' E H'. induction w as [|a w IH]; intros y E H'; cbn [app] in E.
    + destruct y as [|b y]; [cbn; lia|]. exfalso. inversion H' as [|? ? Hb _]. apply (NS b (y ++ z)); [symmetry; exact E|]. apply plain_special. exact Hb.
    + destruct y as [|b y]; [cbn; lia|]. cbn [app] in E. injection E as -> E. inversion H'; subst. inversion Fw; subst. cbn [length]. apply le_n_S. apply IH; assumption.
Qed.

(** String literals *)
Lemma body_items b : string_body b -> forall rest, M (Star str_item) b rest.
Proof.
  assert (One : forall c rest, c <> dq -> c <> cr -> c <> nl -> M str_item [c] rest).
  { intros c rest H1 H2 H3. apply M_AltR. apply M_not1. exists c. split; [reflexivity|]. cbn. intuition congruence. }
  induction 1 as [|c s H1 H2 H3 H4 _ IH|c s H1 H2 _ IH]; intros rest; [constructor| |].
  - apply (M_StarS _ [c] s); [discriminate|apply One; assumption|apply IH].
  - destruct (ceqb c dq) eqn:E.
    + apply ceqb_eq in E as ->. apply (M_StarS _ [bs; dq] s); [discriminate| |apply IH]. apply M_AltL. apply M_Seq_iff. exists [bs], [dq].
      repeat split; [apply M_one; eexists; split; [reflexivity|left; reflexivity]|apply M_AltL; apply M_one; eexists; split; [reflexivity|left; reflexivity]].
    + apply ceqb_neq in E. apply (M_StarS _ [bs] (c :: s)); [discriminate|apply One; discriminate|]. apply (M_StarS _ [c] s); [discriminate|apply One; assumption|apply IH].
Qed.
Lemma item_quote x rest : M str_item x rest -> x = [bs; dq] \/ ~ In dq x.
Proof.
  intros H. apply M_Alt_iff in H as [H|H].
  - apply M_Seq_iff in H as (a & b & -> & H1 & H2). apply M_one in H1 as (d & -> & [<-|[]]). apply M_Alt_iff in H2 as [H2|H2].
    + apply M_one in H2 as (d & -> & [<-|[]]). left. reflexivity.
    + right. apply M_Seq_iff in H2 as (u & v & -> & H1 & H2). apply M_one in H2 as (d & -> & [<-|[]]).
      apply M_Alt_iff in H1 as [H1|H1]; [apply M_one in H1 as (d & -> & [<-|[]])|apply M_Eps_iff in H1 as ->]; cbn; intuition discriminate.
  - apply M_not1 in H as (d & -> & H). right. cbn in *. intuition congruence.
Qed.
Lemma quotes_escaped y rest : M (Star str_item) y rest -> forall u v, y = u ++ dq :: v -> exists u', u = u' ++ [bs].
Proof.
  revert y rest. apply (M_Star_ind str_item (fun y _ => forall u v, y = u ++ dq :: v -> exists u', u = u' ++ [bs])).
  - intros _ [|? u] v H; discriminate.
  - intros x y rest Hx HM _ IH u v E. destruct (app_eq_app _ _ _ _ E) as (w & [[E1 E2]|[E1 E2]]).
    + destruct w as [|d w].
      * cbn in E2. rewrite app_nil_r in E1. subst. destruct (IH [] v eq_refl) as (u' & H). destruct u'; discriminate.
      * cbn [app] in E2. injection E2 as <- E2. destruct (item_quote _ _ HM) as [->|N].
        -- destruct u as [|a [|b u]]; cbn in E1.
           ++ discriminate.
           ++ injection E1 as <- _. exists []. reflexivity.
           ++ injection E1 as _ _ E1. destruct u; discriminate.
        -- exfalso. apply N. rewrite E1. apply in_or_app. right. left. reflexivity.
    + destruct (IH w v E2) as (u' & ->). exists (x ++ u'). rewrite E1. apply app_assoc.
Qed.
Lemma expr_string b s : string_body b -> no_final_bs b -> best_rule (mode_rules EXPR_MODE) ((dq :: b ++ [dq]) ++ s) None = Some (R_E_STR, length (dq :: b ++ [dq])).
Proof.
  intros Hb Hn. apply best_is; [cbn; tauto|discriminate| |].
  - apply M_Seq_iff. exists [dq], (b ++ [dq]). repeat split; [apply M_one; eexists; split; [reflexivity|left; reflexivity]|]. apply M_Seq_iff. exists b, [dq].
    repeat split; [apply body_items; exact Hb|apply M_one; eexists; split; [reflexivity|left; reflexivity]].
  - intros r' y z Hr Hy E HM. left. pose proof (expr_heads _ _ _ Hr HM) as H. destruct (head_char r' y H) as (d & y' & Ey & Hd). rewrite Ey in E. cbn [app] in E. injection E as E0 E.
    subst d. assert (r' = R_E_STR) as -> by (destruct r'; cbn in Hd; try contradiction; try discriminate; try reflexivity; exfalso; apply Hd; unfold special; cbn; tauto).
    split; [reflexivity|]. apply M_STR in HM as (t & -> & HT). injection Ey as <-. cbn [length]. rewrite !app_length. cbn [length].
    rewrite <- !app_assoc in E. cbn [app] in E. destruct (app_eq_app _ _ _ _ E) as (w & [[E1 E2]|[E1 E2]]).
    + destruct w as [|c w]; [rewrite app_nil_r in E1; subst; lia|]. exfalso. cbn [app] in E2. injection E2 as <- _.
      destruct (quotes_escaped _ _ HT b w E1) as (u' & H'). exact (Hn u' H').
    + subst b. rewrite app_length. lia.
Qed.

(** ** Balanced texts become CODE tokens *)
Definition code (t : token) : Prop := tk_type t = T_CODE /\ tk_chan t = CH_DEFAULT /\ tk_text t <> [].
Definition stop (s : str) : Prop := exists c r, s = c :: r /\ In c $",)]}".
Lemma stop_plain s : stop s -> forall c r, s = c :: r -> ~ plain c.
Proof. intros (c & r & -> & H) c' r' E N. injection E as <- <-. apply N. cbn in *. tauto. Qed.
Lemma plain_run k t : balanced k t -> exists w u, t = w ++ u /\ Forall plain w /\ balanced k u /\ (u = [] \/ exists c r, u = c :: r /\ ~ plain c).
Proof.
  intros H. induction H as [k|k c s Hc _ _ (w & u & -> & F & B & E)|k s Hk B _|k b s Hb Hn B _|k o c t s Hm B1 _ B2 _].
  - exists [], []. repeat split; [constructor|constructor|left; reflexivity].
  - exists (c :: w), u. repeat split; [constructor; assumption|exact B|exact E].
  - exists [], (","%char :: s). repeat split; [constructor|apply ba_comma; assumption|]. right. eexists _, _. split; [reflexivity|]. unfold plain. cbn. tauto.
  - exists [], ((dq :: b ++ [dq]) ++ s). repeat split; [constructor|apply ba_string; assumption|]. right. eexists _, _. split; [reflexivity|]. unfold plain. cbn. tauto.
  - exists [], ((o :: t ++ [c]) ++ s). repeat split; [constructor|apply ba_group; assumption|]. right. eexists _, _. split; [reflexivity|].
    unfold plain. destruct Hm as [[-> _]|[[-> _]|[-> _]]]; cbn; tauto.
Qed.
Lemma code_run st x s l c r : lx_mode st = EXPR_MODE -> x <> [] -> best_rule (mode_rules EXPR_MODE) (x ++ s) None = Some (r, length x) ->
  rule_act r st x = Ok (st, Emit T_CODE CH_DEFAULT x) -> exists tok l1 c1, run st (x ++ s) l c [tok] st s l1 c1 /\ code tok /\ tk_text tok = x.
Proof.
  intros Hm Hx Hb Ha. destruct (advance x l c) as [l1 c1] eqn:Ed. exists (mkTok T_CODE CH_DEFAULT x x l c), l1, c1. split; [|repeat split; exact Hx].
  change [mkTok T_CODE CH_DEFAULT x x l c] with (emitted (Emit T_CODE CH_DEFAULT x) x l c). eapply run_one; [exact Hx| |exact Ha|exact Ed]. rewrite Hm. exact Hb.
Qed.
Definition run_code (st : lexst) (t rest : str) : Prop := forall l c, exists toks l1 c1, run st (t ++ rest) l c toks st rest l1 c1 /\ Forall code toks /\ toks_text toks = t.
Lemma run_code_app st t1 t2 rest : run_code st t1 (t2 ++ rest) -> run_code st t2 rest -> run_code st (t1 ++ t2) rest.
Proof.
  intros H1 H2 l c. destruct (H1 l c) as (k1 & l1 & c1 & R1 & F1 & T1), (H2 l1 c1) as (k2 & l2 & c2 & R2 & F2 & T2).
  exists (k1 ++ k2), l2, c2. rewrite <- app_assoc. split; [eapply run_app; eassumption|]. split; [apply Forall_app; auto|]. unfold toks_text in *. rewrite map_app, concat_app. congruence.
Qed.
Lemma run_code_one st x s r : lx_mode st = EXPR_MODE -> x <> [] -> best_rule (mode_rules EXPR_MODE) (x ++ s) None = Some (r, length x) ->
  rule_act r st x = Ok (st, Emit T_CODE CH_DEFAULT x) -> run_code st x s.
Proof.
  intros Hm Hx Hb Ha l c. destruct (code_run st x s l c r Hm Hx Hb Ha) as (tok & l1 & c1 & R & C & T). exists [tok], l1, c1. split; [exact R|]. split; [repeat constructor; apply C|].
  unfold toks_text. cbn. rewrite app_nil_r. exact T.
Qed.
Lemma group_run st o cl t rest : matching o cl -> lx_mode st = EXPR_MODE ->
  (forall st1, lx_mode st1 = EXPR_MODE -> no_brace_active (lx_meta st1) = false -> run_code st1 t (cl :: rest)) -> run_code st (o :: t ++ [cl]) rest.
Proof.
  intros Hm Hs IH l c. destruct st as [m stk lp clp [p b q re ex nx]]. cbn [lx_mode] in Hs. subst m. cbn [app]. rewrite <- app_assoc. cbn [app].
  assert (G : forall r1 r2 m1, In r1 (mode_rules EXPR_MODE) -> In r2 (mode_rules EXPR_MODE) ->
    best_rule (mode_rules EXPR_MODE) ([o] ++ (t ++ cl :: rest)) None = Some (r1, 1) -> best_rule (mode_rules EXPR_MODE) ([cl] ++ rest) None = Some (r2, 1) ->
    no_brace_active m1 = false ->
    rule_act r1 (mkLex EXPR_MODE stk lp clp (mkMeta p b q re ex nx)) [o] = Ok (mkLex EXPR_MODE stk lp clp m1, Emit T_CODE CH_DEFAULT [o]) ->
    rule_act r2 (mkLex EXPR_MODE stk lp clp m1) [cl] = Ok (mkLex EXPR_MODE stk lp clp (mkMeta p b q re ex nx), Emit T_CODE CH_DEFAULT [cl]) ->
    exists toks l1 c1, run (mkLex EXPR_MODE stk lp clp (mkMeta p b q re ex nx)) (o :: t ++ cl :: rest) l c toks (mkLex EXPR_MODE stk lp clp (mkMeta p b q re ex nx)) rest l1 c1
      /\ Forall code toks /\ toks_text toks = o :: t ++ [cl]).
  { intros r1 r2 m1 _ _ B1 B2 N A1 A2. destruct (advance [o] l c) as [l1 c1] eqn:D1. destruct (IH (mkLex EXPR_MODE stk lp clp m1) eq_refl N l1 c1) as (toks & l2 & c2 & R & F & T).
    destruct (advance [cl] l2 c2) as [l3 c3] eqn:D2.
    exists ((emitted (Emit T_CODE CH_DEFAULT [o]) [o] l c ++ toks) ++ emitted (Emit T_CODE CH_DEFAULT [cl]) [cl] l2 c2), l3, c3. split.
    - eapply run_app; [eapply run_app; [|exact R]|].
      + change (o :: t ++ cl :: rest) with ([o] ++ (t ++ cl :: rest)). eapply run_one; [discriminate|exact B1|exact A1|exact D1].
      + change (cl :: rest) with ([cl] ++ rest). eapply run_one; [discriminate|exact B2|exact A2|exact D2].
    - split; [apply Forall_app; split; [apply Forall_app; split; [|exact F]|]; repeat constructor; discriminate|].
      unfold toks_text in *. rewrite !map_app, !concat_app, T. reflexivity. }
  destruct Hm as [[-> ->]|[[-> ->]|[-> ->]]].
  - apply (G R_E_LP R_E_RP (mkMeta (S p) b q re ex nx)); try (apply expr_single; cbn; tauto); try reflexivity; cbn; tauto.
  - apply (G R_E_LSQR R_E_RSQR (mkMeta p b (S q) re ex nx)); try (apply expr_single; cbn; tauto); try reflexivity; try (cbn; tauto). unfold no_brace_active. cbn. apply andb_false_r.
  - apply (G R_E_LBR R_E_RBR (mkMeta p (S b) q re ex nx)); try (apply expr_single; cbn; tauto); try reflexivity; try (cbn; tauto). unfold no_brace_active. cbn. rewrite andb_false_r. reflexivity.
Qed.
Lemma stop_app s u : (u = [] \/ exists c r, u = c :: r /\ ~ plain c) -> stop s -> forall c r, u ++ s = c :: r -> ~ plain c.
Proof.
  intros [->|(c & r & -> & N)] H; [exact (stop_plain s H)|]. intros c' r' E. injection E as <- _. exact N.
Qed.
Lemma not_comment_prefix c s rest : plain c -> ~ comment_start (c :: s) -> stop rest -> ~ comment_start ((c :: s) ++ rest).
Proof.
  intros Hc N (d & r & -> & Hd) (t & [E|E]); destruct s as [|a s]; cbn [app] in E; injection E as E1 E2 E3; subst; try (cbn in Hd; intuition discriminate);
    apply N; eexists; eauto.
Qed.
Lemma balanced_run n : forall k t, length t <= n -> balanced k t -> forall st rest, lx_mode st = EXPR_MODE -> (k = true -> no_brace_active (lx_meta st) = false) -> stop rest -> run_code st t rest.
Proof.
  induction n as [|n IH]; intros k t Hn B st rest Hm Hk Hs.
  - destruct t; [|cbn in Hn; lia]. intros l c. exists [], l, c. repeat split; constructor.
  - inversion B as [|c s Hc NC B1 E|s Hc B1 E|b s Hb Hf B1 E|o cl u s Hmt B1 B2 E].
    + intros l c. exists [], l, c. repeat split; constructor.
    + subst t. destruct (plain_run _ _ B) as (w & u & E & F & Bu & Hu). destruct w as [|d w].
      { cbn in E. subst u. exfalso. destruct Hu as [Hu|(c' & r & Hu & N)]; [discriminate|]. injection Hu as <- _. exact (N Hc). }
      pose proof (not_comment_prefix c s rest Hc NC Hs) as NC'. rewrite E in *. apply run_code_app.
      * apply (run_code_one _ _ _ R_E_CODE Hm); [discriminate| |reflexivity]. rewrite <- app_assoc in NC'. apply expr_code; [discriminate|exact F|exact NC'|]. intros x y. apply stop_app; assumption.
      * apply (IH k u); try assumption. rewrite app_length in Hn. cbn in Hn. lia.
    + subst t. change (","%char :: s) with ($"," ++ s). apply run_code_app; [|apply (IH k s); try assumption; cbn in Hn; lia].
      apply (run_code_one _ _ _ R_E_COMMA Hm); [discriminate|apply expr_single; cbn; tauto|]. unfold rule_act. rewrite (Hk Hc). reflexivity.
    + subst t. apply run_code_app; [|apply (IH k s); try assumption; rewrite app_length in Hn; cbn in Hn; lia].
      apply (run_code_one _ _ _ R_E_STR Hm); [discriminate|apply expr_string; assumption|reflexivity].
    + subst t. rewrite app_length in Hn. cbn in Hn. rewrite app_length in Hn. cbn in Hn.
      apply run_code_app; [|apply (IH k s); try assumption; lia]. apply (group_run _ _ _ _ _ Hmt Hm). intros st1 H1 H2. apply (IH true u); try assumption; [lia|auto|].
      exists cl. eexists. split; [reflexivity|]. destruct Hmt as [[_ ->]|[[_ ->]|[_ ->]]]; cbn; tauto.
Qed.

(** ** The list of arguments *)
Definition call_meta : expr_meta := mkMeta 0 0 0 true true None.
Definition comma_tok (t : token) : Prop := tk_type t = T_COMMA /\ tk_chan t = CH_DEFAULT.
Definition rp_tok (t : token) : Prop := tk_type t = T_RP /\ tk_chan t = CH_DEFAULT.
(** The tokens of a list of arguments and the parenthesis behind it. *)
Inductive arg_tokens : list str -> list token -> Prop :=
| at_last a codes rp : Forall code codes -> toks_text codes = a -> rp_tok rp -> arg_tokens [a] (codes ++ [rp])
| at_more a codes cm l toks : Forall code codes -> toks_text codes = a -> comma_tok cm -> l <> [] -> arg_tokens l toks -> arg_tokens (a :: l) (codes ++ cm :: toks).
Lemma args_run stk lp clp m0 l : l <> [] -> Forall argument l -> forall rest ln c, exists toks l1 c1,
  run (mkLex EXPR_MODE (MACRO_ARG_LIST_MODE :: m0 :: stk) lp clp call_meta) (join l ++ $")" ++ rest) ln c toks (mkLex m0 stk lp clp call_meta) rest l1 c1 /\ arg_tokens l toks.
Proof.
  intros Hl F. induction F as [|a l Ha F IH]; [congruence|]. intros rest ln c.
  set (st := mkLex EXPR_MODE (MACRO_ARG_LIST_MODE :: m0 :: stk) lp clp call_meta).
  assert (B : forall s, stop s -> run_code st a s) by (intros s Hs; apply (balanced_run (length a) false); [lia|exact Ha|reflexivity|discriminate|exact Hs]).
  destruct l as [|a' l].
  - cbn [join]. destruct (B ($")" ++ rest) ltac:(eexists _, _; split; [reflexivity|cbn; tauto]) ln c) as (codes & l1 & c1 & R & FC & T).
    destruct (advance $")" l1 c1) as [l2 c2] eqn:D. exists (codes ++ emitted (Emit T_RP CH_DEFAULT $")") $")" l1 c1), l2, c2. split.
    + eapply run_app; [exact R|]. eapply run_one; [discriminate|apply (expr_single R_E_RP); cbn; tauto|reflexivity|exact D].
    + apply at_last; [exact FC|exact T|split; reflexivity].
  - change (join (a :: a' :: l)) with (a ++ ","%char :: join (a' :: l)).
    destruct (B ($"," ++ join (a' :: l) ++ $")" ++ rest) ltac:(eexists _, _; split; [reflexivity|cbn; tauto]) ln c) as (codes & l1 & c1 & R & FC & T).
    destruct (advance $"," l1 c1) as [l2 c2] eqn:D. destruct (IH ltac:(discriminate) rest l2 c2) as (toks & l3 & c3 & R2 & A).
    exists (codes ++ emitted (Emit T_COMMA CH_DEFAULT $",") $"," l1 c1 ++ toks), l3, c3. split.
    + rewrite <- app_assoc. eapply run_app; [exact R|]. eapply run_app; [|exact R2]. eapply run_one; [discriminate|apply (expr_single R_E_COMMA); cbn; tauto|reflexivity|exact D].
    + cbn [emitted app]. apply at_more; [exact FC|exact T|split; reflexivity|discriminate|exact A].
Qed.

(** ** The parser *)
Lemma more_codes_all codes : Forall code codes -> forall acc t r, is_default t = true -> ttype_eqb (tk_type t) T_CODE = false -> more_codes (codes ++ t :: r) [] acc = (acc ++ codes, t :: r).
Proof.
  induction 1 as [|x codes (H1 & H2 & _) F IH]; intros acc t r Ht Hc; cbn [app more_codes].
  - rewrite Ht, Hc. rewrite app_nil_r. reflexivity.
  - unfold is_default at 1. rewrite H2, H1. cbn [ttype_eqb]. rewrite IH by assumption. cbn [app]. rewrite <- app_assoc. reflexivity.
Qed.
Lemma opt_codes_all codes t r : Forall code codes -> is_default t = true -> ttype_eqb (tk_type t) T_CODE = false ->
  opt_codes (codes ++ t :: r) = (match codes with [] => None | _ => Some codes end, t :: r).
Proof.
  intros F Ht Hc. unfold opt_codes. destruct codes as [|x codes]; cbn [app next].
  - rewrite Ht, Hc. reflexivity.
  - inversion F as [|? ? (H1 & H2 & _) F']; subst. unfold is_default at 1. rewrite H2, H1. cbn [ttype_eqb]. rewrite more_codes_all by assumption. reflexivity.
Qed.
(** The children of the call. *)
Inductive children : list str -> list child -> Prop :=
| ch_last a codes : Forall code codes -> toks_text codes = a -> children [a] (match codes with [] => [] | _ => [CValue codes] end ++ [CRp])
| ch_more a codes l cs : Forall code codes -> toks_text codes = a -> l <> [] -> children l cs -> children (a :: l) (match codes with [] => [] | _ => [CValue codes] end ++ CComma :: cs).
Lemma parse_args_ok l toks : arg_tokens l toks -> forall fuel rest, length toks < fuel -> exists cs, parse_args fuel (toks ++ rest) = Ok (cs, rest) /\ children l cs.
Proof.
  induction 1 as [a codes rp F T (R1 & R2)|a codes cm l toks F T (C1 & C2) Hl _ IH]; intros fuel rest Hf; (destruct fuel as [|fuel]; [lia|]); cbn [parse_args]; rewrite <- app_assoc; cbn [app].
  - rewrite opt_codes_all; [|exact F|unfold is_default; rewrite R2; reflexivity|rewrite R1; reflexivity]. cbv beta iota. cbn [next]. unfold is_default. rewrite R2, R1. cbn [ttype_eqb].
    eexists. split; [|apply (ch_last a codes F T)]. destruct codes; reflexivity.
  - rewrite opt_codes_all; [|exact F|unfold is_default; rewrite C2; reflexivity|rewrite C1; reflexivity]. cbv beta iota. cbn [next]. unfold is_default. rewrite C2, C1. cbn [ttype_eqb].
    rewrite app_length in Hf. cbn in Hf. destruct (IH fuel rest ltac:(lia)) as (cs & E & C). rewrite E. cbn [bind].
    eexists. split; [|apply (ch_more a codes l cs F T Hl C)]. destruct codes; reflexivity.
Qed.
Lemma codes_nil codes : Forall code codes -> toks_text codes = [] -> codes = [].
Proof. intros F E. destruct F as [|x l (_ & _ & H) F]; [reflexivity|]. unfold toks_text in E. cbn in E. apply app_eq_nil in E as [E _]. contradiction. Qed.
Lemma codes_text codes (v : list child) : Forall code codes -> toks_text codes <> [] -> match codes with [] => [] | _ => [CValue codes] end ++ v = CValue codes :: v.
Proof. destruct codes; [intros _ H; cbn in H; congruence|reflexivity]. Qed.
Lemma trim_nil : trim ws_chars [] = []. Proof. reflexivity. Qed.
Lemma children_values l cs : children l cs -> forall lwc, parse_macro_args cs true lwc = match l, lwc with [[]], false => [] | _, _ => map (trim ws_chars) l end.
Proof.
  induction 1 as [a codes F T|a codes l cs F T Hl _ IH]; intros lwc.
  - destruct a as [|x a].
    + apply codes_nil in T; [|exact F]. subst codes. cbn. destruct lwc; reflexivity.
    + rewrite codes_text; [|exact F|rewrite T; discriminate]. cbn [parse_macro_args andb app map]. rewrite T. destruct lwc; reflexivity.
  - assert (E : match (a :: l), lwc with [[]], false => [] | _, _ => map (trim ws_chars) (a :: l) end = map (trim ws_chars) (a :: l)).
    { destruct a; [destruct l; [congruence|]|]; destruct lwc; reflexivity. }
    rewrite E. assert (E2 : forall (X : list str), match l, true with [[]], false => [] | _, _ => X end = X) by (intros X; destruct l as [|[|? ?] [|? ?]]; reflexivity).
    specialize (IH true). rewrite E2 in IH. destruct a as [|x a].
    + apply codes_nil in T; [|exact F]. subst codes. cbn [app parse_macro_args map]. rewrite IH, trim_nil. reflexivity.
    + rewrite codes_text; [|exact F|rewrite T; discriminate]. cbn [parse_macro_args app map]. rewrite T, IH. reflexivity.
Qed.
Lemma values_ok l : l <> [] -> values l (match l with [[]] => [] | _ => map (trim ws_chars) l end).
Proof.
  intros Hl. assert (F : Forall2 (trimmed [sp; tab; nl; cr]) l (map (trim ws_chars) l)).
  { induction l as [|a l IH]; [constructor|]. cbn [map]. constructor; [apply (trim_spec ws_chars)|]. destruct l; [constructor|apply IH; discriminate]. }
  unfold values. destruct l as [|[|x a] [|b l]]; try exact F; reflexivity.
Qed.

(** ** The beginning of the call *)
Definition id_char (c : ascii) : Prop := In c (letters ++ $"_" ++ digits).
Definition ws_char (c : ascii) : Prop := In c [sp; tab; cr; nl].
Definition starts (a : re) : Prop := forall y z, M a y z -> exists d y', y = d :: y' /\ ws_char d.
Definition follows (a : re) : Prop := forall y z, M a y z -> y ++ z = [] \/ exists d u, y ++ z = d :: u /\ ws_char d.
Lemma starts_one cs : (forall c, In c cs -> ws_char c) -> starts (one cs).
Proof. intros H y z HM. apply M_one in HM as (d & -> & Hd). eauto. Qed.
Lemma starts_seq a b : starts a -> starts (Seq a b).
Proof. intros H y z HM. apply M_Seq_iff in HM as (u & v & -> & H1 & _). destruct (H _ _ H1) as (d & u' & -> & Hd). eexists _, _. split; [reflexivity|exact Hd]. Qed.
Lemma starts_alt a b : starts a -> starts b -> starts (Alt a b).
Proof. intros Ha Hb y z HM. apply M_Alt_iff in HM as [HM|HM]; eauto. Qed.
Lemma starts_opt a b : starts a -> starts b -> starts (Seq (Opt a) b).
Proof.
  intros Ha Hb y z HM. apply M_Seq_iff in HM as (u & v & -> & H1 & H2). apply M_Alt_iff in H1 as [H1|H1].
  - destruct (Ha _ _ H1) as (d & u' & -> & Hd). eexists _, _. split; [reflexivity|exact Hd].
  - apply M_Eps_iff in H1 as ->. eauto.
Qed.
Lemma starts_star a b : starts a -> starts b -> starts (Seq (Star a) b).
Proof.
  intros Ha Hb y z HM. apply M_Seq_iff in HM as (u & v & -> & H1 & H2). apply M_Star_iff in H1 as [->|(x & w & -> & _ & H1 & _)].
  - eauto.
  - destruct (Ha _ _ H1) as (d & u' & -> & Hd). eexists _, _. split; [reflexivity|exact Hd].
Qed.
Lemma follows_starts a : starts a -> follows a.
Proof. intros H y z HM. destruct (H _ _ HM) as (d & y' & -> & Hd). right. eexists _, _. split; [reflexivity|exact Hd]. Qed.
Lemma follows_alt a b : follows a -> follows b -> follows (Alt a b).
Proof. intros Ha Hb y z HM. apply M_Alt_iff in HM as [HM|HM]; [exact (Ha _ _ HM)|exact (Hb _ _ HM)]. Qed.
Lemma follows_eof : follows Eof.
Proof. intros y z HM. apply M_Eof_iff in HM as [-> ->]. left. reflexivity. Qed.
Lemma starts_WS : starts F_WS. Proof. apply starts_one. unfold ws_char. cbn. tauto. Qed.
Lemma starts_CRLF : starts CRLF. Proof. apply starts_opt; apply starts_one; unfold ws_char; cbn; tauto. Qed.
Lemma starts_ANY : starts ANY_WS. Proof. apply starts_alt; [apply starts_seq, starts_WS|apply starts_CRLF]. Qed.
Lemma follows_end : follows WS_ENDING_NEW_LINE.
Proof. apply follows_alt; [|apply follows_eof]. apply follows_starts, starts_star; [apply starts_seq, starts_WS|apply starts_CRLF]. Qed.

Lemma id_not_ws c : id_char c -> ~ ws_char c.
Proof. unfold id_char, ws_char. cbn. intros H N. repeat (destruct H as [<-|H]; [intuition discriminate|]). exact H. Qed.
Lemma id_not_lp : ~ id_char "(". Proof. unfold id_char. cbn. intuition discriminate. Qed.
Lemma lp_not_ws : ~ ws_char "(". Proof. unfold ws_char. cbn. intuition discriminate. Qed.
Lemma ident_chars n : ident n -> Forall id_char n.
Proof.
  intros (c & t & -> & H & F). unfold id_char, letters, digits. constructor; [apply in_or_app; cbn [app]; cbn in H |- *; tauto|].
  eapply Forall_impl; [|exact F]. intros x [Hx|Hx]; cbn in Hx |- *; tauto.
Qed.
(** A keyword and what must follow it are not the name of a macro with its parenthesis. *)
Lemma keyword_no k tail n u y z : follows tail -> Forall id_char (s2l k) -> Forall id_char n -> M (kw k tail) y z -> y ++ z = n ++ "("%char :: u -> False.
Proof.
  intros Ht Fk Fn HM E. unfold kw in HM. apply M_Seq_iff in HM as (a & b & -> & H1 & H2). apply M_lit in H1 as ->. rewrite <- app_assoc in E.
  destruct (app_eq_app _ _ _ _ E) as (w & [[E1 E2]|[E1 E2]]).
  - destruct w as [|d w].
    + cbn in E2. destruct (Ht _ _ H2) as [H|(d & v & H & Hd)]; rewrite H in E2; [discriminate|]. injection E2 as <- _. exact (lp_not_ws Hd).
    + cbn in E2. injection E2 as <- _. apply id_not_lp. rewrite Forall_forall in Fk. apply Fk. rewrite E1. apply in_or_app. right. left. reflexivity.
  - destruct (Ht _ _ H2) as [H|(d & v & H & Hd)]; rewrite H in E2.
    + destruct w; discriminate.
    + destruct w as [|x w].
      * cbn in E2. injection E2 as -> _. exact (lp_not_ws Hd).
      * cbn in E2. injection E2 as <- _. rewrite Forall_forall in Fn. apply (id_not_ws d); [|exact Hd]. apply Fn. rewrite E1. apply in_or_app. right. left. reflexivity.
Qed.
Definition keyword_tail (r : rule) : option (string * re) :=
  match r with
  | R_INCLUDE => Some ("include"%string, Plus F_WS)
  | R_DEFINE => Some ("define"%string, Seqs [Plus F_WS; Star F_LINE_ESCAPE; Opt (Seqs [Alt LINE_COMMENT_re COMMENT_re; Star F_WS; Star F_LINE_ESCAPE]); Star (Alt F_WS F_LINE_ESCAPE)])
  | R_IFNDEF => Some ("ifndef"%string, Plus F_WS) | R_IFDEF => Some ("ifdef"%string, Plus F_WS) | R_ELSIF => Some ("elsif"%string, Plus F_WS)
  | R_ELSE => Some ("else"%string, ANY_WS) | R_ENDIF => Some ("endif"%string, Alt ANY_WS Eof) | R_UNDEF => Some ("undef"%string, Plus F_WS)
  | R_BEGIN_KEYWORDS => Some ("begin_keywords"%string, F_WS) | R_END_KEYWORDS => Some ("end_keywords"%string, CRLF) | R_PRAGMA => Some ("pragma"%string, F_WS)
  | R_UNDEFINEALL => Some ("undefineall"%string, WS_ENDING_NEW_LINE) | R_RESETALL => Some ("resetall"%string, WS_ENDING_NEW_LINE)
  | R_CELLDEFINE => Some ("celldefine"%string, WS_ENDING_NEW_LINE) | R_ENDCELLDEFINE => Some ("endcelldefine"%string, WS_ENDING_NEW_LINE)
  | R_TIMESCALE => Some ("timescale"%string, Plus F_WS) | R_DEFAULT_NETTYPE => Some ("default_nettype"%string, Plus F_WS) | R_LINE => Some ("line"%string, Plus F_WS)
  | R_UNCONNECTED_DRIVE => Some ("unconnected_drive"%string, Seqs [Plus ANY_WS; Alt (lit $"pull0") (lit $"pull1"); WS_ENDING_NEW_LINE])
  | R_NOUNCONNECTED_DRIVE => Some ("nounconnected_drive"%string, WS_ENDING_NEW_LINE) | R_PROTECTED => Some ("protected"%string, ANY_WS)
  | _ => None
  end.
Lemma keyword_tail_ok r k t : keyword_tail r = Some (k, t) -> rule_re r = kw k t /\ follows t /\ Forall id_char (s2l k).
Proof.
  intros H. destruct r; cbn [keyword_tail] in H; try discriminate; injection H as <- <-; (split; [reflexivity|]);
    (split; [|apply Forall_forall; intros x Hx; cbn in Hx; unfold id_char; repeat (destruct Hx as [<-|Hx]; [cbn; tauto|]); contradiction]);
    try exact follows_end; try (apply follows_starts; apply starts_seq; apply starts_WS); try (apply follows_starts; apply starts_WS); try (apply follows_starts; apply starts_ANY);
    try (apply follows_starts; apply starts_CRLF).
  - apply follows_starts, starts_seq, starts_seq, starts_WS.
  - apply follows_alt; [apply follows_starts, starts_ANY|apply follows_eof].
  - apply follows_starts, starts_seq, starts_seq, starts_ANY.
Qed.
Lemma M_ID y z : M F_ID y z <-> exists c t, y = c :: t /\ In c (letters ++ $"_") /\ Forall id_char t.
Proof.
  unfold F_ID. rewrite M_Seq_iff. split.
  - intros (a & b & -> & H1 & H2). apply M_one in H1 as (d & -> & Hd). apply M_Star_one in H2. eexists _, _. split; [reflexivity|]. split; [exact Hd|exact H2].
  - intros (c & t & -> & Hc & F). exists [c], t. repeat split; [apply M_one; eauto|apply M_Star_one; exact F].
Qed.
Lemma ident_ID n z : ident n -> M F_ID n z.
Proof.
  intros Hn. pose proof (ident_chars n Hn) as F. destruct Hn as (c & t & -> & Hc & _). apply M_ID. exists c, t. inversion F; subst. repeat split; try assumption.
Qed.
Lemma id_prefix_len y z n u : Forall id_char y -> y ++ z = n ++ "("%char :: u -> length y <= length n.
Proof.
  intros F E. destruct (app_eq_app _ _ _ _ E) as (w & [[E1 E2]|[E1 E2]]).
  - destruct w as [|d w]; [rewrite app_nil_r in E1; subst; lia|]. cbn in E2. injection E2 as <- _. exfalso. apply id_not_lp. rewrite Forall_forall in F. apply F. rewrite E1. apply in_or_app. right. left. reflexivity.
  - subst n. rewrite app_length. lia.
Qed.
Lemma call_rule n s : ident n -> best_rule (mode_rules DIRECTIVE_MODE) ((n ++ $"(") ++ s) None = Some (R_CALL_WITH_ARGS, length (n ++ $"(")).
Proof.
  intros Hn. pose proof (ident_chars n Hn) as Fn. apply best_is; [cbn; tauto|destruct n; discriminate| |].
  - cbn [rule_re Seqs]. apply M_Seq_iff. exists n, $"(". repeat split; [apply ident_ID; exact Hn|]. apply M_Seq_iff. exists [], $"(".
    repeat split; [constructor|apply M_one; eexists; split; [reflexivity|left; reflexivity]].
  - intros r y z Hr Hy E HM. rewrite <- app_assoc in E. cbn [app] in E.
    destruct (keyword_tail r) as [[k t]|] eqn:K.
    { exfalso. destruct (keyword_tail_ok _ _ _ K) as (E1 & Ht & Fk). rewrite E1 in HM. exact (keyword_no _ _ _ _ _ _ Ht Fk Fn HM E). }
    assert (First : forall c y' z', c :: y' = n ++ "("%char :: z' -> id_char c).
    { intros c y' z' H. destruct n as [|a n]; [destruct Hn as (? & ? & ? & _); discriminate|]. injection H as -> _. inversion Fn; assumption. }
    rewrite app_length. cbn [length].
    cbn [mode_rules In] in Hr. repeat (destruct Hr as [<-|Hr]; [try discriminate K|]); [..|contradiction]; cbn [rule_re] in HM.
    + exfalso. apply M_STR in HM as (b & -> & _). cbn [app] in E. apply First in E. unfold id_char in E. cbn in E. intuition discriminate.
    + exfalso. apply M_line in HM as (b & ->). cbn [app] in E. apply First in E. unfold id_char in E. cbn in E. intuition discriminate.
    + exfalso. apply M_block in HM as (b & ->). cbn [app] in E. apply First in E. unfold id_char in E. cbn in E. intuition discriminate.
    + left. split; [reflexivity|]. cbn [Seqs] in HM. apply M_Seq_iff in HM as (a & b & -> & H1 & H2). apply M_ID in H1 as (c & t & -> & Hc & Ft).
      apply M_Seq_iff in H2 as (v & w & -> & H2 & H3). apply M_one in H3 as (d & -> & [<-|[]]). apply M_Star_one in H2.
      assert (F : Forall id_char (c :: t)) by (constructor; [unfold id_char; rewrite app_assoc; apply in_or_app; left; exact Hc|exact Ft]).
      rewrite <- !app_assoc in E. cbn [app] in E. change (c :: t ++ v ++ "("%char :: z) with ((c :: t) ++ v ++ "("%char :: z) in E.
      destruct (app_eq_app _ _ _ _ E) as (x & [[E1 E2]|[E1 E2]]).
      * destruct x as [|d x].
        -- rewrite app_nil_r in E1. rewrite E1. destruct v as [|d v]; [rewrite !app_length; cbn; lia|]. cbn in E2. injection E2 as <- _. inversion H2; subst.
           exfalso. match goal with H : In "("%char _ |- _ => cbn in H; intuition discriminate end.
        -- cbn in E2. injection E2 as <- _. exfalso. apply id_not_lp. rewrite Forall_forall in F. apply F. rewrite E1. apply in_or_app. right. left. reflexivity.
      * destruct x as [|d x].
        -- rewrite app_nil_r in E1. rewrite <- E1. destruct v as [|d v]; [rewrite !app_length; cbn; lia|]. cbn in E2. injection E2 as -> _. inversion H2; subst.
           exfalso. match goal with H : In "("%char _ |- _ => cbn in H; intuition discriminate end.
        -- exfalso. rewrite E1 in Fn. apply Forall_app in Fn as [_ Fn]. inversion Fn as [|? ? Hd _]; subst. destruct v as [|e v]; cbn in E2.
           ++ injection E2 as <- _. exact (id_not_lp Hd).
           ++ injection E2 as -> _. inversion H2; subst. apply (id_not_ws d Hd). unfold ws_char. match goal with H : In d _ |- _ => cbn in H |- *; tauto end.
    + right. apply M_ID in HM as (c & t & -> & Hc & Ft). assert (F : Forall id_char (c :: t)) by (constructor; [unfold id_char; rewrite app_assoc; apply in_or_app; left; exact Hc|exact Ft]).
      pose proof (id_prefix_len _ _ _ _ F E). change (length ($"(")) with 1. lia.
Qed.
(** The backtick in front of the name. *)
Lemma item_bt y z c u : M CODE_item y z -> y ++ z = bt :: c :: u -> y <> [] -> In c [bt; bs; dq].
Proof.
  intros HM E Hy. unfold CODE_item in HM. cbn [Alts] in HM. rewrite !M_Alt_iff in HM. destruct HM as [H|[H|[H|[H|[H|H]]]]].
  - apply M_not1 in H as (d & -> & H). cbn in E. injection E as -> _. exfalso. apply H. left. reflexivity.
  - apply M_Seq_iff in H as (a & b & -> & H & _). apply M_one in H as (d & -> & [<-|[]]). discriminate.
  - unfold MACRO_ESC_QUOTE, Plus in H. apply M_Seq_iff in H as (a & b & -> & H & _). apply M_Seq_iff in H as (a1 & b1 & -> & H & _). apply M_lit in H as ->. cbn in E. injection E as <- _. cbn. tauto.
  - apply M_lit in H as ->. cbn in E. injection E as <- _. cbn. tauto.
  - apply M_lit in H as ->. cbn in E. injection E as <- _. cbn. tauto.
  - apply M_Seq_iff in H as (a & b & -> & H & _). apply M_one in H as (d & -> & [<-|[]]). discriminate.
Qed.
Lemma code_bt y z c u : M CODE_re y z -> y ++ z = bt :: c :: u -> In c [bt; bs; dq].
Proof.
  intros HM E. unfold CODE_re, Plus in HM. apply M_Seq_iff in HM as (a & b & -> & H & _). rewrite <- app_assoc in E. apply (item_bt _ _ _ _ H E).
  intros ->. assert (H0 : nullable (is_nil (b ++ z)) CODE_item = true) by (apply nullable_spec; exact H). cbn [app] in E. rewrite E in H0. discriminate.
Qed.
Lemma enter_rule c s : id_char c -> best_rule (mode_rules DEFAULT_MODE) ([bt] ++ c :: s) None = Some (R_MACRO_ENTER, length [bt]).
Proof.
  intros Hc. assert (N : ~ In c [bt; bs; dq]) by (intros H; unfold id_char in Hc; cbn in H; destruct H as [<-|[<-|[<-|[]]]]; cbn in Hc; intuition discriminate).
  apply best_is; [cbn; tauto|discriminate|apply M_one; eexists; split; [reflexivity|left; reflexivity]|].
  intros r y z Hr Hy E HM. left. cbn [mode_rules In app] in *. repeat (destruct Hr as [<-|Hr]); [..|contradiction]; cbn [rule_re] in HM.
  - apply M_STR in HM as (b & -> & _). discriminate.
  - apply M_line in HM as (b & ->). discriminate.
  - apply M_block in HM as (b & ->). discriminate.
  - exfalso. exact (N (code_bt _ _ _ _ HM E)).
  - exfalso. unfold CODE_SLASH_re in HM. apply M_Seq_iff in HM as (a & b & -> & HM & _). rewrite <- app_assoc in E. exact (N (code_bt _ _ _ _ HM E)).
  - apply M_one in HM as (d & -> & _). split; [reflexivity|cbn; lia].
Qed.

(** ** The whole call *)
Definition call_src (n : str) (args : list str) : str := [bt] ++ n ++ $"(" ++ join args ++ $")".
Definition after_call (st : lexst) : lexst := mkLex DEFAULT_MODE (lx_stack st) (lx_lp_seen st) true call_meta.
Lemma call_run n args st rest l c : ident n -> args <> [] -> Forall argument args -> lx_mode st = DEFAULT_MODE ->
  exists tok toks l1 c1, run st (call_src n args ++ rest) l c (tok :: toks) (after_call st) rest l1 c1 /\ arg_tokens args toks
    /\ tk_type tok = T_CALL_WITH_ARGS /\ tk_chan tok = CH_DEFAULT /\ tk_text tok = n ++ $"(" /\ tk_line tok = l.
Proof.
  intros Hn Ha F Hm. destruct st as [m stk lp clp meta]. cbn [lx_mode] in Hm. subst m. unfold call_src, after_call. cbn [lx_stack lx_lp_seen].
  destruct (advance [bt] l c) as [l1 c1] eqn:D1. destruct (advance (n ++ $"(") l1 c1) as [l2 c2] eqn:D2.
  destruct (args_run stk lp true DEFAULT_MODE args Ha F rest l2 c2) as (toks & l3 & c3 & R & A).
  exists (mkTok T_CALL_WITH_ARGS CH_DEFAULT (n ++ $"(") (n ++ $"(") l1 c1), toks, l3, c3.
  split; [|split; [exact A|repeat split; cbn in D1; injection D1 as <- <-; reflexivity]].
  rewrite <- !app_assoc.
  change (mkTok T_CALL_WITH_ARGS CH_DEFAULT (n ++ $"(") (n ++ $"(") l1 c1 :: toks) with (emitted Skip [bt] l c ++ emitted (Emit T_CALL_WITH_ARGS CH_DEFAULT (n ++ $"(")) (n ++ $"(") l1 c1 ++ toks).
  eapply (run_step _ _ _ _ _ R_MACRO_ENTER); [discriminate| |reflexivity|exact D1|].
  - pose proof (ident_chars n Hn) as Fn. destruct n as [|a n]; [destruct Hn as (? & ? & ? & _); discriminate|]. inversion Fn; subst. cbn [lx_mode app]. apply (enter_rule a). assumption.
  - rewrite (app_assoc n). eapply (run_step _ _ _ _ _ R_CALL_WITH_ARGS); [destruct n; discriminate|apply call_rule; exact Hn|reflexivity|exact D2|]. exact R.
Qed.
Lemma id_prefix_ok t : Forall id_char t -> id_prefix (t ++ $"(") = t.
Proof.
  induction t as [|c t IH]; intros F; [reflexivity|]. inversion F as [|? ? Hc Ft]; subst. cbn [app id_prefix].
  replace (isalnum c || ceqb c "_")%bool with true; [rewrite IH by assumption; reflexivity|]. unfold id_char in Hc. cbn in Hc.
  repeat (destruct Hc as [<-|Hc]; [reflexivity|]). contradiction.
Qed.
Theorem call_arguments n args st rest l c : ident n -> args <> [] -> Forall argument args -> lx_mode st = DEFAULT_MODE ->
  exists tok toks l1 c1, tk_type tok = T_CALL_WITH_ARGS /\ tk_chan tok = CH_DEFAULT /\ call_name tok = n /\ tk_line tok = l /\
  forall ts, lex_all (after_call st) rest l1 c1 = Ok ts ->
    lex_all st (call_src n args ++ rest) l c = Ok (tok :: toks ++ ts) /\
    exists m, parse_call tok (toks ++ ts) = Ok (m, ts) /\ mc_tok m = tok /\ values args (parse_macro_args (mc_children m) true false).
Proof.
  intros Hn Ha F Hm. destruct (call_run n args st rest l c Hn Ha F Hm) as (tok & toks & l1 & c1 & R & A & T1 & T2 & T3 & T4).
  exists tok, toks, l1, c1. split; [exact T1|]. split; [exact T2|]. split.
  { unfold call_name. rewrite T1, T3. pose proof (ident_chars n Hn) as Fn. destruct n as [|x n]; [destruct Hn as (? & ? & ? & _); discriminate|]. cbn [app]. inversion Fn; subst. rewrite id_prefix_ok by assumption. reflexivity. }
  split; [exact T4|]. intros ts E. split; [rewrite (run_lex _ _ _ _ _ _ _ _ _ R), E; reflexivity|].
  destruct (parse_args_ok _ _ A (S (length (toks ++ ts))) ts ltac:(rewrite app_length; lia)) as (cs & P & C).
  unfold parse_call. rewrite T1. cbn [ttype_eqb]. change (ttype_eqb T_CALL_WITH_ARGS T_CALL_NO_ARGS) with false. cbn match. rewrite P. cbn [bind]. eexists. split; [reflexivity|]. split; [reflexivity|].
  cbn [mc_children]. rewrite (children_values _ _ C). pose proof (values_ok args Ha) as V. destruct args as [|[|x a] [|b r]]; exact V.
Qed.
(** The same for an input that is only the call. *)
Theorem call_input lg n args : ident n -> args <> [] -> Forall argument args ->
  exists m, pp_parse lg (call_src n args) = Ok (TCons (TCall m) TNil) /\ call_name (mc_tok m) = n /\ call_has_args (mc_tok m) = true /\ values args (parse_macro_args (mc_children m) true false).
Proof.
  intros Hn Ha F. destruct (call_arguments n args lex_init [] 1 0 Hn Ha F eq_refl) as (tok & toks & l1 & c1 & T1 & T2 & T3 & T4 & H).
  destruct (H [] eq_refl) as (E & m & P & Hm & V). rewrite (app_nil_r toks) in E, P. rewrite (app_nil_r (call_src n args)) in E. exists m. rewrite Hm. split; [|repeat split; [exact T3|unfold call_has_args; rewrite T1; reflexivity|exact V]].
  unfold pp_parse. change (lex (call_src n args)) with (lex_all lex_init (call_src n args) 1 0). rewrite E. cbn [bind]. unfold parse_file. cbn [length].
  assert (N : is_default tok = true) by (unfold is_default; rewrite T2; reflexivity).
  assert (Q : parse_simple lg tok toks = Ok (TCall m, [])) by (unfold parse_simple; rewrite T1, P; reflexivity).
  cbn [parse_texts next]. rewrite N. cbn match. unfold starts_text. rewrite T1. cbn match. rewrite Q. cbn [bind].
  replace (2 * S (length toks)) with (S (S (2 * length toks))) by lia. reflexivity.
Qed.

(** Every text with matching brackets is a list of arguments. *)
Lemma join_cons x a l : join ((x :: a) :: l) = x :: join (a :: l).
Proof. destruct l; reflexivity. Qed.
Lemma join_app x a l : join ((x ++ a) :: l) = x ++ join (a :: l).
Proof. destruct l; [reflexivity|]. cbn [join]. rewrite <- app_assoc. reflexivity. Qed.
Lemma comment_join c a l : comment_start (c :: a) -> comment_start (c :: join (a :: l)).
Proof.
  intros (t & H). destruct l as [|b l]; [exists t; exact H|]. cbn [join]. destruct H as [H|H]; injection H as -> ->; eexists; [left|right]; cbn; reflexivity.
Qed.
Lemma split_text t : balanced true t -> exists args, args <> [] /\ Forall argument args /\ join args = t.
Proof.
  remember true as b eqn:Eb. intros H. induction H as [cm|cm c s Hp Hc Hs IH|cm s Hcm Hs IH|cm bd s Hb Hn Hs IH|cm o c t s Hm Ht _ Hs IH]; subst cm.
  - exists [[]]. split; [discriminate|]. split; [constructor; [apply ba_nil|constructor]|reflexivity].
  - destruct (IH eq_refl) as ([|a l] & Hne & F & E); [congruence|]. exists ((c :: a) :: l). inversion F; subst. split; [discriminate|]. split; [|apply join_cons].
    constructor; [|assumption]. apply ba_char; [exact Hp| |assumption]. intros N. apply Hc, comment_join, N.
  - destruct (IH eq_refl) as ([|a l] & Hne & F & E); [congruence|]. exists ([] :: a :: l). split; [discriminate|]. split; [constructor; [apply ba_nil|exact F]|]. cbn [join app]. rewrite <- E. reflexivity.
  - destruct (IH eq_refl) as ([|a l] & Hne & F & E); [congruence|]. exists (((dq :: bd ++ [dq]) ++ a) :: l). inversion F; subst. split; [discriminate|]. split; [|apply join_app].
    constructor; [|assumption]. apply ba_string; assumption.
  - destruct (IH eq_refl) as ([|a l] & Hne & F & E); [congruence|]. exists (((o :: t ++ [c]) ++ a) :: l). inversion F; subst. split; [discriminate|]. split; [|apply join_app].
    constructor; [|assumption]. apply ba_group; assumption.
Qed.
