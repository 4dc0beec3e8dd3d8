(** Text without directives passes through the preprocessor unchanged. *)
From Verif Require Import Base BaseFacts RegexModel RegexProofs PpLexerModel PpLexProofs
  PpParserModel OutBufferModel OutBufferProofs MacroDefModel PpModel PpFacts.

Definition plain_type (t : ttype) : bool :=
  match t with T_STR | T_LINE_COMMENT | T_COMMENT | T_CODE => true | _ => false end.

(** A token sequence that covers [s] completely, starting at the given line. *)
Inductive covers : nat -> str -> list token -> Prop :=
| cov_nil line : covers line [] []
| cov_cons line x s t ts :
    plain_type (tk_type t) = true -> tk_chan t = CH_DEFAULT -> tk_text t = x -> tk_line t = line ->
    covers (line + count_nl x) s ts -> covers line (x ++ s) (t :: ts).

Lemma In_firstn {A} n (l : list A) x : In x (firstn n l) -> In x l.
Proof. intros H. rewrite <- (firstn_skipn n l). apply in_or_app. left; exact H. Qed.
Lemma In_skipn {A} n (l : list A) x : In x (skipn n l) -> In x l.
Proof. intros H. rewrite <- (firstn_skipn n l). apply in_or_app. right; exact H. Qed.

Definition plain_rule (r : rule) : bool :=
  match r with R_STR | R_LINE_COMMENT | R_COMMENT | R_CODE => true | _ => false end.

(** Every backtick is part of a macro quote and does not follow a slash. *)
Definition benign (s : str) : Prop :=
  forall a b, s = a ++ bt :: b -> (exists b', b = dq :: b') /\ (forall a', a <> a' ++ ["/"%char]).

Lemma no_bt_benign s : ~ In bt s -> benign s.
Proof. intros H a b E. exfalso. apply H. rewrite E. apply in_or_app. right. left. reflexivity. Qed.
Lemma benign_skipn n s : benign s -> benign (skipn n s).
Proof.
  intros H a b E. destruct (H (firstn n s ++ a) b) as (H1 & H2).
  - rewrite <- app_assoc, <- E. symmetry. apply firstn_skipn.
  - split; [exact H1|]. intros a' ->. apply (H2 (firstn n s ++ a')). rewrite app_assoc. reflexivity.
Qed.

Lemma plain_rule_chosen s r n : benign s ->
  best_rule (mode_rules DEFAULT_MODE) s None = Some (r, n) -> plain_rule r = true.
Proof.
  intros Hbt E. pose proof (best_rule_In _ _ _ _ E) as Hin.
  pose proof (best_rule_longest _ _ _ _ E) as (Hlen & HM & _).
  cbn in Hin. destruct Hin as [<-|[<-|[<-|[<-|[<-|[<-|[]]]]]]]; try reflexivity; exfalso.
  - cbn [rule_re] in HM. unfold CODE_SLASH_re in HM. apply M_Seq_iff in HM as (x & y & E1 & _ & H2).
    apply M_lit in H2. subst y.
    destruct (Hbt (x ++ ["/"%char]) (skipn n s)) as (_ & H).
    + rewrite <- (firstn_skipn n s) at 1. rewrite E1, <- !app_assoc. reflexivity.
    + apply (H x). reflexivity.
  - cbn [rule_re] in HM. apply M_one in HM as (c & E1 & [<-|[]]).
    assert (s = bt :: skipn n s) as Es by (rewrite <- (firstn_skipn n s) at 1; rewrite E1; reflexivity).
    destruct (Hbt [] (skipn n s) Es) as ((b' & Eb) & _). rewrite Eb in Es.
    destruct (best_rule_max (mode_rules DEFAULT_MODE) s R_CODE 2) as (r' & n' & E' & Hn).
    + cbn. tauto.
    + rewrite Es. cbn. lia.
    + rewrite Es. cbn [firstn skipn rule_re]. unfold CODE_re, Plus.
      change [bt; dq] with ([bt; dq] ++ []). constructor; [|constructor].
      unfold CODE_item. cbn [Alts]. apply M_AltR, M_AltR, M_AltR, M_AltL. apply M_lit. reflexivity.
    + rewrite E in E'. inversion E'; subst r' n'.
      assert (length (firstn n s) = 1) as L by (rewrite E1; reflexivity). rewrite firstn_length in L. lia.
Qed.

Lemma plain_act r st x : plain_rule r = true ->
  exists t, plain_type t = true /\ rule_act r st x = Ok (st, Emit t CH_DEFAULT x).
Proof. destruct r; try discriminate; intros _; eexists; split; try reflexivity; reflexivity. Qed.

Lemma lex_plain : forall fuel st s line col,
  lx_mode st = DEFAULT_MODE -> benign s -> length s <= fuel ->
  lex_loop fuel st s line col = Throw syntax_error
  \/ exists ts, lex_loop fuel st s line col = Ok ts /\ covers line s ts.
Proof.
  induction fuel as [|fuel IH]; intros st s line col Hst Hbt Hf.
  - destruct s; [right; eexists; split; [reflexivity|constructor]|cbn in Hf; lia].
  - destruct s as [|c s]; [right; eexists; split; [reflexivity|constructor]|].
    rewrite lex_loop_S, Hst.
    destruct (best_rule (mode_rules DEFAULT_MODE) (c :: s) None) as [[r [|n]]|] eqn:B; auto.
    destruct (plain_act r st (firstn (S n) (c :: s)) (plain_rule_chosen _ _ _ Hbt B)) as (t & Ht & ->).
    cbn [bind]. pose proof (advance_line (firstn (S n) (c :: s)) line col) as HA.
    destruct (advance (firstn (S n) (c :: s)) line col) as [line' col']. cbn [fst] in HA. subst line'.
    destruct (IH st (skipn (S n) (c :: s)) (line + count_nl (firstn (S n) (c :: s))) col' Hst)
      as [->|(ts & -> & Hc)].
    + apply benign_skipn. exact Hbt.
    + cbn [skipn length] in *. rewrite skipn_length. lia.
    + left. reflexivity.
    + right. eexists. split; [reflexivity|].
      rewrite <- (firstn_skipn (S n) (c :: s)) at 1.
      constructor; try reflexivity; assumption.
Qed.

(** *** Parser *)
Fixpoint tok_texts (ts : list token) : texts :=
  match ts with [] => TNil | t :: ts' => TCons (TTok t) (tok_texts ts') end.

Lemma parse_plain l : forall line s ts fuel, covers line s ts -> length ts < fuel ->
  parse_texts fuel l ts = Ok (tok_texts ts, []).
Proof.
  intros line s ts fuel H. revert fuel. induction H as [|line x s t ts Ht Hc Hx Hl H IH]; intros fuel Hf.
  - destruct fuel; [lia|]. reflexivity.
  - destruct fuel as [|fuel]; [lia|]. cbn [parse_texts next]. unfold is_default. rewrite Hc.
    assert (starts_text t = true) as -> by (unfold starts_text; destruct (tk_type t); try discriminate; reflexivity).
    cbn [length] in Hf.
    destruct (tk_type t) eqn:Et; try discriminate; cbn [parse_simple bind];
      unfold parse_simple; rewrite Et; cbn [bind]; rewrite IH by lia; reflexivity.
Qed.

(** *** Visitor *)
Lemma visit_plain l fs rs rf src added line s ts : covers line s ts -> 1 <= line ->
  forall b st, ob_map b <> [] -> cong (cur_line b) (line0 line) ->
  exists b', visit_texts l fs rs rf src added (tok_texts ts) b st = (Ok b', st)
             /\ ob_text b' = ob_text b ++ s.
Proof.
  induction 1 as [line|line x s t ts Ht Hc Hx Hl H IH]; intros Hline b st Hm Hb.
  - exists b. cbn. split; [reflexivity|symmetry; apply app_nil_r].
  - cbn [tok_texts visit_texts visit_text]. unfold mbind, lift, ret. rewrite Hl.
    destruct (set_line_same b (line0 line) Hm Hb) as (b1 & -> & E1 & Hm1 & Hc1 & _).
    rewrite Hx.
    destruct (IH ltac:(lia) (buf_put b1 x) st) as (b' & E & Et).
    + cbn. exact Hm1.
    + eapply cong_trans; [apply buf_put_cur|].
      replace (line0 (line + count_nl x)) with (line0 line + Z.of_nat (count_nl x))%Z
        by (unfold line0; lia).
      apply cong_add; [exact Hc1|apply cong_refl].
    + exists b'. rewrite E. split; [reflexivity|]. rewrite Et. cbn [buf_put ob_text].
      rewrite E1, <- app_assoc. reflexivity.
Qed.

Lemma covers_next line s ts : covers line s ts -> next ts = None -> ts = [].
Proof.
  intros H. inversion H as [|? x s' t ts' Ht Hc]; subst; [reflexivity|].
  cbn [next]. unfold is_default. rewrite Hc. discriminate.
Qed.

Lemma pp_parse_plain l s : benign s ->
  pp_parse l s = Throw syntax_error
  \/ exists ts, pp_parse l s = Ok (tok_texts ts) /\ covers 1 s ts /\ lex s = Ok ts.
Proof.
  intros Hbt. unfold pp_parse, lex.
  destruct (lex_plain (S (length s)) lex_init s 1 0 eq_refl Hbt ltac:(lia)) as [->|(ts & E & Hc)].
  - left; reflexivity.
  - right. exists ts. rewrite E. cbn [bind]. unfold parse_file.
    rewrite (parse_plain l 1 s ts (S (S (2 * length ts))) Hc) by lia. cbn [bind next].
    repeat split; assumption.
Qed.

(** *** The API *)
Lemma pp_str_plain l fs d dirs s : is_verilog l = true -> benign s ->
  (lex s = Throw syntax_error
   /\ verilog_pp_str l fs d dirs s = (Throw syntax_error, pp_init l d dirs))
  \/ (exists ts b, lex s = Ok ts
      /\ verilog_pp_str l fs d dirs s = (Ok b, pp_init l d dirs) /\ ob_text b = s).
Proof.
  intros Hl Hbt. rewrite verilog_pp_str_eq, run_preproc_eq, Hl.
  destruct (pp_parse_plain l s Hbt) as [E|(ts & E & Hc & Hlex)]; rewrite E.
  - left. split; [|reflexivity]. unfold pp_parse in E. unfold lex in *.
    destruct (lex_plain (S (length s)) lex_init s 1 0 eq_refl Hbt ltac:(lia)) as [EE|(ts & EE & Hc)];
      [exact EE|].
    exfalso. rewrite EE in E. cbn [bind] in E. unfold parse_file in E.
    rewrite (parse_plain l 1 s ts (S (S (2 * length ts))) Hc) in E by lia. discriminate.
  - right.
    destruct (visit_plain l fs (run_str (pred enough_fuel) l fs) (run_file (pred enough_fuel) l fs)
                STRING_FILENAME false 1 s ts Hc ltac:(lia) (start_buf STRING_FILENAME) (pp_init l d dirs))
      as (b' & Ev & Et).
    + discriminate.
    + apply cong_refl.
    + exists ts, b'. rewrite Ev. repeat split; assumption.
Qed.

(** A text without quotes, slashes and backslashes is one CODE token. *)
Lemma code_item_simple c rest : c <> bt -> c <> "/"%char -> c <> dq -> c <> bs ->
  M CODE_item [c] rest.
Proof.
  intros H1 H2 H3 H4. unfold CODE_item. cbn [Alts]. apply M_AltL. apply M_not1. exists c.
  split; [reflexivity|]. cbn. intuition congruence.
Qed.
Lemma code_all s : s <> [] ->
  Forall (fun c => c <> bt /\ c <> "/"%char /\ c <> dq /\ c <> bs) s -> M CODE_re s [].
Proof.
  intros Hs HF. destruct HF as [|c s (H1 & H2 & H3 & H4) HF]; [congruence|].
  unfold CODE_re, Plus. change (c :: s) with ([c] ++ s). constructor; [apply code_item_simple; assumption|].
  clear Hs. induction HF as [|d s (G1 & G2 & G3 & G4) HF IH]; [constructor|].
  change (d :: s) with ([d] ++ s). apply M_StarS; [discriminate|apply code_item_simple; assumption|exact IH].
Qed.
Lemma lex_simple s :
  Forall (fun c => c <> bt /\ c <> "/"%char /\ c <> dq /\ c <> bs) s -> exists ts, lex s = Ok ts.
Proof.
  intros HF. destruct s as [|c s]; [eexists; reflexivity|].
  assert (benign (c :: s)) as Hbt.
  { apply no_bt_benign. intros H. rewrite Forall_forall in HF. destruct (HF bt H) as (X & _). congruence. }
  unfold lex. rewrite lex_loop_S. cbn [lex_init lx_mode].
  destruct (best_rule_max (mode_rules DEFAULT_MODE) (c :: s) R_CODE (length (c :: s)))
    as (r & n & E & Hn).
  - cbn. tauto.
  - lia.
  - rewrite firstn_all, skipn_all. apply code_all; [discriminate|exact HF].
  - rewrite E. destruct n as [|n]; [cbn in Hn; lia|].
    destruct (plain_act r lex_init (firstn (S n) (c :: s)) (plain_rule_chosen _ _ _ Hbt E)) as (t & _ & ->).
    cbn [bind]. destruct (advance _ 1 0) as [line' col'].
    rewrite (skipn_all2 (c :: s)) by exact Hn. cbn. eexists; reflexivity.
Qed.

Lemma pp_str_simple l fs d dirs s : is_verilog l = true ->
  Forall (fun c => c <> bt /\ c <> "/"%char /\ c <> dq /\ c <> bs) s ->
  exists b, verilog_pp_str l fs d dirs s = (Ok b, pp_init l d dirs) /\ ob_text b = s.
Proof.
  intros Hl HF. destruct (lex_simple s HF) as (ts & Hts).
  assert (benign s) as Hb.
  { apply no_bt_benign. intros H. rewrite Forall_forall in HF. destruct (HF bt H) as (X & _). congruence. }
  destruct (pp_str_plain l fs d dirs s Hl Hb) as [(E & _)|(ts' & b & _ & E)]; [congruence|eauto].
Qed.

Lemma pp_file_plain l fs d dirs file s : is_verilog l = true -> benign s -> fs file = Some s ->
  (lex s = Throw syntax_error
   /\ fst (verilog_pp_file l fs d dirs file) = Throw syntax_error)
  \/ (exists ts b, lex s = Ok ts
      /\ verilog_pp_file l fs d dirs file = (Ok b, pp_init l d dirs) /\ ob_text b = s).
Proof.
  intros Hl Hbt Hfs. rewrite verilog_pp_file_eq. unfold enough_fuel.
  set (fuel := S (max_macro_call_stack_size + include_depth_limit + 2)). clearbody fuel.
  rewrite run_file_S, Hfs.
  change (set_file_line (mkBuf [] [] 0 0 0) file 0) with (Ok (start_buf file)).
  set (st := pp_init l d dirs). set (add := add_dir file st).
  assert (leave_file add (enter_file file st) = st) as Hleave.
  { unfold leave_file, enter_file. fold add. cbn [ps_db ps_incdirs ps_incstack ps_mstack].
    rewrite removelast_last. destruct add; rewrite ?removelast_last; reflexivity. }
  unfold mbind. cbn [lift]. rewrite run_preproc_eq, Hl.
  destruct (pp_parse_plain l s Hbt) as [E|(ts & E & Hc & Hlex)]; rewrite E.
  - left. split; [|reflexivity]. unfold pp_parse in E. unfold lex in *.
    destruct (lex_plain (S (length s)) lex_init s 1 0 eq_refl Hbt ltac:(lia)) as [EE|(ts & EE & Hc)];
      [exact EE|].
    exfalso. rewrite EE in E. cbn [bind] in E. unfold parse_file in E.
    rewrite (parse_plain l 1 s ts (S (S (2 * length ts))) Hc) in E by lia. discriminate.
  - right.
    destruct (visit_plain l fs (run_str fuel l fs) (run_file fuel l fs) file add 1 s ts Hc ltac:(lia)
                (start_buf file) (enter_file file st)) as (b & Eb & Et).
    + discriminate.
    + reflexivity.
    + exists ts, b. split; [exact Hlex|].  rewrite Eb, Hleave. split; [reflexivity|exact Et].
Qed.

(** *** Rescanning of an expansion *)
Lemma visit_plain_resync l fs rs rf src added line s ts : covers line s ts -> 1 <= line ->
  forall b st, ob_map b <> [] -> ~ (0 < lines_to_add b (line0 line) <= NEWLINE_TRESHOLD)%Z ->
  exists b', visit_texts l fs rs rf src added (tok_texts ts) b st = (Ok b', st)
             /\ ob_text b' = ob_text b ++ s.
Proof.
  intros H Hline b st Hm Hn. destruct H as [line|line x s t ts Ht Hc Hx Hl H].
  - exists b. cbn. split; [reflexivity|symmetry; apply app_nil_r].
  - cbn [tok_texts visit_texts visit_text]. unfold mbind, lift, ret. rewrite Hl.
    destruct (set_line_resync b (line0 line) Hm Hn) as (b1 & -> & E1 & Hm1 & Hc1 & _).
    rewrite Hx.
    destruct (visit_plain l fs rs rf src added (line + count_nl x) s ts H ltac:(lia) (buf_put b1 x) st)
      as (b' & E & Et).
    + cbn. exact Hm1.
    + eapply cong_trans; [apply buf_put_cur|].
      replace (line0 (line + count_nl x)) with (line0 line + Z.of_nat (count_nl x))%Z
        by (unfold line0; lia).
      apply cong_add; [exact Hc1|apply cong_refl].
    + exists b'. split; [exact E|]. rewrite Et. cbn [buf_put ob_text]. rewrite E1, <- app_assoc. reflexivity.
Qed.

(** Preprocessing benign text in a fresh buffer, whatever the line the buffer starts at. *)
Lemma run_str_benign fuel l fs s k st : is_verilog l = true -> benign s -> (0 <= k < 2 ^ 62)%Z ->
  (lex s = Throw syntax_error
   /\ run_str (S fuel) l fs s (mkBuf [] [] 0 0 k) st = (Throw syntax_error, st))
  \/ (exists ts b, lex s = Ok ts
      /\ run_str (S fuel) l fs s (mkBuf [] [] 0 0 k) st = (Ok b, st) /\ ob_text b = s).
Proof.
  intros Hl Hbt Hk.
  set (b0 := mkBuf [] [mkItem 0 (src_name st) 0] 0 (to_ssize k) k).
  assert (run_str (S fuel) l fs s (mkBuf [] [] 0 0 k) st =
          match pp_parse l s with
          | Ok tree => visit_texts l fs (run_str fuel l fs) (run_file fuel l fs) (src_name st) false tree b0 st
          | Throw e => (Throw e, st) | UB w => (UB w, st) | OutOfFuel => (OutOfFuel, st)
          end) as ->.
  { rewrite run_str_S. unfold mbind, lift. unfold set_file_line. cbn [ob_map rev].
    rewrite run_preproc_eq, Hl. 
    replace (mkBuf _ _ _ _ _) with b0 by (unfold b0; cbn [ob_text ob_map ob_line ob_off ob_begin app]; repeat f_equal; lia).
    destruct (pp_parse l s); reflexivity. }
  destruct (pp_parse_plain l s Hbt) as [E|(ts & E & Hc & Hlex)]; rewrite E.
  - left. split; [|reflexivity]. unfold pp_parse in E. unfold lex in *.
    destruct (lex_plain (S (length s)) lex_init s 1 0 eq_refl Hbt ltac:(lia)) as [EE|(ts & EE & Hc)];
      [exact EE|].
    exfalso. rewrite EE in E. cbn [bind] in E. unfold parse_file in E.
    rewrite (parse_plain l 1 s ts (S (S (2 * length ts))) Hc) in E by lia. discriminate.
  - right.
    destruct (visit_plain_resync l fs (run_str fuel l fs) (run_file fuel l fs) (src_name st) false 1 s ts Hc
                ltac:(lia) b0 st) as (b' & Ev & Et).
    + discriminate.
    + unfold lines_to_add, b0. cbn [ob_line ob_off ob_begin]. unfold line0, NEWLINE_TRESHOLD.
      change (2 ^ 62)%Z with 4611686018427387904%Z in Hk.
      assert (to_ssize k = k) as ->.
      { unfold to_ssize. rewrite two63_val, two64_val. cbv zeta.
        rewrite Z.mod_small by lia. destruct (Z.ltb_spec k 9223372036854775808); lia. }
      unfold to_size. rewrite two64_val.
      replace (Z.of_nat 1 - 1 - (0 + k + k))%Z with (- (2 * k))%Z by lia.
      intros HH. assert (k = 0 \/ 0 < k)%Z as [->|Hk0] by lia; [cbn in HH; lia|].
      rewrite Z.mod_opp_l_nz in HH; rewrite ?Z.mod_small in *; lia.
    + exists ts, b'. rewrite Ev. repeat split; assumption.
Qed.
