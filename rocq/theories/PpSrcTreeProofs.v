(** Every source of PpSrcSpec is lexed and parsed into its tree. *)
From Verif Require Import Base BaseFacts RegexModel RegexProofs StrSpec StrUtilsModel StrUtilsProofs PpLexerModel PpLexProofs PpParserModel
  MacroDefModel PpModel PpArgSpec PpArgProofs PpPlainProofs PpSrcSpec PpSrcLexProofs PpSrcDirProofs PpSrcBodyProofs PpSrcParseProofs.

(** ** Parsing *)
Lemma parses_one t toks x : is_default t = true -> starts_text t = true -> tk_type t <> T_IFDEF -> tk_type t <> T_IFNDEF ->
  (forall l tail, parse_simple l t (toks ++ tail) = Ok (x, tail)) -> parses (t :: toks) [x].
Proof.
  intros H1 H2 H3 H4 H l tail tr r need Hn Hk [|fuel] Hf; [cbn in Hf; lia|]. cbn [app parse_texts next]. rewrite H1, H2. cbn [length] in Hf. rewrite (H l tail).
  destruct (tk_type t); try congruence; cbn [bind]; rewrite Hk by lia; reflexivity.
Qed.
Lemma parse_define_body l tok id ws codes nt tail : tk_type id = T_ID -> is_default id = true -> tk_type ws = T_WS -> is_default ws = true -> Forall code codes -> codes <> [] -> newline_token nt ->
  parse_define l tok ((id :: ws :: codes ++ [nt]) ++ tail) = Ok (TDefine (mkDef tok (tk_text id) None (Some codes)), tail).
Proof.
  intros I1 I2 W1 W2 F N [N1 N2]. unfold parse_define, expect. cbn [app next]. rewrite I2, I1. cbn [ttype_eqb bind].
  assert (PK : peek_is T_LP (ws :: (codes ++ [nt]) ++ tail) = false) by (unfold peek_is; cbn [next]; rewrite W2, W1; reflexivity). rewrite PK. cbn [bind].
  assert (SW : skip_ws (ws :: (codes ++ [nt]) ++ tail) = codes ++ nt :: tail).
  { cbn [skip_ws]. rewrite W2, W1. cbn [ttype_eqb]. rewrite <- app_assoc. cbn [app]. destruct codes as [|x codes]; [congruence|]. inversion F as [|? ? (C1 & C2 & _) _]; subst. cbn [app skip_ws]. unfold is_default. rewrite C2, C1. reflexivity. }
  rewrite SW, opt_codes_all; [|exact F|exact N2|rewrite N1; reflexivity]. destruct codes as [|x codes]; [congruence|]. cbn [next]. rewrite N2, N1. reflexivity.
Qed.
(** Parameter lists *)
Inductive param_toks : list (str * str * str) -> list token -> Prop :=
| pt_one p t : tk_type t = T_ID -> is_default t = true -> tk_text t = param_name p -> param_toks [p] [t]
| pt_more p t k l ts : tk_type t = T_ID -> is_default t = true -> tk_text t = param_name p -> tk_type k = T_COMMA -> is_default k = true -> param_toks l ts ->
    param_toks (p :: l) (t :: k :: ts).
Definition dparam_of (p : str * str * str) : dparam := mkDParam (param_name p) false [].
Lemma parse_params_ok lg l ts : param_toks l ts -> forall fuel rp tail, length ts < fuel -> tk_type rp = T_RP -> is_default rp = true ->
  parse_params fuel lg (ts ++ rp :: tail) = Ok (map dparam_of l, rp :: tail).
Proof.
  induction 1 as [p t T1 T2 T3|p t k l ts T1 T2 T3 K1 K2 HP IH]; intros [|fuel] rp tail Hf R1 R2; try (cbn in Hf; lia); cbn [app parse_params length] in *; unfold parse_param, expect at 1; cbn [next]; rewrite T2, T1; cbn [ttype_eqb bind].
  - assert (PE : peek_is T_EQUAL (rp :: tail) = false) by (unfold peek_is; cbn [next]; rewrite R2, R1; reflexivity). assert (PC : peek_is T_COMMA (rp :: tail) = false) by (unfold peek_is; cbn [next]; rewrite R2, R1; reflexivity).
    rewrite PE, andb_false_r. cbn [bind]. rewrite PC. unfold dparam_of. cbn [map]. rewrite T3. reflexivity.
  - assert (PE : peek_is T_EQUAL (k :: ts ++ rp :: tail) = false) by (unfold peek_is; cbn [next]; rewrite K2, K1; reflexivity). assert (PC : peek_is T_COMMA (k :: ts ++ rp :: tail) = true) by (unfold peek_is; cbn [next]; rewrite K2, K1; reflexivity).
    rewrite PE, andb_false_r. cbn [bind]. rewrite PC. unfold expect. cbn [next]. rewrite K2, K1. cbn [ttype_eqb bind]. rewrite (IH fuel rp tail) by (assumption || lia). cbn [bind map]. unfold dparam_of at 1. rewrite T3. reflexivity.
Qed.
Lemma param_toks_head l ts : param_toks l ts -> exists t r, ts = t :: r /\ tk_type t = T_ID /\ is_default t = true.
Proof. intros [p t T1 T2 T3|p t k l' ts' T1 T2 T3 _ _ _]; eauto. Qed.
Lemma parse_define_params lg tok id lp l ps rp codes nt tail : tk_type id = T_ID -> is_default id = true -> tk_type lp = T_LP -> is_default lp = true -> param_toks l ps -> tk_type rp = T_RP -> is_default rp = true ->
  Forall code codes -> codes <> [] -> newline_token nt ->
  parse_define lg tok ((id :: lp :: ps ++ rp :: codes ++ [nt]) ++ tail) = Ok (TDefine (mkDef tok (tk_text id) (Some (map dparam_of l)) (Some codes)), tail).
Proof.
  intros I1 I2 L1 L2 HP R1 R2 F N [N1 N2]. unfold parse_define, expect at 1. cbn [app next]. rewrite I2, I1. cbn [ttype_eqb bind].
  assert (PK : forall u, peek_is T_LP (lp :: u) = true) by (intros u; unfold peek_is; cbn [next]; rewrite L2, L1; reflexivity). rewrite PK.
  assert (EL : forall u, expect T_LP (lp :: u) = Ok (lp, u)) by (intros u; unfold expect; cbn [next]; rewrite L2, L1; reflexivity). rewrite EL. cbn [bind].
  rewrite <- app_assoc. cbn [app]. rewrite <- app_assoc. cbn [app].
  destruct (param_toks_head l ps HP) as (t0 & r0 & E0 & Q1 & Q2).
  assert (PR : forall u, peek_is T_RP (ps ++ u) = false) by (intros u; rewrite E0; unfold peek_is; cbn [app next]; rewrite Q2, Q1; reflexivity). rewrite PR.
  rewrite (parse_params_ok lg l ps HP) by (try assumption; rewrite app_length; lia). cbn [bind].
  assert (ER : forall u, expect T_RP (rp :: u) = Ok (rp, u)) by (intros u; unfold expect; cbn [next]; rewrite R2, R1; reflexivity). rewrite ER. cbn [bind].
  assert (SW : skip_ws (codes ++ nt :: tail) = codes ++ nt :: tail).
  { destruct codes as [|x codes]; [congruence|]. inversion F as [|? ? (C1 & C2 & _) _]; subst. cbn [app skip_ws]. unfold is_default. rewrite C2, C1. reflexivity. }
  rewrite SW, opt_codes_all; [|exact F|exact N2|rewrite N1; reflexivity]. destruct codes as [|x codes]; [congruence|]. cbn [next]. rewrite N2, N1. reflexivity.
Qed.
Lemma parse_define_empty l tok id ws nt tail : tk_type id = T_ID -> is_default id = true -> (ws = [] \/ exists w, ws = [w] /\ tk_type w = T_WS /\ is_default w = true) -> newline_token nt ->
  parse_define l tok ((id :: ws ++ [nt]) ++ tail) = Ok (TDefine (mkDef tok (tk_text id) None None), tail).
Proof.
  intros I1 I2 W [N1 N2]. unfold parse_define, expect. cbn [app next]. rewrite I2, I1. cbn [ttype_eqb bind].
  assert (PK : peek_is T_LP ((ws ++ [nt]) ++ tail) = false) by (unfold peek_is; destruct W as [->|(w & -> & W1 & W2)]; cbn [app next]; [rewrite N2, N1|rewrite W2, W1]; reflexivity). rewrite PK. cbn [bind].
  assert (SW : skip_ws ((ws ++ [nt]) ++ tail) = nt :: tail) by (destruct W as [->|(w & -> & W1 & W2)]; cbn [app skip_ws]; [|rewrite W2, W1; cbn [ttype_eqb]]; rewrite N2, N1; reflexivity).
  rewrite SW. pose proof (opt_codes_all [] nt tail (Forall_nil _) N2) as O. rewrite N1 in O. cbn [app] in O. rewrite (O eq_refl). cbn [next]. rewrite N2, N1. reflexivity.
Qed.
Lemma parses_cond t toks ftoks neg bs e line : is_default t = true -> tk_type t = (if neg : bool then T_IFNDEF else T_IFDEF) -> parses_branches toks line bs ->
  fin_tokens ftoks -> at_line line ftoks -> (forall l tail fuel, length ftoks <= fuel -> parse_fin fuel l (ftoks ++ tail) = Ok (e, tail)) -> parses (t :: toks ++ ftoks) [TCond neg bs e].
Proof.
  intros H1 H2 HB HF HL HP l tail tr r need Hn Hk [|fuel] Hf; [cbn in Hf; lia|]. cbn [app parse_texts next length] in *. rewrite H1. rewrite app_length in Hf.
  assert (S : starts_text t = true) by (unfold starts_text; rewrite H2; destruct neg; reflexivity). rewrite S, <- app_assoc.
  assert (E : parse_cond fuel l (toks ++ ftoks ++ tail) = Ok (bs, e, tail)).
  { apply (HB l (ftoks ++ tail) e tail (length ftoks)); [| |intros f Hf'; apply HP; exact Hf'|lia].
    - destruct HF as (a & b & -> & Q). exists a, (b ++ tail). split; [reflexivity|exact Q].
    - destruct HL as (a & b & -> & Q). exists a, (b ++ tail). split; [reflexivity|exact Q]. }
  rewrite E. rewrite H2. destruct neg; cbn [bind ttype_eqb]; rewrite Hk by lia; reflexivity.
Qed.
Definition starts_at (line : nat) (toks : list token) (line' : nat) : Prop := forall tail, at_line line' tail -> at_line line (toks ++ tail).
Lemma parse_one_branch id toks a line line' : tk_type id = T_ID -> is_default id = true -> parses toks a -> starts_at line toks line' ->
  parses_branches (id :: toks) line' (BCons (tk_text id) line (tree a) BNil).
Proof.
  intros I1 I2 HP HS l tail e r need HF HL Hk [|fuel] Hf; [cbn in Hf; lia|]. cbn [app parse_cond length] in *. unfold expect at 1. cbn [next]. rewrite I2, I1. cbn [ttype_eqb bind].
  rewrite (parses_to_end toks a tail l fuel HP (fin_ends _ HF)) by lia. cbn [bind]. specialize (Hk fuel ltac:(lia)). unfold parse_fin in Hk.
  assert (NL : next_line (toks ++ tail) = line) by (destruct (HS tail HL) as (t & u & -> & Q1 & Q2); unfold next_line; cbn [next]; rewrite Q1; exact Q2). rewrite NL.
  destruct HF as (t & u & -> & Q & T). cbn [next] in *. rewrite Q in *. destruct T as [T|T]; rewrite T in *.
  - destruct (parse_texts fuel l u) as [[eg r3]| | |]; try discriminate. cbn [bind] in *. destruct (expect T_ENDIF r3) as [[t4 r4]| | |]; try discriminate. cbn [bind] in *. injection Hk as <- <-. reflexivity.
  - injection Hk as <- <-. reflexivity.
Qed.
Lemma parse_more_branch id toks a line line1 t btoks line' bs : tk_type id = T_ID -> is_default id = true -> parses toks a -> starts_at line toks line1 ->
  tk_type t = T_ELSIF -> is_default t = true -> tk_line t = line1 -> parses_branches btoks line' bs ->
  parses_branches (id :: toks ++ t :: btoks) line' (BCons (tk_text id) line (tree a) bs).
Proof.
  intros I1 I2 HP HS T1 T2 T3 HB l tail e r need HF HL Hk [|fuel] Hf; [cbn in Hf; lia|]. cbn [app parse_cond length] in *. unfold expect at 1. cbn [next]. rewrite I2, I1. cbn [ttype_eqb bind].
  rewrite app_length in Hf. cbn [length] in Hf. rewrite <- app_assoc. cbn [app]. rewrite (parses_to_end toks a (t :: btoks ++ tail) l fuel HP); [|right; exists t, (btoks ++ tail); repeat split; [exact T2|unfold starts_text; rewrite T1; reflexivity]|lia].
  cbn [bind next]. rewrite T2, T1. rewrite (HB l tail e r need HF HL Hk fuel) by lia. cbn [bind].
  destruct (HS (t :: btoks ++ tail)) as (t0 & u & E & Q1 & Q2); [exists t, (btoks ++ tail); auto|]. rewrite E. unfold next_line. cbn [next]. rewrite Q1, Q2. reflexivity.
Qed.
Lemma parse_else_fin t toks a line line' f l tail fuel : tk_type t = T_ELSE -> is_default t = true -> parses toks a -> starts_at line toks line' ->
  tk_type f = T_ENDIF -> is_default f = true -> tk_line f = line' -> length (t :: toks ++ [f]) <= fuel ->
  parse_fin fuel l ((t :: toks ++ [f]) ++ tail) = Ok (ESome line (tree a), tail).
Proof.
  intros T1 T2 HP HS F1 F2 F3 Hf. unfold parse_fin. cbn [app next length] in *. rewrite T2, T1. rewrite app_length in Hf. cbn [length] in Hf. rewrite <- app_assoc. cbn [app].
  rewrite (parses_to_end toks a (f :: tail) l fuel HP); [|right; exists f, tail; repeat split; [exact F2|unfold starts_text; rewrite F1; reflexivity]|lia]. cbn [bind]. unfold expect. cbn [next]. rewrite F2, F1. cbn [ttype_eqb bind].
  destruct (HS (f :: tail)) as (t0 & u & E & Q1 & Q2); [exists f, tail; auto|]. rewrite E. unfold next_line. cbn [next]. rewrite Q1, Q2. reflexivity.
Qed.

(** ** Lexing and parsing together *)
Definition P_items (p : items) : Prop := forall rest st line c, wf p rest -> lx_mode st = DEFAULT_MODE ->
  exists toks st1 c1 t, run st (PpSrcSpec.render p ++ rest) line c toks st1 rest (line + lines (PpSrcSpec.render p)) c1 /\ lx_mode st1 = DEFAULT_MODE
    /\ means line p t /\ parses toks t /\ starts_at line toks (line + lines (PpSrcSpec.render p)).
Definition P_item (i : item) : Prop := forall rest st line c, wf_item i rest -> lx_mode st = DEFAULT_MODE ->
  exists toks st1 c1 t, run st (render_item i ++ rest) line c toks st1 rest (line + lines (render_item i)) c1 /\ lx_mode st1 = DEFAULT_MODE
    /\ means_item line i t /\ parses toks t /\ at_line line toks.
Definition P_branches (b : branches) : Prop := forall r k t rest st line c, name_directive r = true -> r <> R_DEFINE -> keyword_tail r = Some (k, t) -> wf_branches b rest -> lx_mode st = DEFAULT_MODE ->
  exists tok toks st1 c1 bs, run st (bt :: s2l k ++ render_branches b ++ rest) line c (tok :: toks) st1 rest (line + lines (render_branches b)) c1 /\ lx_mode st1 = DEFAULT_MODE
    /\ tk_type tok = name_type r /\ is_default tok = true /\ tk_line tok = line
    /\ means_branches line b bs /\ parses_branches toks (line + lines (render_branches b)) bs.
Definition P_else (els : else_items) : Prop := forall fin rest st line c, wf_else els ($"`endif" ++ sep_text fin ++ rest) -> sep_ok fin rest -> lx_mode st = DEFAULT_MODE ->
  exists toks st1 c1 e, run st (render_else els ++ $"`endif" ++ sep_text fin ++ rest) line c toks st1 rest (line + lines (render_else els) + lines (sep_text fin)) c1 /\ lx_mode st1 = DEFAULT_MODE
    /\ means_else line els e /\ fin_tokens toks /\ at_line line toks
    /\ forall l tail fuel, length toks <= fuel -> parse_fin fuel l (toks ++ tail) = Ok (e, tail).

Lemma lines_app a b : lines (a ++ b) = lines a + lines b.
Proof. apply count_nl_app. Qed.
Lemma dir_word k s : (exists a u, s2l k = a :: u /\ id_char a) -> ends_word (bt :: s2l k ++ s).
Proof. intros _ c t E H. injection E as <- _. unfold letter in H. cbn in H. intuition discriminate. Qed.
Lemma item_text_ok ps : P_item (IText ps).
Proof.
  intros rest st line c (Hne & Hok & Hd) Hm. destruct (text_reads st ps rest Hm Hok Hd line c) as (toks & c1 & R & C). exists toks, st, c1, (map TTok toks).
  split; [exact R|]. split; [exact Hm|]. split; [exists toks; auto|]. split; [eapply covers_parse; exact C|]. rewrite <- (app_nil_r toks). eapply covers_at; [exact C|].
  destruct ps as [|p ps]; [congruence|]. cbn. unfold text_of_pieces. cbn [map List.concat]. destruct p; discriminate.
Qed.
Lemma run_lines' st s l c toks st2 s2 l2 c2 : run st s l c toks st2 s2 l2 c2 -> exists x, s = x ++ s2 /\ l2 = l + count_nl x.
Proof.
  induction 1 as [st s l c|st x s l c r st1 e l1 c1 toks st2 s2 l2 c2 _ _ _ A _ (y & -> & ->)]; [exists []; cbn; auto|]. exists (x ++ y). rewrite app_assoc, count_nl_app. split; [reflexivity|].
  pose proof (advance_line x l c) as E. rewrite A in E. cbn [fst] in E. lia.
Qed.
Lemma run_lines st x s2 l c toks st2 l2 c2 : run st (x ++ s2) l c toks st2 s2 l2 c2 -> l2 = l + lines x.
Proof. intros R. destruct (run_lines' _ _ _ _ _ _ _ _ _ R) as (y & E & ->). apply app_inv_tail in E. subst y. reflexivity. Qed.
Lemma parse_args_all l toks : arg_tokens l toks -> exists cs, children l cs /\ forall fuel rest, length toks < fuel -> parse_args fuel (toks ++ rest) = Ok (cs, rest).
Proof.
  induction 1 as [a codes rp F T (R1 & R2)|a codes cm l toks F T (C1 & C2) Hl _ (cs & C & IH)].
  - eexists. split; [apply (ch_last a codes F T)|]. intros [|fuel] rest Hf; [lia|]. cbn [parse_args]. rewrite <- app_assoc. cbn [app].
    rewrite opt_codes_all; [|exact F|unfold is_default; rewrite R2; reflexivity|rewrite R1; reflexivity]. cbv beta iota. cbn [next]. unfold is_default. rewrite R2, R1. cbn [ttype_eqb]. destruct codes; reflexivity.
  - eexists. split; [apply (ch_more a codes l cs F T Hl C)|]. intros [|fuel] rest Hf; [lia|]. cbn [parse_args]. rewrite <- app_assoc. cbn [app].
    rewrite opt_codes_all; [|exact F|unfold is_default; rewrite C2; reflexivity|rewrite C1; reflexivity]. cbv beta iota. cbn [next]. unfold is_default. rewrite C2, C1. cbn [ttype_eqb].
    rewrite app_length in Hf. cbn in Hf. rewrite (IH fuel rest) by lia. cbn [bind]. destruct codes; reflexivity.
Qed.
Lemma item_call_ok n args : P_item (ICall n args).
Proof.
  intros rest st line c HW Hm. destruct args as [args|].
  - cbn [wf_item] in HW. destruct HW as (Hn & Ha & F). cbn [render_item args_text].
    destruct (call_run n args st rest line c (proj1 Hn) Ha F Hm) as (tok & toks & l1 & c1 & R & A & T1 & T2 & T3 & T4).
    assert (N : is_default tok = true) by (unfold is_default; rewrite T2; reflexivity).
    assert (ER : call_src n args = bt :: n ++ "("%char :: join args ++ $")") by reflexivity. rewrite <- ER.
    assert (EL : l1 = line + lines (call_src n args)) by (exact (run_lines _ _ _ _ _ _ _ _ _ R)). subst l1.
    destruct (parse_args_all _ _ A) as (cs & C & P).
    set (m := mkCall tok cs (tk_raw tok ++ raw_of toks)). exists (tok :: toks), (after_call st), c1, [TCall m]. split; [exact R|]. split; [reflexivity|]. split; [|split].
    + exists m. split; [reflexivity|]. cbn [mc_tok m mc_children]. split; [|split; [exact T4|split; [unfold call_has_args; rewrite T1; reflexivity|]]].
      * unfold call_name. rewrite T1, T3. pose proof (ident_chars n (proj1 Hn)) as Fn. destruct n as [|x n]; [destruct Hn as [(? & ? & ? & _) _]; discriminate|]. cbn [app]. inversion Fn; subst. rewrite id_prefix_ok by assumption. reflexivity.
      * rewrite (children_values _ _ C). pose proof (values_ok args Ha) as V. destruct args as [|[|x a] [|b r]]; exact V.
    + apply parses_one; [exact N|unfold starts_text; rewrite T1; reflexivity|congruence|congruence|]. intros l tail. unfold parse_simple. rewrite T1. unfold parse_call. rewrite T1. change (ttype_eqb T_CALL_WITH_ARGS T_CALL_NO_ARGS) with false. cbn match.
      rewrite P by (rewrite app_length; lia). cbn [bind].
      rewrite app_length, Nat.add_sub, firstn_app, firstn_all, Nat.sub_diag. cbn [firstn]. rewrite app_nil_r. reflexivity.
    + exists tok, toks. auto.
  - destruct HW as (Hn & He & Ha). destruct (run_enter st n rest line c Hm (ident_head n (proj1 Hn))) as (c1 & R1).
    destruct (run_tok (push_mode DIRECTIVE_MODE st) n rest line c1 R_CALL_NO_ARGS st (Emit T_CALL_NO_ARGS CH_DEFAULT n)) as (c2 & R2); [apply ident_nonempty, Hn|apply rule_call; assumption|destruct st; reflexivity|].
    rewrite (ident_nl n (proj1 Hn)) in R2. rewrite Nat.add_0_r in R2. cbn [render_item args_text]. rewrite app_nil_r.
    assert (L : lines (bt :: n) = 0) by (exact (ident_nl n (proj1 Hn))). rewrite L, Nat.add_0_r.
    set (tok := mkTok T_CALL_NO_ARGS CH_DEFAULT n n line c1). exists [tok], st, c2, [TCall (mkCall tok [] n)]. split; [exact (run_app _ _ _ _ _ _ _ _ _ _ _ _ _ _ R1 R2)|]. split; [exact Hm|].
    split; [exists (mkCall tok [] n); auto|]. split; [|exists tok, []; auto]. apply parses_one; [reflexivity|reflexivity|discriminate|discriminate|]. intros l tail. reflexivity.
Qed.
Lemma run_define_name w1 n rest st l c : lx_mode st = DEFAULT_MODE -> blanks w1 -> ident n -> ends_word rest ->
  exists tok id c1, run st ($"`define" ++ w1 ++ n ++ rest) l c [tok; id] (after_name R_DEFINE st) rest l c1 /\ tk_type tok = T_DEFINE /\ is_default tok = true /\ tk_line tok = l
    /\ tk_type id = T_ID /\ is_default id = true /\ tk_text id = n.
Proof.
  intros Hm Hw Hn He. destruct (run_name R_DEFINE "define" _ w1 (n ++ rest) st l c Hm eq_refl eq_refl Hw (ident_letter n rest Hn)) as (tok & c1 & R1 & T1 & T2 & T3).
  destruct (run_tok (after_name R_DEFINE st) n rest l c1 R_ID (after_name R_DEFINE st) (Emit T_ID CH_DEFAULT n)) as (c2 & R2); [apply ident_nonempty, Hn|apply rule_define_id; assumption|reflexivity|].
  rewrite (ident_nl n Hn), Nat.add_0_r in R2. exists tok, (mkTok T_ID CH_DEFAULT n n l c1), c2. repeat split; try assumption. exact (run_app _ _ _ _ _ _ _ _ _ _ _ _ _ _ R1 R2).
Qed.
Lemma run_define_ws w2 rest st l c : lx_mode st = DEFAULT_MODE -> blanks w2 -> (forall c t, rest = c :: t -> ~ blank c) ->
  exists ws c1, run (after_name R_DEFINE st) (w2 ++ rest) l c [ws] (mkLex DEFINE_BODY_MODE (lx_mode st :: lx_stack st) false (lx_call_lp st) (lx_meta st)) rest l c1 /\ tk_type ws = T_WS /\ is_default ws = true.
Proof.
  intros Hm Hw Hr. destruct (run_tok (after_name R_DEFINE st) w2 rest l c R_WS (mkLex DEFINE_BODY_MODE (lx_mode st :: lx_stack st) false (lx_call_lp st) (lx_meta st)) (Emit T_WS CH_DEFAULT w2)) as (c1 & R); [apply Hw|apply rule_define_ws; assumption|reflexivity|].
  rewrite (blanks_nl w2 (proj2 Hw)), Nat.add_0_r in R. exists (mkTok T_WS CH_DEFAULT w2 w2 l c), c1. repeat split. exact R.
Qed.
Lemma eol_lines e : lines (eol_text e) = 1.
Proof. destruct e; reflexivity. Qed.
Lemma dbody_nl s : dbody s -> ~ In nl s.
Proof.
  induction 1 as [x Hx|x b s Hx Hb _ _ _ IH]; [apply run_chars_nl, Hx|]. intros HI. apply in_app_or in HI as [HI|HI]; [exact (run_chars_nl x (proj1 Hx) HI)|]. apply in_app_or in HI as [HI|HI]; [|auto].
  destruct HI as [HI|HI]; [discriminate|]. apply in_app_or in HI as [HI|[HI|[]]]; [exact (string_body_nl b Hb HI)|discriminate].
Qed.
(** The parameter list *)
Section Params.
  Context (st : lexst).
  Definition lp_state (st : lexst) : lexst := mkLex DEFINE_MODE (lx_mode st :: lx_stack st) true (lx_call_lp st) (lx_meta st).
  Lemma run_skip w rest line c : Forall blank w -> (forall c t, rest = c :: t -> ~ blank c) -> exists c1, run (lp_state st) (w ++ rest) line c [] (lp_state st) rest line c1.
  Proof.
    intros Fw Hr. destruct w as [|a w]; [exists c; constructor|]. destruct (run_tok (lp_state st) (a :: w) rest line c R_WS (lp_state st) Skip) as (c1 & R); [discriminate|apply rule_define_ws; [split; [discriminate|exact Fw]|exact Hr]|reflexivity|].
    exists c1. rewrite (blanks_nl _ Fw), Nat.add_0_r in R. exact R.
  Qed.
  Definition stops (s : str) : Prop := exists c t, s = c :: t /\ (c = ","%char \/ c = ")"%char).
  Lemma stops_blank s c t : stops s -> s = c :: t -> ~ blank c.
  Proof. intros (d & u & -> & H) E. injection E as <- _. intros [Q|Q]; destruct H as [H|H]; rewrite H in Q; discriminate Q. Qed.
  Lemma stops_word w s : Forall blank w -> stops s -> ends_word (w ++ s).
  Proof.
    intros Fw (d & u & -> & H). destruct w as [|a w].
    - intros c t E L. cbn in E. injection E as <- _. unfold letter in L. destruct H as [-> | ->]; cbn in L; intuition discriminate.
    - apply blanks_end. split; [discriminate|exact Fw].
  Qed.
  Lemma run_param a n b rest line c : Forall blank a -> ident n -> Forall blank b -> stops rest ->
    exists t c1, run (lp_state st) ((a ++ n ++ b) ++ rest) line c [t] (lp_state st) rest line c1 /\ tk_type t = T_ID /\ is_default t = true /\ tk_text t = n.
  Proof.
    intros Fa Hn Fb Hs. rewrite <- !app_assoc. destruct (run_skip a (n ++ b ++ rest) line c Fa) as (c1 & R1).
    { intros d t E H. destruct (ident_head n Hn) as (x & u & -> & Hx). cbn in E. injection E as -> _. unfold id_char in Hx. destruct H as [-> | ->]; cbn in Hx; intuition discriminate. }
    destruct (run_tok (lp_state st) n (b ++ rest) line c1 R_ID (lp_state st) (Emit T_ID CH_DEFAULT n)) as (c2 & R2); [apply ident_nonempty, Hn|apply rule_define_id; [exact Hn|apply stops_word; assumption]|reflexivity|].
    rewrite (ident_nl n Hn), Nat.add_0_r in R2. destruct (run_skip b rest line c2 Fb) as (c3 & R3); [intros d t E; eapply stops_blank; eassumption|].
    exists (mkTok T_ID CH_DEFAULT n n line c1), c3. split; [|auto]. exact (run_app _ _ _ _ _ _ _ _ _ _ _ _ _ _ R1 (run_app _ _ _ _ _ _ _ _ _ _ _ _ _ _ R2 R3)).
  Qed.
  Lemma run_params l : l <> [] -> Forall (fun p => let '(a, n, b) := p in Forall blank a /\ ident n /\ Forall blank b) l -> forall rest line c, (exists t, rest = ")"%char :: t) ->
    exists ts c1, run (lp_state st) (join (map param_text l) ++ rest) line c ts (lp_state st) rest line c1 /\ param_toks l ts.
  Proof.
    intros Hl F. induction F as [|[[a n] b] l (Fa & Hn & Fb) F IH]; [congruence|]. intros rest line c HR. destruct l as [|q l].
    - cbn [map join param_text]. destruct (run_param a n b rest line c Fa Hn Fb) as (t & c1 & R & T1 & T2 & T3); [destruct HR as (u & ->); exists ")"%char, u; auto|]. exists [t], c1. split; [exact R|]. constructor; assumption.
    - change (join (map param_text ((a, n, b) :: q :: l))) with ((a ++ n ++ b) ++ ","%char :: join (map param_text (q :: l))). rewrite <- app_assoc. cbn [app].
      destruct (run_param a n b (","%char :: join (map param_text (q :: l)) ++ rest) line c Fa Hn Fb) as (t & c1 & R & T1 & T2 & T3); [eexists _, _; split; [reflexivity|auto]|].
      destruct (run_tok (lp_state st) [","%char] (join (map param_text (q :: l)) ++ rest) line c1 R_COMMA (lp_state st) (Emit T_COMMA CH_DEFAULT $",")) as (c2 & R2); [discriminate|apply rule_define_punct; reflexivity|reflexivity|].
      replace (line + count_nl [","%char]) with line in R2 by (cbn; lia).
      destruct (IH ltac:(discriminate) rest line c2 HR) as (ts & c3 & R3 & P3). exists (t :: mkTok T_COMMA CH_DEFAULT $"," [","%char] line c1 :: ts), c3. split; [|constructor; auto].
      change (t :: mkTok T_COMMA CH_DEFAULT $"," [","%char] line c1 :: ts) with ([t] ++ [mkTok T_COMMA CH_DEFAULT $"," [","%char] line c1] ++ ts). eapply run_app; [exact R|]. eapply run_app; [exact R2|exact R3].
  Qed.
End Params.
Lemma params_nl l : Forall (fun p : str * str * str => let '(a, n, b) := p in Forall blank a /\ ident n /\ Forall blank b) l -> lines (join (map param_text l)) = 0.
Proof.
  induction 1 as [|[[a n] b] l (Fa & Hn & Fb) F IH]; [reflexivity|].
  assert (E : lines (a ++ n ++ b) = 0) by (unfold lines; rewrite !count_nl_app, (blanks_nl a Fa), (ident_nl n Hn), (blanks_nl b Fb); reflexivity).
  destruct l as [|q l]; [exact E|]. change (join (map param_text ((a, n, b) :: q :: l))) with ((a ++ n ++ b) ++ [","%char] ++ join (map param_text (q :: l))). rewrite lines_app, E, lines_app, IH. reflexivity.
Qed.
Lemma item_def_ok w1 n ps w2 s w3 cm e : P_item (IDef w1 n ps w2 s w3 cm e).
Proof.
  intros rest st line c (Hw1 & Hn & Hps & Hw2 & Hw2n & Ds & Ns & Hsb & Heb & Hw3 & Hc) Hm. cbn [render_item].
  assert (NB : forall a t, s ++ w3 ++ comment_text cm ++ eol_text e ++ rest = a :: t -> ~ blank a).
  { intros a t E Ha. destruct s as [|a' s']; [congruence|]. cbn in E. injection E as -> _. apply Hsb. exists a, s'. auto. }
  assert (L : lines ($"`define" ++ w1 ++ n ++ params_text ps ++ w2 ++ s ++ w3 ++ comment_text cm ++ eol_text e) = 1).
  { assert (LP : lines (params_text ps) = 0).
    { destruct ps as [l|]; [|reflexivity]. unfold params_text. cbn [option_map args_text]. change ("("%char :: join (map param_text l) ++ $")") with ($"(" ++ join (map param_text l) ++ $")"). rewrite !lines_app, (params_nl l) by apply Hps. reflexivity. }
    unfold lines in *. rewrite !count_nl_app, (blanks_nl w1 (proj2 Hw1)), (ident_nl n (proj1 Hn)), LP, (blanks_nl w2 Hw2), (no_nl_count s (dbody_nl s Ds)), (blanks_nl w3 Hw3), (eol_lines e : count_nl _ = 1).
    assert (count_nl (comment_text cm) = 0) as ->; [|reflexivity]. destruct cm as [t0|]; [|reflexivity]. cbn [comment_text]. apply no_nl_count. intros HI. apply in_app_or in HI as [HI|HI]; [cbn in HI; intuition discriminate|].
    destruct Hc as [_ Hc]. rewrite Forall_forall in Hc. apply (Hc _ HI). cbn. tauto. }
  rewrite L. rewrite <- !app_assoc. set (tail := w2 ++ s ++ w3 ++ comment_text cm ++ eol_text e ++ rest).
  destruct ps as [l|].
  - destruct Hps as (Hl & FP & ND).
    destruct (run_define_name w1 n (params_text (Some l) ++ tail) st line c Hm Hw1 (proj1 Hn)) as (tok & id & c1 & R1 & T1 & T2 & T3 & I1 & I2 & I3).
    { intros a t E Q. cbn in E. injection E as <- _. unfold letter in Q. cbn in Q. intuition discriminate. }
    unfold params_text in *. cbn [option_map args_text] in *. cbn [app] in *. rewrite <- app_assoc in *. unfold tail in *.
    destruct (run_tok (after_name R_DEFINE st) ["("%char] (join (map param_text l) ++ $")" ++ w2 ++ s ++ w3 ++ comment_text cm ++ eol_text e ++ rest) line c1 R_LP (lp_state st) (Emit T_LP CH_DEFAULT $"(")) as (c2 & R2); [discriminate|apply rule_define_punct; reflexivity|reflexivity|].
    replace (line + count_nl ["("%char]) with line in R2 by (cbn; lia).
    destruct (run_params st l Hl FP ($")" ++ w2 ++ s ++ w3 ++ comment_text cm ++ eol_text e ++ rest) line c2) as (pts & c3 & R3 & PT); [eexists; reflexivity|].
    set (st3 := mkLex DEFINE_BODY_MODE (lx_mode st :: lx_stack st) true (lx_call_lp st) (lx_meta st)).
    destruct (run_tok (lp_state st) (")"%char :: w2) (s ++ w3 ++ comment_text cm ++ eol_text e ++ rest) line c3 R_RP st3 (Emit T_RP CH_DEFAULT (")"%char :: w2))) as (c4 & R4); [discriminate|apply rule_define_rp; assumption|reflexivity|].
    assert (LW : count_nl (")"%char :: w2) = 0) by (exact (blanks_nl w2 Hw2)). rewrite LW, Nat.add_0_r in R4.
    destruct (body_run st3 (lx_mode st) (lx_stack st) s w3 cm e rest c4 line eq_refl eq_refl Ds Hw3) as (codes & nt & c5 & R5 & FC & HN & CN & t & Et & Ft).
    { destruct cm; exact Hc. }
    set (lpt := mkTok T_LP CH_DEFAULT $"(" ["("%char] line c1) in *. set (rpt := mkTok T_RP CH_DEFAULT (")"%char :: w2) (")"%char :: w2) line c3) in *.
    exists ([tok; id] ++ [lpt] ++ pts ++ [rpt] ++ codes ++ [nt]), (mkLex (lx_mode st) (lx_stack st) true (lx_call_lp st) (lx_meta st)), c5, [TDefine (mkDef tok n (Some (map dparam_of l)) (Some codes))].
    split; [|split; [exact Hm|split; [|split]]].
    + eapply run_app; [exact R1|]. eapply run_app; [exact R2|]. eapply run_app; [exact R3|]. eapply run_app; [exact R4|exact R5].
    + exists tok, (Some (map dparam_of l)), codes, t. split; [reflexivity|]. split; [exact FC|]. split; [exact Et|]. split; [exact Ft|]. cbn [option_map]. rewrite map_map. reflexivity.
    + cbn [app]. apply parses_one; [exact T2|unfold starts_text; rewrite T1; reflexivity|congruence|congruence|]. intros lg tl. unfold parse_simple. rewrite T1. subst n.
      exact (parse_define_params lg tok id lpt l pts rpt codes nt tl I1 I2 eq_refl eq_refl PT eq_refl eq_refl FC (CN Ns) HN).
    + exists tok, (id :: [lpt] ++ pts ++ [rpt] ++ codes ++ [nt]). auto.
  - assert (BW : blanks w2) by (split; auto). unfold params_text. cbn [option_map args_text app]. unfold tail.
    destruct (run_define_name w1 n (w2 ++ s ++ w3 ++ comment_text cm ++ eol_text e ++ rest) st line c Hm Hw1 (proj1 Hn) (blanks_end _ _ BW)) as (tok & id & c1 & R1 & T1 & T2 & T3 & I1 & I2 & I3).
    destruct (run_define_ws w2 (s ++ w3 ++ comment_text cm ++ eol_text e ++ rest) st line c1 Hm BW NB) as (ws & c2 & R2 & W1 & W2).
    destruct (body_run (mkLex DEFINE_BODY_MODE (lx_mode st :: lx_stack st) false (lx_call_lp st) (lx_meta st)) (lx_mode st) (lx_stack st) s w3 cm e rest c2 line eq_refl eq_refl Ds Hw3) as (codes & nt & c3 & R3 & FC & HN & CN & t & Et & Ft).
    { destruct cm; exact Hc. }
    exists ([tok; id] ++ [ws] ++ codes ++ [nt]), (mkLex (lx_mode st) (lx_stack st) false (lx_call_lp st) (lx_meta st)), c3, [TDefine (mkDef tok n None (Some codes))].
    split; [|split; [exact Hm|split; [exists tok, None, codes, t; auto|split]]].
    + eapply run_app; [exact R1|]. eapply run_app; [exact R2|exact R3].
    + cbn [app]. apply parses_one; [exact T2|unfold starts_text; rewrite T1; reflexivity|congruence|congruence|]. intros l tl. unfold parse_simple. rewrite T1. subst n.
      apply (parse_define_body l tok id ws codes nt tl); auto.
    + exists tok, (id :: [ws] ++ codes ++ [nt]). auto.
Qed.
Lemma item_def0_ok w1 n w2 e : P_item (IDef0 w1 n w2 e).
Proof.
  intros rest st line c (Hw1 & Hn & Hw2) Hm. cbn [render_item].
  assert (EW : ends_word (w2 ++ eol_text e ++ rest)) by (destruct w2 as [|a w2]; [apply eol_ends|apply blanks_end; split; [discriminate|exact Hw2]]).
  destruct (run_define_name w1 n (w2 ++ eol_text e ++ rest) st line c Hm Hw1 (proj1 Hn) EW) as (tok & id & c1 & R1 & T1 & T2 & T3 & I1 & I2 & I3).
  assert (X : exists ws nt c2, run (after_name R_DEFINE st) (w2 ++ eol_text e ++ rest) line c1 (ws ++ [nt]) (mkLex (lx_mode st) (lx_stack st) false (lx_call_lp st) (lx_meta st)) rest (line + 1) c2
    /\ (ws = [] \/ exists w, ws = [w] /\ tk_type w = T_WS /\ is_default w = true) /\ newline_token nt).
  { destruct w2 as [|a w2].
    - destruct (run_tok (after_name R_DEFINE st) (eol_text e) rest line c1 R_DM_NEW_LINE (mkLex (lx_mode st) (lx_stack st) false (lx_call_lp st) (lx_meta st)) (Emit T_NEW_LINE CH_DEFAULT (eol_text e))) as (c2 & R2); [destruct e; discriminate|apply rule_define_eol|reflexivity|].
      assert (EL : count_nl (eol_text e) = 1) by (destruct e; reflexivity). rewrite EL in R2. exists [], (mkTok T_NEW_LINE CH_DEFAULT (eol_text e) (eol_text e) line c1), c2. split; [exact R2|]. split; [auto|split; reflexivity].
    - destruct (run_define_ws (a :: w2) (eol_text e ++ rest) st line c1 Hm) as (ws & c2 & R2 & W1 & W2).
      + split; [discriminate|exact Hw2].
      + intros x t E. destruct e; cbn in E; injection E as <- _; intros [H|H]; discriminate.
      + set (st2 := mkLex DEFINE_BODY_MODE (lx_mode st :: lx_stack st) false (lx_call_lp st) (lx_meta st)) in *.
        destruct (run_tok st2 (eol_text e) rest line c2 R_DB_NEW_LINE (mkLex (lx_mode st) (lx_stack st) false (lx_call_lp st) (lx_meta st)) (Emit T_NEW_LINE CH_DEFAULT (eol_text e))) as (c3 & R3); [destruct e; discriminate|apply rule_db_eol|reflexivity|].
        assert (EL : count_nl (eol_text e) = 1) by (destruct e; reflexivity). rewrite EL in R3. exists [ws], (mkTok T_NEW_LINE CH_DEFAULT (eol_text e) (eol_text e) line c2), c3. split; [eapply run_app; [exact R2|exact R3]|]. split; [right; eauto|split; reflexivity]. }
  destruct X as (ws & nt & c2 & R2 & HW & HN).
  assert (L : lines ($"`define" ++ w1 ++ n ++ w2 ++ eol_text e) = 1).
  { unfold lines in *. rewrite !count_nl_app, (blanks_nl w1 (proj2 Hw1)), (ident_nl n (proj1 Hn)), (blanks_nl w2 Hw2), (eol_lines e : count_nl _ = 1). reflexivity. }
  rewrite L. exists ([tok; id] ++ ws ++ [nt]), (mkLex (lx_mode st) (lx_stack st) false (lx_call_lp st) (lx_meta st)), c2, [TDefine (mkDef tok n None None)].
  split; [|split; [exact Hm|split; [exists tok; auto|split]]].
  - rewrite <- !app_assoc. eapply run_app; [exact R1|exact R2].
  - cbn [app]. apply parses_one; [exact T2|unfold starts_text; rewrite T1; reflexivity|congruence|congruence|]. intros l tail. unfold parse_simple. rewrite T1. subst n.
    apply (parse_define_empty l tok id ws nt tail); auto.
  - exists tok, (id :: ws ++ [nt]). auto.
Qed.
Lemma item_if_ok neg b els fin : P_branches b -> P_else els -> P_item (IIf neg b els fin).
Proof.
  intros HB HE rest st line c (Hneg & Hwb & Hwe & Hs) Hm. cbn [render_item].
  set (r := if neg then R_IFNDEF else R_IFDEF). assert (K : exists t, keyword_tail r = Some ((if neg then "ifndef" else "ifdef")%string, t)) by (unfold r; destruct neg; eexists; reflexivity). destruct K as (t & K).
  destruct (HB r _ t (render_else els ++ $"`endif" ++ sep_text fin ++ rest) st line c ltac:(unfold r; destruct neg; reflexivity) ltac:(unfold r; destruct neg; discriminate) K Hwb Hm) as (tok & toks & st1 & c1 & bs & R1 & M1 & T1 & T2 & T3 & MB & PB).
  destruct (HE fin rest st1 (line + lines (render_branches b)) c1 Hwe Hs M1) as (ftoks & st2 & c2 & e & R2 & M2 & ME & FT & AL & PF).
  exists ((tok :: toks) ++ ftoks), st2, c2, [TCond neg bs e]. split; [|split; [exact M2|split; [exists bs, e; auto|split]]].
  - replace (((if neg then $"`ifndef" else $"`ifdef") ++ render_branches b ++ render_else els ++ $"`endif" ++ sep_text fin) ++ rest)
      with (bt :: s2l (if neg then "ifndef" else "ifdef")%string ++ render_branches b ++ render_else els ++ $"`endif" ++ sep_text fin ++ rest) by (destruct neg; rewrite <- !app_assoc; reflexivity).
    eapply run_app; [exact R1|]. replace (line + lines ((if neg then $"`ifndef" else $"`ifdef") ++ render_branches b ++ render_else els ++ $"`endif" ++ sep_text fin))
      with (line + lines (render_branches b) + lines (render_else els) + lines (sep_text fin)); [exact R2|].
    rewrite !lines_app. change (lines $"`endif") with 0. destruct neg; [change (lines $"`ifndef") with 0|change (lines $"`ifdef") with 0]; lia.
  - cbn [app]. eapply parses_cond; [exact T2|rewrite T1; unfold r; destruct neg; reflexivity|exact PB|exact FT|exact AL|exact PF].
  - exists tok, (toks ++ ftoks). auto.
Qed.
Lemma one_ok w n g : P_items g -> P_branches (One w n g).
Proof.
  intros HG r k t rest st line c Hr Hd K (Hw & Hn & He & Hg) Hm. cbn [render_branches]. rewrite <- !app_assoc.
  destruct (run_name r k t w (n ++ PpSrcSpec.render g ++ rest) st line c Hm Hr K Hw (ident_letter n _ (proj1 Hn))) as (tok & c1 & R1 & T1 & T2 & T3).
  assert (MM : lx_mode (after_name r st) = IFDEF_MODE) by (destruct r; try discriminate; try congruence; reflexivity).
  destruct (run_if_id n (PpSrcSpec.render g ++ rest) (after_name r st) (lx_mode st) (lx_stack st) line c1 MM eq_refl (proj1 Hn) He) as (id & c2 & R2 & I1 & I2 & I3 & I4).
  set (st2 := mkLex (lx_mode st) (lx_stack st) (lx_lp_seen (after_name r st)) (lx_call_lp (after_name r st)) (lx_meta (after_name r st))) in *.
  destruct (HG rest st2 line c2 Hg Hm) as (toks & st3 & c3 & a & R3 & M3 & MG & PG & SG).
  assert (L : lines (w ++ n ++ PpSrcSpec.render g) = lines (PpSrcSpec.render g)) by (rewrite !lines_app; unfold lines; rewrite (blanks_nl w (proj2 Hw)), (ident_nl n (proj1 Hn)); reflexivity). rewrite L.
  exists tok, (id :: toks), st3, c3, (BCons n line (tree a) BNil). split; [|split; [exact M3|split; [exact T1|split; [exact T2|split; [exact T3|split; [exists a; auto|]]]]]].
  - change (tok :: id :: toks) with ([tok] ++ [id] ++ toks). eapply run_app; [exact R1|]. eapply run_app; [exact R2|exact R3].
  - rewrite <- I3. apply parse_one_branch; assumption.
Qed.
Lemma more_ok w n g b : P_items g -> P_branches b -> P_branches (More w n g b).
Proof.
  intros HG HB r k t rest st line c Hr Hd K (Hw & Hn & He & Hg & Hb) Hm. cbn [render_branches]. rewrite <- !app_assoc.
  assert (He' : ends_word (PpSrcSpec.render g ++ $"`elsif" ++ render_branches b ++ rest)).
  { intros x u E. destruct (PpSrcSpec.render g) as [|y s]; cbn in E; [injection E as <- _; exact (He _ _ eq_refl)|injection E as <- _; exact (He _ _ eq_refl)]. }
  destruct (run_name r k t w (n ++ PpSrcSpec.render g ++ $"`elsif" ++ render_branches b ++ rest) st line c Hm Hr K Hw (ident_letter n _ (proj1 Hn))) as (tok & c1 & R1 & T1 & T2 & T3).
  assert (MM : lx_mode (after_name r st) = IFDEF_MODE) by (destruct r; try discriminate; try congruence; reflexivity).
  destruct (run_if_id n (PpSrcSpec.render g ++ $"`elsif" ++ render_branches b ++ rest) (after_name r st) (lx_mode st) (lx_stack st) line c1 MM eq_refl (proj1 Hn) He') as (id & c2 & R2 & I1 & I2 & I3 & I4).
  set (st2 := mkLex (lx_mode st) (lx_stack st) (lx_lp_seen (after_name r st)) (lx_call_lp (after_name r st)) (lx_meta (after_name r st))) in *.
  destruct (HG ($"`elsif" ++ render_branches b ++ rest) st2 line c2 Hg Hm) as (toks & st3 & c3 & a & R3 & M3 & MG & PG & SG).
  destruct (HB R_ELSIF "elsif"%string _ rest st3 (line + lines (PpSrcSpec.render g)) c3 eq_refl ltac:(discriminate) eq_refl Hb M3) as (etok & btoks & st4 & c4 & bs & R4 & M4 & E1 & E2 & E3 & MB & PB).
  assert (L : lines (w ++ n ++ PpSrcSpec.render g ++ $"`elsif" ++ render_branches b) = lines (PpSrcSpec.render g) + lines (render_branches b)) by (rewrite !lines_app; unfold lines; rewrite (blanks_nl w (proj2 Hw)), (ident_nl n (proj1 Hn)); reflexivity). rewrite L, Nat.add_assoc.
  exists tok, (id :: toks ++ etok :: btoks), st4, c4, (BCons n line (tree a) bs). split; [|split; [exact M4|split; [exact T1|split; [exact T2|split; [exact T3|split; [exists a, bs; auto|]]]]]].
  - change (tok :: id :: toks ++ etok :: btoks) with ([tok] ++ [id] ++ toks ++ etok :: btoks). eapply run_app; [exact R1|]. eapply run_app; [exact R2|]. eapply run_app; [exact R3|exact R4].
  - rewrite <- I3. eapply parse_more_branch; eassumption.
Qed.
Lemma no_else_ok : P_else NoElse.
Proof.
  intros fin rest st line c _ Hs Hm. cbn [render_else app]. destruct (run_end R_ENDIF "endif" _ fin rest st line c Hm eq_refl eq_refl Hs ltac:(auto)) as (tok & c1 & R & T1 & T2 & T3).
  exists [tok], st, c1, ENone. rewrite Nat.add_0_r. split; [exact R|]. split; [exact Hm|]. split; [reflexivity|]. split; [exists tok, []; auto|]. split; [exists tok, []; auto|].
  intros l tail fuel _. unfold parse_fin. cbn [app next]. rewrite T2, T1. reflexivity.
Qed.
Lemma else_ok s g : P_items g -> P_else (Else s g).
Proof.
  intros HG fin rest st line c (Hs1 & Hs2 & Hg) Hs Hm. cbn [render_else]. rewrite <- !app_assoc.
  destruct (run_end R_ELSE "else" _ s (PpSrcSpec.render g ++ $"`endif" ++ sep_text fin ++ rest) st line c Hm eq_refl eq_refl Hs1 ltac:(congruence)) as (tok & c1 & R1 & T1 & T2 & T3).
  destruct (HG ($"`endif" ++ sep_text fin ++ rest) st (line + lines (sep_text s)) c1 Hg Hm) as (toks & st2 & c2 & a & R2 & M2 & MG & PG & SG).
  destruct (run_end R_ENDIF "endif" _ fin rest st2 (line + lines (sep_text s) + lines (PpSrcSpec.render g)) c2 M2 eq_refl eq_refl Hs ltac:(auto)) as (f & c3 & R3 & F1 & F2 & F3).
  exists (tok :: toks ++ [f]), st2, c3, (ESome (line + lines (sep_text s)) (tree a)). rewrite !lines_app. change (lines $"`else") with 0. cbn [Nat.add]. rewrite Nat.add_assoc.
  split; [|split; [exact M2|split; [exists a; auto|split; [exists tok, (toks ++ [f]); auto|split; [exists tok, (toks ++ [f]); auto|]]]]].
  - change (tok :: toks ++ [f]) with ([tok] ++ toks ++ [f]). eapply run_app; [exact R1|]. eapply run_app; [exact R2|exact R3].
  - intros l tail fuel Hf. eapply parse_else_fin; eassumption.
Qed.
Theorem source_parses : (forall p, P_items p) /\ (forall i, P_item i) /\ (forall b, P_branches b) /\ (forall e, P_else e).
Proof.
  apply source_mut.
  - intros rest st line c _ Hm. exists [], st, c, []. cbn [PpSrcSpec.render app]. change (lines []) with 0. rewrite Nat.add_0_r. split; [constructor|]. split; [exact Hm|]. split; [reflexivity|]. split; [|intros tail H; exact H].
    intros l tail tr r need _ Hk fuel Hf. apply Hk. exact Hf.
  - intros i HI r HR rest st line c [Wi Wr] Hm. cbn [PpSrcSpec.render]. rewrite <- app_assoc, lines_app, Nat.add_assoc. destruct (HI (PpSrcSpec.render r ++ rest) st line c Wi Hm) as (t1 & st1 & c1 & a1 & R1 & M1 & E1 & P1 & L1).
    destruct (HR rest st1 (line + lines (render_item i)) c1 Wr M1) as (t2 & st2 & c2 & a2 & R2 & M2 & E2 & P2 & L2). exists (t1 ++ t2), st2, c2, (a1 ++ a2).
    split; [eapply run_app; [exact R1|exact R2]|]. split; [exact M2|]. split; [exists a1, a2; auto|]. split; [apply parses_app; assumption|].
    intros tail _. destruct L1 as (t & u & -> & Q). exists t, ((u ++ t2) ++ tail). split; [rewrite <- !app_assoc; reflexivity|exact Q].
  - apply item_text_ok.
  - apply item_call_ok.
  - intros. apply item_def_ok.
  - intros. apply item_def0_ok.
  - intros. apply item_if_ok; assumption.
  - intros. apply one_ok; assumption.
  - intros. apply more_ok; assumption.
  - apply no_else_ok.
  - intros. apply else_ok; assumption.
Qed.
Theorem source_tree l p : wf p [] -> exists t, pp_parse l (PpSrcSpec.render p) = Ok (tree t) /\ means 1 p t.
Proof.
  intros Hw. destruct (proj1 source_parses p [] lex_init 1 0 Hw eq_refl) as (toks & st1 & c1 & t & R & _ & HM & HP & _). rewrite app_nil_r in R. exists t. split; [|exact HM].
  apply run_lex in R. unfold lex_all in R. unfold pp_parse, lex. rewrite R. cbn [lex_loop length bind]. rewrite app_nil_r. unfold parse_file.
  rewrite <- (app_nil_r toks) at 2. rewrite (parses_to_end toks t [] l _ HP); [reflexivity|left; reflexivity|lia].
Qed.
