(** From the text of a source (PpSrcSpec) to its parse tree. *)
From Verif Require Import Base BaseFacts RegexModel RegexProofs StrSpec StrUtilsModel StrUtilsProofs PpLexerModel PpLexProofs PpParserModel
  MacroDefModel PpModel PpArgSpec PpArgProofs PpPlainProofs PpSrcSpec PpSrcLexProofs PpSrcDirProofs PpSrcBodyProofs.

(** ** The tree of a source that starts at a line *)
Fixpoint tapp (a : list text) (b : texts) : texts := match a with [] => b | t :: a' => TCons t (tapp a' b) end.
Definition tree (a : list text) : texts := tapp a TNil.
Lemma tapp_app a b c : tapp (a ++ b) c = tapp a (tapp b c).
Proof. induction a as [|x a IH]; [reflexivity|]. cbn. rewrite IH. reflexivity. Qed.
Fixpoint means (line : nat) (p : items) (t : list text) {struct p} : Prop :=
  match p with
  | Nil => t = []
  | Cons i r => exists a b, t = a ++ b /\ means_item line i a /\ means (line + lines (PpSrcSpec.render_item i)) r b
  end
with means_item (line : nat) (i : item) (a : list text) {struct i} : Prop :=
  match i with
  | IText ps => exists toks, covers line (text_of_pieces ps) toks /\ a = map TTok toks
  | ICall n args => exists m, a = [TCall m] /\ call_name (mc_tok m) = n /\ tk_line (mc_tok m) = line
      /\ match args with
         | None => call_has_args (mc_tok m) = false
         | Some l => call_has_args (mc_tok m) = true /\ values l (parse_macro_args (mc_children m) true false)
         end
  | IDef _ n ps _ b _ _ _ => exists tok dps codes t, a = [TDefine (mkDef tok n dps (Some codes))] /\ Forall code codes
      /\ toks_text codes = b ++ t /\ Forall (fun c => In c ws_chars) t
      /\ option_map (map conv_param) dps = option_map (map (fun p => mkParam (param_name p) false [])) ps
  | IDef0 _ n _ _ => exists tok, a = [TDefine (mkDef tok n None None)]
  | IIf neg b els _ => exists bs e, a = [TCond neg bs e] /\ means_branches line b bs /\ means_else (line + lines (render_branches b)) els e
  end
with means_branches (line : nat) (b : branches) (bs : PpParserModel.branches) {struct b} : Prop :=
  match b with
  | One _ n g => exists tg, bs = BCons n line (tree tg) BNil /\ means line g tg
  | More _ n g b' => exists tg bs', bs = BCons n line (tree tg) bs' /\ means line g tg /\ means_branches (line + lines (PpSrcSpec.render g)) b' bs'
  end
with means_else (line : nat) (els : else_items) (e : else_part) {struct els} : Prop :=
  match els with
  | NoElse => e = ENone
  | Else s g => exists tg, e = ESome (line + lines (sep_text s)) (tree tg) /\ means (line + lines (sep_text s)) g tg
  end.

(** ** Token sequences and the parser *)
Definition at_line (line : nat) (ts : list token) : Prop := exists t r, ts = t :: r /\ is_default t = true /\ tk_line t = line.
Definition ends_texts (ts : list token) : Prop := ts = [] \/ exists t r, ts = t :: r /\ is_default t = true /\ starts_text t = false.
Definition parses (toks : list token) (t : list text) : Prop := forall l tail tr r need, 1 <= need ->
  (forall fuel, need <= fuel -> parse_texts fuel l tail = Ok (tr, r)) ->
  forall fuel, length toks + need <= fuel -> parse_texts fuel l (toks ++ tail) = Ok (tapp t tr, r).
Definition parse_fin (fuel : nat) (l : lang) (ts : list token) : outcome (else_part * list token) :=
  match next ts with
  | None => perr
  | Some (t, r2) =>
      match tk_type t with
      | T_ELSE => '(eg, r3) <- parse_texts fuel l r2 ;; '(_, r4) <- expect T_ENDIF r3 ;; Ok (ESome (next_line r2) eg, r4)
      | T_ENDIF => Ok (ENone, r2)
      | _ => perr
      end
  end.
Definition fin_tokens (ts : list token) : Prop := exists t r, ts = t :: r /\ is_default t = true /\ (tk_type t = T_ELSE \/ tk_type t = T_ENDIF).
Definition parses_branches (toks : list token) (line' : nat) (bs : PpParserModel.branches) : Prop := forall l tail e r need,
  fin_tokens tail -> at_line line' tail -> (forall fuel, need <= fuel -> parse_fin fuel l tail = Ok (e, r)) ->
  forall fuel, length toks + need + 1 <= fuel -> parse_cond fuel l (toks ++ tail) = Ok (bs, e, r).

Lemma parses_app t1 a1 t2 a2 : parses t1 a1 -> parses t2 a2 -> parses (t1 ++ t2) (a1 ++ a2).
Proof.
  intros H1 H2 l tail tr r need Hn Hk fuel Hf. rewrite <- app_assoc, tapp_app. apply (H1 l (t2 ++ tail) (tapp a2 tr) r (length t2 + need)); [lia| |rewrite app_length in Hf; lia].
  intros fuel' Hf'. apply (H2 l tail tr r need); [lia|exact Hk|exact Hf'].
Qed.
Lemma parse_end ts : ends_texts ts -> forall l fuel, 1 <= fuel -> parse_texts fuel l ts = Ok (TNil, ts).
Proof.
  intros [->|(t & r & -> & H1 & H2)] l [|fuel] Hf; try lia; [reflexivity|]. cbn [parse_texts next]. rewrite H1, H2. reflexivity.
Qed.
Lemma parses_to_end toks a tail l fuel : parses toks a -> ends_texts tail -> length toks + 1 <= fuel -> parse_texts fuel l (toks ++ tail) = Ok (tree a, tail).
Proof. intros H He Hf. apply (H l tail TNil tail 1); [lia|intros f Hf'; apply parse_end; assumption|exact Hf]. Qed.
Lemma fin_ends ts : fin_tokens ts -> ends_texts ts.
Proof. intros (t & r & -> & H & T). right. exists t, r. repeat split; [exact H|]. unfold starts_text. destruct T as [-> | ->]; reflexivity. Qed.

Lemma covers_parse line s toks : covers line s toks -> parses toks (map TTok toks).
Proof.
  induction 1 as [|line x s t ts Ht Hc Hx Hl H IH]; intros l tail tr r need Hn Hk fuel Hf; [apply Hk; exact Hf|].
  destruct fuel as [|fuel]; [cbn in Hf; lia|]. cbn [app parse_texts next map tapp]. assert (is_default t = true) as -> by (unfold is_default; rewrite Hc; reflexivity).
  assert (starts_text t = true) as -> by (unfold starts_text; destruct (tk_type t); try discriminate; reflexivity).
  assert (E : parse_simple l t (ts ++ tail) = Ok (TTok t, ts ++ tail)) by (unfold parse_simple; destruct (tk_type t); try discriminate; reflexivity).
  destruct (tk_type t) eqn:Et; try discriminate Ht; rewrite E; cbn [bind]; rewrite (IH l tail tr r need Hn Hk fuel) by (cbn in Hf; lia); reflexivity.
Qed.
Lemma covers_at line s toks tail : covers line s toks -> s <> [] -> at_line line (toks ++ tail).
Proof. intros H Hs. destruct H as [|line x s t ts Ht Hc Hx Hl H]; [congruence|]. exists t, (ts ++ tail). repeat split; [unfold is_default; rewrite Hc; reflexivity|exact Hl]. Qed.

(** ** Entering a directive *)
Lemma run_enter st w s l c : lx_mode st = DEFAULT_MODE -> (exists a u, w = a :: u /\ id_char a) -> exists c1, run st (bt :: w ++ s) l c [] (push_mode DIRECTIVE_MODE st) (w ++ s) l c1.
Proof.
  intros Hm (a & u & -> & Ha). destruct (run_tok st [bt] ((a :: u) ++ s) l c R_MACRO_ENTER (push_mode DIRECTIVE_MODE st) Skip) as (c1 & R); [discriminate|rewrite Hm; apply (enter_rule a); exact Ha|reflexivity|].
  exists c1. cbn [emitted] in R. replace (l + count_nl [bt]) with l in R by (cbn; lia). exact R.
Qed.
Lemma keyword_head r k t : keyword_tail r = Some (k, t) -> exists a u, s2l k = a :: u /\ id_char a.
Proof. intros H. destruct (keyword_tail_ok _ _ _ H) as (_ & _ & F). destruct (s2l k) as [|a u] eqn:E; [destruct r; cbn in H; try discriminate; injection H as <- _; discriminate|]. inversion F; subst. eauto. Qed.
Lemma ident_head n : ident n -> exists a u, n = a :: u /\ id_char a.
Proof. intros H. pose proof (ident_chars n H) as F. pose proof (ident_nonempty n H) as N. destruct n as [|a u]; [congruence|]. inversion F; subst. eauto. Qed.
Lemma ident_nl n : ident n -> count_nl n = 0.
Proof.
  intros H. apply no_nl_count. intros HI. pose proof (ident_chars n H) as F. rewrite Forall_forall in F. apply F, id_in_run in HI as [HI _]. apply HI. cbn. tauto.
Qed.
Lemma blanks_nl w : Forall blank w -> count_nl w = 0.
Proof. intros H. apply no_nl_count, blank_nl, H. Qed.
(** The token of a directive with a name *)
Definition name_type (r : rule) : ttype := match r with R_DEFINE => T_DEFINE | R_IFDEF => T_IFDEF | R_IFNDEF => T_IFNDEF | _ => T_ELSIF end.
Definition name_mode (r : rule) : mode := match r with R_DEFINE => DEFINE_MODE | _ => IFDEF_MODE end.
Definition after_name (r : rule) (st : lexst) : lexst :=
  mkLex (name_mode r) (lx_mode st :: lx_stack st) (match r with R_DEFINE => false | _ => lx_lp_seen st end) (lx_call_lp st) (lx_meta st).
Lemma run_name r k t w s st l c : lx_mode st = DEFAULT_MODE -> name_directive r = true -> keyword_tail r = Some (k, t) -> blanks w -> starts_letter s ->
  exists tok c1, run st (bt :: s2l k ++ w ++ s) l c [tok] (after_name r st) s l c1 /\ tk_type tok = name_type r /\ is_default tok = true /\ tk_line tok = l.
Proof.
  intros Hm Hd K Hw Hs. destruct (keyword_head _ _ _ K) as (a & u & Ek & Ha). destruct (run_enter st (s2l k) (w ++ s) l c Hm) as (c1 & R1); [eauto|].
  destruct (run_tok (push_mode DIRECTIVE_MODE st) (s2l k ++ w) s l c1 r (after_name r st) (Emit (name_type r) CH_DEFAULT (s2l k ++ w))) as (c2 & R2).
  - rewrite Ek. discriminate.
  - apply (rule_name r k t); assumption.
  - destruct r; try discriminate; destruct st; reflexivity.
  - exists (mkTok (name_type r) CH_DEFAULT (s2l k ++ w) (s2l k ++ w) l c1), c2. repeat split. rewrite <- app_assoc in R2.
    assert (E0 : count_nl (s2l k ++ w) = 0). { rewrite count_nl_app, (blanks_nl w) by apply Hw. destruct r; try discriminate; injection K as <- _; reflexivity. }
    rewrite E0, Nat.add_0_r in R2. exact (run_app _ _ _ _ _ _ _ _ _ _ _ _ _ _ R1 R2).
Qed.
(** else and endif *)
Definition end_type (r : rule) : ttype := match r with R_ELSE => T_ELSE | _ => T_ENDIF end.
Lemma run_end r k t s rest st l c : lx_mode st = DEFAULT_MODE -> end_rule r = true -> keyword_tail r = Some (k, t) -> sep_ok s rest -> (s = SEnd -> r = R_ENDIF) ->
  exists tok c1, run st (bt :: s2l k ++ sep_text s ++ rest) l c [tok] st rest (l + lines (sep_text s)) c1 /\ tk_type tok = end_type r /\ is_default tok = true /\ tk_line tok = l.
Proof.
  intros Hm Hd K Hs He. destruct (keyword_head _ _ _ K) as (a & u & Ek & Ha). destruct (run_enter st (s2l k) (sep_text s ++ rest) l c Hm) as (c1 & R1); [eauto|].
  destruct (run_tok (push_mode DIRECTIVE_MODE st) (s2l k ++ sep_text s) rest l c1 r st (Emit (end_type r) CH_DEFAULT (s2l k ++ sep_text s))) as (c2 & R2).
  - rewrite Ek. discriminate.
  - change (lx_mode (push_mode DIRECTIVE_MODE st)) with DIRECTIVE_MODE. destruct s as [e|w|]; [apply (rule_end r k t); auto; discriminate..|]. cbn [sep_ok] in Hs. subst rest. rewrite (He eq_refl) in *. injection K as <- _. vm_compute. reflexivity.
  - destruct r; try discriminate; destruct st; reflexivity.
  - exists (mkTok (end_type r) CH_DEFAULT (s2l k ++ sep_text s) (s2l k ++ sep_text s) l c1), c2. repeat split. rewrite <- app_assoc in R2.
    assert (E0 : count_nl (s2l k ++ sep_text s) = lines (sep_text s)). { rewrite count_nl_app. destruct r; try discriminate; injection K as <- _; reflexivity. }
    rewrite E0 in R2. exact (run_app _ _ _ _ _ _ _ _ _ _ _ _ _ _ R1 R2).
Qed.
(** The name behind ifdef *)
Lemma run_if_id n rest st m ms l c : lx_mode st = IFDEF_MODE -> lx_stack st = m :: ms -> ident n -> ends_word rest ->
  exists tok c1, run st (n ++ rest) l c [tok] (mkLex m ms (lx_lp_seen st) (lx_call_lp st) (lx_meta st)) rest l c1 /\ tk_type tok = T_ID /\ is_default tok = true /\ tk_text tok = n /\ tk_line tok = l.
Proof.
  intros Hm Hs Hn He. destruct (run_tok st n rest l c R_IF_ID (mkLex m ms (lx_lp_seen st) (lx_call_lp st) (lx_meta st)) (Emit T_ID CH_DEFAULT n)) as (c1 & R).
  - apply ident_nonempty, Hn.
  - rewrite Hm. apply best_is; [cbn; tauto|apply ident_nonempty, Hn|apply ident_ID, Hn|]. intros r y z Hin Hy E HM. cbn [mode_rules In] in Hin. destruct Hin as [<-|[<-|[]]]; cbn [rule_re] in HM.
    + exfalso. apply M_Seq_iff in HM as (a & b & -> & HM & _). apply M_one in HM as (d & -> & Hd). destruct Hn as (x & t & -> & L & _). cbn in E. injection E as -> _. unfold letter in L.
      cbn in Hd. repeat (destruct Hd as [<-|Hd]; [cbn in L; intuition discriminate|]). contradiction.
    + left. split; [reflexivity|]. apply M_ID in HM as (x & t & -> & Hx & Ft). assert (F : Forall id_char (x :: t)) by (constructor; [unfold id_char; rewrite app_assoc; apply in_or_app; left; exact Hx|exact Ft]).
      destruct (word_prefix _ _ _ _ F (ident_chars n Hn) He E) as (k' & -> & _). rewrite app_length. lia.
  - cbn [rule_act]. unfold pop_mode. rewrite Hs. reflexivity.
  - exists (mkTok T_ID CH_DEFAULT n n l c), c1. rewrite (ident_nl n Hn), Nat.add_0_r in R. repeat split. exact R.
Qed.
(** The name behind define *)
Lemma define_heads r y z : In r (mode_rules DEFINE_MODE) -> M (rule_re r) y z -> y <> [] ->
  match r with
  | R_ID => True
  | R_WS => blanks y
  | R_DM_NEW_LINE => exists e, y = eol_text e
  | R_DN_CODE => length y <= 1 /\ (forall c u, y = c :: u -> c <> cr /\ c <> nl) \/ exists c u, y = c :: u /\ (c = bt \/ c = bs)
  | _ => exists c u, y = c :: u /\ In c ("/"%char :: bs :: $"(),=")
  end.
Proof.
  intros Hin HM Hy. cbn [mode_rules In] in Hin. repeat (destruct Hin as [<-|Hin]); [..|contradiction]; cbn [rule_re] in HM.
  - apply M_line in HM as (b & ->). eexists _, _. split; [reflexivity|]. cbn. tauto.
  - apply M_block in HM as (b & ->). eexists _, _. split; [reflexivity|]. cbn. tauto.
  - apply M_Seq_iff in HM as (a & b & -> & HM & _). apply M_one in HM as (d & -> & [<-|[]]). eexists _, _. split; [reflexivity|]. cbn. tauto.
  - apply M_one in HM as (d & -> & [<-|[]]). eexists _, _. split; [reflexivity|]. cbn. tauto.
  - apply M_Seq_iff in HM as (a & b & -> & HM & _). apply M_one in HM as (d & -> & [<-|[]]). eexists _, _. split; [reflexivity|]. cbn. tauto.
  - apply M_one in HM as (d & -> & [<-|[]]). eexists _, _. split; [reflexivity|]. cbn. tauto.
  - apply M_one in HM as (d & -> & [<-|[]]). eexists _, _. split; [reflexivity|]. cbn. tauto.
  - apply CRLF_cases in HM as [->| ->]; [exists Lf|exists CrLf]; reflexivity.
  - apply WS_blanks in HM. exact HM.
  - exact I.
  - cbn [Alts] in HM. apply M_Alt_iff in HM as [HM|HM]; [|apply M_Alt_iff in HM as [HM|HM]].
    + apply M_lit in HM as ->. right. eauto.
    + apply M_not1 in HM as (c & -> & Hc). left. split; [cbn; lia|]. intros c' u E. injection E as <- _. cbn in Hc. split; intros ->; tauto.
    + apply M_Seq_iff in HM as (a & b & -> & HM & _). apply M_Seq_iff in HM as (a1 & a2 & -> & HM & _). apply M_one in HM as (d & -> & [<-|[]]). right. eexists _, _. split; [reflexivity|auto].
Qed.
Lemma rule_define_id n rest : ident n -> ends_word rest -> best_rule (mode_rules DEFINE_MODE) (n ++ rest) None = Some (R_ID, length n).
Proof.
  intros Hn He. destruct (ident_head n Hn) as (a & u & En & Ha). assert (N : ~ In a ("/"%char :: bs :: $"(),=") /\ a <> bt /\ a <> bs /\ a <> sp /\ a <> tab /\ a <> nl /\ a <> cr).
  { unfold id_char in Ha. cbn in Ha. repeat (destruct Ha as [<-|Ha]; [repeat split; cbn; intuition discriminate|]); contradiction. }
  assert (Hd : forall y z c v, y ++ z = n ++ rest -> y = c :: v -> c = a) by (intros y z c v E ->; rewrite En in E; cbn in E; injection E as -> _; reflexivity).
  apply (best_first _ [R_DM_LINE_COMMENT; R_DM_COMMENT; R_LINE_ESCAPE; R_LP; R_RP; R_COMMA; R_EQUAL; R_DM_NEW_LINE; R_WS] [R_DN_CODE]); [reflexivity|rewrite En; discriminate|apply ident_ID, Hn| |].
  - intros r y z Hin Hy E HM. exfalso. assert (Hin' : In r (mode_rules DEFINE_MODE)) by (cbn in *; tauto). pose proof (define_heads r y z Hin' HM Hy) as HH.
    cbn [In] in Hin. repeat (destruct Hin as [<-|Hin]); [..|contradiction]; try (destruct HH as (c & v & -> & Hc); rewrite (Hd _ _ c v E eq_refl) in Hc; tauto).
    + destruct HH as (e & ->). rewrite En in E. destruct e; cbn in E; injection E as <- _; tauto.
    + destruct HH as [_ F]. destruct y as [|c v]; [congruence|]. rewrite (Hd _ _ c v E eq_refl) in F. inversion F as [|? ? [H|H] _]; tauto.
  - intros r y z Hin Hy E HM. destruct Hin as [->|[<-|[]]].
    + cbn [rule_re] in HM. apply M_ID in HM as (x & t & -> & Hx & Ft). assert (F : Forall id_char (x :: t)) by (constructor; [unfold id_char; rewrite app_assoc; apply in_or_app; left; exact Hx|exact Ft]).
      destruct (word_prefix _ _ _ _ F (ident_chars n Hn) He E) as (k' & -> & _). rewrite app_length. lia.
    + assert (Hin' : In R_DN_CODE (mode_rules DEFINE_MODE)) by (cbn; tauto). pose proof (define_heads _ y z Hin' HM Hy) as [[L _]|(c & v & -> & Hc)]; [rewrite En; cbn; lia|]. exfalso. rewrite (Hd _ _ c v E eq_refl) in Hc. tauto.
Qed.
Lemma rule_define_ws w rest : blanks w -> (forall c t, rest = c :: t -> ~ blank c) -> best_rule (mode_rules DEFINE_MODE) (w ++ rest) None = Some (R_WS, length w).
Proof.
  intros Hw Hr. destruct w as [|a u] eqn:Ew; [destruct Hw; congruence|]. rewrite <- Ew in *. assert (Ha : blank a) by (destruct Hw as [_ F]; rewrite Ew in F; inversion F; assumption).
  assert (Hd : forall y z c v, y ++ z = w ++ rest -> y = c :: v -> c = a) by (intros y z c v E ->; rewrite Ew in E; cbn in E; injection E as -> _; reflexivity).
  apply (best_first _ [R_DM_LINE_COMMENT; R_DM_COMMENT; R_LINE_ESCAPE; R_LP; R_RP; R_COMMA; R_EQUAL; R_DM_NEW_LINE] [R_ID; R_DN_CODE]); [reflexivity|rewrite Ew; discriminate|apply WS_blanks; exact Hw| |].
  - intros r y z Hin Hy E HM. exfalso. assert (Hin' : In r (mode_rules DEFINE_MODE)) by (cbn in *; tauto). pose proof (define_heads r y z Hin' HM Hy) as HH.
    cbn [In] in Hin. repeat (destruct Hin as [<-|Hin]); [..|contradiction]; try (destruct HH as (c & v & -> & Hc); rewrite (Hd _ _ c v E eq_refl) in Hc; destruct Ha as [->| ->]; cbn in Hc; intuition discriminate).
    destruct HH as (e & ->). rewrite Ew in E. destruct e; cbn in E; injection E as <- _; destruct Ha as [H|H]; discriminate.
  - intros r y z Hin Hy E HM. destruct Hin as [->|[<-|[<-|[]]]].
    + cbn [rule_re] in HM. apply WS_blanks in HM as [_ F]. eapply blank_len; [exact F|apply Hw|exact Hr|exact E].
    + exfalso. cbn [rule_re] in HM. apply M_ID in HM as (x & t & -> & Hx & Ft). rewrite (Hd _ _ x t E eq_refl) in Hx. destruct Ha as [->| ->]; cbn in Hx; intuition discriminate.
    + assert (Hin' : In R_DN_CODE (mode_rules DEFINE_MODE)) by (cbn; tauto). pose proof (define_heads _ y z Hin' HM Hy) as [[L _]|(c & v & -> & Hc)]; [rewrite Ew; cbn; lia|]. exfalso. rewrite (Hd _ _ c v E eq_refl) in Hc. destruct Ha as [->| ->]; destruct Hc; discriminate.
Qed.
Lemma rule_define_eol e rest : best_rule (mode_rules DEFINE_MODE) (eol_text e ++ rest) None = Some (R_DM_NEW_LINE, length (eol_text e)).
Proof.
  assert (Hd : forall y z c v, y ++ z = eol_text e ++ rest -> y = c :: v -> c = nl \/ c = cr) by (intros y z c v E ->; destruct e; cbn in E; injection E as -> _; auto).
  apply best_is; [cbn; tauto|destruct e; discriminate|apply M_eol|]. intros r y z Hin Hy E HM. pose proof (define_heads r y z Hin HM Hy) as HH.
  cbn [mode_rules In] in Hin. repeat (destruct Hin as [<-|Hin]); [..|contradiction];
    try (exfalso; destruct HH as (c & v & -> & Hc); destruct (Hd _ _ c v E eq_refl) as [->| ->]; cbn in Hc; intuition discriminate).
  - left. split; [reflexivity|]. destruct HH as (e' & ->). destruct e, e'; cbn in *; try lia; discriminate.
  - exfalso. destruct HH as [_ F]. destruct y as [|c v]; [congruence|]. destruct (Hd _ _ c v E eq_refl) as [->| ->]; inversion F as [|? ? [H|H] _]; discriminate.
  - exfalso. cbn [rule_re] in HM. apply M_ID in HM as (x & t & -> & Hx & Ft). destruct (Hd _ _ x t E eq_refl) as [->| ->]; cbn in Hx; intuition discriminate.
  - exfalso. destruct HH as [[_ H]|(c & v & -> & Hc)]; [destruct y as [|c v]; [congruence|]; specialize (H c v eq_refl); destruct (Hd _ _ c v E eq_refl); tauto|]. destruct (Hd _ _ c v E eq_refl) as [->| ->]; destruct Hc; discriminate.
Qed.
(** Parentheses and commas of a parameter list *)
Definition punct (r : rule) : option ascii := match r with R_LP => Some "("%char | R_COMMA => Some ","%char | _ => None end.
Lemma code_dec (r : rule) : r = R_DN_CODE \/ r <> R_DN_CODE.
Proof. destruct r; first [left; reflexivity|right; discriminate]. Qed.
Lemma rule_define_punct r c rest : punct r = Some c -> best_rule (mode_rules DEFINE_MODE) ([c] ++ rest) None = Some (r, 1).
Proof.
  intros Hp. assert (HC : c = "("%char /\ r = R_LP \/ c = ","%char /\ r = R_COMMA) by (destruct r; try discriminate; injection Hp as <-; auto).
  change 1 with (length [c]).
  assert (Hd : forall y z d v, y ++ z = [c] ++ rest -> y = d :: v -> d = c) by (intros y z d v E ->; cbn in E; injection E as -> _; reflexivity).
  set (all := mode_rules DEFINE_MODE).
  assert (A : forall r' y z, In r' all -> r' <> r -> r' <> R_DN_CODE -> y <> [] -> y ++ z = [c] ++ rest -> M (rule_re r') y z -> False).
  { intros r' y z Hin Hr Hn Hy E HM. pose proof (define_heads r' y z Hin HM Hy) as HH. unfold all in Hin. cbn [mode_rules In] in Hin. destruct y as [|d v]; [congruence|]. pose proof (Hd _ _ d v E eq_refl) as ->.
    repeat (destruct Hin as [<-|Hin]); [..|contradiction]; try congruence; cbn [rule_re] in HM.
    - apply M_line in HM as (b & HM). destruct HC as [[-> _]|[-> _]]; discriminate.
    - apply M_block in HM as (b & HM). destruct HC as [[-> _]|[-> _]]; discriminate.
    - apply M_Seq_iff in HM as (a & b & EE & HM & _). apply M_one in HM as (d & -> & [<-|[]]). cbn in EE. destruct HC as [[-> _]|[-> _]]; discriminate.
    - apply M_one in HM as (d & EE & [<-|[]]). destruct HC as [[-> ->]|[-> _]]; [congruence|discriminate].
    - apply M_Seq_iff in HM as (a & b & EE & HM & _). apply M_one in HM as (d & -> & [<-|[]]). cbn in EE. destruct HC as [[-> _]|[-> _]]; discriminate.
    - apply M_one in HM as (d & EE & [<-|[]]). destruct HC as [[-> _]|[-> ->]]; [discriminate|congruence].
    - apply M_one in HM as (d & EE & [<-|[]]). destruct HC as [[-> _]|[-> _]]; discriminate.
    - destruct HH as (e & EE). destruct HC as [[-> _]|[-> _]]; destruct e; discriminate.
    - destruct HH as [_ F]. inversion F as [|? ? [Q|Q] _]; destruct HC as [[-> _]|[-> _]]; discriminate.
    - apply M_ID in HM as (x & t & EE & Hx & _). injection EE as <- _. destruct HC as [[-> _]|[-> _]]; cbn in Hx; intuition discriminate. }
  assert (L1 : forall y z, y <> [] -> y ++ z = [c] ++ rest -> M (rule_re r) y z -> length y <= 1).
  { intros y z Hy E HM. destruct HC as [[_ ->]|[_ ->]]; cbn [rule_re] in HM; apply M_one in HM as (d & -> & _); cbn; lia. }
  assert (L2 : forall y z, y <> [] -> y ++ z = [c] ++ rest -> M (rule_re R_DN_CODE) y z -> length y <= 1).
  { intros y z Hy E HM. pose proof (define_heads R_DN_CODE y z ltac:(cbn; tauto) HM Hy) as [[L _]|(d & v & -> & Q)]; [exact L|]. rewrite (Hd _ _ d v E eq_refl) in Q. destruct HC as [[-> _]|[-> _]]; destruct Q; discriminate. }
  assert (HMr : M (rule_re r) [c] rest) by (destruct HC as [[-> ->]|[-> ->]]; apply M_one; eexists; (split; [reflexivity|left; reflexivity])).
  destruct HC as [[HC1 HC2]|[HC1 HC2]].
  - apply (best_first _ [R_DM_LINE_COMMENT; R_DM_COMMENT; R_LINE_ESCAPE] [R_RP; R_COMMA; R_EQUAL; R_DM_NEW_LINE; R_WS; R_ID; R_DN_CODE]); [rewrite HC2; reflexivity|discriminate|exact HMr| |].
    + intros r' y z Hin Hy E HM. exfalso. apply (A r' y z); try assumption; rewrite ?HC2; cbn in *; intuition (subst; discriminate).
    + intros r' y z Hin Hy E HM. destruct Hin as [->|Hin]; [apply (L1 y z); assumption|]. destruct (code_dec r') as [->|N]; [apply (L2 y z); assumption|].
      exfalso. apply (A r' y z); try assumption; rewrite ?HC2; cbn in *; intuition (subst; try discriminate; congruence).
  - apply (best_first _ [R_DM_LINE_COMMENT; R_DM_COMMENT; R_LINE_ESCAPE; R_LP; R_RP] [R_EQUAL; R_DM_NEW_LINE; R_WS; R_ID; R_DN_CODE]); [rewrite HC2; reflexivity|discriminate|exact HMr| |].
    + intros r' y z Hin Hy E HM. exfalso. apply (A r' y z); try assumption; rewrite ?HC2; cbn in *; intuition (subst; discriminate).
    + intros r' y z Hin Hy E HM. destruct Hin as [->|Hin]; [apply (L1 y z); assumption|]. destruct (code_dec r') as [->|N]; [apply (L2 y z); assumption|].
      exfalso. apply (A r' y z); try assumption; rewrite ?HC2; cbn in *; intuition (subst; try discriminate; congruence).
Qed.
Lemma star_blanks y z : M (Star WS_re) y z <-> Forall blank y.
Proof.
  split.
  - intros H. pose (P := fun (y z : str) => Forall blank y). change (P y z). revert y z H. apply (M_Star_ind WS_re P); unfold P.
    + constructor.
    + intros x y z Hx HM HM2 IH. apply WS_blanks in HM. apply Forall_app. split; [apply HM|exact IH].
  - intros F. destruct y as [|c y]; [constructor|]. rewrite <- (app_nil_r (c :: y)). apply M_StarS; [discriminate|apply WS_blanks; split; [discriminate|exact F]|constructor].
Qed.
Lemma rule_define_rp w rest : Forall blank w -> (forall c t, rest = c :: t -> ~ blank c) -> best_rule (mode_rules DEFINE_MODE) ((")"%char :: w) ++ rest) None = Some (R_RP, length (")"%char :: w)).
Proof.
  intros Fw Hr. assert (Hd : forall y z d v, y ++ z = (")"%char :: w) ++ rest -> y = d :: v -> d = ")"%char) by (intros y z d v E ->; cbn in E; injection E as -> _; reflexivity).
  apply (best_first _ [R_DM_LINE_COMMENT; R_DM_COMMENT; R_LINE_ESCAPE; R_LP] [R_COMMA; R_EQUAL; R_DM_NEW_LINE; R_WS; R_ID; R_DN_CODE]); [reflexivity|discriminate| | |].
  - cbn [rule_re]. change (")"%char :: w) with ([")"%char] ++ w). constructor; [apply M_one; eexists; split; [reflexivity|left; reflexivity]|apply star_blanks; exact Fw].
  - intros r' y z Hin Hy E HM. exfalso. destruct y as [|d v]; [congruence|]. pose proof (Hd _ _ d v E eq_refl) as ->. cbn [In] in Hin. repeat (destruct Hin as [<-|Hin]); [..|contradiction]; cbn [rule_re] in HM.
    + apply M_line in HM as (b & HM). discriminate.
    + apply M_block in HM as (b & HM). discriminate.
    + apply M_Seq_iff in HM as (a & b & EE & HM & _). apply M_one in HM as (d & -> & [<-|[]]). discriminate.
    + apply M_one in HM as (d & EE & [<-|[]]). discriminate.
  - intros r' y z Hin Hy E HM. destruct Hin as [->|Hin].
    + cbn [rule_re] in HM. apply M_Seq_iff in HM as (a & b & -> & HM & HM2). apply M_one in HM as (d & -> & [<-|[]]). apply star_blanks in HM2. cbn [app length] in *. injection E as E. apply le_n_S. eapply blank_len; eassumption.
    + destruct y as [|d v]; [congruence|]. pose proof (Hd _ _ d v E eq_refl) as ->. pose proof (fun H => define_heads r' (")"%char :: v) z H HM Hy) as HH. cbn [In] in Hin. repeat (destruct Hin as [<-|Hin]); [..|contradiction]; specialize (HH ltac:(cbn; tauto)); cbn [rule_re] in HM.
      * apply M_one in HM as (d & EE & [<-|[]]). discriminate.
      * apply M_one in HM as (d & EE & [<-|[]]). discriminate.
      * destruct HH as (e & EE). destruct e; discriminate.
      * destruct HH as [_ F]. inversion F as [|? ? [Q|Q] _]; discriminate.
      * apply M_ID in HM as (x & t & EE & Hx & _). injection EE as <- _. cbn in Hx. intuition discriminate.
      * destruct HH as [[L _]|(d & u & EE & [Q|Q])]; [cbn in *; lia|injection EE as <- _; discriminate..].
Qed.
