(** How the lexer reads directives and macro uses (PpSrcSpec). *)
From Verif Require Import Base BaseFacts RegexModel RegexProofs StrSpec StrUtilsModel StrUtilsProofs PpLexerModel PpLexProofs PpParserModel
  MacroDefModel PpModel PpArgSpec PpArgProofs PpPlainProofs PpSrcSpec PpSrcLexProofs.

(** ** Which rule wins *)
Lemma best_first rs pre post x s r : rs = pre ++ r :: post -> x <> [] -> M (rule_re r) x s ->
  (forall r' y z, In r' pre -> y <> [] -> y ++ z = x ++ s -> M (rule_re r') y z -> length y < length x) ->
  (forall r' y z, r' = r \/ In r' post -> y <> [] -> y ++ z = x ++ s -> M (rule_re r') y z -> length y <= length x) ->
  best_rule rs (x ++ s) None = Some (r, length x).
Proof.
  intros Ers Hx HM H1 H2. assert (Hin : In r rs) by (rewrite Ers; apply in_or_app; right; left; reflexivity).
  destruct (best_rule_max rs (x ++ s) r (length x) Hin ltac:(rewrite app_length; lia)) as (r' & n & E & Hn).
  { rewrite firstn_app_len, skipn_app_len. exact HM. }
  destruct (best_rule_longest _ _ _ _ E) as (L1 & L2 & _). destruct (best_rule_Some _ _ _ _ E) as (pre' & post' & Ers' & L & P1 & P2).
  assert (X0 : length x <> 0) by (destruct x; [congruence|cbn; lia]).
  assert (EN : length (firstn n (x ++ s)) = n) by (rewrite firstn_length; lia).
  assert (NE : firstn n (x ++ s) <> []) by (intros EE; rewrite EE in EN; cbn in EN; lia).
  rewrite Ers in Ers'. destruct (app_eq_app _ _ _ _ Ers') as (w & [[E1 E2]|[E1 E2]]).
  - destruct w as [|r0 w]; cbn in E2; injection E2 as E3 E2.
    + subst r'. pose proof (H2 r _ _ (or_introl eq_refl) NE (firstn_skipn n (x ++ s)) L2). rewrite E. repeat f_equal. lia.
    + subst r0. exfalso. assert (In r' pre) as I by (rewrite E1; apply in_or_app; right; left; reflexivity). pose proof (H1 _ _ _ I NE (firstn_skipn _ _) L2). lia.
  - destruct w as [|r0 w]; cbn in E2; injection E2 as E3 E2.
    + subst r'. pose proof (H2 r _ _ (or_introl eq_refl) NE (firstn_skipn n (x ++ s)) L2). rewrite E. repeat f_equal. lia.
    + subst r0. exfalso. assert (I : In r' post) by (rewrite E2; apply in_or_app; right; left; reflexivity).
      pose proof (H2 r' _ _ (or_intror I) NE (firstn_skipn _ _) L2).
      destruct (lmatch (rule_re r) (x ++ s)) as [m|] eqn:Lr.
      * apply lmatch_Some in Lr as LL. destruct LL as (_ & _ & LL). specialize (LL (length x) ltac:(rewrite app_length; lia)). rewrite firstn_app_len, skipn_app_len in LL. specialize (LL HM).
        specialize (P1 r m ltac:(rewrite E1; apply in_or_app; right; left; reflexivity) Lr). lia.
      * apply lmatch_None in Lr. apply (Lr (length x) ltac:(rewrite app_length; lia)). rewrite firstn_app_len, skipn_app_len. exact HM.
Qed.

(** ** The name of a directive or of a macro *)
Lemma ends_id s : ends_word s -> s = [] \/ exists c t, s = c :: t /\ ~ id_char c.
Proof.
  intros H. destruct s as [|c t]; [auto|right]. exists c, t. split; [reflexivity|]. intros HI. apply (H c t eq_refl). unfold id_char, letter in *. cbn in HI |- *. tauto.
Qed.
Lemma word_prefix y z k u : Forall id_char y -> Forall id_char k -> ends_word u -> y ++ z = k ++ u -> exists k', k = y ++ k' /\ z = k' ++ u.
Proof.
  intros Fy Fk Hu E. destruct (app_eq_app _ _ _ _ E) as (w & [[E1 E2]|[E1 E2]]); [|exists w; auto].
  destruct w as [|c w]; [exists []; rewrite app_nil_r in *; subst; auto|]. exfalso. apply ends_id in Hu as [->|(d & t & -> & N)]; [discriminate|]. injection E2 as -> _.
  rewrite E1 in Fy. apply Forall_app in Fy as [_ Fy]. inversion Fy; contradiction.
Qed.
(** Two words that are followed by something else are the same word. *)
Lemma same_word y z k u : Forall id_char y -> Forall id_char k -> ends_word u -> ends_word z -> y ++ z = k ++ u -> y = k /\ z = u.
Proof.
  intros Fy Fk Hu Hz E. destruct (word_prefix _ _ _ _ Fy Fk Hu E) as (k' & -> & ->). destruct k' as [|c k']; [rewrite app_nil_r; auto|]. exfalso.
  apply ends_id in Hz as [Hz|(d & t & Hz & N)]; [discriminate|]. injection Hz as <- _. apply Forall_app in Fk as [_ Fk]. inversion Fk; contradiction.
Qed.
Lemma follows_ends t b z : follows t -> M t b z -> ends_word (b ++ z).
Proof.
  intros H HM c u E HH. destruct (H _ _ HM) as [E'|(d & v & E' & W)]; rewrite E' in E; [discriminate|]. injection E as -> _.
  apply (id_not_ws c); [|exact W]. unfold id_char, letter in *. cbn in HH |- *. tauto.
Qed.
Lemma dir_cases r y z k u : In r (mode_rules DIRECTIVE_MODE) -> M (rule_re r) y z -> y ++ z = k ++ u -> Forall id_char k -> k <> [] -> ends_word u -> no_arguments u ->
  (exists kw t b, keyword_tail r = Some (kw, t) /\ s2l kw = k /\ y = k ++ b /\ M t b z) \/ (r = R_CALL_NO_ARGS /\ length y <= length k).
Proof.
  intros Hr HM E Fk Hk Hu Ha. destruct (keyword_tail r) as [[kw t]|] eqn:K.
  { left. destruct (keyword_tail_ok _ _ _ K) as (E1 & Ht & Fw). rewrite E1 in HM. unfold PpLexerModel.kw in HM. apply M_Seq_iff in HM as (a & b & -> & H1 & H2). apply M_lit in H1 as ->.
    rewrite <- app_assoc in E. destruct (same_word _ _ _ _ Fw Fk Hu (follows_ends _ _ _ Ht H2) E) as (Ek & _). exists kw, t, b. rewrite <- Ek. auto. }
  assert (First : forall c y' , y = c :: y' -> id_char c).
  { intros c y' ->. destruct k as [|a k]; [congruence|]. cbn in E. injection E as -> _. inversion Fk; assumption. }
  assert (Len : forall y1 y2, y = y1 ++ y2 -> Forall id_char y1 -> length y1 <= length k).
  { intros y1 y2 -> F. rewrite <- app_assoc in E. destruct (word_prefix _ _ _ _ F Fk Hu E) as (k' & -> & _). rewrite app_length. lia. }
  cbn [mode_rules In] in Hr. repeat (destruct Hr as [<-|Hr]; [try discriminate K|]); [..|contradiction]; cbn [rule_re] in HM.
  - exfalso. apply M_STR in HM as (b & -> & _). specialize (First _ _ eq_refl). unfold id_char in First. cbn in First. intuition discriminate.
  - exfalso. apply M_line in HM as (b & ->). specialize (First _ _ eq_refl). unfold id_char in First. cbn in First. intuition discriminate.
  - exfalso. apply M_block in HM as (b & ->). specialize (First _ _ eq_refl). unfold id_char in First. cbn in First. intuition discriminate.
  - exfalso. cbn [Seqs] in HM. apply M_Seq_iff in HM as (a & b & -> & H1 & H2). apply M_ID in H1 as (c & t & -> & Hc & Ft).
    apply M_Seq_iff in H2 as (v & w & -> & H2 & H3). apply M_one in H3 as (d & -> & [<-|[]]). apply M_Star_one in H2.
    assert (F : Forall id_char (c :: t)) by (constructor; [unfold id_char; rewrite app_assoc; apply in_or_app; left; exact Hc|exact Ft]).
    rewrite <- !app_assoc in E. assert (EW : ends_word (v ++ $"(" ++ z)).
    + intros e x Ex HH. destruct v as [|e' v]; cbn in Ex; injection Ex as <- _; [unfold letter in HH; cbn in HH; intuition discriminate|]. inversion H2 as [|? ? He _]; subst. cbn in He. destruct He as [<-|[<-|[]]]; unfold letter in HH; cbn in HH; intuition discriminate.
    + destruct (same_word _ _ _ _ F Fk Hu EW E) as (_ & Eu). apply (Ha v z); [|symmetry; exact Eu]. eapply Forall_impl; [|exact H2]. intros e He. cbn in He. unfold blank. intuition congruence.
  - right. split; [reflexivity|]. apply M_ID in HM as (c & t & -> & Hc & Ft). apply (Len (c :: t) []); [rewrite app_nil_r; reflexivity|]. constructor; [unfold id_char; rewrite app_assoc; apply in_or_app; left; exact Hc|exact Ft].
Qed.
Lemma keyword_in_reserved r kw t : keyword_tail r = Some (kw, t) -> In (s2l kw) reserved.
Proof. intros H. destruct r; cbn in H; try discriminate; injection H as <- _; cbn; tauto. Qed.
Lemma ident_nonempty n : ident n -> n <> [].
Proof. intros (c & t & -> & _). discriminate. Qed.
Lemma rule_call n rest : macro_name n -> ends_word rest -> no_arguments rest ->
  best_rule (mode_rules DIRECTIVE_MODE) (n ++ rest) None = Some (R_CALL_NO_ARGS, length n).
Proof.
  intros [Hn Hr] He Ha. apply best_is; [cbn; tauto|apply ident_nonempty, Hn|apply ident_ID, Hn|].
  intros r y z Hin Hy E HM. destruct (dir_cases _ _ _ _ _ Hin HM E (ident_chars n Hn) (ident_nonempty n Hn) He Ha) as [(kw & t & b & K & <- & _)|[-> L]]; [|auto].
  exfalso. apply Hr. exact (keyword_in_reserved _ _ _ K).
Qed.

(** ** Blanks *)
Lemma blank_len b z w s : Forall blank b -> Forall blank w -> (forall c t, s = c :: t -> ~ blank c) -> b ++ z = w ++ s -> length b <= length w.
Proof.
  intros Fb Fw Hs E. destruct (app_eq_app _ _ _ _ E) as (x & [[E1 E2]|[E1 E2]]); [|subst; rewrite app_length; lia].
  destruct x as [|c x]; [rewrite app_nil_r in E1; subst; lia|]. exfalso. apply (Hs c (x ++ z)); [exact E2|]. rewrite E1 in Fb. apply Forall_app in Fb as [_ Fb]. inversion Fb; assumption.
Qed.
Lemma WS_blanks y z : M (Plus F_WS) y z <-> blanks y.
Proof.
  unfold Plus, F_WS, blanks. rewrite M_Seq_iff. split.
  - intros (a & b & -> & H1 & H2). apply M_one in H1 as (d & -> & Hd). apply M_Star_one in H2. split; [discriminate|].
    constructor; [cbn in Hd; unfold blank; intuition congruence|]. eapply Forall_impl; [|exact H2]. intros c Hc. cbn in Hc. unfold blank. intuition congruence.
  - intros [H1 H2]. destruct y as [|c y]; [congruence|]. inversion H2 as [|? ? Hc F]; subst. exists [c], y. repeat split; [apply M_one; eexists; split; [reflexivity|]; destruct Hc as [->| ->]; cbn; tauto|].
    apply M_Star_one. eapply Forall_impl; [|exact F]. intros d [->| ->]; cbn; tauto.
Qed.
Lemma blanks_end w s : blanks w -> ends_word (w ++ s).
Proof.
  intros [H F] c t E HH. destruct w as [|d w]; [congruence|]. cbn in E. injection E as -> _. inversion F as [|? ? [->| ->] _]; unfold letter in HH; cbn in HH; intuition discriminate.
Qed.
Lemma blanks_no_args w s : Forall blank w -> no_arguments s -> no_arguments (w ++ s).
Proof.
  intros F Hs v t Fv E. destruct (app_eq_app _ _ _ _ E) as (x & [[E1 E2]|[E1 E2]]).
  - destruct x as [|c x]; [apply (Hs [] t); [constructor|]; symmetry; exact E2|]. cbn in E2. injection E2 as <- _. rewrite E1 in F. apply Forall_app in F as [_ F]. inversion F as [|? ? [H|H] _]; discriminate.
  - apply (Hs x t); [|exact E2]. rewrite E1 in Fv. apply Forall_app in Fv as [_ Fv]. exact Fv.
Qed.
Lemma letter_not_blank c : letter c -> ~ blank c.
Proof. intros H [->| ->]; unfold letter in H; cbn in H; intuition discriminate. Qed.
Definition starts_letter (s : str) : Prop := exists c t, s = c :: t /\ letter c.
Lemma letter_no_args s : starts_letter s -> no_arguments s.
Proof.
  intros (c & t & -> & L) w u F E. destruct w as [|d w]; cbn in E; injection E as -> _; [unfold letter in L; cbn in L; intuition discriminate|]. inversion F; subst. exact (letter_not_blank d L ltac:(assumption)).
Qed.
Lemma ident_letter n s : ident n -> starts_letter (n ++ s).
Proof. intros (c & t & -> & L & _). exists c, (t ++ s). split; [reflexivity|exact L]. Qed.

(** Directives that are followed by blanks and a name *)
Lemma s2l_inj a b : s2l a = s2l b -> a = b.
Proof. revert b. induction a as [|c a IH]; intros [|d b] H; cbn in H; try discriminate; [reflexivity|]. injection H as -> H. rewrite (IH b H). reflexivity. Qed.
Lemma keyword_inj r1 r2 kw t1 t2 : keyword_tail r1 = Some (kw, t1) -> keyword_tail r2 = Some (kw, t2) -> r1 = r2 /\ t1 = t2.
Proof. intros H1 H2. destruct r1; cbn in H1; try discriminate H1; injection H1 as <- <-; destruct r2; cbn in H2; try discriminate H2; injection H2 as <-; split; reflexivity. Qed.
Definition shape (b : str) : Prop := Forall blank b \/ exists p c q, b = p ++ c :: q /\ Forall blank p /\ (c = bs \/ c = "/"%char).
Lemma shape_app a b : shape a -> shape b -> shape (a ++ b).
Proof.
  intros [Ha|(p & c & q & -> & Hp & Hc)] Hb.
  - destruct Hb as [Hb|(p & c & q & -> & Hp & Hc)]; [left; apply Forall_app; auto|]. right. exists (a ++ p), c, q. rewrite app_assoc. repeat split; [apply Forall_app; auto|exact Hc].
  - right. exists p, c, (q ++ b). rewrite <- app_assoc. auto.
Qed.
Lemma shape_star r y z : (forall y z, M r y z -> shape y) -> M (Star r) y z -> shape y.
Proof. intros H. revert y z. apply (M_Star_ind r (fun y _ => shape y)); [left; constructor|]. intros x y z _ HM _ IH. apply shape_app; eauto. Qed.
Lemma shape_ws y z : M F_WS y z -> shape y.
Proof. intros H. apply M_one in H as (c & -> & Hc). left. constructor; [cbn in Hc; unfold blank; intuition congruence|constructor]. Qed.
Lemma shape_esc y z : M F_LINE_ESCAPE y z -> shape y.
Proof. intros H. apply M_Seq_iff in H as (a & b & -> & H & _). apply M_one in H as (d & -> & [<-|[]]). right. exists [], bs, b. repeat split; auto. Qed.
Lemma shape_define y z : M (Seqs [Plus F_WS; Star F_LINE_ESCAPE; Opt (Seqs [Alt LINE_COMMENT_re COMMENT_re; Star F_WS; Star F_LINE_ESCAPE]); Star (Alt F_WS F_LINE_ESCAPE)]) y z -> shape y.
Proof.
  intros H. cbn [Seqs] in H. apply M_Seq_iff in H as (a & b & -> & H1 & H). apply M_Seq_iff in H as (c & d & -> & H2 & H). apply M_Seq_iff in H as (e & f & -> & H3 & H4).
  apply shape_app; [left; apply WS_blanks in H1 as [_ H1]; exact H1|]. apply shape_app; [eapply shape_star; [|exact H2]; apply shape_esc|]. apply shape_app.
  - apply M_Alt_iff in H3 as [H3|H3]; [|apply M_Eps_iff in H3 as ->; left; constructor]. apply M_Seq_iff in H3 as (u & v & -> & H3 & _). apply M_Alt_iff in H3 as [H3|H3]; [apply M_line in H3 as (x & ->)|apply M_block in H3 as (x & ->)];
      right; eexists [], _, _; (split; [reflexivity|split; [constructor|right; reflexivity]]).
  - eapply shape_star; [|exact H4]. intros y0 z0 H0. apply M_Alt_iff in H0 as [H0|H0]; [exact (shape_ws _ _ H0)|exact (shape_esc _ _ H0)].
Qed.
Lemma shape_len b z w s : shape b -> Forall blank w -> starts_letter s -> b ++ z = w ++ s -> length b <= length w.
Proof.
  intros [Fb|(p & c & q & -> & Fp & Hc)] Fw (d & t & -> & L) E.
  - eapply blank_len; [exact Fb|exact Fw| |exact E]. intros c u E'. injection E' as <- _. apply letter_not_blank, L.
  - exfalso. rewrite <- app_assoc in E. cbn [app] in E. destruct (ws_split p w c d (q ++ z) t blank Fp Fw) as (_ & -> & _); [|apply letter_not_blank, L|exact E|].
    + intros [->| ->]; destruct Hc; discriminate.
    + unfold letter in L. cbn in L. destruct Hc as [->| ->]; intuition discriminate.
Qed.
Lemma M_define_tail w z : blanks w -> M (Seqs [Plus F_WS; Star F_LINE_ESCAPE; Opt (Seqs [Alt LINE_COMMENT_re COMMENT_re; Star F_WS; Star F_LINE_ESCAPE]); Star (Alt F_WS F_LINE_ESCAPE)]) w z.
Proof.
  intros H. cbn [Seqs]. apply M_Seq_iff. exists w, []. rewrite app_nil_r. repeat split; [apply WS_blanks; exact H|]. apply M_Seq_iff. exists [], []. repeat split; [constructor|]. apply M_Seq_iff. exists [], [].
  repeat split; [apply M_AltR; constructor|constructor].
Qed.
Definition name_directive (r : rule) : bool := match r with R_DEFINE | R_IFDEF | R_IFNDEF | R_ELSIF => true | _ => false end.
Lemma rule_name r k t w s : name_directive r = true -> keyword_tail r = Some (k, t) -> blanks w -> starts_letter s ->
  best_rule (mode_rules DIRECTIVE_MODE) ((s2l k ++ w) ++ s) None = Some (r, length (s2l k ++ w)).
Proof.
  intros Hd K Hw Hs. destruct (keyword_tail_ok _ _ _ K) as (E1 & _ & Fk). assert (Hk : s2l k <> []) by (destruct r; try discriminate; injection K as <- _; discriminate).
  assert (T : forall z, M t w z) by (intros z; destruct r; try discriminate; injection K as <- <-; [apply M_define_tail; exact Hw|apply WS_blanks; exact Hw..]).
  apply best_is; [destruct r; try discriminate; cbn; tauto|destruct (s2l k); [congruence|discriminate]| |].
  - rewrite E1. unfold kw. apply M_Seq_iff. exists (s2l k), w. repeat split; [apply M_lit; reflexivity|apply T].
  - intros r' y z Hin Hy E HM. rewrite <- app_assoc in E.
    assert (NA : no_arguments (w ++ s)) by (apply blanks_no_args; [apply Hw|apply letter_no_args, Hs]).
    destruct (dir_cases _ _ _ _ _ Hin HM E Fk Hk (blanks_end w s Hw) NA) as [(k' & t' & b & K' & Ek & -> & Hb)|[-> L]].
    + apply s2l_inj in Ek as ->. destruct (keyword_inj _ _ _ _ _ K K') as [<- <-]. left. split; [reflexivity|]. rewrite <- app_assoc in E. apply app_inv_head in E. rewrite !app_length.
      assert (S : shape b). { destruct r; try discriminate; injection K as <- <-; [exact (shape_define _ _ Hb)|apply WS_blanks in Hb as [_ Hb]; left; exact Hb..]. }
      pose proof (shape_len _ _ _ _ S (proj2 Hw) Hs E). lia.
    + right. rewrite app_length. destruct Hw as [Hw _]. destruct w; [congruence|]. cbn. lia.
Qed.
(** else and endif *)
Lemma M_ANY y z : M ANY_WS y z -> blanks y \/ exists e, y = eol_text e.
Proof. intros H. apply M_Alt_iff in H as [H|H]; [left; apply WS_blanks in H; exact H|right]. apply CRLF_cases in H as [->| ->]; [exists Lf|exists CrLf]; reflexivity. Qed.
Lemma eol_no_args e s : no_arguments (eol_text e ++ s).
Proof. intros w t F E. destruct w as [|c w]; destruct e; cbn in E; try discriminate; injection E as <- _; inversion F as [|? ? [H|H] _]; discriminate. Qed.
Lemma eol_ends e s : ends_word (eol_text e ++ s).
Proof. intros c t E H. destruct e; cbn in E; injection E as <- _; unfold letter in H; cbn in H; intuition discriminate. Qed.
Lemma sep_len b z s rest : sep_ok s rest -> s <> SEnd -> (blanks b \/ (exists e, b = eol_text e) \/ b = []) -> b ++ z = sep_text s ++ rest -> length b <= length (sep_text s).
Proof.
  intros Hs Hne Hb E. destruct s as [e|w|]; cbn [sep_ok sep_text] in *; [| |congruence].
  - destruct Hb as [[Hb F]|[(e' & ->)| ->]]; [| |cbn; lia].
    + destruct b as [|c b]; [congruence|]. exfalso. inversion F as [|? ? [->| ->] _]; destruct e; discriminate.
    + destruct e, e'; cbn in E |- *; try lia; discriminate.
  - destruct Hs as [Hw Hr]. destruct Hb as [[Hb F]|[(e' & ->)| ->]]; [| |cbn; lia].
    + eapply blank_len; [exact F|apply Hw| |exact E]. intros c t ->. exact (proj2 (Hr c t eq_refl)).
    + exfalso. destruct Hw as [Hw F]. destruct w as [|c w]; [congruence|]. inversion F as [|? ? [->| ->] _]; destruct e'; discriminate.
Qed.
Lemma sep_ends s rest : sep_ok s rest -> ends_word (sep_text s ++ rest) /\ no_arguments (sep_text s ++ rest).
Proof.
  destruct s as [e|w|]; cbn [sep_ok sep_text]; intros H.
  - split; [apply eol_ends|apply eol_no_args].
  - destruct H as [Hw Hr]. split; [apply blanks_end, Hw|apply blanks_no_args; [apply Hw|]]. intros v t F E. destruct v as [|c v]; cbn in E; destruct (Hr _ _ E) as [H1 H2]; [congruence|]. inversion F; contradiction.
  - subst rest. split; [intros c t E; discriminate|intros w t _ E; destruct w; discriminate].
Qed.
Lemma sep_M s rest : sep_ok s rest -> s <> SEnd -> M ANY_WS (sep_text s) rest.
Proof. destruct s as [e|w|]; cbn [sep_ok sep_text]; intros H N; [apply M_AltR, M_eol|apply M_AltL; apply WS_blanks; exact (proj1 H)|congruence]. Qed.
Definition end_rule (r : rule) : bool := match r with R_ELSE | R_ENDIF => true | _ => false end.
Lemma rule_end r k t s rest : end_rule r = true -> keyword_tail r = Some (k, t) -> sep_ok s rest -> s <> SEnd ->
  best_rule (mode_rules DIRECTIVE_MODE) ((s2l k ++ sep_text s) ++ rest) None = Some (r, length (s2l k ++ sep_text s)).
Proof.
  intros Hd K Hs Hne. destruct (keyword_tail_ok _ _ _ K) as (E1 & _ & Fk). assert (Hk : s2l k <> []) by (destruct r; try discriminate; injection K as <- _; discriminate).
  assert (HL : 0 < length (sep_text s)) by (destruct s as [e|w|]; [destruct e; cbn; lia|destruct Hs as [[Hw _] _]; destruct w; [congruence|cbn; lia]|congruence]).
  apply best_is; [destruct r; try discriminate; cbn; tauto|destruct (s2l k); [congruence|discriminate]| |].
  - rewrite E1. unfold kw. apply M_Seq_iff. exists (s2l k), (sep_text s). repeat split; [apply M_lit; reflexivity|]. pose proof (sep_M s rest Hs Hne). destruct r; try discriminate; injection K as <- <-; [assumption|apply M_AltL; assumption].
  - intros r' y z Hin Hy E HM. rewrite <- app_assoc in E. destruct (sep_ends s rest Hs) as [SE SA].
    destruct (dir_cases _ _ _ _ _ Hin HM E Fk Hk SE SA) as [(k' & t' & b & K' & Ek & -> & Hb)|[-> L]].
    + apply s2l_inj in Ek as ->. destruct (keyword_inj _ _ _ _ _ K K') as [<- <-]. left. split; [reflexivity|]. rewrite <- app_assoc in E. apply app_inv_head in E. rewrite !app_length.
      assert (S : blanks b \/ (exists e, b = eol_text e) \/ b = []).
      { destruct r; try discriminate; injection K as <- <-; [apply M_ANY in Hb; tauto|]. apply M_Alt_iff in Hb as [Hb|Hb]; [apply M_ANY in Hb; tauto|]. apply M_Eof_iff in Hb as [-> _]. auto. }
      pose proof (sep_len _ _ _ _ Hs Hne S E). lia.
    + right. rewrite app_length. lia.
Qed.
