(** How the lexer reads the name and the body of a definition (PpSrcSpec). *)
From Verif Require Import Base BaseFacts RegexModel RegexProofs StrSpec StrUtilsModel StrUtilsProofs PpLexerModel PpLexProofs PpParserModel
  MacroDefModel PpModel PpArgSpec PpArgProofs PpPlainProofs PpSrcSpec PpSrcLexProofs PpSrcDirProofs.

(** ** Bodies: runs of characters between string literals *)
Lemma occurs_app p a x : occurs p (a ++ x) -> (exists u v, u <> [] /\ v <> [] /\ p = u ++ v /\ (exists a', a = a' ++ u) /\ exists x', x = v ++ x') \/ occurs p a \/ occurs p x.
Proof.
  intros (u & v & E). destruct (app_eq_app _ _ _ _ E) as (w & [[E1 E2]|[E1 E2]]).
  - destruct (app_eq_app _ _ _ _ E2) as (k & [[E3 E4]|[E3 E4]]).
    + destruct k as [|d k]; [|destruct w as [|e w]].
      * right. left. exists u, []. rewrite app_nil_r in *. rewrite E1, E3. reflexivity.
      * right. right. exists [], v. cbn in E3. rewrite E4, E3. reflexivity.
      * left. exists (e :: w), (d :: k). repeat split; try discriminate; [exact E3|eexists; exact E1|eexists; exact E4].
    + right. left. exists u, k. rewrite E1, E3. reflexivity.
  - right. right. exists w, v. exact E2.
Qed.
Lemma no_slashes_app a x : ~ occurs $"//" a -> ~ occurs $"//" x -> (forall y, a <> y ++ ["/"%char]) -> ~ occurs $"//" (a ++ x).
Proof.
  intros Ha Hx He H. apply occurs_app in H as [(u & v & Hu & Hv & E & (a' & ->) & _)|[H|H]]; [|contradiction..].
  destruct u as [|c [|d u]]; [congruence| |].
  - cbn in E. injection E as <- _. exact (He _ eq_refl).
  - destruct v as [|e v]; [congruence|]. cbn in E. apply (f_equal (@length _)) in E. cbn in E. rewrite app_length in E. cbn in E. lia.
Qed.
Lemma good_end_app a x : a <> [] -> good_end a -> good_end x -> good_end (a ++ x).
Proof.
  intros Hn Ha Hx y. destruct x as [|c x _] using rev_ind; [rewrite app_nil_r; apply Ha|]. destruct (Hx x) as [H1 H2]. rewrite app_assoc. split; intros E; apply app_inj_tail in E as [_ ->]; congruence.
Qed.
Lemma part_app a x : a <> [] -> code_part a -> code_part x -> code_part (a ++ x).
Proof.
  intros Hn (A1 & A2 & A3) (B1 & B2 & B3). split; [apply Forall_app; auto|split; [apply no_slashes_app; auto; intros y; apply A3|apply good_end_app; assumption]].
Qed.
Lemma part_nil : code_part [].
Proof. repeat split; [constructor|intros (a & b & E); destruct a; discriminate|destruct y; discriminate..]. Qed.
Lemma dbody_pre a s : a <> [] -> code_part a -> dbody s -> dbody (a ++ s).
Proof.
  intros Hn Ha H. destruct H as [x Hx|x b s Hx Hb Hf Hbt Hs]; [constructor; apply part_app; assumption|]. rewrite app_assoc. constructor; [apply part_app; assumption|assumption..].
Qed.
Lemma char_part c : ~ In c [bt; "/"%char; dq; bs] -> c <> cr -> c <> nl -> code_part [c].
Proof.
  intros H1 H2 H3. cbn in H1. repeat split.
  - constructor; [cbn; intuition congruence|constructor].
  - intros (a & b & E). apply (f_equal (@length _)) in E. rewrite !app_length in E. cbn in E. lia.
  - intros E. destruct y as [|? [|? ?]]; try discriminate. injection E as E. intuition congruence.
  - intros E. destruct y as [|? [|? ?]]; try discriminate. injection E as E. intuition congruence.
Qed.
Lemma slash_part c : ~ In c [bt; "/"%char; "*"%char; dq; bs] -> c <> cr -> c <> nl -> code_part ["/"%char; c].
Proof.
  intros H1 H2 H3. cbn in H1. repeat split.
  - repeat constructor; cbn; intuition (congruence || discriminate).
  - intros (a & b & E). destruct a as [|x [|y a]]; cbn in E; [inversion E; subst; tauto|discriminate|]. apply (f_equal (@length _)) in E. cbn in E. rewrite app_length in E. cbn in E. lia.
  - intros E. destruct y as [|? [|? [|? ?]]]; try discriminate. injection E as _ E. intuition congruence.
  - intros E. destruct y as [|? [|? [|? ?]]]; try discriminate. injection E as _ E. intuition congruence.
Qed.
Lemma id_in_run c : id_char c -> ~ In c [bs; dq; nl; cr] /\ c <> "/"%char /\ c <> bt.
Proof. intros H. unfold id_char in H. cbn in H. repeat (destruct H as [<-|H]; [repeat split; cbn; intuition discriminate|]); contradiction. Qed.
Lemma call_part n : ident n -> code_part (bt :: n).
Proof.
  intros Hn. pose proof (ident_chars n Hn) as F. pose proof (ident_nonempty n Hn) as N. repeat split.
  - constructor; [cbn; intuition discriminate|]. eapply Forall_impl; [|exact F]. intros c Hc. apply id_in_run, Hc.
  - intros (a & b & E). destruct a as [|c a]; cbn in E; [discriminate|]. injection E as _ E. assert (In "/"%char n) as I by (rewrite E; apply in_or_app; right; left; reflexivity).
    rewrite Forall_forall in F. apply F, id_in_run in I. tauto.
  - intros E. destruct y as [|c y]; cbn in E; [discriminate|]. injection E as _ E. rewrite E in F. apply Forall_app in F as [_ F]. inversion F as [|? ? H _]. apply id_in_run in H. tauto.
  - intros E. destruct y as [|c y]; cbn in E; [injection E as E; congruence|]. injection E as _ E. rewrite E in F. apply Forall_app in F as [_ F]. inversion F as [|? ? H _]. apply id_in_run in H. tauto.
Qed.

(** ** The rules of the body *)
Definition DB_item : re := Alts [Seq (Plus (one [bs])) (not1 [nl]); lit [bt; dq]; MACRO_ESC_QUOTE; not1 [bs; nl; dq]].
Definition body_stop (X s : str) : Prop := (exists t, s = nl :: t) \/ ((exists t, s = dq :: t) /\ forall y, X <> y ++ [bt]).
Lemma body_stop_cons c X s : body_stop (c :: X) s -> body_stop X s.
Proof. intros [H|[H H2]]; [left; exact H|right]. split; [exact H|]. intros y ->. exact (H2 (c :: y) eq_refl). Qed.
Lemma db_item_cases y z X s : M DB_item y z -> y ++ z = X ++ s -> Forall (fun c => ~ In c [bs; dq; nl]) X -> body_stop X s -> exists c X', X = c :: X' /\ y = [c].
Proof.
  intros HM E F St. assert (N : forall c d t, X ++ s = c :: d :: t -> c <> bs /\ (c = bt -> d <> bs /\ d <> dq)).
  { intros c d t Ec. split.
    - intros ->. destruct X as [|a X]; cbn in Ec.
      + destruct St as [[u ->]|[[u ->] _]]; discriminate.
      + injection Ec as -> _. inversion F; subst. cbn in *. tauto.
    - intros ->. destruct X as [|a [|b X]]; cbn in Ec.
      + destruct St as [[u ->]|[[u ->] _]]; discriminate.
      + injection Ec as -> Ec. destruct St as [[u ->]|[[u ->] St]]; injection Ec as <- _; [split; discriminate|]. exfalso. exact (St [] eq_refl).
      + injection Ec as _ -> _. inversion F as [|? ? _ F']; subst. inversion F'; subst. cbn in *. split; intros ->; tauto. }
  unfold DB_item in HM. cbn [Alts] in HM. apply M_Alt_iff in HM as [HM|HM]; [|apply M_Alt_iff in HM as [HM|HM]; [|apply M_Alt_iff in HM as [HM|HM]]].
  - exfalso. apply M_Seq_iff in HM as (a & b & -> & H1 & H2). apply M_Seq_iff in H1 as (a1 & a2 & -> & H1 & _). apply M_one in H1 as (d & -> & [<-|[]]). apply M_not1 in H2 as (e & -> & _).
    rewrite <- !app_assoc in E. cbn [app] in E. destruct a2 as [|f a2]; cbn [app] in E; symmetry in E; apply N in E; tauto.
  - exfalso. apply M_lit in HM as ->. symmetry in E. apply N in E. tauto.
  - exfalso. unfold MACRO_ESC_QUOTE, Plus in HM. apply M_Seq_iff in HM as (a & b & -> & H1 & _). apply M_Seq_iff in H1 as (a1 & a2 & -> & H1 & _). apply M_lit in H1 as ->.
    rewrite <- !app_assoc in E. cbn [app] in E. symmetry in E. apply N in E. tauto.
  - apply M_not1 in HM as (c & -> & Hc). cbn in E. destruct X as [|a X]; cbn in E.
    + exfalso. destruct St as [[u ->]|[[u ->] _]]; injection E as -> _; cbn in Hc; tauto.
    + injection E as -> _. eauto.
Qed.
Lemma db_star_bound y z : M (Star DB_item) y z -> forall X s, y ++ z = X ++ s -> Forall (fun c => ~ In c [bs; dq; nl]) X -> body_stop X s -> length y <= length X.
Proof.
  revert y z. apply (M_Star_ind DB_item (fun y z => forall X s, y ++ z = X ++ s -> Forall (fun c => ~ In c [bs; dq; nl]) X -> body_stop X s -> length y <= length X)).
  - intros; cbn; lia.
  - intros x y z Hx HM HM2 IH X s E F St. rewrite <- app_assoc in E. destruct (db_item_cases _ _ _ _ HM E F St) as (c & X' & -> & ->). cbn in E. injection E as E. inversion F; subst. cbn [app length].
    apply le_n_S. apply (IH X' s E); [assumption|]. eapply body_stop_cons. exact St.
Qed.
Lemma db_code_re : rule_re R_DB_CODE = Plus DB_item.
Proof. reflexivity. Qed.
Lemma db_code_bound y z X s : M (Plus DB_item) y z -> y ++ z = X ++ s -> Forall (fun c => ~ In c [bs; dq; nl]) X -> body_stop X s -> length y <= length X.
Proof.
  intros HM E F St. apply M_Seq_iff in HM as (a & b & -> & H1 & H2). rewrite <- app_assoc in E. destruct (db_item_cases _ _ _ _ H1 E F St) as (c & X' & -> & ->). cbn in E. injection E as E. inversion F; subst.
  cbn [app length]. apply le_n_S. eapply db_star_bound; [exact H2|exact E|assumption|]. eapply body_stop_cons. exact St.
Qed.
Lemma db_char c z : ~ In c [bs; dq; nl] -> M DB_item [c] z.
Proof. intros H. unfold DB_item. cbn [Alts]. apply M_AltR, M_AltR, M_AltR. apply M_not1. exists c. split; [reflexivity|]. cbn in *. tauto. Qed.
Lemma db_chars X z : Forall (fun c => ~ In c [bs; dq; nl]) X -> M (Star DB_item) X z.
Proof. intros F. induction F as [|c X Hc F IH]; [constructor|]. change (c :: X) with ([c] ++ X). apply M_StarS; [discriminate|apply db_char; exact Hc|exact IH]. Qed.
Lemma rule_db_code X s : X <> [] -> Forall (fun c => ~ In c [bs; dq; nl]) X -> body_stop X s -> (forall t, X <> $"//" ++ t) -> (forall t, X ++ s <> cr :: nl :: t) ->
  X <> ["/"%char] -> best_rule (mode_rules DEFINE_BODY_MODE) (X ++ s) None = Some (R_DB_CODE, length X).
Proof.
  intros Hx F St Hc Hr H1. apply best_is; [cbn; tauto|exact Hx| |].
  - destruct X as [|c X]; [congruence|]. inversion F; subst. rewrite db_code_re. change (c :: X) with ([c] ++ X). constructor; [apply db_char; assumption|apply db_chars; assumption].
  - intros r y z Hin Hy E HM. destruct X as [|c X]; [congruence|]. inversion F as [|? ? Hcc F']; subst.
    cbn [mode_rules In] in Hin. repeat (destruct Hin as [<-|Hin]); [..|contradiction].
    + exfalso. apply M_Seq_iff in HM as (a & b & -> & HM & _). apply M_one in HM as (d & -> & [<-|[]]). cbn in E. injection E as <- _. apply Hcc. cbn. tauto.
    + exfalso. apply M_STR in HM as (b & -> & _). cbn in E. injection E as <- _. apply Hcc. cbn. tauto.
    + exfalso. apply M_line in HM as (b & ->). cbn in E. injection E as <- E. destruct X as [|d X]; [congruence|]. cbn in E. injection E as <- _. exact (Hc X eq_refl).
    + left. split; [reflexivity|]. eapply db_code_bound; eassumption.
    + exfalso. cbn [rule_re] in HM. apply CRLF_cases in HM as [->| ->]; cbn in E.
      * injection E as <- _. apply Hcc. cbn. tauto.
      * apply (Hr z). symmetry. exact E.
Qed.
Lemma rule_db_str b s : string_body b -> no_final_bs b -> best_rule (mode_rules DEFINE_BODY_MODE) ((dq :: b ++ [dq]) ++ s) None = Some (R_DB_STR, length (dq :: b ++ [dq])).
Proof.
  intros Hb Hn. apply best_is; [cbn; tauto|discriminate| |].
  - apply M_Seq_iff. exists [dq], (b ++ [dq]). repeat split; [apply M_one; eexists; split; [reflexivity|left; reflexivity]|]. apply M_Seq_iff. exists b, [dq].
    repeat split; [apply PpArgProofs.body_items; exact Hb|apply M_one; eexists; split; [reflexivity|left; reflexivity]].
  - intros r y z Hr Hy E HM. cbn [mode_rules In] in Hr. repeat (destruct Hr as [<-|Hr]); [..|contradiction].
    + exfalso. apply M_Seq_iff in HM as (a & b' & -> & HM & _). apply M_one in HM as (d & -> & [<-|[]]). discriminate.
    + left. split; [reflexivity|]. apply M_STR in HM as (t & -> & HT). cbn [length]. rewrite !app_length. cbn [length]. cbn [app] in E. injection E as E.
      rewrite <- !app_assoc in E. cbn [app] in E. destruct (app_eq_app _ _ _ _ E) as (w & [[E1 E2]|[E1 E2]]).
      * destruct w as [|c w]; [rewrite app_nil_r in E1; subst; lia|]. exfalso. cbn [app] in E2. injection E2 as <- _.
        destruct (quotes_escaped _ _ HT b w E1) as (u' & H'). exact (Hn u' H').
      * subst b. rewrite app_length. lia.
    + apply M_line in HM as (t & ->). discriminate.
    + exfalso. rewrite db_code_re in HM. assert (St : body_stop [] (dq :: (b ++ [dq]) ++ s)) by (right; split; [eexists; reflexivity|intros [|? ?]; discriminate]).
      pose proof (db_code_bound y z [] (dq :: (b ++ [dq]) ++ s) HM E (Forall_nil _) St) as L. destruct y; [congruence|cbn in L; lia].
    + cbn [rule_re] in HM. apply CRLF_cases in HM as [->| ->]; discriminate.
Qed.
Lemma rule_db_eol e s : best_rule (mode_rules DEFINE_BODY_MODE) (eol_text e ++ s) None = Some (R_DB_NEW_LINE, length (eol_text e)).
Proof.
  apply best_is; [cbn; tauto|destruct e; discriminate|apply M_eol|].
  intros r y z Hr Hy E HM. cbn [mode_rules In] in Hr. repeat (destruct Hr as [<-|Hr]); [..|contradiction].
  - exfalso. apply M_Seq_iff in HM as (a & b' & -> & HM & _). apply M_one in HM as (d & -> & [<-|[]]). destruct e; discriminate.
  - apply M_STR in HM as (t & -> & _). destruct e; discriminate.
  - apply M_line in HM as (t & ->). destruct e; discriminate.
  - rewrite db_code_re in HM. right. destruct e; cbn [eol_text] in *.
    + exfalso. pose proof (db_code_bound y z [] (nl :: s) HM E (Forall_nil _) ltac:(left; eauto)) as L. destruct y; [congruence|cbn in L; lia].
    + pose proof (db_code_bound y z [cr] (nl :: s) HM E ltac:(constructor; [cbn; intuition discriminate|constructor]) ltac:(left; eauto)) as L. cbn in *. lia.
  - left. split; [reflexivity|]. cbn [rule_re] in HM. apply CRLF_cases in HM as [->| ->]; destruct e; cbn in *; try lia; discriminate.
Qed.

(** ** The whole body *)
Lemma run_tok st x s l c r st1 e : x <> [] -> best_rule (mode_rules (lx_mode st)) (x ++ s) None = Some (r, length x) -> rule_act r st x = Ok (st1, e) ->
  exists c1, run st (x ++ s) l c (emitted e x l c) st1 s (l + count_nl x) c1.
Proof.
  intros Hx Hb Ha. pose proof (advance_line x l c) as HA. destruct (advance x l c) as [l1 c1] eqn:D. cbn [fst] in HA. subst l1. exists c1. eapply run_one; eassumption.
Qed.
Lemma no_nl_count x : ~ In nl x -> count_nl x = 0.
Proof. intros H. apply count_occ_not_In. exact H. Qed.
Lemma run_chars_nl x : run_chars x -> ~ In nl x.
Proof. intros F H. unfold run_chars in F. rewrite Forall_forall in F. apply (F _ H). cbn. tauto. Qed.
Lemma string_body_nl b : string_body b -> ~ In nl b.
Proof.
  intros H HI. induction H as [|c s H1 H2 H3 H4 _ IH|c s H3 H4 _ IH]; [exact HI|destruct HI as [HI|HI]; [congruence|auto]|]. destruct HI as [HI|[HI|HI]]; [discriminate|congruence|auto].
Qed.
Lemma blank_nl w : Forall blank w -> ~ In nl w.
Proof. intros F H. rewrite Forall_forall in F. destruct (F _ H); discriminate. Qed.
Lemma cut_none x : ~ occurs $"//" x -> cut_off_line_comment x = x.
Proof. intros H. unfold cut_off_line_comment. destruct (find $"//" x) as [i|] eqn:E; [|reflexivity]. apply find_Some in E as (a & b & -> & _). exfalso. apply H. exists a, b. reflexivity. Qed.
Lemma cut_at x t : ~ occurs $"//" x -> (forall y, x <> y ++ ["/"%char]) -> cut_off_line_comment (x ++ $"//" ++ t) = x.
Proof.
  intros H He. unfold cut_off_line_comment. destruct (find $"//" (x ++ $"//" ++ t)) as [i|] eqn:E.
  - apply find_Some in E as (a & b & E & <- & Hm). specialize (Hm x t eq_refl). rewrite firstn_app. destruct (app_eq_app _ _ _ _ E) as (w & [[E1 E2]|[E1 E2]]).
    + destruct w as [|c w].
      * rewrite app_nil_r in E1. subst. rewrite firstn_all, Nat.sub_diag. cbn. apply app_nil_r.
      * exfalso. destruct w as [|d w].
        -- cbn in E2. injection E2 as <- _. exact (He _ E1).
        -- cbn in E2. injection E2 as <- <- _. apply H. exists a, w. exact E1.
    + rewrite E1 in Hm. rewrite app_length in Hm. destruct w as [|c w]; [|cbn in Hm; lia]. rewrite app_nil_r in E1. subst. rewrite firstn_all, Nat.sub_diag. cbn. apply app_nil_r.
  - exfalso. apply (proj1 (find_None _ _) E x t). reflexivity.
Qed.
Definition newline_token (t : token) : Prop := tk_type t = T_NEW_LINE /\ is_default t = true.
Definition comment_ok (w3 : str) (cm : option str) : Prop := match cm with Some t => w3 <> [] /\ Forall (fun c => ~ In c [cr; nl; dq; bs]) t | None => True end.
Lemma blank_ok w : Forall blank w -> run_chars w /\ ~ occurs $"//" w /\ (forall y, w <> y ++ ["/"%char]).
Proof.
  intros F. split; [|split].
  - eapply Forall_impl; [|exact F]. intros c [->| ->]; cbn; intuition discriminate.
  - intros (a & b & ->). apply Forall_app in F as [_ F]. inversion F as [|? ? [H|H] _]; discriminate.
  - intros y ->. apply Forall_app in F as [_ F]. inversion F as [|? ? [H|H] _]; discriminate.
Qed.
Lemma run_no_cr x : run_chars x -> Forall (fun c => ~ In c [bs; dq; nl]) x.
Proof. intros F. eapply Forall_impl; [|exact F]. cbn. tauto. Qed.
Definition crs (e : eol) : str := match e with Lf => [] | CrLf => [cr] end.
Lemma eol_crs e : eol_text e = crs e ++ [nl].
Proof. destruct e; reflexivity. Qed.
Lemma tail_run st m ms x w3 cm e rest l c : lx_mode st = DEFINE_BODY_MODE -> lx_stack st = m :: ms -> code_part x -> Forall blank w3 -> comment_ok w3 cm ->
  exists codes nt c', run st (x ++ w3 ++ comment_text cm ++ eol_text e ++ rest) l c (codes ++ [nt]) (mkLex m ms (lx_lp_seen st) (lx_call_lp st) (lx_meta st)) rest (l + 1) c'
    /\ Forall code codes /\ newline_token nt /\ (x <> [] -> codes <> []) /\ exists t, toks_text codes = x ++ t /\ Forall (fun c => In c ws_chars) t.
Proof.
  intros Hm Hs (X1 & X2 & X3) Fw Hc. destruct (blank_ok w3 Fw) as (W1 & W2 & W3).
  assert (NL : forall y tt, exists c', run st (eol_text y ++ rest) l tt [mkTok T_NEW_LINE CH_DEFAULT (eol_text y) (eol_text y) l tt] (mkLex m ms (lx_lp_seen st) (lx_call_lp st) (lx_meta st)) rest (l + 1) c').
  { intros y tt. destruct (run_tok st (eol_text y) rest l tt R_DB_NEW_LINE (mkLex m ms (lx_lp_seen st) (lx_call_lp st) (lx_meta st)) (Emit T_NEW_LINE CH_DEFAULT (eol_text y))) as (c' & R).
    - destruct y; discriminate.
    - rewrite Hm. apply rule_db_eol.
    - cbn [rule_act]. unfold pop_mode. rewrite Hs. reflexivity.
    - exists c'. assert (EL : count_nl (eol_text y) = 1) by (destruct y; reflexivity). rewrite EL in R. exact R. }
  destruct (x ++ w3 ++ comment_text cm) as [|a z] eqn:EX.
  - assert (x = [] /\ w3 = [] /\ comment_text cm = []) as (-> & -> & EC) by (destruct x; [destruct w3; [destruct (comment_text cm); [auto|discriminate]|discriminate]|discriminate]).
    rewrite EC. cbn [app]. destruct (NL e c) as (c' & R). exists [], (mkTok T_NEW_LINE CH_DEFAULT (eol_text e) (eol_text e) l c), c'. split; [exact R|]. repeat split; [constructor|auto|]. exists []. repeat split. constructor.
  - set (X := x ++ w3 ++ comment_text cm ++ crs e). assert (HX : X <> []) by (unfold X; intros E; rewrite !app_assoc in E; apply app_eq_nil in E as [E _]; rewrite <- app_assoc in E; congruence).
    assert (XW : ~ occurs $"//" (x ++ w3)) by (apply no_slashes_app; [assumption|assumption|apply X3]).
    assert (XE : forall y, x ++ w3 <> y ++ ["/"%char]).
    { intros y E. destruct w3 as [|d w3 _] using rev_ind; [rewrite app_nil_r in E; exact (proj1 (X3 y) E)|]. rewrite app_assoc in E. apply app_inj_tail in E as [_ ->]. exact (W3 w3 eq_refl). }
    assert (HF : Forall (fun c => ~ In c [bs; dq; nl]) X).
    { unfold X. repeat (apply Forall_app; split).
      - apply run_no_cr, X1.
      - apply run_no_cr, W1.
      - destruct cm as [t|]; cbn [comment_text]; [|constructor]. destruct Hc as [_ Hc]. repeat constructor; try (cbn; intuition discriminate). eapply Forall_impl; [|exact Hc]. cbn. tauto.
      - destruct e; repeat constructor. cbn. intuition discriminate. }
    assert (HB : best_rule (mode_rules DEFINE_BODY_MODE) (X ++ nl :: rest) None = Some (R_DB_CODE, length X)).
    { apply rule_db_code; [exact HX|exact HF|left; eauto| | |].
      - intros t E. destruct x as [|d x].
        + destruct w3 as [|d w3]; [|unfold X in E; cbn in E; injection E as -> _; inversion Fw as [|? ? [H|H] _]; discriminate].
          destruct cm as [t0|]; [destruct Hc; congruence|]. cbn in EX. discriminate.
        + unfold X in E. destruct x as [|d2 x]; cbn [app] in E.
          * injection E as -> _. apply (proj1 (X3 [])). reflexivity.
          * injection E as -> -> _. apply X2. exists [], x. reflexivity.
      - intros t E. unfold X in E. destruct x as [|d x].
        + destruct w3 as [|d w3]; [|cbn in E; injection E as -> _; inversion Fw as [|? ? [H|H] _]; discriminate].
          destruct cm as [t0|]; [destruct Hc; congruence|]. cbn in EX. discriminate.
        + cbn in E. injection E as -> _. inversion X1; subst. cbn in *. tauto.
      - intros E. unfold X in E. destruct x as [|d x].
        + destruct w3 as [|d w3]; [|cbn in E; injection E as -> _; inversion Fw as [|? ? [H|H] _]; discriminate].
          destruct cm as [t0|]; [destruct Hc; congruence|]. cbn in EX. discriminate.
        + cbn in E. injection E as -> E. apply app_eq_nil in E as [-> _]. apply (proj1 (X3 [])). reflexivity. }
    assert (TX : exists t, set_text X (cut_off_line_comment X) = x ++ t /\ Forall (fun c => In c ws_chars) t /\ x ++ t <> []).
    { assert (FB : Forall (fun c => In c ws_chars) w3) by (eapply Forall_impl; [|exact Fw]; intros d [->| ->]; cbn; tauto).
      destruct cm as [t0|]; cbn [comment_text] in X.
      - exists w3. destruct Hc as [Hw _]. assert (N : x ++ w3 <> []) by (destruct x; [exact Hw|discriminate]). split; [|split; [exact FB|exact N]].
        unfold X. rewrite app_assoc, <- (app_assoc $"//"). rewrite cut_at by assumption. destruct (x ++ w3); [congruence|reflexivity].
      - exists (w3 ++ crs e). assert (N : x ++ w3 ++ crs e <> []) by exact HX. split; [|split; [apply Forall_app; split; [exact FB|destruct e; repeat constructor; cbn; tauto]|exact N]].
        assert (EQ : cut_off_line_comment X = X). { apply cut_none. unfold X. cbn [app]. rewrite app_assoc. destruct e; cbn [crs]; [rewrite app_nil_r; exact XW|]. apply no_slashes_app; [exact XW| |exact XE]. intros (u & v & E). destruct u as [|? [|? ?]]; discriminate. }
        rewrite EQ. destruct X eqn:EE; [congruence|]. unfold set_text. rewrite <- EE. unfold X. reflexivity. }
    destruct TX as (t & TX & Ft & Nt).
    destruct (run_tok st X (nl :: rest) l c R_DB_CODE st (Emit T_CODE CH_DEFAULT (set_text X (cut_off_line_comment X))) HX ltac:(rewrite Hm; exact HB) eq_refl) as (c1 & R1).
    rewrite no_nl_count, Nat.add_0_r in R1 by (intros HI; rewrite Forall_forall in HF; apply (HF _ HI); cbn; tauto).
    destruct (NL Lf c1) as (c2 & R2). cbn [eol_text app] in R2.
    exists [mkTok T_CODE CH_DEFAULT (set_text X (cut_off_line_comment X)) X l c], (mkTok T_NEW_LINE CH_DEFAULT [nl] [nl] l c1), c2. split.
    + replace (x ++ w3 ++ comment_text cm ++ eol_text e ++ rest) with (X ++ nl :: rest) by (unfold X; rewrite eol_crs, <- !app_assoc; reflexivity). eapply run_app; [exact R1|exact R2].
    + repeat split; [|discriminate|].
      * constructor; [|constructor]. repeat split. cbn [tk_text]. rewrite TX. exact Nt.
      * exists t. split; [|exact Ft]. unfold toks_text. cbn [map List.concat tk_text]. rewrite app_nil_r. exact TX.
Qed.
Lemma toks_text_app a b : toks_text (a ++ b) = toks_text a ++ toks_text b.
Proof. unfold toks_text. rewrite map_app, concat_app. reflexivity. Qed.
Lemma body_run st m ms s w3 cm e rest c l : lx_mode st = DEFINE_BODY_MODE -> lx_stack st = m :: ms -> dbody s -> Forall blank w3 -> comment_ok w3 cm ->
  exists codes nt c', run st (s ++ w3 ++ comment_text cm ++ eol_text e ++ rest) l c (codes ++ [nt]) (mkLex m ms (lx_lp_seen st) (lx_call_lp st) (lx_meta st)) rest (l + 1) c'
    /\ Forall code codes /\ newline_token nt /\ (s <> [] -> codes <> []) /\ exists t, toks_text codes = s ++ t /\ Forall (fun c => In c ws_chars) t.
Proof.
  intros Hm Hs Hb Fw Hc. revert c. induction Hb as [x Hx|x b s Hx Hb Hn Hbt Hd IH]; intros c; [apply tail_run; assumption|].
  rewrite <- !app_assoc. set (more := s ++ w3 ++ comment_text cm ++ eol_text e ++ rest) in *.
  assert (S1 : forall c, exists codes nt c', run st ((dq :: b ++ [dq]) ++ more) l c (codes ++ [nt]) (mkLex m ms (lx_lp_seen st) (lx_call_lp st) (lx_meta st)) rest (l + 1) c'
    /\ Forall code codes /\ newline_token nt /\ codes <> [] /\ exists t, toks_text codes = (dq :: b ++ [dq]) ++ s ++ t /\ Forall (fun c => In c ws_chars) t).
  { intros c0. destruct (run_tok st (dq :: b ++ [dq]) more l c0 R_DB_STR st (Emit T_CODE CH_DEFAULT (dq :: b ++ [dq]))) as (c1 & R1); [discriminate|rewrite Hm; apply rule_db_str; assumption|reflexivity|].
    rewrite no_nl_count, Nat.add_0_r in R1 by (intros [HI|HI]; [discriminate|]; apply in_app_or in HI as [HI|[HI|[]]]; [exact (string_body_nl b Hb HI)|discriminate]).
    destruct (IH c1) as (codes & nt & c2 & R2 & F & Hnt & _ & t & Et & Ft). exists (mkTok T_CODE CH_DEFAULT (dq :: b ++ [dq]) (dq :: b ++ [dq]) l c0 :: codes), nt, c2. split; [|split; [|split; [exact Hnt|split; [discriminate|]]]].
    - exact (run_app _ _ _ _ _ _ _ _ _ _ _ _ _ _ R1 R2).
    - constructor; [repeat split; discriminate|exact F].
    - exists t. split; [|exact Ft]. rewrite <- Et. reflexivity. }
  destruct x as [|a x'].
  - destruct (S1 c) as (codes & nt & c' & R & F & Hnt & HN & t & Et & Ft). exists codes, nt, c'. cbn [app]. split; [exact R|]. split; [exact F|]. split; [exact Hnt|]. split; [auto|]. exists t. split; [|exact Ft]. rewrite Et. cbn [app]. rewrite <- !app_assoc. reflexivity.
  - set (x := a :: x') in *. destruct Hx as (X1 & X2 & X3).
    destruct (run_tok st x ((dq :: b ++ [dq]) ++ more) l c R_DB_CODE st (Emit T_CODE CH_DEFAULT x)) as (c1 & R1).
    + discriminate.
    + rewrite Hm. apply rule_db_code; [discriminate|apply run_no_cr, X1|right; split; [eexists; reflexivity|intros y; apply X3]| | |].
      * intros t E. apply X2. exists [], t. exact E.
      * intros t E. unfold x in E. cbn in E. injection E as -> _. inversion X1; subst. cbn in *. tauto.
      * intros E. apply (proj1 (X3 [])). exact E.
    + cbn [rule_act]. rewrite cut_none by exact X2. reflexivity.
    + rewrite no_nl_count, Nat.add_0_r in R1 by (apply run_chars_nl, X1).
      destruct (S1 c1) as (codes & nt & c2 & R2 & F & Hnt & HN & t & Et & Ft). exists (mkTok T_CODE CH_DEFAULT x x l c :: codes), nt, c2. split; [|split; [|split; [exact Hnt|split; [discriminate|]]]].
      * exact (run_app _ _ _ _ _ _ _ _ _ _ _ _ _ _ R1 R2).
      * constructor; [repeat split; discriminate|exact F].
      * exists t. split; [|exact Ft]. change (toks_text (mkTok T_CODE CH_DEFAULT x x l c :: codes)) with (x ++ toks_text codes). rewrite Et, <- !app_assoc. cbn [app]. rewrite <- !app_assoc. reflexivity.
Qed.
