(** The parsers of VHDL statements and design files end: see VhdlParseEnds.v. *)
From Coq Require Import Lia List.
From Verif Require Import Base AstModel StmModel LitModel SvExprModel SvStmModel VhdlExprModel VhdlStmModel VhdlDeclModel VhdlSyntaxModel VhdlLexModel VhdlParseEnds VhdlStmSyntaxModel VhdlUnitSyntaxModel.
Import ListNotations.

(** ** Helpers *)
Lemma expect_bind {B : Type} k ts j (u : list hstk) (f : list hstk -> outcome (B * list hstk)) : (forall r, length r + 1 <= length ts -> ends j u (f r)) -> ends j u (bind (expect k ts) f).
Proof. intros F. unfold expect. destruct ts as [|t ts]; [exact I|]. destruct t; try exact I. destruct (hkw_beq k k0); [|exact I]. cbn [bind]. apply F. len. Qed.
Lemma colon_bind {B : Type} ts j (u : list hstk) (f : list hstk -> outcome (B * list hstk)) : (forall r, length r + 1 <= length ts -> ends j u (f r)) -> ends j u (bind (p_colon ts) f).
Proof. intros F. unfold p_colon. destruct ts as [|t ts]; [exact I|]. destruct t; try exact I. cbn [bind]. apply F. len. Qed.
Lemma rp_bind {B : Type} ts j (u : list hstk) (f : list hstk -> outcome (B * list hstk)) : (forall r, length r + 1 <= length ts -> ends j u (f r)) -> ends j u (bind (p_rp ts) f).
Proof. intros F. unfold p_rp. destruct ts as [|t ts]; [exact I|]. destruct t as [t| | | | | |]; try exact I. destruct t; try exact I. cbn [bind]. apply F. len. Qed.
Lemma skip_len k ts : length (skip k ts) <= length ts.
Proof. unfold skip. destruct ts as [|t ts]; [apply le_n|]. destruct t; try apply le_n. destruct (hkw_beq k k0); len. Qed.
Lemma label_len ts : length (snd (opt_label ts)) <= length ts.
Proof. unfold opt_label. destruct ts as [|t ts]; [apply le_n|]. destruct t as [t| | | | | |]; try apply le_n. destruct t; try apply le_n. destruct l; try apply le_n. cbn [snd]. len. Qed.
Lemma quest_len ts : length (snd (opt_quest ts)) <= length ts.
Proof. unfold opt_quest. destruct ts as [|t ts]; [apply le_n|]. destruct t as [t| | | | | |]; try apply le_n. cbn [snd]. len. Qed.
Lemma plabel_len ts : length (snd (p_label ts)) <= length ts.
Proof.
  unfold p_label. destruct ts as [|t ts]; [apply le_n|]. destruct t as [t| | | | | |]; try apply le_n. destruct t; try apply le_n. destruct l; try apply le_n. destruct ts as [|t ts]; [apply le_n|]. destruct t; try apply le_n. cbn [snd]. len.
Qed.
Lemma mode_len ts : length (snd (p_mode ts)) <= length ts.
Proof. unfold p_mode. destruct ts as [|t ts]; [apply le_n|]. destruct t; try apply le_n. destruct k; try apply le_n; cbn [snd]; len. Qed.
Ltac known H := let T := type of H in lazymatch goal with _ : T |- _ => fail | _ => pose proof H end.
Ltac facts := repeat match goal with
  | |- context [length (skip ?k ?t)] => known (skip_len k t)
  | _ : context [length (skip ?k ?t)] |- _ => known (skip_len k t)
  | |- context [length (snd (opt_label ?t))] => known (label_len t)
  end.
Ltac lenf := facts; len.
Ltac pair_let := match goal with
  | |- ends _ _ (let '(_, _) := opt_label ?t in _) => pose proof (label_len t); destruct (opt_label t) as [? ?]; cbn [snd] in *
  | |- ends _ _ (let '(_, _) := opt_quest ?t in _) => pose proof (quest_len t); destruct (opt_quest t) as [? ?]; cbn [snd] in *
  | |- ends _ _ (let '(_, _) := p_label ?t in _) => pose proof (plabel_len t); destruct (p_label t) as [? ?]; cbn [snd] in *
  | |- ends _ _ (let '(_, _) := p_mode ?t in _) => pose proof (mode_len t); destruct (p_mode t) as [? ?]; cbn [snd] in *
  end.

Create HintDb ends.
Ltac hcall := eauto 3 with ends nocore.
#[global] Hint Extern 5 (_ <= _) => lenf : ends.
#[global] Hint Extern 5 (_ < _) => lenf : ends.
Ltac nxt := lazymatch goal with |- ends _ _ (bind _ _) => idtac end; eapply ends_bind; [solve [hcall]|let a := fresh "a" in let r := fresh "r" in let L := fresh "L" in intros a r L; cbn beta iota].
Ltac lst := eapply ends_last; [solve [hcall]|lenf].
Ltac exp := lazymatch goal with |- ends _ _ (bind (expect _ _) _) => idtac | |- ends _ _ (bind (p_colon _) _) => idtac | |- ends _ _ (bind (p_rp _) _) => idtac end; first [apply expect_bind|apply colon_bind|apply rp_bind]; let r := fresh "r" in let L := fresh "L" in intros r L.
Ltac fin := first [exact I | (cbn [ends]; lenf) | lst].
Ltac goes := repeat first [exp | pair_let | nxt]; try solve [fin].

(** ** Expressions *)
Lemma xsplit_len ts : forall a b, xsplit ts = (a, b) -> length ts = length a + length b.
Proof. induction ts as [|t ts IH]; cbn [xsplit]; intros a b H; [injection H as <- <-; reflexivity|]. destruct t; try (injection H as <- <-; reflexivity). destruct (xsplit ts) as [a' b']. injection H as <- <-. specialize (IH _ _ eq_refl). len. Qed.
Lemma e_with {A : Type} k (p : nat -> list vtok -> outcome (A * list vtok)) ts : (forall f u, 5 * length u + 5 <= f -> ends k u (p f u)) -> ends k ts (x_with p ts).
Proof.
  intros H. unfold x_with. destruct (xsplit ts) as [a b] eqn:E. apply xsplit_len in E. specialize (H (12 * length a + 12) a ltac:(len)).
  destruct (p (12 * length a + 12) a) as [[e r]| | |]; cbn [bind ends] in *; try exact H. rewrite app_length, map_length. lia.
Qed.
Lemma e_expr ts : ends 1 ts (x_expr ts).
Proof. apply e_with. intros f u L. destruct (rules_end f) as (H & _). apply H. len. Qed.
Lemma e_simple ts : ends 1 ts (x_simple ts).
Proof. apply e_with. intros f u L. destruct (rules_end f) as (_ & _ & H & _). apply H. len. Qed.
Lemma name_of_ends f u : 5 * length u + 5 <= f -> ends 1 u (name_of f u).
Proof. intros L. unfold name_of. destruct u as [|t u]; [exact I|]. destruct t; try exact I. destruct (rules_end f) as (_ & _ & _ & _ & _ & H & _). eapply ends_last; [apply H; len|len]. Qed.
Lemma e_name ts : ends 1 ts (x_name ts).
Proof. apply e_with. exact name_of_ends. Qed.
Lemma e_target ts : ends 1 ts (x_target ts).
Proof.
  apply e_with. intros f u L. pose proof (name_of_ends f u L) as B. unfold target_of. destruct u as [|t u]; [exact B|]. destruct t; try exact B. destruct (rules_end f) as (_ & _ & _ & _ & _ & _ & _ & _ & H & _).
  eapply ends_bind; [apply H; len|]. intros a r LE. cbn [ends]. len.
Qed.
#[global] Hint Resolve e_expr e_simple e_name e_target : ends.

(** ** Parts of statements *)
Lemma e_sep {A : Type} sep (item : list hstk -> outcome (A * list hstk)) : (forall ts, ends 1 ts (item ts)) -> forall f ts, length ts < f -> ends 1 ts (p_sep sep item f ts).
Proof.
  intros H. induction f as [|f IH]; intros ts L; [len|]. cbn [p_sep]. eapply ends_bind; [apply H|]. intros a r LE. destruct r as [|t r]; [fin|]. destruct (sep t); [|fin]. eapply ends_bind; [apply IH; len|]. intros l r' LE'. fin.
Qed.
Lemma e_many {A : Type} sep (item : list hstk -> outcome (A * list hstk)) ts : (forall ts, ends 1 ts (item ts)) -> ends 1 ts (p_many sep item ts).
Proof. intros H. apply e_sep; [exact H|]. apply le_n. Qed.
#[global] Hint Resolve e_many : ends.
Lemma e_semi {A : Type} (x : A) ts : ends 1 ts (p_semi x ts).
Proof. unfold p_semi. destruct ts as [|t ts]; [exact I|]. destruct t; try exact I. fin. Qed.
#[global] Hint Resolve e_semi : ends.
Lemma e_opt k ts : ends 0 ts (p_opt k ts).
Proof. unfold p_opt. destruct ts as [|t ts]; [fin|]. destruct t; try fin. destruct (hkw_beq k k0); goes. Qed.
#[global] Hint Resolve e_opt : ends.
Lemma e_welem ts : ends 1 ts (p_welem ts).
Proof. unfold p_welem. goes. Qed.
#[global] Hint Resolve e_welem : ends.
Lemma e_wave ts : ends 1 ts (p_wave ts).
Proof.
  unfold p_wave. assert (B : ends 1 ts ('(l, r) <- p_many comma p_welem ts ;; match l with x :: l' => Ok (W_elems x l', r) | [] => no_vparse end)) by (goes; destruct a; fin).
  destruct ts as [|t ts]; [exact B|]. destruct t; try exact B. destruct k; try exact B. fin.
Qed.
#[global] Hint Resolve e_wave : ends.
Lemma e_conds {A : Type} (item : list hstk -> outcome (A * list hstk)) : (forall ts, ends 1 ts (item ts)) -> forall f x ts, length ts < f -> ends 1 ts (p_conds item f x ts).
Proof.
  intros H. induction f as [|f IH]; intros x ts L; [len|]. cbn [p_conds]. goes. destruct r as [|t r]; [fin|]. destruct t; try fin. destruct k; try fin. eapply ends_bind; [apply H|]. intros y r' L'.
  destruct r' as [|t r']; [fin|]. destruct t; try fin. destruct k; try fin. eapply ends_bind; [apply IH; len|]. intros p r4 L4. fin.
Qed.
Lemma e_range any ts : ends 1 ts (p_range any ts).
Proof.
  unfold p_range. goes. assert (B : ends 1 ts (if any || is_name a then Ok (R_name a, r) else no_vparse)) by (destruct (any || is_name a); fin).
  destruct r as [|t r]; [exact B|]. destruct t as [t| | | | | |]; try exact B. destruct t; try exact B. goes.
Qed.
#[global] Hint Resolve e_range : ends.
Lemma e_choice1 ts : ends 1 ts (p_choice1 ts).
Proof. unfold p_choice1. assert (B : ends 1 ts ('(r, r1) <- p_range true ts ;; Ok (Ch r, r1))) by goes. destruct ts as [|t ts]; [exact B|]. destruct t as [t| | | | | |]; try exact B. destruct t; try exact B. fin. Qed.
#[global] Hint Resolve e_choice1 : ends.

(** ** Statements *)
Lemma e_wait ts : ends 1 ts (p_wait ts).
Proof.
  unfold p_wait. apply (ends_bind 0 ts); [|intros a r L; goes]. destruct ts as [|t ts]; [fin|]. destruct t; try fin. destruct k; try fin.
Qed.
Lemma e_assert ts : ends 1 ts (p_assert ts).
Proof. unfold p_assert. goes. Qed.
Lemma e_report ts : ends 1 ts (p_report ts).
Proof. unfold p_report. goes. Qed.
#[global] Hint Resolve e_wait e_assert e_report : ends.
Lemma e_waves ts : ends 1 ts (p_waves ts).
Proof.
  unfold p_waves. goes. destruct r as [|t r]; [fin|]. destruct t; try fin. destruct k; try fin. eapply ends_bind; [apply e_conds; [exact e_wave|apply le_n]|]. intros p r2 L2. destruct (fst p); [exact I|fin].
Qed.
#[global] Hint Resolve e_waves : ends.
Lemma e_value t ts : ends 1 ts (p_value t ts).
Proof. unfold p_value. goes. destruct r as [|x r]; [fin|]. destruct x; try fin. destruct k; try fin. eapply ends_bind; [apply e_conds; [exact e_expr|apply le_n]|]. intros p r2 L2. fin. Qed.
#[global] Hint Resolve e_value : ends.
Lemma e_assign ts : ends 1 ts (p_assign ts).
Proof.
  unfold p_assign. goes. destruct r as [|x r]; [fin|]. destruct x as [x| | | | | |]; try fin.
  - destruct x; try fin. destruct o; try fin. goes.
  - destruct (is_name a); fin.
Qed.
Lemma e_jump f ts : ends 1 ts (p_jump f ts).
Proof. unfold p_jump. goes. Qed.
Lemma e_return ts : ends 1 ts (p_return ts).
Proof. unfold p_return. assert (B : ends 1 ts ('(e, r) <- x_expr ts ;; p_semi (@J_return hstm (Some e)) r)) by goes. destruct ts as [|t ts]; [exact B|]. destruct t; try exact B. fin. Qed.
Lemma e_close k ts : ends 1 ts (p_close k ts).
Proof. unfold p_close. goes. Qed.
Lemma e_close_case ts : ends 1 ts (p_close_case ts).
Proof. unfold p_close_case. goes. Qed.
Lemma e_param ts : ends 1 ts (p_param ts).
Proof.
  unfold p_param. destruct ts as [|t ts]; [fin|]. destruct t as [x| | | | | |]; try exact I. destruct x; try exact I. destruct l; try exact I. destruct ts as [|t ts]; [exact I|]. destruct t; try exact I. destruct k; try exact I. goes.
Qed.
#[global] Hint Resolve e_assign e_jump e_return e_close e_close_case e_param : ends.
Lemma e_stms f :
  (forall ts, 4 * length ts + 3 <= f -> ends 1 ts (p_stm f ts)) /\
  (forall ts, 4 * length ts + 2 <= f -> ends 1 ts (p_item f ts)) /\
  (forall ts, 4 * length ts + 4 <= f -> ends 0 ts (p_stms f ts)) /\
  (forall ts, 4 * length ts + 1 <= f -> ends 0 ts (p_elsifs f ts)) /\
  (forall ts, 4 * length ts + 1 <= f -> ends 0 ts (p_else f ts)) /\
  (forall ts, 4 * length ts + 1 <= f -> ends 0 ts (p_alts f ts)).
Proof.
  induction f as [|f (IS & II & ISS & IE & IL & IA)]; [repeat split; intros; len|]. repeat split; intros ts L.
  - cbn [p_stm]. goes.
  - cbn [p_item]. destruct ts as [|t ts]; [exact I|]. destruct t as [x| | | | |k|]; try exact I; [destruct x; try fin|]. destruct k; try fin; goes. destruct a0; fin.
  - cbn [p_stms]. destruct (ends_seq ts); [fin|]. goes.
  - cbn [p_elsifs]. destruct ts as [|t ts]; [fin|]. destruct t as [x| | | | |k|]; try fin. destruct k; try fin. goes.
  - cbn [p_else]. destruct ts as [|t ts]; [fin|]. destruct t as [x| | | | |k|]; try fin. destruct k; try fin. goes.
  - cbn [p_alts]. destruct ts as [|t ts]; [fin|]. destruct t as [x| | | | |k|]; try fin. destruct k; try fin. goes. destruct r as [|t r]; [fin|]. destruct t as [x| | | | | |]; try exact I. destruct x; try exact I. goes.
Qed.
Lemma e_seq f ts : 4 * length ts + 4 <= f -> ends 0 ts (p_stms f ts).
Proof. apply e_stms. Qed.
#[global] Hint Resolve e_seq : ends.

(** ** Processes and concurrent assignments *)
Lemma e_sens ts : ends 0 ts (p_sens ts).
Proof.
  unfold p_sens. destruct ts as [|t ts]; [fin|]. destruct t as [x| | | | | |]; try fin. destruct x; try fin.
  assert (B : ends 0 (X KLp :: ts) ('(l, r1) <- p_many comma x_name ts ;; match r1 with X KRp :: r2 => Ok (HSens l, r2) | _ => no_vparse end)).
  { goes. destruct r as [|t r]; [exact I|]. destruct t as [x| | | | | |]; try exact I. destruct x; try exact I. fin. }
  destruct ts as [|t ts]; [exact B|]. destruct t as [x| | | | | |]; try exact B. destruct x; try exact B. destruct ts as [|t ts]; [exact B|]. destruct t as [x| | | | | |]; try exact B. destruct x; try exact B. fin.
Qed.
#[global] Hint Resolve e_sens : ends.
Lemma is_skip ts : match ts with Kw k_is :: r2 => r2 | _ => ts end = skip k_is ts.
Proof. destruct ts as [|t ts]; [reflexivity|]. destruct t as [x| | | | |k|]; try reflexivity. destruct k; reflexivity. Qed.
Lemma e_process ts : ends 1 ts (p_process ts).
Proof. unfold p_process. exp. nxt. rewrite is_skip. pose proof (skip_len k_is r0). goes. Qed.
Lemma e_selwave ts : ends 1 ts (p_selwave ts).
Proof. unfold p_selwave. goes. Qed.
#[global] Hint Resolve e_process e_selwave : ends.
Lemma e_conc ts : ends 1 ts (p_conc ts).
Proof.
  unfold p_conc.
  assert (B : ends 1 ts ('(t, r) <- x_target ts ;; match r with X (KRel O_LE) :: r1 => '(w, r2) <- p_waves r1 ;; Ok (match w with inl w => CC_wave t w | inr w => CC_cond t w end, r2) | _ => no_vparse end)).
  { goes. destruct r as [|t r]; [exact I|]. destruct t as [x| | | | | |]; try exact I. destruct x; try exact I. destruct o; try exact I. goes. }
  destruct ts as [|t ts]; [exact B|]. destruct t as [x| | | | |k|]; try exact B. destruct k; try exact B. clear B. goes.
  match goal with |- ends _ _ (match ?r with _ => _ end) => destruct r as [|t r4]; [exact I|] end. destruct t as [x| | | | | |]; try exact I. destruct x; try exact I. destruct o; try exact I. goes.
Qed.
#[global] Hint Resolve e_conc : ends.

(** ** Types and interfaces *)
Lemma e_id ts : ends 1 ts (p_id ts).
Proof. unfold p_id. destruct ts as [|t ts]; [exact I|]. destruct t as [x| | | | |k|]; try exact I. destruct x; try exact I. destruct l; try exact I. fin. Qed.
#[global] Hint Resolve e_id : ends.
Lemma e_ids ts : ends 1 ts (p_ids ts).
Proof. unfold p_ids. hcall. Qed.
Lemma e_rrange ts : ends 1 ts (p_rrange ts).
Proof.
  unfold p_rrange. goes. assert (B : ends 1 ts (if is_attr a then Ok (R_name a, r) else no_vparse)) by (destruct (is_attr a); fin).
  destruct r as [|t r]; [exact B|]. destruct t as [x| | | | |k|]; try exact B. destruct x; try exact B. goes.
Qed.
#[global] Hint Resolve e_ids e_rrange : ends.
Lemma e_rconstr ts : ends 0 ts (p_rconstr ts).
Proof. unfold p_rconstr. destruct ts as [|t ts]; [fin|]. destruct t as [x| | | | |k|]; try fin. destruct k; try fin. goes. Qed.
#[global] Hint Resolve e_rconstr : ends.
Lemma e_subtype ts : ends 1 ts (p_subtype ts).
Proof.
  unfold p_subtype. nxt. assert (B : ends 1 ts ('(c, r1) <- p_rconstr r ;; Ok (HSubtype None a c, r1))) by goes.
  destruct r as [|t r]; [exact B|]. destruct t as [x| | | | |k|]; try exact B. destruct x; try exact B. goes.
Qed.
#[global] Hint Resolve e_subtype : ends.
Lemma e_drange ts : ends 1 ts (p_drange ts).
Proof.
  unfold p_drange. nxt. assert (B : ends 1 ts (if VhdlSyntaxModel.is_name a then Ok (R_name a, r) else no_vparse)) by (destruct (VhdlSyntaxModel.is_name a); fin).
  destruct r as [|t r]; [exact B|]. destruct t as [x| | | | |k|]; try exact B; [destruct x; try exact B; goes|]. destruct k; try exact B. destruct (VhdlSyntaxModel.is_name a); goes.
Qed.
Lemma e_init ts : ends 0 ts (p_init ts).
Proof. unfold p_init. destruct ts as [|t ts]; [fin|]. destruct t; try fin. goes. Qed.
Lemma e_selected ts : ends 1 ts (p_selected ts).
Proof. unfold p_selected. nxt. destruct (is_selected a); fin. Qed.
#[global] Hint Resolve e_drange e_init e_selected : ends.
Lemma e_use ts : ends 1 ts (p_use ts).
Proof. unfold p_use. goes. Qed.
#[global] Hint Resolve e_use : ends.
Lemma e_iface ts : ends 1 ts (p_iface ts).
Proof.
  unfold p_iface.
  assert (O : forall mk r, ends 1 r ('(ns, r1) <- p_ids r ;; r2 <- p_colon r1 ;; let '(m, r3) := p_mode r2 in '(t, r4) <- p_subtype r3 ;; '(v, r5) <- p_init r4 ;; Ok (mk ns m t v : iface, r5))) by (intros mk r; goes).
  cbn beta zeta. assert (C : forall mk r, length r <= length ts -> ends 1 ts ('(ns, r1) <- p_ids r ;; r2 <- p_colon r1 ;; let '(m, r3) := p_mode r2 in '(t, r4) <- p_subtype r3 ;; '(v, r5) <- p_init r4 ;; Ok (mk ns m t v : iface, r5))).
  { intros mk r L. eapply ends_last; [apply O|len]. }
  destruct ts as [|t ts]; [apply C; len|]. destruct t as [x| | | | |k|]; try (apply C; len). destruct k; try (apply C; len). clear O C. goes.
Qed.
#[global] Hint Resolve e_iface : ends.
Lemma e_ifaces ts : ends 1 ts (p_ifaces ts).
Proof. unfold p_ifaces. destruct ts as [|t ts]; [exact I|]. destruct t as [x| | | | |k|]; try exact I. destruct x; try exact I. goes. Qed.
#[global] Hint Resolve e_ifaces : ends.
Lemma e_clause k ts : ends 0 ts (p_clause k ts).
Proof. unfold p_clause. destruct ts as [|t ts]; [fin|]. destruct t; try fin. destruct (hkw_beq k k0); goes. Qed.
Lemma e_elit ts : ends 1 ts (p_elit ts).
Proof. unfold p_elit. destruct ts as [|t ts]; [exact I|]. destruct t as [x| | | | |k|]; try exact I. destruct x; try exact I. destruct l; fin. Qed.
Lemma e_mark ts : ends 1 ts (p_mark ts).
Proof. unfold p_mark. nxt. destruct r as [|t r]; [exact I|]. destruct t as [x| | | | |k|]; try exact I. destruct k; try exact I. destruct r as [|t r]; [exact I|]. destruct t; fin. Qed.
Lemma e_relem ts : ends 1 ts (p_elem ts).
Proof. unfold p_elem. goes. Qed.
#[global] Hint Resolve e_clause e_elit e_mark e_relem : ends.
Lemma e_record f : forall ts, length ts < f -> ends 0 ts (p_record f ts).
Proof.
  induction f as [|f IH]; intros ts L; [len|]. cbn [p_record]. assert (B : ends 0 ts ('(x, r) <- p_elem ts ;; '(l, r1) <- p_record f r ;; Ok (x :: l, r1))) by goes.
  destruct ts as [|t ts]; [exact B|]. destruct t as [x| | | | |k|]; try exact B. destruct k; try exact B. fin.
Qed.
Lemma e_of ts : ends 1 ts (p_of ts).
Proof. unfold p_of. goes. Qed.
#[global] Hint Resolve e_record e_of : ends.
Lemma e_tdef ts : ends 1 ts (p_tdef ts).
Proof.
  unfold p_tdef. destruct ts as [|t ts]; [exact I|]. destruct t as [x| | | | |k|]; try exact I; [destruct x; try exact I; goes|]. destruct k; try exact I; try solve [goes].
  - destruct ts as [|t ts]; [exact I|]. destruct t as [x| | | | |k|]; try exact I. destruct x; try exact I. nxt.
    assert (B : ends 1 (Kw k_array :: X KLp :: ts) ('(l, r2) <- p_many comma p_drange ts ;; '(t, r3) <- p_of r2 ;; Ok (TD_constrained l t, r3))) by goes.
    destruct r as [|t r]; [exact B|]. destruct t as [x| | | | |k|]; try exact B. destruct k; try exact B. destruct r as [|t r]; [exact B|]. destruct t; try exact B. goes.
  - goes. destruct a; [exact I|]. goes.
Qed.
#[global] Hint Resolve e_tdef : ends.

(** ** Declarations *)
Lemma e_desig ts : ends 1 ts (p_desig ts).
Proof. unfold p_desig. destruct ts as [|t ts]; [exact I|]. destruct t as [x| | | | |k|]; try exact I. destruct x; try exact I. destruct l; fin. Qed.
Lemma e_params ts : ends 0 ts (p_params ts).
Proof. unfold p_params. destruct ts as [|t ts]; [fin|]. destruct t as [x| | | | |k|]; try fin; [destruct x; try fin|destruct k; try fin]; goes. Qed.
#[global] Hint Resolve e_desig e_params : ends.
Lemma e_function p ts : ends 1 ts (p_function p ts).
Proof. unfold p_function. goes. Qed.
#[global] Hint Resolve e_function : ends.
Lemma e_spec ts : ends 1 ts (p_spec ts).
Proof. unfold p_spec. destruct ts as [|t ts]; [fin|]. destruct t as [x| | | | |k|]; try fin. destruct k; try fin; goes. Qed.
Lemma e_component ts : ends 1 ts (p_component ts).
Proof. unfold p_component. goes. Qed.
Lemma e_typed mk ts : ends 1 ts (p_typed mk ts).
Proof. unfold p_typed. goes. Qed.
#[global] Hint Resolve e_spec e_component e_typed : ends.
Lemma e_end k ts : ends 1 ts (p_end k ts).
Proof. unfold p_end. exp. pose proof (skip_len k r). goes. Qed.
Lemma e_end_body ts : ends 1 ts (p_end_body ts).
Proof.
  unfold p_end_body. exp. set (u := match r with Kw k_package :: Kw k_body :: r1 => r1 | _ => r end). assert (LU : length u <= length r).
  { unfold u. destruct r as [|t r]; [apply le_n|]. destruct t as [x| | | | |k|]; try apply le_n. destruct k; try apply le_n. destruct r as [|t r]; [apply le_n|]. destruct t as [x| | | | |k|]; try apply le_n. destruct k; try apply le_n. len. }
  clearbody u. goes.
Qed.
Lemma e_end_sub ts : ends 1 ts (p_end_sub ts).
Proof.
  unfold p_end_sub. exp. set (u := match r with Kw (k_procedure | k_function) :: r1 => r1 | _ => r end). assert (LU : length u <= length r).
  { unfold u. destruct r as [|t r]; [apply le_n|]. destruct t as [x| | | | |k|]; try apply le_n. destruct k; try apply le_n; len. }
  clearbody u. cbn zeta. set (w := match u with X (KLit (NL_id _ | NL_op _)) :: r2 => r2 | _ => u end). assert (LW : length w <= length u).
  { unfold w. destruct u as [|t u]; [apply le_n|]. destruct t as [x| | | | |k|]; try apply le_n. destruct x; try apply le_n. destruct l; try apply le_n; len. }
  clearbody w. goes.
Qed.
#[global] Hint Resolve e_end e_end_body e_end_sub : ends.
Lemma e_simple_decl k ts : ends 1 ts (p_simple_decl k ts).
Proof.
  unfold p_simple_decl. destruct k; try exact I; try solve [goes].
  - nxt. apply (ends_bind 0 r); [|intros b u L2; goes]. destruct r as [|t r]; [fin|]. destruct t; try fin. goes.
  - nxt. assert (B : ends 1 ts (r2 <- expect k_is r ;; '(t, r3) <- p_tdef r2 ;; p_semi (DC_type a (Some t)) r3)) by goes. destruct r as [|t r]; [exact B|]. destruct t; try exact B. fin.
Qed.
#[global] Hint Resolve e_simple_decl : ends.
Lemma e_decl f : (forall p ts, 2 * length ts + 1 <= f -> ends 1 ts (p_decl f p ts)) /\ (forall p ts, 2 * length ts + 2 <= f -> ends 0 ts (p_decls f p ts)).
Proof.
  induction f as [|f (ID & IS)]; [split; intros; len|]. split; intros p ts L.
  - cbn [p_decl]. apply (ends_bind 1 ts); [|intros d r LE; destruct (allowed p d); fin].
    assert (B : ends 1 ts ('(s, r) <- p_spec ts ;;
            match r with
            | Semi :: r1 => Ok (DC_subprogram s, r1)
            | _ =>
                r1 <- expect k_is r ;; '(ds, r2) <- p_decls f In_process r1 ;; r3 <- expect k_begin r2 ;;
                '(ss, r4) <- p_stms (4 * length r3 + 4) r3 ;; '(_, r5) <- p_end_sub r4 ;; Ok (DC_body s ds ss, r5)
            end)).
    { nxt. assert (C : ends 1 ts (r1 <- expect k_is r ;; '(ds, r2) <- p_decls f In_process r1 ;; r3 <- expect k_begin r2 ;; '(ss, r4) <- p_stms (4 * length r3 + 4) r3 ;; '(_, r5) <- p_end_sub r4 ;; Ok (DC_body a ds ss, r5))) by goes.
      destruct r as [|t r]; [exact C|]. destruct t; try exact C. fin. }
    destruct ts as [|t ts]; [exact I|]. destruct t as [x| | | | |k|]; try exact I. destruct k; try exact B; try fin. clear B.
    assert (B : ends 1 (Kw k_package :: ts) ('(n, r1) <- p_id ts ;; r2 <- expect k_is r1 ;; '(ds, r3) <- p_decls f In_package r2 ;; '(_, r4) <- p_end k_package r3 ;; Ok (DC_package n None ds, r4))) by goes.
    destruct ts as [|t ts]; [exact B|]. destruct t as [x| | | | |k|]; try exact B. destruct k; try exact B. clear B. goes.
  - cbn [p_decls]. destruct (ends_decls ts); [fin|]. goes.
Qed.
Lemma e_decls f p ts : 2 * length ts + 2 <= f -> ends 0 ts (p_decls f p ts).
Proof. apply e_decl. Qed.
Lemma e_decl1 f p ts : 2 * length ts + 1 <= f -> ends 1 ts (p_decl f p ts).
Proof. apply e_decl. Qed.
#[global] Hint Resolve e_decls e_decl1 : ends.

(** ** Concurrent statements *)
Lemma e_assocs ts : ends 0 ts (p_assocs ts).
Proof. unfold p_assocs. nxt. destruct a; try exact I. destruct a; fin. Qed.
#[global] Hint Resolve e_assocs : ends.
Lemma e_map k ts : ends 0 ts (p_map k ts).
Proof. unfold p_map. destruct ts as [|t ts]; [fin|]. destruct t; try fin. destruct (hkw_beq k k0); goes. Qed.
#[global] Hint Resolve e_map : ends.
Lemma e_maps l u ts : ends 1 ts (p_maps l u ts).
Proof. unfold p_maps. goes. Qed.
Lemma e_cprocess ts : ends 1 ts (p_cprocess ts).
Proof. unfold p_cprocess. goes. Qed.
#[global] Hint Resolve e_maps e_cprocess : ends.
Lemma e_csimple l ts : ends 1 ts (p_csimple l ts).
Proof.
  unfold p_csimple.
  assert (B : ends 1 ts ('(t, r) <- x_target ts ;;
      match r with
      | X (KRel O_LE) :: _ => '(c, r1) <- p_conc ts ;; Ok (CS_simple l false (CP_assign c), r1)
      | _ => if VhdlSyntaxModel.is_name t then match l with Some l => p_maps l (IU_component false t) r | None => p_semi (CS_simple None false (CP_call t)) r end else no_vparse
      end)).
  { nxt. assert (C : ends 1 ts (if VhdlSyntaxModel.is_name a then match l with Some l => p_maps l (IU_component false a) r | None => p_semi (CS_simple None false (CP_call a)) r end else no_vparse)) by (destruct (VhdlSyntaxModel.is_name a); [destruct l|]; fin).
    destruct r as [|t r]; [exact C|]. destruct t as [x| | | | |k|]; try exact C. destruct x; try exact C. destruct o; try exact C. goes. }
  destruct ts as [|t ts]; [exact B|]. destruct t as [x| | | | |k|]; try exact B. destruct k; try exact B; clear B; goes. destruct a; fin.
Qed.
Lemma e_gparam ts : ends 1 ts (p_gparam ts).
Proof. unfold p_gparam. goes. Qed.
#[global] Hint Resolve e_csimple e_gparam : ends.
Lemma e_cstm f :
  (forall ts, 4 * length ts + 3 <= f -> ends 1 ts (p_cstm f ts)) /\
  (forall ts, 4 * length ts + 4 <= f -> ends 0 ts (p_cstms f ts)) /\
  (forall e ts, 4 * length ts + 5 <= f -> ends 0 ts (p_gbody f e ts)) /\
  (forall ts, 4 * length ts + 2 <= f -> ends 0 ts (p_gelifs f ts)) /\
  (forall ts, 4 * length ts + 2 <= f -> ends 0 ts (p_gelse f ts)) /\
  (forall ts, 4 * length ts + 2 <= f -> ends 0 ts (p_galts f ts)).
Proof.
  induction f as [|f (IS & ISS & IB & IE & IL & IA)]; [repeat split; intros; len|]. repeat split; [intros ts L|intros ts L|intros own ts L|intros ts L|intros ts L|intros ts L].
  - cbn [p_cstm]. pose proof (plabel_len ts) as LL. destruct (p_label ts) as [l u]. cbn [snd] in LL. assert (B : ends 1 ts (p_csimple l u)) by lst.
    destruct l as [l|]; [|exact B]. destruct u as [|t u]; [exact B|]. destruct t as [x| | | | |k|]; try exact B. destruct k; try exact B; clear B; cbn zeta; goes. destruct a0; fin.
  - cbn [p_cstms]. destruct (ends_seq ts); [fin|]. goes.
  - cbn [p_gbody]. destruct (starts_decls ts); goes. destruct own; goes.
  - cbn [p_gelifs]. destruct ts as [|t ts]; [fin|]. destruct t as [x| | | | |k|]; try fin. destruct k; try fin. goes.
  - cbn [p_gelse]. destruct ts as [|t ts]; [fin|]. destruct t as [x| | | | |k|]; try fin. destruct k; try fin. goes.
  - cbn [p_galts]. destruct ts as [|t ts]; [fin|]. destruct t as [x| | | | |k|]; try fin. destruct k; try fin. pair_let. nxt. destruct r as [|t r]; [fin|]. destruct t as [x| | | | | |]; try exact I. destruct x; try exact I. goes.
Qed.
Lemma e_cstms f ts : 4 * length ts + 4 <= f -> ends 0 ts (p_cstms f ts).
Proof. apply e_cstm. Qed.
#[global] Hint Resolve e_cstms : ends.

(** ** Design units *)
Lemma e_context f : forall ts, length ts < f -> ends 0 ts (p_context f ts).
Proof. induction f as [|f IH]; intros ts L; [len|]. cbn [p_context]. destruct ts as [|t ts]; [fin|]. destruct t as [x| | | | |k|]; try fin. destruct k; try fin; goes. Qed.
Lemma e_unit ts : ends 1 ts (p_unit ts).
Proof. unfold p_unit. destruct ts as [|t ts]; [exact I|]. destruct t as [x| | | | |k|]; try exact I. destruct k; try exact I; goes. destruct a; fin. Qed.
#[global] Hint Resolve e_context e_unit : ends.
Lemma e_file f : forall ts, length ts < f -> ends 0 ts (p_file f ts).
Proof. induction f as [|f IH]; intros ts L; [len|]. cbn [p_file]. destruct ts as [|t ts]; [fin|]. goes. Qed.

(** ** The whole input *)
Definition settles {A : Type} (o : outcome A) : Prop := (exists x, o = Ok x) \/ exists e, o = Throw e.
Lemma whole_settles {A B : Type} (f : A -> B) k ts o : ends k ts o -> settles (whole f o).
Proof. intros H. unfold whole. destruct o as [[a [|t r]]|e| |]; cbn [bind ends] in *; try contradiction; [left|right|right]; unfold no_vparse; eauto. Qed.
Lemma vstatement_ends ts : settles (parse_vstatement ts).
Proof. apply (whole_settles _ 1 ts). apply e_stms. len. Qed.
Lemma vprocess_ends ts : settles (parse_vprocess ts).
Proof. apply (whole_settles _ 1 ts). apply e_process. Qed.
Lemma conc_ends ts : settles (parse_conc ts).
Proof. apply (whole_settles _ 1 ts). apply e_conc. Qed.
Lemma vfile_ends ts : settles (parse_vfile ts).
Proof. apply (whole_settles _ 0 ts). apply e_file. apply le_n. Qed.
