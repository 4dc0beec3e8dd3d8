(** Safety of the preprocessor lexer: the mode stack is never empty when a mode is left, and the
    only assertion that can fail is the one on a second parenthesis in a macro parameter list. *)
From Verif Require Import Base BaseFacts RegexModel PpLexerModel PpLexProofs.

Definition LP_ASSERT : string := "assert(!define_param_LP_seen)".

(** Shape of the mode stack in every reachable lexer state. *)
Definition lex_inv (st : lexst) : Prop :=
  match lx_mode st with
  | DEFAULT_MODE => lx_stack st = []
  | EXPR_MODE =>
      (lx_stack st = [DEFINE_MODE; DEFAULT_MODE] /\ em_reenter (lx_meta st) = false
       /\ em_exit_parent (lx_meta st) = true /\ em_next (lx_meta st) = Some DEFINE_BODY_MODE)
      \/ (lx_stack st = [MACRO_ARG_LIST_MODE; DEFAULT_MODE] /\ em_reenter (lx_meta st) = true
          /\ em_exit_parent (lx_meta st) = true /\ em_next (lx_meta st) = None)
  | MACRO_ARG_LIST_MODE => False
  | _ => lx_stack st = [DEFAULT_MODE]
  end.

Lemma rule_act_safe r st s : lex_inv st -> In r (mode_rules (lx_mode st)) ->
  match rule_act r st s with
  | Ok (st', _) => lex_inv st'
  | UB w => w = LP_ASSERT
  | _ => False
  end.
Proof.
  destruct st as [m stk lp clp [par br sq re ex nx]]. unfold lex_inv. cbn [lx_mode lx_stack lx_meta em_reenter em_exit_parent em_next].
  intros HI HR. destruct m; cbn [mode_rules] in HR; try contradiction;
    repeat (destruct HR as [<-|HR]; [|]); try contradiction;
    try (subst stk; cbn; destruct lp; cbn; auto; fail);
    try (subst stk; cbn; tauto).
  all: destruct HI as [(-> & -> & -> & ->)|(-> & -> & -> & ->)]; cbn; try tauto; try (left; auto; fail); try (right; auto; fail).
  all: try (destruct (no_brace_active _); cbn; auto; fail).
  all: try (destruct par; cbn; auto; fail).
  all: try (destruct (no_brace_active (mkMeta par br sq _ _ _)); cbn; auto 6; fail).
Qed.

Lemma lex_loop_safe : forall fuel st s line col, length s <= fuel -> lex_inv st ->
  match lex_loop fuel st s line col with
  | Ok _ => True
  | Throw e => e = syntax_error
  | UB w => w = LP_ASSERT
  | OutOfFuel => False
  end.
Proof.
  induction fuel as [|fuel IH]; intros st s line col L HI.
  - destruct s; [exact I|cbn in L; lia].
  - destruct s as [|c s]; [exact I|]. rewrite lex_loop_S.
    destruct (best_rule (mode_rules (lx_mode st)) (c :: s) None) as [[r [|n]]|] eqn:E; try reflexivity.
    pose proof (rule_act_safe r st (firstn (S n) (c :: s)) HI (best_rule_In _ _ _ _ E)) as HA.
    destruct (rule_act r st (firstn (S n) (c :: s))) as [[st' e]|e|w|]; cbn [bind]; try contradiction; try exact HA.
    destruct (advance (firstn (S n) (c :: s)) line col) as [l' c'].
    specialize (IH st' (skipn (S n) (c :: s)) l' c'). rewrite skipn_length in IH. cbn [length] in *.
    specialize (IH ltac:(lia) HA).
    destruct (lex_loop fuel st' (skipn (S n) (c :: s)) l' c') as [ts|e'|w|]; cbn [bind]; try exact IH.
Qed.
Lemma lex_safe s : match lex s with
  | Ok _ => True | Throw e => e = syntax_error | UB w => w = LP_ASSERT | OutOfFuel => False end.
Proof. apply lex_loop_safe; [lia|reflexivity]. Qed.
