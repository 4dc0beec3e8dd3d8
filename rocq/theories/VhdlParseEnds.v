(** The VHDL parser ends: with the fuel that the model gives to them, the rules of VhdlSyntaxModel.v, VhdlStmSyntaxModel.v
    and VhdlUnitSyntaxModel.v accept or reject every sequence of tokens.  [ends k u o]: o is no lack of fuel and no
    undefined behaviour, and if it is a result, at least k of the tokens u are read. *)
From Coq Require Import Lia List.
From Verif Require Import Base AstModel StmModel LitModel SvExprModel SvStmModel VhdlExprModel VhdlStmModel VhdlDeclModel VhdlSyntaxModel VhdlLexModel.
Import ListNotations.

Definition ends {A T : Type} (k : nat) (u : list T) (o : outcome (A * list T)) : Prop :=
  match o with Ok (_, r) => length r + k <= length u | Throw _ => True | UB _ | OutOfFuel => False end.
Lemma ends_bind {A B T : Type} k (u : list T) (m : outcome (A * list T)) j (ts : list T) (f : A * list T -> outcome (B * list T)) :
  ends k u m -> (forall a r, length r + k <= length u -> ends j ts (f (a, r))) -> ends j ts (bind m f).
Proof. intros H F. destruct m as [[a r]| | |]; cbn [bind]; try exact H; try exact I. exact (F a r H). Qed.
Lemma ends_last {A T : Type} k (u : list T) (o : outcome (A * list T)) j (ts : list T) : ends k u o -> length u + j <= length ts + k -> ends j ts o.
Proof. destruct o as [[a r]| | |]; cbn [ends]; auto. lia. Qed.
Ltac len := cbn [length] in *; lia.

(** ** Expressions *)
Definition all_end (f : nat) : Prop :=
  (forall p ts, 5 * length ts + 3 <= f -> ends 1 ts (p_exp f p ts)) /\
  (forall p a ts, 5 * length ts + 1 <= f -> ends 0 ts (p_eloop f p a ts)) /\
  (forall p ts, 5 * length ts + 2 <= f -> ends 1 ts (p_simple f p ts)) /\
  (forall p a ts, 5 * length ts + 1 <= f -> ends 0 ts (p_sloop f p a ts)) /\
  (forall ts, 5 * length ts + 1 <= f -> ends 1 ts (p_prim f ts)) /\
  (forall n ts, 5 * length ts + 1 <= f -> ends 0 ts (p_name f n ts)) /\
  (forall a ts, 5 * length ts + 1 <= f -> ends 0 ts (p_actual f a ts)) /\
  (forall ts, 5 * length ts + 1 <= f -> ends 1 ts (p_more f ts)) /\
  (forall ts, 5 * length ts + 5 <= f -> ends 1 ts (p_elems f ts)) /\
  (forall cs ts, 5 * length ts + 4 <= f -> ends 1 ts (p_elem f cs ts)) /\
  (forall cs ts, 5 * length ts + 1 <= f -> ends 1 ts (p_choice f cs ts)).
Ltac call := match goal with
  | H : forall ts, _ -> ends _ ts (r_prim ?s ts) |- ends _ _ (r_prim ?s _) => apply H
  | H : forall p ts, _ -> ends _ ts (r_exp ?s p ts) |- ends _ _ (r_exp ?s _ _) => apply H
  | H : forall p a ts, _ -> ends _ ts (r_eloop ?s p a ts) |- ends _ _ (r_eloop ?s _ _ _) => apply H
  | H : forall p ts, _ -> ends _ ts (r_simple ?s p ts) |- ends _ _ (r_simple ?s _ _) => apply H
  | H : forall p a ts, _ -> ends _ ts (r_sloop ?s p a ts) |- ends _ _ (r_sloop ?s _ _ _) => apply H
  | H : forall n ts, _ -> ends _ ts (r_name ?s n ts) |- ends _ _ (r_name ?s _ _) => apply H
  | H : forall n ts, _ -> ends _ ts (r_actual ?s n ts) |- ends _ _ (r_actual ?s _ _) => apply H
  | H : forall ts, _ -> ends _ ts (r_more ?s ts) |- ends _ _ (r_more ?s _) => apply H
  | H : forall ts, _ -> ends _ ts (r_elems ?s ts) |- ends _ _ (r_elems ?s _) => apply H
  | H : forall cs ts, _ -> ends _ ts (r_elem ?s cs ts) |- ends _ _ (r_elem ?s _ _) => apply H
  | H : forall cs ts, _ -> ends _ ts (r_choice ?s cs ts) |- ends _ _ (r_choice ?s _ _) => apply H
  end; len.
Ltac bound := eapply ends_bind; [call|let a := fresh "a" in let r := fresh "r" in let L := fresh "L" in intros a r L; cbn beta iota].
Ltac last := eapply ends_last; [call|len].
Ltac done := first [exact I | (cbn [ends]; len) | last].
Lemma rules_end f : all_end f.
Proof.
  induction f as [|f (IE & IEL & IS & ISL & IP & IN & IA & IM & IES & IEM & IC)]; [repeat split; intros; len|].
  repeat split; intros; cbn [run r_exp r_eloop r_simple r_sloop r_prim r_name r_actual r_more r_elems r_elem r_choice].
  - unfold exp_rule. assert (B : ends 1 ts ('(e, r') <- p_simple f 0 ts ;; p_eloop f p e r')) by (bound; last). destruct ts as [|t ts]; [exact B|]. destruct t; try exact B. bound. last.
  - unfold eloop_rule. destruct ts as [|t ts]; [done|]. destruct t; try done; match goal with |- context [if ?b then _ else _] => destruct b; [|done] end; bound; last.
  - unfold simple_rule.
    assert (B : ends 1 ts ('(a, r') <- p_prim f ts ;; match r' with KPow :: r2 => '(b, r3) <- p_prim f r2 ;; p_sloop f p (HPow a b) r3 | _ => p_sloop f p a r' end)).
    { bound. destruct r as [|t r]; [last|]. destruct t; try last. bound. last. }
    destruct ts as [|t ts]; [exact B|]. destruct t; try exact B; try (bound; last). destruct o; try exact B; bound; last.
  - unfold sloop_rule. destruct ts as [|t ts]; [done|]. destruct t; try done; match goal with |- context [if ?b then _ else _] => destruct b; [|done] end; bound; last.
  - unfold prim_rule. destruct ts as [|t ts]; [exact I|]. destruct t; try done.
    + bound. assert (B : ends 1 (KLit l :: ts) (Ok (a, r))) by done. destruct r as [|t r]; [exact B|]. destruct t; try exact B. destruct r as [|t r]; [exact B|]. destruct t; try exact B. bound. done.
    + assert (B : ends 1 (KDec t :: ts) (Ok (HNum false t None, ts))) by done. destruct ts as [|u ts]; [exact B|]. destruct u; try exact B. bound. done.
    + assert (B : ends 1 (KBasedLit t :: ts) (Ok (HNum true t None, ts))) by done. destruct ts as [|u ts]; [exact B|]. destruct u; try exact B. bound. done.
    + bound. done.
  - unfold name_rule. assert (Z : ends 0 ts (Ok (n, ts))) by done. destruct ts as [|t ts]; [exact Z|]. destruct t; try exact Z.
    + clear Z. assert (B : ends 0 (KLp :: ts) ('(a, r1) <- p_exp f 0 ts ;;
      match r1 with
      | KDir d :: r2 =>
          if is_simple a then
            '(b, r3) <- p_simple f 0 r2 ;;
            match r3 with KRp :: r4 => p_name f (HSlice n a d b) r4 | _ => no_vparse end
          else no_vparse
      | _ => '(x, r2) <- p_actual f a r1 ;; '(l, r3) <- p_more f r2 ;; p_name f (HApply n (x :: l)) r3
      end)).
      { bound. assert (C : ends 0 (KLp :: ts) ('(x, r2) <- p_actual f a r ;; '(l, r3) <- p_more f r2 ;; p_name f (HApply n (x :: l)) r3)) by (bound; bound; last).
        destruct r as [|t r]; [exact C|]. destruct t; try exact C. destruct (is_simple a); [|exact I]. bound. destruct r0 as [|t r0]; [exact I|]. destruct t; try exact I. last. }
      destruct ts as [|t ts]; [exact B|]. destruct t; try exact B. bound. last.
    + destruct ts as [|t ts]; [exact I|]. destruct t; try exact I; last.
    + destruct ts as [|t ts]; [exact Z|]. destruct t; try exact Z. destruct l; try exact Z. last.
  - unfold actual_rule. destruct ts as [|t ts]; [done|]. destruct t; try done.
    assert (B : ends 0 (KArrow :: ts) (if is_name a then '(e, r') <- p_exp f 0 ts ;; Ok (Assoc (Some (a, None)) (Act (D_expr false e)), r') else no_vparse)) by (destruct (is_name a); [bound; done|exact I]).
    destruct ts as [|t ts]; [exact B|]. destruct t; try exact B. destruct (is_name a); done.
  - unfold more_rule. destruct ts as [|t ts]; [exact I|]. destruct t; try done.
    assert (B : ends 1 (KComma :: ts) ('(a, r1) <- p_exp f 0 ts ;; '(x, r2) <- p_actual f a r1 ;; '(l, r3) <- p_more f r2 ;; Ok (x :: l, r3))) by (bound; bound; bound; done).
    destruct ts as [|t ts]; [exact B|]. destruct t; try exact B. bound. done.
  - unfold elems_rule. bound. destruct r as [|t r]; [exact I|]. destruct t; try done. bound. done.
  - unfold elem_rule.
    assert (B : ends 1 ts ('(a, r1) <- p_exp f 0 ts ;;
      match r1 with
      | KDir d :: r2 => if is_simple a then '(b, r3) <- p_simple f 0 r2 ;; p_choice f (cs ++ [Ch (R_explicit a d b)]) r3 else no_vparse
      | KArrow :: _ | KBar :: _ => if is_simple a then p_choice f (cs ++ [Ch (R_name a)]) r1 else no_vparse
      | _ => match cs with [] => Ok (([], a), r1) | _ => no_vparse end
      end)).
    { bound. assert (C : ends 1 ts (match cs with [] => Ok ((@nil (hchoice hexpr), a), r) | _ => no_vparse end)) by (destruct cs; done). destruct r as [|t r]; [exact C|]. destruct t; try exact C; (destruct (is_simple a); [|exact I]); try last. bound. last. }
    destruct ts as [|t ts]; [exact B|]. destruct t; try exact B. last.
  - unfold choice_rule. destruct ts as [|t ts]; [exact I|]. destruct t; try done. bound. done.
Qed.
Lemma vexpr_ends ts : (exists e, parse_vhdl_expression ts = Ok e) \/ exists x, parse_vhdl_expression ts = Throw x.
Proof.
  unfold parse_vhdl_expression. destruct (rules_end (12 * length ts + 12)) as (IE & _). specialize (IE 0 ts ltac:(len)). destruct (p_exp (12 * length ts + 12) 0 ts) as [[e [|t r]]|x| |]; cbn [bind ends] in *; try contradiction; [left|right|right]; unfold no_vparse; eauto.
Qed.
