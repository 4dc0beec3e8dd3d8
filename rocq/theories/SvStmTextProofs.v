(** The tokens of the text of a statement. *)
From Verif Require Import Base BaseFacts StrSpec AstModel LitModel SvExprModel SvSyntaxModel VhdlLexModel VhdlLexSpec SvLexModel SvLexSpec SvSpellSpec SvTextProofs SvCoverProofs SvStmSyntaxModel SvStmSpellSpec.

Lemma assoc_key {A : Type} d (l : list (str * A)) x : assoc_str d l = Some x -> In d (map fst l).
Proof. induction l as [|[k y] l IH]; [discriminate|]. cbn [assoc_str map fst]. destruct (seqb d k) eqn:E; intros H; [left; symmetry; apply seqb_eq, E|right; exact (IH H)]. Qed.
Lemma assoc_none {A : Type} d (l : list (str * A)) : ~ In d (map fst l) -> assoc_str d l = None.
Proof. induction l as [|[k y] l IH]; [reflexivity|]. cbn [assoc_str map fst]. intros N. destruct (seqb d k) eqn:E; [apply seqb_eq in E; subst; destruct N; left; reflexivity|]. apply IH. intros H. apply N. right. exact H. Qed.
Lemma stmtok_x v t l : spells v t l -> stmtok_of (token_for v l) = Some (X t).
Proof.
  intros H. apply spells_tok in H. unfold stmtok_of. rewrite H. destruct (token_for v l) as [k s]. destruct k; try reflexivity; cbn [fst snd] in *.
  - unfold stok_of in H. cbn [fst snd] in H. destruct (existsb _ _) eqn:E.
    + apply existsb_exists in E as (w & I & E). apply seqb_eq in E. subst w. repeat (destruct I as [I|I]; [subst; reflexivity|]). destruct I.
    + destruct (seqb _ _) eqn:N in H; [|discriminate H]. apply seqb_eq in N. subst. reflexivity.
  - unfold stok_of in H. cbn [fst snd] in H. apply assoc_key in H. vm_compute in H. repeat (destruct H as [H|H]; [subst; reflexivity|]). destruct H.
Qed.
Lemma stmtok_kw v k : In (kw_text k) (reserved_words v) -> stmtok_of (token_for v (T_word (kw_text k))) = Some (Kw k).
Proof.
  intros I. unfold stmtok_of, token_for. cbn [fst snd].
  assert (E : listed (kw_text k) (reserved_words v ++ special_words) = true) by (unfold listed; apply existsb_exists; exists (kw_text k); split; [apply in_app_iff; left; exact I|apply seqb_eq; reflexivity]).
  rewrite E. cbn [fst snd]. destruct k; reflexivity.
Qed.
Lemma stmtok_spells v t l : spells_stk v t l -> stmtok_of (token_for v l) = Some t.
Proof.
  destruct t; cbn [spells_stk]; intros H; try (subst l; reflexivity).
  - exact (stmtok_x v t l H).
  - subst l. destruct o; reflexivity.
  - destruct H as [-> I]. exact (stmtok_kw v k I).
Qed.
Theorem spelled_stm_toks v ts ls : spelled_stm v ts ls -> stmtoks_of (map (token_for v) ls) = Some ts.
Proof. induction 1 as [|t l ts ls H _ IH]; [reflexivity|]. cbn [map stmtoks_of]. rewrite (stmtok_spells v t l H), IH. reflexivity. Qed.
