(** The lexical elements of a VHDL statement are read as its tokens. *)
From Verif Require Import Base BaseFacts StrSpec AstModel StmModel LitModel SvExprModel VhdlExprModel VhdlStmModel VhdlSyntaxModel VhdlLexModel VhdlLexSpec VhdlSpellSpec VhdlCoverProofs VhdlTextProofs VhdlStmSyntaxModel VhdlStmSpellSpec.

Lemma hkw_reserved k : In (hkw_text k) reserved.
Proof. assert (H : existsb (seqb (hkw_text k)) reserved = true) by (destruct k; vm_compute; reflexivity). apply existsb_exists in H as (x & I & E). apply seqb_eq in E as ->. exact I. Qed.
Lemma hkw_read k w : vhstk_of false (V_KW (hkw_text k), w) = Some (Kw k).
Proof. destruct k; reflexivity. Qed.
Lemma hstk_spells tick t l : spells_hstk tick t l -> vhstk_of tick (token_of l) = Some t /\ ticks l = match t with X KTick => true | _ => false end.
Proof.
  destruct t as [x| | | | |k|]; cbn [spells_hstk]; intros H; try (subst l; destruct tick; split; reflexivity).
  - destruct (spells_tok tick x l H) as (H1 & H2). unfold vhstk_of. rewrite H1. split; [reflexivity|]. rewrite H2. destruct x; reflexivity.
  - destruct H as (-> & w & -> & E). split; [|reflexivity]. assert (ET : token_of (L_word w) = (V_KW (map small w), w)).
    { unfold token_of. rewrite E. assert (G : existsb (seqb (hkw_text k)) reserved = true) by (apply existsb_exists; exists (hkw_text k); split; [apply hkw_reserved|apply seqb_refl]). rewrite G. reflexivity. }
    rewrite ET, E. apply hkw_read.
Qed.
Theorem spelled_hstm_toks tick ts ls : spelled_hstm tick ts ls -> vhstks_of tick (map token_of ls) = Some ts.
Proof.
  induction 1 as [tick|tick t l ts ls H _ IH]; [reflexivity|]. destruct (hstk_spells tick t l H) as (H1 & H2). cbn [map vhstks_of]. rewrite H1, token_ticks, H2, IH. reflexivity.
Qed.
