(** The tokens of the text of a file. *)
From Verif Require Import Base BaseFacts StrSpec AstModel LitModel SvExprModel SvSyntaxModel VhdlLexModel VhdlLexSpec SvLexModel SvLexSpec SvSpellSpec SvTextProofs SvCoverProofs SvStmSyntaxModel SvStmSpellSpec SvStmTextProofs SvModSyntaxModel SvModSpellSpec.

Lemma listed_word w (l l' : list str) : In w l -> listed w (l ++ l') = true.
Proof. intros I. unfold listed. apply existsb_exists. exists w. split; [apply in_app_iff; left; exact I|apply seqb_eq; reflexivity]. Qed.
Lemma token_word v w : In w (reserved_words v) -> token_for v (T_word w) = (S_KW w, w).
Proof. intros I. unfold token_for. rewrite (listed_word w (reserved_words v) special_words I). reflexivity. Qed.
Lemma modtok_kw k s : In k (map fst kw_table ++ [ $"sample"; $"randomize"; $"type_option"; $"option"; $"std"; $"null" ]) -> modtok_of (S_KW k, s) = option_map Y (stmtok_of (S_KW k, s)).
Proof. intros I. repeat (destruct I as [<-|I]; [reflexivity|]). destruct I. Qed.
Lemma modtok_y (t : skind * str) (x : stk) : stmtok_of t = Some x -> modtok_of t = Some (Y x).
Proof.
  intros H. destruct t as [k s]. destruct k; try (unfold modtok_of; cbn [fst]; rewrite H; reflexivity).
  rewrite modtok_kw; [rewrite H; reflexivity|]. unfold stmtok_of in H. cbn [fst snd] in H. apply in_app_iff. destruct (assoc_str _ kw_table) eqn:E; [left; exact (assoc_key _ _ _ E)|right]. unfold stok_of in H. cbn [fst snd] in H.
  destruct (existsb _ _) eqn:F.
  - apply existsb_exists in F as (w & I & F). apply seqb_eq in F. subst w. repeat (destruct I as [<-|I]; [cbn [In]; tauto|]). destruct I.
  - destruct (seqb _ _) eqn:N in H; [|discriminate H]. apply seqb_eq in N. subst. cbn [In]. tauto.
Qed.
Lemma modtok_spells v t l : spells_mtk v t l -> modtok_of (token_for v l) = Some t.
Proof.
  destruct t; cbn [spells_mtk]; intros H.
  - apply modtok_y, (stmtok_spells v t l H).
  - destruct H as [-> I]. rewrite (token_word v _ I). destruct k; reflexivity.
  - destruct H as (-> & T & I). rewrite (token_word v _ I). repeat (destruct T as [<-|T]; [reflexivity|]). destruct T.
  - destruct H as (-> & T & I). rewrite (token_word v _ I). repeat (destruct T as [<-|T]; [reflexivity|]). destruct T.
  - destruct H as (-> & T & I). rewrite (token_word v _ I). repeat (destruct T as [<-|T]; [reflexivity|]). destruct T.
  - destruct H as (-> & T & I). rewrite (token_word v _ I). repeat (destruct T as [<-|T]; [reflexivity|]). destruct T.
Qed.
Theorem spelled_mod_toks v ts ls : spelled_mod v ts ls -> modtoks_of (map (token_for v) ls) = Some ts.
Proof. induction 1 as [|t l ts ls H _ IH]; [reflexivity|]. cbn [map modtoks_of]. rewrite (modtok_spells v t l H), IH. reflexivity. Qed.
