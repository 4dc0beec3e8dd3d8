(** What the tokens say about the text: nothing is lost, and the tokens have the form of their kind. *)
From Verif Require Import Base BaseFacts AstModel LitModel SvExprModel RegexModel RegexProofs RegexPairProofs PpLexProofs StrSpec PpLexerModel PpSrcLexProofs VhdlExprModel VhdlSyntaxModel VhdlLexModel VhdlLexSpec VhdlSpellSpec VhdlLexProofs VhdlTokenProofs VhdlPickProofs VhdlQuoteProofs VhdlTextProofs.

(** ** The rule that was chosen *)
Definition below (best : option (vkind * nat)) (n : nat) : Prop := match best with Some (_, m) => m < n | None => True end.
Lemma v_best_first rs s : forall best k n, v_best rs s best = Some (k, n) ->
  (best = Some (k, n) /\ forall kr m, In kr rs -> hit s kr = Some m -> m <= n) \/
  exists pre r post, rs = pre ++ (k, r) :: post /\ hit s (k, r) = Some n /\ (forall kr m, In kr pre -> hit s kr = Some m -> m < n) /\ below best n.
Proof.
  induction rs as [|[k0 r0] rs IH]; intros best k n H; [left; split; [exact H|intros kr m []]|]. rewrite v_best_cons in H. apply IH in H as [[E L]|(pre & r & post & -> & Hh & P & B)].
  - destruct (hit s (k0, r0)) as [n0|] eqn:E0.
    + assert (R : k0 = k /\ n0 = n /\ below best n -> exists pre r post, (k0, r0) :: rs = pre ++ (k, r) :: post /\ hit s (k, r) = Some n /\ (forall kr m, In kr pre -> hit s kr = Some m -> m < n) /\ below best n).
      { intros (<- & <- & B). exists [], r0, rs. split; [reflexivity|]. split; [exact E0|]. split; [intros kr m []|exact B]. }
      destruct best as [[kb m]|]; [destruct (Nat.ltb_spec m n0) as [Lm|Lm]|].
      * injection E as E1 E2. right. apply R. cbn. repeat split; [exact E1|exact E2|lia].
      * left. split; [exact E|]. injection E as _ E2. intros kr x [<-|I] Hx; [rewrite E0 in Hx; injection Hx as <-; lia|exact (L kr x I Hx)].
      * injection E as E1 E2. right. apply R. cbn. auto.
    + left. split; [exact E|]. intros kr x [<-|I] Hx; [congruence|exact (L kr x I Hx)].
  - right. exists ((k0, r0) :: pre), r, post. split; [reflexivity|]. split; [exact Hh|].
    destruct (hit s (k0, r0)) as [n0|] eqn:E0.
    + assert (G : n0 < n /\ below best n). { destruct best as [[kb m]|]; [destruct (Nat.ltb_spec m n0) as [Lm|Lm]; cbn in *; lia|cbn in *; lia]. }
      split; [|tauto]. intros kr x [<-|I] Hx; [rewrite E0 in Hx; injection Hx as <-; tauto|exact (P kr x I Hx)].
    + split; [|exact B]. intros kr x [<-|I] Hx; [congruence|exact (P kr x I Hx)].
Qed.
(** [chosen k t rest]: a rule for k matches t, and no earlier rule matches as much. *)
Definition chosen (k : vkind) (t rest : str) : Prop :=
  t <> [] /\ exists pre r post, v_rules = pre ++ (k, r) :: post /\ M r t rest /\ forall k' r', In (k', r') pre -> allowed k' (t ++ rest) = true -> ~ M r' t rest.
Lemma v_best_chosen s k n : v_best v_rules s None = Some (k, S n) -> chosen k (firstn (S n) s) (skipn (S n) s) /\ S n <= length s.
Proof.
  intros H. apply v_best_first in H as [[E _]|(pre & r & post & E & Hh & P & _)]; [discriminate|]. destruct (hit_M _ _ _ _ Hh) as (_ & HM & L). split; [|exact L]. split.
  - destruct s; [cbn in L; lia|discriminate].
  - exists pre, r, post. split; [exact E|]. split; [exact HM|]. intros k' r' I A H. rewrite firstn_skipn in A.
    destruct (hit s (k', r')) as [m|] eqn:Em.
    + pose proof (P _ _ I Em) as Lm. unfold hit in Em. cbn [fst snd] in Em. rewrite A in Em. apply lmatch_Some in Em as (_ & _ & B). specialize (B _ L H). lia.
    + unfold hit in Em. cbn [fst snd] in Em. rewrite A in Em. exact (proj1 (lmatch_None r' s) Em (S n) L H).
Qed.
Inductive steps : list (vkind * str) -> str -> Prop :=
| st_nil : steps [] []
| st_show k t ts s : chosen k t s -> hidden k = false -> steps ts s -> steps ((k, t) :: ts) (t ++ s)
| st_hide k t ts s : chosen k t s -> hidden k = true -> steps ts s -> steps ts (t ++ s).
Definition v_next (b : option (vkind * nat)) (s : str) (next : str -> outcome (list (vkind * str))) : outcome (list (vkind * str)) :=
  match b with
  | None | Some (_, 0) => Throw (ParseException $"token recognition error")
  | Some (k, n) => rest <- next (skipn n s) ;; Ok (if hidden k then rest else (k, firstn n s) :: rest)
  end.
Lemma v_loop_S f c s : v_loop (S f) (c :: s) = v_next (v_best v_rules (c :: s) None) (c :: s) (v_loop f).
Proof. unfold v_next. reflexivity. Qed.
Lemma v_next_Ok b s next ts : v_next b s next = Ok ts -> exists k n ts', b = Some (k, S n) /\ next (skipn (S n) s) = Ok ts' /\ ts = if hidden k then ts' else (k, firstn (S n) s) :: ts'.
Proof.
  unfold v_next. destruct b as [[k [|n]]|]; try discriminate. destruct (next (skipn (S n) s)) as [ts'| | |] eqn:R; try discriminate. cbn [bind]. intros H. injection H as <-. exists k, n, ts'. auto.
Qed.
Lemma v_loop_steps : forall f s ts, v_loop f s = Ok ts -> steps ts s.
Proof.
  induction f as [|f IH]; intros s ts H; destruct s as [|c s].
  - injection H as <-. constructor.
  - discriminate H.
  - injection H as <-. constructor.
  - rewrite v_loop_S in H. apply v_next_Ok in H as (k & n & ts' & E & R & ->). apply IH in R. apply v_best_chosen in E as [C _]. pose proof (firstn_skipn (S n) (c :: s)) as E. revert C R E. generalize (firstn (S n) (c :: s)) (skipn (S n) (c :: s)). intros t u C R <-. destruct (hidden k) eqn:Hk.
    + apply (st_hide k); assumption.
    + apply st_show; assumption.
Qed.
Lemma v_next_ends b c s next : (forall s', length s' <= length s -> (exists ts, next s' = Ok ts) \/ next s' = Throw (ParseException $"token recognition error")) ->
  (exists ts, v_next b (c :: s) next = Ok ts) \/ v_next b (c :: s) next = Throw (ParseException $"token recognition error").
Proof.
  intros H. unfold v_next. destruct b as [[k [|n]]|]; [right; reflexivity| |right; reflexivity]. destruct (H (skipn (S n) (c :: s))) as [[ts ->]| ->].
  - cbn [skipn]. rewrite skipn_length. lia.
  - left. eexists. reflexivity.
  - right. reflexivity.
Qed.
Lemma v_loop_ends : forall f s, length s <= f -> (exists ts, v_loop f s = Ok ts) \/ v_loop f s = Throw (ParseException $"token recognition error").
Proof.
  induction f as [|f IH]; intros s L; destruct s as [|c s]; [left; exists []; reflexivity|cbn in L; lia|left; exists []; reflexivity|].
  rewrite v_loop_S. apply v_next_ends. intros s' L'. apply IH. cbn in L. lia.
Qed.

(** ** Nothing is lost *)
Lemma chosen_in k t s : chosen k t s -> exists r, In (k, r) v_rules /\ M r t s.
Proof. intros (_ & pre & r & post & E & H & _). exists r. split; [rewrite E; apply in_app_iff; right; left; reflexivity|exact H]. Qed.
Lemma skip_re r : In (V_SKIP, r) v_rules -> r = Plus (one [tab]) \/ r = Plus (one [sp]) \/ r = one [nl] \/ r = one [cr].
Proof.
  unfold v_rules. intros I. apply in_app_iff in I as [I|I]; [apply in_map_iff in I as (x & E & _); discriminate E|].
  apply in_app_iff in I as [I|I]; [repeat (destruct I as [I|I]; [try discriminate I; injection I as <-; auto|]); contradiction|].
  apply in_app_iff in I as [I|I]; [apply in_map_iff in I as (x & E & _); discriminate E|].
  destruct I as [I|I]; [discriminate I|]. apply in_map_iff in I as (x & E & _); discriminate E.
Qed.
Lemma plus_all c t s : M (Plus (one [c])) t s -> Forall (fun x => x = c) t.
Proof.
  unfold Plus. intros H. apply M_Seq_iff in H as (a & b & -> & Ha & Hb). apply M_one in Ha as (x & -> & [<-|[]]). constructor; [reflexivity|]. apply M_Star_one in Hb. eapply Forall_impl; [|exact Hb]. intros x [<-|[]]. reflexivity.
Qed.
Lemma blanks_made c t ts s : In c [sp; tab; nl; cr] -> Forall (fun x => x = c) t -> made_of ts s -> made_of ts (t ++ s).
Proof.
  intros Ic F H. induction F as [|x t -> _ IH]; [exact H|]. change ((c :: t) ++ s) with ([c] ++ (t ++ s)). apply mo_layout; [apply lay_blank; exact Ic|exact IH].
Qed.
Lemma hidden_made k t s0 ts s : chosen k t s0 -> hidden k = true -> made_of ts s -> made_of ts (t ++ s).
Proof.
  intros C Hk H. apply chosen_in in C as (r & I & HM). destruct k; try discriminate Hk.
  - apply mo_layout; [|exact H]. pose proof (rule_re_kind _ _ I) as R. cbn in R. subst r. unfold COMMENTv in HM. apply M_Seq_iff in HM as (a & b & -> & Ha & Hb). apply M_lit in Ha as ->. apply M_Star_not1 in Hb. apply lay_line. intros In. rewrite Forall_forall in Hb. apply (Hb nl In). left. reflexivity.
  - apply mo_layout; [|exact H]. pose proof (rule_re_kind _ _ I) as R. cbn in R. subst r. change BLOCK_COMMENTv with COMMENT_re in HM. apply block_inner in HM as (b & -> & N). apply lay_block. exact N.
  - apply skip_re in I as [->|[->|[->| ->]]].
    + apply (blanks_made tab); [cbn; auto|exact (plus_all _ _ _ HM)|exact H].
    + apply (blanks_made sp); [cbn; auto|exact (plus_all _ _ _ HM)|exact H].
    + apply M_one in HM as (x & -> & [<-|[]]). apply (blanks_made nl); [cbn; auto|repeat constructor|exact H].
    + apply M_one in HM as (x & -> & [<-|[]]). apply (blanks_made cr); [cbn; auto 6|repeat constructor|exact H].
Qed.
Lemma steps_made ts s : steps ts s -> made_of (map snd ts) s.
Proof.
  induction 1 as [|k t ts s C Hk _ IH|k t ts s C Hk _ IH]; cbn [map snd].
  - constructor.
  - apply mo_token; [exact (proj1 C)|exact IH].
  - exact (hidden_made k t s _ s C Hk IH).
Qed.

(** ** The form of words and delimiters *)
Lemma kw_re k r : In (V_KW k, r) v_rules -> In k v_keywords /\ r = ci k.
Proof.
  unfold v_rules. intros I. apply in_app_iff in I as [I|I]; [apply in_map_iff in I as (x & E & Ix); injection E as <- <-; auto|].
  apply in_app_iff in I as [I|I]; [repeat (destruct I as [I|I]; [discriminate I|]); contradiction|].
  apply in_app_iff in I as [I|I]; [apply in_map_iff in I as (x & E & _); discriminate E|].
  destruct I as [I|I]; [discriminate I|]. apply in_map_iff in I as (x & E & _); discriminate E.
Qed.
Lemma kw_in_rules k : In k v_keywords -> exists a b, v_rules = a ++ (V_KW k, ci k) :: b /\ (forall k' r', In (k', r') a -> exists k0, k' = V_KW k0) .
Proof.
  intros I. apply in_split in I as (l1 & l2 & E). unfold v_rules. rewrite E. rewrite map_app. cbn [map]. rewrite <- app_assoc. cbn [app]. eexists _, _. split; [reflexivity|]. intros k' r' I. apply in_map_iff in I as (x & Ex & _). injection Ex as <- _. eauto.
Qed.
Lemma basic_re r : In (V_BASIC_IDENTIFIER, r) v_rules -> r = BASIC_IDENTIFIER.
Proof.
  unfold v_rules. intros I. apply in_app_iff in I as [I|I]; [apply in_map_iff in I as (x & E & Ix); discriminate E|].
  apply in_app_iff in I as [I|I]; [destruct I as [I|I]; [injection I as <-; reflexivity|]; repeat (destruct I as [I|I]; [discriminate I|]); contradiction|].
  apply in_app_iff in I as [I|I]; [apply in_map_iff in I as (x & E & _); discriminate E|].
  destruct I as [I|I]; [discriminate I|]. apply in_map_iff in I as (x & E & _); discriminate E.
Qed.
Lemma in_alnum c : In c (v_letters ++ v_digits) -> alnum c = true.
Proof. intros I. apply mem_c_In in I. revert c I. apply by_imp. vm_compute. reflexivity. Qed.
Lemma in_letter c : In c v_letters -> letter c = true.
Proof. intros I. apply mem_c_In in I. revert c I. apply by_imp. vm_compute. reflexivity. Qed.
Lemma basic_run t s : M BASIC_IDENTIFIER t s -> run alnum t /\ letter (hd sp t) = true.
Proof.
  unfold BASIC_IDENTIFIER. intros H. apply M_Seq_iff in H as (a & b & -> & Ha & Hb). apply M_one in Ha as (c & -> & Hc). apply in_letter in Hc. split; [|exact Hc].
  assert (Hc' : alnum c = true) by (unfold alnum; rewrite Hc; reflexivity). clear Hc. revert c Hc'.
  refine (M_Star_ind _ (fun b _ => forall c, alnum c = true -> run alnum ([c] ++ b)) _ _ _ _ Hb); [intros _ c Hc; apply run_one; exact Hc|].
  intros x y rest _ Hx _ IH c Hc. apply M_Seq_iff in Hx as (u & v & -> & Hu & Hv). apply M_one in Hv as (d & -> & Hd). apply in_alnum in Hd. specialize (IH d Hd).
  apply M_Alt_iff in Hu as [Hu|Hu].
  - apply M_one in Hu as (w & -> & [<-|[]]). cbn [app] in *. apply run_under; assumption.
  - apply M_Eps_iff in Hu as ->. cbn [app] in *. apply run_next; assumption.
Qed.
Definition kind_ok (kt : vkind * str) : Prop :=
  match fst kt with
  | V_KW k => In k reserved /\ map small (snd kt) = k
  | V_BASIC_IDENTIFIER => run alnum (snd kt) /\ letter (hd sp (snd kt)) = true /\ ~ In (map small (snd kt)) reserved
  | _ => True
  end.
Lemma In_reserved k : In k reserved <-> In k v_keywords.
Proof. rewrite <- kw_reserved. rewrite existsb_exists. split; [intros H; exists k; split; [exact H|apply seqb_refl]|intros (x & H & E); apply seqb_eq in E as ->; exact H]. Qed.
Lemma pre_has (A : Type) (l a b a' b' : list A) (x y : A) : l = a ++ x :: b -> l = a' ++ y :: b' -> x <> y -> ~ In y a -> In x a'.
Proof.
  intros -> E N NI. destruct (app_eq_app _ _ _ _ E) as (w & [[E1 E2]|[E1 E2]]).
  - destruct w as [|z w]; [cbn in E2; injection E2; congruence|]. cbn in E2. injection E2 as E2 _. subst z. destruct NI. rewrite E1. apply in_app_iff. right. left. reflexivity.
  - destruct w as [|z w]; [cbn in E2; injection E2; congruence|]. cbn in E2. injection E2 as E2 _. subst z. rewrite E1. apply in_app_iff. right. left. reflexivity.
Qed.
Lemma chosen_ok k t s : chosen k t s -> kind_ok (k, t).
Proof.
  intros C. destruct (chosen_in _ _ _ C) as (r & I & HM). destruct k; cbn [kind_ok fst snd]; try exact Logic.I.
  - apply kw_re in I as [I ->]. split; [apply In_reserved; exact I|]. apply (kw_M _ _ s I). exact HM.
  - apply basic_re in I as ->. destruct (basic_run _ _ HM) as [R L]. split; [exact R|]. split; [exact L|]. intros K. apply In_reserved in K. destruct C as (_ & pre & r & post & E & _ & P). destruct (kw_in_rules _ K) as (a & b & E2 & A).
    assert (Ip : In (V_KW (map small t), ci (map small t)) pre). { refine (pre_has _ _ _ _ _ _ _ _ E2 E _ _); [discriminate|]. intros I. destruct (A _ _ I) as (k0 & Ek). discriminate Ek. }
    apply (P _ _ Ip eq_refl). apply kw_M; [exact K|reflexivity].
Qed.
Lemma steps_ok ts s : steps ts s -> Forall kind_ok ts.
Proof. induction 1 as [|k t ts s C Hk _ IH|k t ts s C Hk _ IH]; [constructor|constructor; [exact (chosen_ok k t s C)|exact IH]|exact IH]. Qed.

(** ** Tokens and lexical elements *)
Lemma doubled_inj q s : forall s', doubled q s = doubled q s' -> s = s'.
Proof.
  induction s as [|c s IH]; intros [|c' s'] E; [reflexivity| | |].
  - cbn in E. destruct (ceqb c' q); discriminate.
  - cbn in E. destruct (ceqb c q); discriminate.
  - cbn [doubled flat_map] in E. destruct (ceqb c q) eqn:E1, (ceqb c' q) eqn:E2; cbn in E; injection E; intros; subst; try (f_equal; apply IH; assumption).
    + apply ceqb_eq in E1. apply ceqb_neq in E2. congruence.
    + apply ceqb_eq in E2. apply ceqb_neq in E1. congruence.
Qed.
Lemma between_inj q (a b : str) : q :: a ++ [q] = q :: b ++ [q] -> a = b.
Proof. intros E. injection E as E. apply app_inj_tail in E as [E _]. exact E. Qed.
Lemma prefix_word p s : lexeme_ok (L_bits p s) -> Forall (fun c => c <> dq) p.
Proof.
  intros [(i & b & -> & Hi & Hb) _]. apply word_no_dq, Forall_app. split; [|apply base_word; exact Hb]. destruct Hi as [->|Hi]; [constructor|apply integer_word; exact Hi].
Qed.
Lemma kw_kind s : fst (token_of (L_word s)) = V_KW (map small s) \/ fst (token_of (L_word s)) = V_BASIC_IDENTIFIER.
Proof. cbn [token_of fst]. destruct (existsb (seqb (map small s)) reserved); auto. Qed.
Lemma token_inj l l' : lexeme_ok l -> lexeme_ok l' -> token_of l = token_of l' -> l = l'.
Proof.
  intros K K' E. assert (E1 := f_equal fst E). assert (E2 := f_equal snd E). cbn [token_of snd] in E2. clear E.
  destruct l as [s|s|s|s|c|s|p s|s], l' as [s'|s'|s'|s'|c'|s'|p' s'|s']; try (cbn [token_of fst] in E1; discriminate E1); try (destruct (kw_kind s) as [Q|Q]; rewrite Q in E1; discriminate E1); try (destruct (kw_kind s') as [Q|Q]; rewrite Q in E1; discriminate E1); cbn [lexeme_text] in E2.
  - f_equal. exact E2.
  - apply between_inj, doubled_inj in E2. f_equal. exact E2.
  - f_equal. exact E2.
  - f_equal. exact E2.
  - injection E2 as ->. reflexivity.
  - apply between_inj, doubled_inj in E2. f_equal. exact E2.
  - apply app_quote in E2 as [-> E2]; [|exact (prefix_word _ _ K)|exact (prefix_word _ _ K')]. apply app_inj_tail in E2 as [-> _]. reflexivity.
  - f_equal. exact E2.
Qed.
Lemma reads_ok Q prev ps s : reads Q prev ps s -> Forall lexeme_ok (lexemes ps).
Proof. induction 1 as [prev|prev p ps s K S A P _ IH]; [constructor|]. destruct p; cbn [lexemes]; [constructor; [exact K|exact IH]|exact IH|exact IH|exact IH]. Qed.
Lemma tokens_inj ls : forall ls', Forall lexeme_ok ls -> Forall lexeme_ok ls' -> map token_of ls = map token_of ls' -> ls = ls'.
Proof.
  induction ls as [|l ls IH]; intros [|l' ls'] F F' E; try discriminate; [reflexivity|]. cbn [map] in E. assert (E1 := f_equal (hd (V_SKIP, [])) E). assert (E2 := f_equal (@tl _) E). cbn [hd tl] in E1, E2.
  f_equal; [apply token_inj; [exact (Forall_inv F)|exact (Forall_inv F')|exact E1]|apply IH; [exact (Forall_inv_tail F)|exact (Forall_inv_tail F')|exact E2]].
Qed.

(** ** The tokens of an expression *)
Lemma word_tok t w : word_of t = Some w -> vtok_of (V_KW w, []) = Some t /\ In w reserved.
Proof.
  intros H. assert (G : vtok_of (V_KW w, []) = Some t /\ existsb (seqb w) reserved = true).
  { destruct t as [| | | | |o|o|o|o|o| | | | |d| | | | | | | | | |]; try discriminate H; try destruct o; try destruct d; cbn [word_of] in H; try discriminate H; injection H as <-; split; vm_compute; reflexivity. }
  destruct G as [G1 G2]. split; [exact G1|]. apply existsb_exists in G2 as (x & I & E). apply seqb_eq in E as ->. exact I.
Qed.
Lemma sign_tok t d : sign_of t = Some d -> vtok_of (V_DELIM d, []) = Some t /\ seqb d $"'" = match t with KTick => true | _ => false end.
Proof.
  intros H. destruct t as [| | | | |o|o|o|o|o| | | | |r| | | | | | | | | |]; try discriminate H; try destruct o; cbn [sign_of] in H; try discriminate H; injection H as <-; split; vm_compute; reflexivity.
Qed.
Lemma vtok_text k s : match k with V_KW _ | V_DELIM _ => vtok_of (k, s) = vtok_of (k, []) | _ => True end.
Proof. destruct k; exact Logic.I + reflexivity. Qed.
Definition ticks (l : lexeme) : bool := match l with L_delim d => seqb d $"'" | _ => false end.
Lemma token_ticks l : (match fst (token_of l) with V_DELIM d => seqb d $"'" | _ => false end) = ticks l.
Proof. destruct l; try reflexivity. destruct (kw_kind s) as [->| ->]; reflexivity. Qed.
Lemma spells_tok tick t l : spells tick t l -> vtok_behind tick (token_of l) = Some t /\ ticks l = match t with KTick => true | _ => false end.
Proof.
  destruct l as [w|s|s|s|c|s|p s|d]; cbn [spells ticks].
  - intros H. assert (D : (exists n, t = KLit (NL_id n) /\ n = w /\ (tick = true \/ ~ In (map small w) reserved)) \/ tick = false /\ word_of t = Some (map small w)).
    { destruct t as [l| | | | | | | | | | | | | | | | | | | | | | | |]; try (right; exact H). destruct l; try (right; exact H). left. eauto. }
    clear H. destruct D as [(n & -> & -> & H)|[-> H]].
    + split; [|reflexivity]. unfold vtok_behind. destruct (kw_kind w) as [Q|Q]; rewrite Q.
      * cbn [token_of snd lexeme_text]. destruct tick; [reflexivity|]. exfalso. destruct H as [H|H]; [discriminate|]. apply H. cbn [token_of fst] in Q. destruct (existsb (seqb (map small w)) reserved) eqn:E; [|discriminate]. apply existsb_exists in E as (x & I & E). apply seqb_eq in E as ->. exact I.
      * assert (ET : token_of (L_word w) = (V_BASIC_IDENTIFIER, w)) by (rewrite (surjective_pairing (token_of (L_word w))), Q; reflexivity). rewrite ET. destruct tick; reflexivity.
    + destruct (word_tok _ _ H) as [G I]. split.
      * cbn [vtok_behind]. assert (ET : token_of (L_word w) = (V_KW (map small w), w)). { assert (E : existsb (seqb (map small w)) reserved = true) by (apply existsb_exists; exists (map small w); split; [exact I|apply seqb_refl]). unfold token_of. rewrite E. reflexivity. }
        rewrite ET. unfold vtok_behind. rewrite (vtok_text (V_KW (map small w)) w). exact G.
      * destruct t; try reflexivity. discriminate H.
  - intros ->. destruct tick; split; reflexivity.
  - intros ->. destruct tick; split; reflexivity.
  - intros ->. destruct tick; split; reflexivity.
  - intros ->. destruct tick; split; reflexivity.
  - intros ->. destruct tick; split; reflexivity.
  - intros ->. destruct tick; split; reflexivity.
  - intros H. destruct (sign_tok _ _ H) as [G E]. split; [|exact E]. assert (Q : vtok_behind tick (token_of (L_delim d)) = vtok_of (V_DELIM d, d)) by (destruct tick; reflexivity). rewrite Q, (vtok_text (V_DELIM d) d). exact G.
Qed.
Lemma spelled_toks tick ts ls : spelled tick ts ls -> vtoks_of tick (map token_of ls) = Some ts.
Proof.
  induction 1 as [tick|tick t l ts ls H _ IH]; [reflexivity|]. destruct (spells_tok _ _ _ H) as [G E]. cbn [map vtoks_of]. rewrite G, token_ticks, E, IH. reflexivity.
Qed.
