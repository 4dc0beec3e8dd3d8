(** What the tokens of a Verilog text say about it: nothing is lost, identifiers are no reserved words. *)
From Verif Require Import Base BaseFacts AstModel LitModel SvExprModel SvSyntaxModel RegexModel RegexProofs RegexPairProofs PpLexProofs StrSpec PpLexerModel PpSrcLexProofs VhdlLexModel VhdlLexSpec VhdlLexProofs VhdlTokenProofs VhdlPickProofs VhdlQuoteProofs SvLexModel SvLexSpec SvSpellSpec SvLexProofs SvWordProofs SvSignProofs SvQuoteProofs SvNumberProofs SvTextProofs.

(** ** The rule that was chosen *)
Lemma s_best_first rs s : forall best k n, s_best rs s best = Some (k, n) ->
  (best = Some (k, n)) \/ exists pre r post, rs = pre ++ (k, r) :: post /\ lmatch r s = Some n /\ (forall k' r' m, In (k', r') pre -> lmatch r' s = Some m -> m < n) /\ below n best.
Proof.
  induction rs as [|[k0 r0] rs IH]; intros best k n H; [left; exact H|]. rewrite s_best_cons in H. apply IH in H as [E|(pre & r & post & -> & Hh & P & B)].
  - destruct (lmatch r0 s) as [n0|] eqn:E0; [|left; exact E].
    assert (R : k0 = k /\ n0 = n /\ below n best -> exists pre r post, (k0, r0) :: rs = pre ++ (k, r) :: post /\ lmatch r s = Some n /\ (forall k' r' m, In (k', r') pre -> lmatch r' s = Some m -> m < n) /\ below n best).
    { intros (<- & <- & B). exists [], r0, rs. split; [reflexivity|]. split; [exact E0|]. split; [intros k' r' m []|exact B]. }
    destruct best as [[kb m]|]; [destruct (Nat.ltb_spec m n0) as [Lm|Lm]|].
    + injection E as E1 E2. right. apply R. cbn. repeat split; [exact E1|exact E2|lia].
    + left. exact E.
    + injection E as E1 E2. right. apply R. cbn. auto.
  - right. exists ((k0, r0) :: pre), r, post. split; [reflexivity|]. split; [exact Hh|].
    destruct (lmatch r0 s) as [n0|] eqn:E0.
    + assert (G : n0 < n /\ below n best). { destruct best as [[kb m]|]; [destruct (Nat.ltb_spec m n0) as [Lm|Lm]; cbn in *; lia|cbn in *; lia]. }
      split; [|tauto]. intros k' r' x [E|I] Hx; [injection E as _ <-; rewrite E0 in Hx; injection Hx as <-; tauto|exact (P k' r' x I Hx)].
    + split; [|exact B]. intros k' r' x [E|I] Hx; [injection E as _ <-; congruence|exact (P k' r' x I Hx)].
Qed.
(** [chosen rs k t rest]: a rule for k matches t, and no earlier rule matches as much. *)
Definition chosen (rs : list (skind * re)) (k : skind) (t rest : str) : Prop :=
  t <> [] /\ exists pre r post, rs = pre ++ (k, r) :: post /\ M r t rest /\ forall k' r', In (k', r') pre -> ~ M r' t rest.
Lemma s_best_chosen rs s k n : s_best rs s None = Some (k, S n) -> chosen rs k (firstn (S n) s) (skipn (S n) s).
Proof.
  intros H. apply s_best_first in H as [E|(pre & r & post & E & Hh & P & _)]; [discriminate|]. destruct (lm_M r s (S n) Hh) as [HM L]. split.
  - destruct s; [cbn in L; lia|discriminate].
  - exists pre, r, post. split; [exact E|]. split; [exact HM|]. intros k' r' I H. destruct (lmatch r' s) as [m|] eqn:Em.
    + pose proof (P k' r' m I Em) as Lm. apply lmatch_Some in Em as (_ & _ & B). specialize (B _ L H). lia.
    + exact (proj1 (lmatch_None r' s) Em (S n) L H).
Qed.
Definition mode_rules (v : lang) (table : bool) : list (skind * re) := if table then table_rules else s_rules v.
Inductive steps (v : lang) : bool -> list (skind * str) -> str -> Prop :=
| st_nil b : steps v b [] []
| st_show b k t ts s : chosen (mode_rules v b) k t s -> s_hidden k = false -> steps v (s_mode b k) ts s -> steps v b ((k, t) :: ts) (t ++ s)
| st_hide b k t ts s : chosen (mode_rules v b) k t s -> s_hidden k = true -> steps v (s_mode b k) ts s -> steps v b ts (t ++ s).
Lemma s_loop_steps v : forall f b s ts, s_loop v f b s = Ok ts -> steps v b ts s.
Proof.
  induction f as [|f IH]; intros b s ts H; destruct s as [|c s].
  - injection H as <-. constructor.
  - discriminate H.
  - injection H as <-. constructor.
  - rewrite s_loop_S in H. unfold s_next in H. destruct (s_step v b (c :: s)) as [[k [|n]]|] eqn:E; try discriminate H.
    destruct (s_loop v f (s_mode b k) (skipn (S n) (c :: s))) as [ts'| | |] eqn:R; try discriminate H. cbn [bind] in H. apply IH in R. unfold s_step in E. apply s_best_chosen in E. fold (mode_rules v b) in E.
    pose proof (firstn_skipn (S n) (c :: s)) as Es. revert H R E Es. generalize (firstn (S n) (c :: s)) (skipn (S n) (c :: s)). intros t u H R E <-. injection H as <-. destruct (s_hidden k) eqn:Hk.
    + apply (st_hide v b k); assumption.
    + apply st_show; assumption.
Qed.
Lemma s_loop_ends v : forall f b s, length s <= f -> (exists ts, s_loop v f b s = Ok ts) \/ s_loop v f b s = Throw (ParseException $"token recognition error").
Proof.
  induction f as [|f IH]; intros b s L; destruct s as [|c s]; [left; exists []; reflexivity|cbn in L; lia|left; exists []; reflexivity|].
  rewrite s_loop_S. unfold s_next. destruct (s_step v b (c :: s)) as [[k [|n]]|]; [right; reflexivity| |right; reflexivity].
  destruct (IH (s_mode b k) (skipn (S n) (c :: s))) as [[ts ->]| ->]; [cbn [skipn]; rewrite skipn_length; cbn in L; lia|left; eexists; reflexivity|right; reflexivity].
Qed.

(** ** Nothing is lost *)
Lemma chosen_in rs k t s : chosen rs k t s -> exists r, In (k, r) rs /\ M r t s.
Proof. intros (_ & pre & r & post & E & H & _). exists r. split; [rewrite E; apply in_app_iff; right; left; reflexivity|exact H]. Qed.
Lemma table_white : forallb white [sp; tab; nl; cr] = true.
Proof. vm_compute. reflexivity. Qed.
Lemma of_kind (f : skind -> bool) (rs : list (skind * re)) k r : In (k, r) rs -> f k = true -> In (k, r) (filter (fun kr => f (fst kr)) rs).
Proof. intros I H. apply filter_In. split; [exact I|exact H]. Qed.
Lemma rules_of (f : skind -> bool) v k r : In (k, r) (s_rules v) -> f k = true -> (forall w, f (S_KW w) = false) -> (forall d, f (S_SIGN d) = false) -> In (k, r) (filter (fun kr => f (fst kr)) (class_rules ++ layout_rules)).
Proof. intros I H K S. apply of_kind; [|exact H]. apply in_rules in I as [(w & _ & E & _)|[(d & _ & E & _)|I]]; [rewrite E, K in H; discriminate|rewrite E, S in H; discriminate|exact I]. Qed.
Lemma hidden_rules : filter (fun kr => s_hidden (fst kr)) (class_rules ++ layout_rules) = layout_rules.
Proof. vm_compute. reflexivity. Qed.
Lemma hidden_table : filter (fun kr => s_hidden (fst kr)) table_rules = [(S_BLOCK_COMMENT, BLOCK_COMMENT); (S_ONE_LINE_COMMENT, ONE_LINE_COMMENT); (S_WHITE_SPACE, Plus (one [sp; tab; nl; cr]))].
Proof. vm_compute. reflexivity. Qed.
Lemma mode_table v : mode_rules v true = table_rules.
Proof. reflexivity. Qed.
Lemma mode_plain v : mode_rules v false = s_rules v.
Proof. reflexivity. Qed.
Lemma pair_snd {A B} (a a' : A) (b b' : B) : (a, b) = (a', b') -> b' = b.
Proof. intros E. injection E as _ E. symmetry. exact E. Qed.
Lemma hidden_re v b k r : In (k, r) (mode_rules v b) -> s_hidden k = true -> r = ONE_LINE_COMMENT \/ r = BLOCK_COMMENT \/ r = WHITE_SPACE \/ r = Plus (one [sp; tab; nl; cr]).
Proof.
  intros I Hk. destruct b; [rewrite mode_table in I|rewrite mode_plain in I].
  - apply (of_kind s_hidden) in I; [|exact Hk]. rewrite hidden_table in I. destruct I as [I|[I|[I|[]]]]; apply pair_snd in I; auto.
  - apply (rules_of s_hidden) in I; [|exact Hk|reflexivity|reflexivity]. rewrite hidden_rules in I. destruct I as [I|[I|[I|[]]]]; apply pair_snd in I; auto.
Qed.
Lemma line_layout t s : M ONE_LINE_COMMENT t s -> layout t.
Proof.
  unfold ONE_LINE_COMMENT. cbn [Seqs]. intros H. apply M_Seq_iff in H as (a & b & -> & Ha & H). apply M_lit in Ha as ->. apply M_Seq_iff in H as (x & e & -> & Hx & He). apply lay_line.
  - apply M_Star_not1 in Hx. intros I. rewrite Forall_forall in Hx. apply (Hx nl I). left. reflexivity.
  - apply M_Alt_iff in He as [He|He]; [inversion He; left; reflexivity|apply M_one in He as (c & -> & [<-|[]]); right; left; reflexivity].
Qed.
Lemma hidden_layout v b k t s : chosen (mode_rules v b) k t s -> s_hidden k = true -> layout t.
Proof.
  intros C Hk. assert (N := proj1 C). apply chosen_in in C as (r & I & HM). apply (hidden_re v b k r) in I as [->|[->|[->| ->]]]; [exact (line_layout t s HM)| | | |exact Hk].
  - change BLOCK_COMMENT with COMMENT_re in HM. apply block_inner in HM as (b' & -> & Nb). apply lay_block. exact Nb.
  - apply lay_white; [exact N|exact (white_all t s HM)].
  - apply lay_white; [exact N|]. unfold Plus in HM. apply M_Seq_iff in HM as (a & b' & -> & Ha & Hb). apply M_one in Ha as (x & -> & Ix). apply star_one_all in Hb. assert (W := proj1 (forallb_forall _ _) table_white). constructor; [exact (W x Ix)|]. eapply Forall_impl; [|exact Hb]. intros d Id. exact (W d Id).
Qed.
Lemma steps_made v b ts s : steps v b ts s -> made_of (map snd ts) s.
Proof.
  induction 1 as [b|b k t ts s C Hk _ IH|b k t ts s C Hk _ IH]; cbn [map snd].
  - constructor.
  - apply mo_token; [exact (proj1 C)|exact IH].
  - apply mo_layout; [exact (hidden_layout v b k t s C Hk)|exact IH].
Qed.

(** ** The form of tokens *)
Definition token_form (v : lang) (kt : skind * str) : Prop :=
  match fst kt with
  | S_KW k => snd kt = k
  | S_C_IDENTIFIER | S_SIMPLE_IDENTIFIER => word_form (snd kt) /\ (~ In (snd kt) (unsettled v) -> ~ In (snd kt) (reserved_words v))
  | S_SIGN d => snd kt = d
  | _ => True
  end.
Lemma split_front {A B} (f : A -> B) (ks : list A) (c pre post : list B) x : map f ks ++ c = pre ++ x :: post -> (forall k, f k <> x) -> forall k, In k ks -> In (f k) pre.
Proof.
  revert pre. induction ks as [|k0 ks IH]; intros pre E N k I; [destruct I|]. cbn [map app] in E. destruct pre as [|p pre]; cbn [app] in E; injection E as E1 E2; [destruct (N k0 E1)|]. destruct I as [<-|I]; [left; symmetry; exact E1|right; exact (IH pre E2 N k I)].
Qed.
Lemma chosen_no_kw ks c k t s : chosen (map kw_rule ks ++ c) k t s -> (forall w, k <> S_KW w) -> ~ In t ks.
Proof.
  intros (_ & pre & r & post & E & _ & P) N I. apply (P (S_KW t) (lit t)); [|apply lit_M]. refine (split_front kw_rule ks c pre post (k, r) E _ t I). intros w H. injection H as H _. exact (N w (eq_sym H)).
Qed.
Definition is_kw (k : skind) : bool := match k with S_KW _ => true | _ => false end.
Definition is_sign (k : skind) : bool := match k with S_SIGN _ => true | _ => false end.
Definition is_ident (k : skind) : bool := match k with S_C_IDENTIFIER | S_SIMPLE_IDENTIFIER => true | _ => false end.
Lemma lit_rules : existsb (fun kr => is_kw (fst kr) || is_sign (fst kr)) (class_rules ++ layout_rules) = false.
Proof. vm_compute. reflexivity. Qed.
Lemma not_lit k r : In (k, r) (class_rules ++ layout_rules) -> is_kw k || is_sign k = false.
Proof. intros I. destruct (is_kw k || is_sign k) eqn:E; [|reflexivity]. assert (G : existsb (fun kr => is_kw (fst kr) || is_sign (fst kr)) (class_rules ++ layout_rules) = true) by (apply existsb_exists; exists (k, r); auto). rewrite lit_rules in G. discriminate. Qed.
Lemma kw_table : filter (fun kr => is_kw (fst kr)) table_rules = [kw_rule $"endtable"].
Proof. vm_compute. reflexivity. Qed.
Lemma sign_table : filter (fun kr => is_sign (fst kr)) table_rules = map sign_rule [ $":"; $"("; $"-"; $")"; $";" ].
Proof. vm_compute. reflexivity. Qed.
Lemma lit_text d t s : M (lit d) t s -> t = d.
Proof. exact (proj1 (M_lit d t s)). Qed.
Lemma kw_text v b k t s : chosen (mode_rules v b) (S_KW k) t s -> t = k.
Proof.
  intros C. apply chosen_in in C as (r & I & HM). destruct b; [rewrite mode_table in I|rewrite mode_plain in I].
  - apply (of_kind is_kw) in I; [|reflexivity]. rewrite kw_table in I. destruct I as [I|[]]. assert (Ek := f_equal fst I). apply pair_snd in I. rewrite I in HM. injection Ek as <-. exact (lit_text _ _ _ HM).
  - apply in_rules in I as [(w & _ & E & ->)|[(d & _ & E & _)|I]]; [injection E as <-; exact (lit_text _ _ _ HM)|discriminate E|]. apply not_lit in I. discriminate I.
Qed.
Lemma sign_text_of v b d t s : chosen (mode_rules v b) (S_SIGN d) t s -> t = d.
Proof.
  intros C. apply chosen_in in C as (r & I & HM). destruct b; [rewrite mode_table in I|rewrite mode_plain in I].
  - apply (of_kind is_sign) in I; [|reflexivity]. rewrite sign_table in I. apply in_map_iff in I as (x & E & _). assert (Ek := f_equal fst E). apply pair_snd in E. rewrite E in HM. injection Ek as <-. exact (lit_text _ _ _ HM).
  - apply in_rules in I as [(w & _ & E & _)|[(d' & _ & E & ->)|I]]; [discriminate E|injection E as <-; exact (lit_text _ _ _ HM)|]. apply not_lit in I. discriminate I.
Qed.
Lemma in_start c : In c (v_letters ++ $"_") -> word_start c = true.
Proof. intros I. apply mem_c_In in I. revert c I. apply by_imp. vm_compute. reflexivity. Qed.
Lemma simple_form t s : M SIMPLE_IDENTIFIER t s -> word_form t.
Proof.
  intros H. assert (A := simple_all t s H). unfold SIMPLE_IDENTIFIER in H. apply M_Seq_iff in H as (a & b & -> & Ha & _). apply M_one in Ha as (c & -> & Hc). exists c, b. split; [reflexivity|]. split; [apply in_start; exact Hc|exact (Forall_inv_tail A)].
Qed.
Lemma c_form t s : M C_IDENTIFIER t s -> word_form t.
Proof.
  intros H. destruct (c_all t s H) as [A _]. unfold C_IDENTIFIER in H. apply M_Seq_iff in H as (a & b & -> & Ha & _). apply M_one in Ha as (c & -> & Hc). exists c, b. split; [reflexivity|]. split; [apply in_start; exact Hc|exact (Forall_inv_tail A)].
Qed.
Lemma ident_rules : filter (fun kr => is_ident (fst kr)) (class_rules ++ layout_rules) = [(S_C_IDENTIFIER, C_IDENTIFIER); (S_SIMPLE_IDENTIFIER, SIMPLE_IDENTIFIER)].
Proof. vm_compute. reflexivity. Qed.
Lemma ident_table : filter (fun kr => is_ident (fst kr)) table_rules = [].
Proof. vm_compute. reflexivity. Qed.
Lemma ident_re v b k r : In (k, r) (mode_rules v b) -> is_ident k = true -> b = false /\ (r = C_IDENTIFIER \/ r = SIMPLE_IDENTIFIER).
Proof.
  intros I Hk. destruct b; [rewrite mode_table in I|rewrite mode_plain in I].
  - exfalso. apply (of_kind is_ident) in I; [|exact Hk]. rewrite ident_table in I. exact I.
  - split; [reflexivity|]. apply (rules_of is_ident) in I; [|exact Hk|reflexivity|reflexivity]. rewrite ident_rules in I. destruct I as [I|[I|[]]]; apply pair_snd in I; auto.
Qed.
Lemma ident_no_kw v b k t s : chosen (mode_rules v b) k t s -> is_ident k = true -> ~ In t (keywords v).
Proof.
  intros C Hk. destruct (chosen_in _ _ _ _ C) as (r & I & _). destruct (ident_re v b k r I Hk) as [-> _]. rewrite mode_plain in C. rewrite s_rules_split in C. assert (N : forall w, k <> S_KW w) by (intros w ->; discriminate Hk).
  exact (chosen_no_kw (keywords v) _ k t s C N).
Qed.
Lemma reserved_in v c t : word_start c = true -> ~ In (c :: t) (unsettled v) -> ~ In (c :: t) (keywords v) -> ~ In (c :: t) (reserved_words v).
Proof.
  intros Hc Nu Nk I. apply Nk. apply listed_In. rewrite <- (reserved_keyword v c t Hc Nu). apply listed_In. apply in_app_iff. left. exact I.
Qed.
Lemma ident_form v b k t s : chosen (mode_rules v b) k t s -> is_ident k = true -> word_form t /\ (~ In t (unsettled v) -> ~ In t (reserved_words v)).
Proof.
  intros C Hk. assert (Nk := ident_no_kw v b k t s C Hk). destruct (chosen_in _ _ _ _ C) as (r & I & HM). destruct (ident_re v b k r I Hk) as [_ Hr].
  assert (W : word_form t) by (destruct Hr as [->| ->]; [exact (c_form t s HM)|exact (simple_form t s HM)]). split; [exact W|]. intros Nu. destruct W as (c & u & E & Hc & _). rewrite E in *. exact (reserved_in v c u Hc Nu Nk).
Qed.
Lemma steps_ok v b ts s : steps v b ts s -> Forall (token_form v) ts.
Proof.
  induction 1 as [b|b k t ts s C Hk _ IH|b k t ts s C Hk _ IH]; [constructor| |exact IH]. constructor; [|exact IH]. unfold token_form. cbn [fst snd]. destruct k; try exact Logic.I.
  - exact (kw_text v b k t s C).
  - exact (ident_form v b _ t s C eq_refl).
  - exact (ident_form v b _ t s C eq_refl).
  - exact (sign_text_of v b _ t s C).
Qed.

(** ** Tokens of expressions *)
Definition sym_list : list sym :=
  [S_PLUS; S_MINUS; S_NOT; S_NEG; S_AMPERSAND; S_NAND; S_BAR; S_NOR; S_XOR; S_NXOR; S_XORN; S_DOUBLESTAR; S_MUL; S_DIV; S_MOD; S_SHIFT_LEFT; S_SHIFT_RIGHT; S_ARITH_SHIFT_LEFT; S_ARITH_SHIFT_RIGHT;
   S_LT; S_LE; S_GT; S_GE; S_EQ; S_NE; S_CASE_EQ; S_CASE_NE; S_WILDCARD_EQ; S_WILDCARD_NE; S_AND_LOG; S_OR_LOG; S_ARROW; S_BI_DIR_ARROW].
Lemma sign_tok t d x : sign_text t = Some d -> stok_of (S_SIGN d, x) = Some t.
Proof. intros H. destruct t; try discriminate H; try (injection H as <-; reflexivity). injection H as <-. destruct o; reflexivity. Qed.
Definition plain_special : list str := [ $"sample"; $"randomize"; $"type_option"; $"option"; $"std" ].
Lemma special_plain : forallb (fun w => listed w plain_special || seqb w $"PATHPULSE$") special_words = true.
Proof. vm_compute. reflexivity. Qed.
Lemma null_special : listed $"null" plain_special = false.
Proof. vm_compute. reflexivity. Qed.
Lemma stok_kw k s : stok_of (S_KW k, s) = if listed k plain_special then Some (KId s) else if seqb k $"null" then Some KNull else None.
Proof. reflexivity. Qed.
Lemma listed_app s (a b : list str) : listed s (a ++ b) = listed s a || listed s b.
Proof. unfold listed. apply existsb_app. Qed.
Lemma word_id v w : ~ In w (reserved_words v) -> w <> $"PATHPULSE$" -> stok_of (token_for v (T_word w)) = Some (KId w).
Proof.
  intros N1 N2. unfold token_for. cbn [elem_text]. rewrite listed_app. destruct (listed w (reserved_words v)) eqn:E1; [apply listed_In in E1; contradiction|]. cbn [orb]. destruct (listed w special_words) eqn:E2.
  - rewrite stok_kw. apply listed_In in E2. pose proof (proj1 (forallb_forall _ _) special_plain w E2) as G. apply orb_true_iff in G as [G|G]; [rewrite G; reflexivity|]. apply seqb_eq in G. contradiction.
  - destruct (mem_c "$" w); reflexivity.
Qed.
Lemma word_null v : In $"null" (reserved_words v) -> stok_of (token_for v (T_word $"null")) = Some KNull.
Proof.
  intros I. unfold token_for. cbn [elem_text]. rewrite listed_app. apply listed_In in I. rewrite I. cbn [orb]. rewrite stok_kw, null_special. reflexivity.
Qed.
Lemma spells_tok v t l : spells v t l -> stok_of (token_for v l) = Some t.
Proof.
  destruct l; cbn [spells].
  - destruct t; try contradiction; [intros (-> & N1 & N2); exact (word_id v s N1 N2)|]. intros [-> I]. exact (word_null v I).
  - contradiction.
  - intros ->. reflexivity.
  - intros ->. reflexivity.
  - destruct n; intros ->; reflexivity.
  - intros ->. reflexivity.
  - intros ->. reflexivity.
  - intros ->. reflexivity.
  - intros ->. reflexivity.
  - intros ->. reflexivity.
  - intros H. exact (sign_tok t s s H).
Qed.
Lemma spelled_toks v ts ls : spelled v ts ls -> stoks_of (map (token_for v) ls) = Some ts.
Proof. induction 1 as [|t l ts ls H _ IH]; [reflexivity|]. cbn [map stoks_of]. rewrite (spells_tok v t l H), IH. reflexivity. Qed.
