(** The rule chosen for quoted texts, delimiters, comments and white space. *)
From Verif Require Import Base BaseFacts AstModel LitModel SvExprModel RegexModel RegexProofs RegexPairProofs PpLexProofs StrSpec PpLexerModel PpSrcLexProofs VhdlExprModel VhdlSyntaxModel VhdlLexModel VhdlLexSpec VhdlLexProofs VhdlTokenProofs VhdlPickProofs.

(** A match is a prefix of the text. *)
Lemma match_prefix r t s m : m <= length (t ++ s) -> M r (firstn m (t ++ s)) (skipn m (t ++ s)) -> exists y z, M r y z /\ y ++ z = t ++ s /\ length y = m.
Proof. intros L H. exists (firstn m (t ++ s)), (skipn m (t ++ s)). split; [exact H|]. split; [apply firstn_skipn|apply firstn_length_le; exact L]. Qed.

(** ** Texts between quotes *)
Inductive quoted (q : ascii) : str -> Prop :=
| q_nil : quoted q []
| q_one c s : c <> q -> quoted q s -> quoted q (c :: s)
| q_two s : quoted q s -> quoted q (q :: q :: s).
Lemma quoted_app q a b : quoted q a -> quoted q b -> quoted q (a ++ b).
Proof. induction 1; intros H1; cbn [app]; [exact H1|apply q_one; auto|apply q_two; auto]. Qed.
Lemma doubled_quoted q s : quoted q (doubled q s).
Proof.
  induction s as [|c s IH]; [constructor|]. cbn [doubled flat_map]. destruct (ceqb c q) eqn:E; cbn [app].
  - apply ceqb_eq in E as ->. apply q_two. exact IH.
  - apply ceqb_neq in E. apply q_one; assumption.
Qed.
Lemma quoted_end q z : quoted q z -> forall y r1 r2, quoted q y -> not_first (ceqb q) r2 -> y ++ q :: r1 = z ++ q :: r2 -> length y <= length z.
Proof.
  induction 1 as [|c z N _ IH|z _ IH]; intros y r1 r2 Hy S E.
  - destruct Hy as [|c y N Hy|y Hy]; [cbn; lia|cbn in E; injection E as E _; congruence|]. cbn in E. injection E as E. subst r2. cbn in S. unfold ceqb in S. rewrite Ascii.eqb_refl in S. discriminate.
  - destruct Hy as [|c' y N' Hy|y Hy]; [cbn; lia| |cbn in E; injection E as E _; congruence]. cbn in E. injection E as _ E. apply IH in E; [cbn; lia|exact Hy|exact S].
  - destruct Hy as [|c' y N' Hy|y Hy]; [cbn; lia|cbn in E; injection E as E _; congruence|]. cbn in E. injection E as E. apply IH in E; [cbn; lia|exact Hy|exact S].
Qed.
Lemma star_quoted q r y rest : (forall x z, M r x z -> quoted q x) -> M (Star r) y rest -> quoted q y.
Proof. intros H HM. refine (M_Star_ind r (fun y _ => quoted q y) _ _ _ _ HM); [intros; constructor|]. intros x y' r' _ Hx _ IH. apply quoted_app; [exact (H _ _ Hx)|exact IH]. Qed.
Lemma graphic_no q : mem_c q graphic_chars = false -> forall c, In c graphic_chars -> c <> q.
Proof. intros H c I ->. apply mem_c_In in I. congruence. Qed.
Lemma M_q q rest : M (one [q]) [q] rest.
Proof. apply M_one. exists q. split; [reflexivity|left; reflexivity]. Qed.

Definition string_item : re := Alts [one graphic_chars; lit [dq; dq]; one [bs]].
Lemma string_item_quoted x z : M string_item x z -> quoted dq x.
Proof.
  unfold string_item. cbn [Alts]. rewrite !M_Alt_iff. intros [H|[H|H]].
  - apply M_one in H as (c & -> & Hc). apply q_one; [apply (graphic_no dq); [reflexivity|exact Hc]|constructor].
  - apply M_lit in H as ->. apply q_two. constructor.
  - apply M_one in H as (c & -> & [<-|[]]). apply q_one; [discriminate|constructor].
Qed.
Lemma string_star s rest : Forall (fun c => graphic c = true) s -> M (Star string_item) (doubled dq s) rest.
Proof.
  induction 1 as [|c s H _ IH]; [constructor|]. cbn [doubled flat_map]. apply M_StarS; [destruct (ceqb c dq); discriminate| |exact IH]. unfold string_item. cbn [Alts]. rewrite !M_Alt_iff.
  destruct (ceqb c dq) eqn:E; [right; left; apply M_lit; apply ceqb_eq in E as ->; reflexivity|]. apply ceqb_neq in E. destruct (graphic_in c H) as [H1|[H1|H1]]; [congruence|right; right; rewrite H1; apply M_q|left; apply M_one; eauto].
Qed.
Lemma string_M s rest : Forall (fun c => graphic c = true) s -> M STRING_LITERAL (dq :: doubled dq s ++ [dq]) rest.
Proof. intros H. unfold STRING_LITERAL. cbn [Seqs]. apply (M_Seq _ _ [dq]); [apply M_q|]. constructor; [apply string_star; exact H|apply M_q]. Qed.
Lemma string_shape t rest : M STRING_LITERAL t rest -> exists y, t = dq :: y ++ [dq] /\ quoted dq y.
Proof.
  unfold STRING_LITERAL. cbn [Seqs]. intros H. apply M_Seq_iff in H as (a & b & -> & Ha & H). apply M_one in Ha as (q & -> & [<-|[]]). apply M_Seq_iff in H as (y & q & -> & Hy & Hq). apply M_one in Hq as (q' & -> & [<-|[]]).
  exists y. split; [reflexivity|]. apply (star_quoted dq string_item y _ string_item_quoted Hy).
Qed.
Lemma quoted_stop q y r1 d s m : quoted q y -> quoted q d -> not_first (ceqb q) s -> (q :: y ++ [q]) ++ r1 = (q :: d ++ [q]) ++ s -> length (q :: y ++ [q]) = m -> m <= length (q :: d ++ [q]).
Proof.
  intros Hy Hd S E <-. cbn [app] in E. injection E as E. rewrite <- !app_assoc in E. cbn [app] in E. pose proof (quoted_end q d Hd y r1 s Hy S E). cbn [length]. rewrite !app_length. cbn [length]. lia.
Qed.
Lemma alive_dq : alive dq = [] ++ (V_STRING_LITERAL, STRING_LITERAL) :: [(V_DELIM [dq], lit [dq])].
Proof. vm_compute. reflexivity. Qed.
Lemma lit_stop d t s m : length d <= length t -> m <= length (t ++ s) -> M (lit d) (firstn m (t ++ s)) (skipn m (t ++ s)) -> m <= length t.
Proof. intros L Lm H. destruct (match_prefix _ _ _ _ Lm H) as (y & z & H1 & _ & <-). apply M_lit in H1 as ->. exact L. Qed.
Lemma string_stop s rest m : not_first (ceqb dq) rest -> m <= length ((dq :: doubled dq s ++ [dq]) ++ rest) ->
  M STRING_LITERAL (firstn m ((dq :: doubled dq s ++ [dq]) ++ rest)) (skipn m ((dq :: doubled dq s ++ [dq]) ++ rest)) -> m <= length (dq :: doubled dq s ++ [dq]).
Proof.
  intros S L H. destruct (match_prefix _ _ _ _ L H) as (y & z & H1 & E & Em). destruct (string_shape _ _ H1) as (y' & -> & Hy). exact (quoted_stop dq y' z (doubled dq s) rest m Hy (doubled_quoted dq s) S E Em).
Qed.
Lemma pick_string s rest : lexeme_ok (L_string s) -> ends (P_lex (L_string s)) rest -> v_best v_rules (lexeme_text (L_string s) ++ rest) None = Some (V_STRING_LITERAL, length (lexeme_text (L_string s))).
Proof.
  cbn [lexeme_ok ends lexeme_text]. intros F S. apply (pick dq _ rest V_STRING_LITERAL STRING_LITERAL _ _ alive_dq); [reflexivity|reflexivity|apply string_M; exact F| |intros k r []].
  intros k r m [I|[I|[]]] _ L H; injection I as _ Er; rewrite <- Er in H.
  - exact (string_stop s rest m S L H).
  - apply (lit_stop [dq] _ rest); [cbn; lia|exact L|exact H].
Qed.

Definition ext_item : re := Alt (one graphic_chars) (lit [bs; bs]).
Lemma ext_item_quoted x z : M ext_item x z -> quoted bs x.
Proof.
  unfold ext_item. rewrite M_Alt_iff. intros [H|H].
  - apply M_one in H as (c & -> & Hc). apply q_one; [apply (graphic_no bs); [reflexivity|exact Hc]|constructor].
  - apply M_lit in H as ->. apply q_two. constructor.
Qed.
Lemma ext_one c rest : graphic c = true -> c <> dq -> M ext_item (if ceqb c bs then [c; c] else [c]) rest.
Proof.
  intros H N. unfold ext_item. rewrite !M_Alt_iff. destruct (ceqb c bs) eqn:E; [right; apply M_lit; apply ceqb_eq in E as ->; reflexivity|]. apply ceqb_neq in E. destruct (graphic_in c H) as [H1|[H1|H1]]; [congruence|congruence|left; apply M_one; eauto].
Qed.
Lemma ext_star s rest : Forall (fun c => graphic c = true) s -> ~ In dq s -> M (Star ext_item) (doubled bs s) rest.
Proof.
  induction 1 as [|c s H _ IH]; intros N; [constructor|]. cbn [doubled flat_map]. apply M_StarS; [destruct (ceqb c bs); discriminate|apply ext_one; [exact H|intros ->; apply N; left; reflexivity]|apply IH; intros I; apply N; right; exact I].
Qed.
Lemma ext_M s rest : s <> [] -> Forall (fun c => graphic c = true) s -> ~ In dq s -> M EXTENDED_IDENTIFIER (bs :: doubled bs s ++ [bs]) rest.
Proof.
  intros H0 H N. unfold EXTENDED_IDENTIFIER. cbn [Seqs]. apply (M_Seq _ _ [bs]); [apply M_q|]. constructor; [|apply M_q]. destruct s as [|c s]; [congruence|]. cbn [doubled flat_map]. constructor.
  - apply ext_one; [exact (Forall_inv H)|intros ->; apply N; left; reflexivity].
  - apply ext_star; [exact (Forall_inv_tail H)|intros I; apply N; right; exact I].
Qed.
Lemma ext_shape t rest : M EXTENDED_IDENTIFIER t rest -> exists y, t = bs :: y ++ [bs] /\ quoted bs y.
Proof.
  unfold EXTENDED_IDENTIFIER. cbn [Seqs]. intros H. apply M_Seq_iff in H as (a & b & -> & Ha & H). apply M_one in Ha as (q & -> & [<-|[]]). apply M_Seq_iff in H as (y & q & -> & Hy & Hq). apply M_one in Hq as (q' & -> & [<-|[]]).
  exists y. split; [reflexivity|]. apply M_Seq_iff in Hy as (u & v & -> & Hu & Hv). apply quoted_app; [exact (ext_item_quoted _ _ Hu)|exact (star_quoted bs ext_item v _ ext_item_quoted Hv)].
Qed.
Lemma alive_bs : alive bs = [] ++ (V_EXTENDED_IDENTIFIER, EXTENDED_IDENTIFIER) :: [(V_DELIM [bs], lit [bs])].
Proof. vm_compute. reflexivity. Qed.
Lemma ext_stop s rest m : not_first (ceqb bs) rest -> m <= length ((bs :: doubled bs s ++ [bs]) ++ rest) ->
  M EXTENDED_IDENTIFIER (firstn m ((bs :: doubled bs s ++ [bs]) ++ rest)) (skipn m ((bs :: doubled bs s ++ [bs]) ++ rest)) -> m <= length (bs :: doubled bs s ++ [bs]).
Proof.
  intros S L H. destruct (match_prefix _ _ _ _ L H) as (y & z & H1 & E & Em). destruct (ext_shape _ _ H1) as (y' & -> & Hy). exact (quoted_stop bs y' z (doubled bs s) rest m Hy (doubled_quoted bs s) S E Em).
Qed.
Lemma pick_extended s rest : lexeme_ok (L_extended s) -> ends (P_lex (L_extended s)) rest -> plain (P_lex (L_extended s)) rest ->
  v_best v_rules (lexeme_text (L_extended s) ++ rest) None = Some (V_EXTENDED_IDENTIFIER, length (lexeme_text (L_extended s))).
Proof.
  cbn [lexeme_ok ends lexeme_text plain]. intros [F0 F] S N. apply (pick bs _ rest V_EXTENDED_IDENTIFIER EXTENDED_IDENTIFIER _ _ alive_bs); [reflexivity|reflexivity|apply ext_M; assumption| |intros k r []].
  intros k r m [I|[I|[]]] _ L H; injection I as _ Er; rewrite <- Er in H.
  - exact (ext_stop s rest m S L H).
  - apply (lit_stop [bs] _ rest); [cbn; lia|exact L|exact H].
Qed.

(** ** Character literals *)
Lemma alive_tick : alive "'" = [] ++ (V_CHARACTER_LITERAL, CHARACTER_LITERAL) :: [(V_DELIM $"'", lit $"'")].
Proof. vm_compute. reflexivity. Qed.
Lemma char_shape t rest : M CHARACTER_LITERAL t rest -> exists c, t = ["'"; c; "'"]%char.
Proof.
  unfold CHARACTER_LITERAL. cbn [Seqs]. intros H. apply M_Seq_iff in H as (a & b & -> & Ha & H). apply M_one in Ha as (q & -> & [<-|[]]). apply M_Seq_iff in H as (y & q & -> & Hy & Hq). apply M_one in Hq as (q' & -> & [<-|[]]).
  apply M_one in Hy as (c & -> & _). exists c. reflexivity.
Qed.
Lemma char_M c rest : graphic c = true -> M CHARACTER_LITERAL ["'"; c; "'"]%char rest.
Proof.
  intros H. unfold CHARACTER_LITERAL. cbn [Seqs]. apply (M_Seq _ _ ["'"%char]); [apply M_q|]. apply (M_Seq _ _ [c]); [|apply M_q]. apply M_one. exists c. split; [reflexivity|].
  apply in_app_iff. destruct (graphic_in c H) as [->|[->|H1]]; [right; left; reflexivity|right; right; left; reflexivity|left; exact H1].
Qed.
Lemma pick_char c rest : lexeme_ok (L_char c) -> plain (P_lex (L_char c)) rest -> v_best v_rules (lexeme_text (L_char c) ++ rest) None = Some (V_CHARACTER_LITERAL, length (lexeme_text (L_char c))).
Proof.
  cbn [lexeme_ok lexeme_text plain]. intros F P. apply (pick "'" _ rest V_CHARACTER_LITERAL CHARACTER_LITERAL _ _ alive_tick); [reflexivity| |apply char_M; exact F| |intros k r []].
  - cbn [allowed app]. unfold char_guard, look. cbn [nth_error]. destruct (ceqb c "(") eqn:E; [|reflexivity]. apply ceqb_eq in E. specialize (P E). destruct rest as [|x [|q r]]; [reflexivity|reflexivity|]. cbn [nth_error]. apply ceqb_neq in P. rewrite P. reflexivity.
  - intros k r m [I|[I|[]]] _ L H; injection I as _ Er; rewrite <- Er in H.
    + destruct (match_prefix _ _ _ _ L H) as (y & z & H1 & _ & <-). destruct (char_shape _ _ H1) as (d & ->). reflexivity.
    + apply (lit_stop $"'" _ rest); [cbn; lia|exact L|exact H].
Qed.

(** ** Bit strings *)
Lemma bits_in s : Forall (fun c => graphic c = true /\ c <> dq /\ c <> bs) s -> Forall (fun c => In c graphic_chars) s.
Proof. intros H. eapply Forall_impl; [|exact H]. intros c (H1 & H2 & H3). destruct (graphic_in c H1) as [?|[?|?]]; [congruence|congruence|assumption]. Qed.
Lemma bits_value s rest : Forall (fun c => In c graphic_chars) s -> M (Opt (Seq (one graphic_chars) (Star (Seq (Opt UNDERSCOREv) (one graphic_chars))))) s rest.
Proof.
  intros H. destruct H as [|c s Hc H]; [apply M_AltR; constructor|]. apply M_AltL. apply (M_Seq _ _ [c]); [apply M_one; eauto|]. induction H as [|d s Hd _ IH]; [constructor|].
  change (d :: s) with ([d] ++ s). apply M_StarS; [discriminate| |exact IH]. apply (M_Seq _ _ []); [apply M_AltR; constructor|apply M_one; eauto].
Qed.
Lemma bits_M i b s rest : optional integer i -> In (map small b) bases -> Forall (fun c => In c graphic_chars) s -> M BIT_STRING_LITERAL ((i ++ b) ++ dq :: s ++ [dq]) rest.
Proof.
  intros Hi Hb Hs. rewrite <- app_assoc. unfold BIT_STRING_LITERAL. cbn [Seqs]. constructor; [apply (opt_M integer); [apply integer_M|exact Hi]|]. constructor; [apply base_M; exact Hb|].
  apply (M_Seq _ _ [dq]); [apply M_q|]. constructor; [apply bits_value; exact Hs|apply M_q].
Qed.
Lemma app_quote (a b c d : str) q : Forall (fun c => c <> q) a -> Forall (fun c => c <> q) c -> a ++ q :: b = c ++ q :: d -> a = c /\ b = d.
Proof.
  intros Ha. revert c. induction Ha as [|x a Hx _ IH]; intros c Hc E.
  - destruct Hc as [|y c Hy _]; cbn in E; injection E; intros; subst; [auto|congruence].
  - destruct Hc as [|y c Hy Hc]; cbn in E; injection E; intros E1 E2; [congruence|]. destruct (IH _ Hc E1). subst. auto.
Qed.
Lemma word_no_dq w : Forall (fun c => in_word c = true) w -> Forall (fun c => c <> dq) w.
Proof. intros H. eapply Forall_impl; [|exact H]. intros c. apply no_dq_word. Qed.
Lemma chars_no_dq w : Forall (fun c => In c graphic_chars) w -> Forall (fun c => c <> dq) w.
Proof. intros H. eapply Forall_impl; [|exact H]. intros c. apply graphic_no. reflexivity. Qed.
Lemma bits_self p s rest m : Forall (fun c => in_word c = true) p -> Forall (fun c => In c graphic_chars) s -> m <= length ((p ++ dq :: s ++ [dq]) ++ rest) ->
  M BIT_STRING_LITERAL (firstn m ((p ++ dq :: s ++ [dq]) ++ rest)) (skipn m ((p ++ dq :: s ++ [dq]) ++ rest)) -> m <= length (p ++ dq :: s ++ [dq]).
Proof.
  intros Hp Hs L H. destruct (match_prefix _ _ _ _ L H) as (y & z & H1 & E & <-). destruct (bits_shape _ _ H1) as (i & b & c & -> & _ & Hw & _ & Hc).
  rewrite <- !app_assoc in E. rewrite app_assoc in E. cbn [app] in E. apply app_quote in E as [-> E]; [|apply word_no_dq; exact Hw|apply word_no_dq; exact Hp]. rewrite <- !app_assoc in E. cbn [app] in E.
  apply app_quote in E as [-> _]; [apply le_n|apply chars_no_dq; exact Hc|apply chars_no_dq; exact Hs].
Qed.
Definition dq_free (r : re) : bool := forallb (fun x => negb (pairb r x dq)) chars.
Lemma dq_stop r p s rest m : dq_free r = true -> p <> [] -> M r (firstn m ((p ++ dq :: s ++ [dq]) ++ rest)) (skipn m ((p ++ dq :: s ++ [dq]) ++ rest)) -> m <= length p.
Proof.
  intros F N H. destruct p as [|x p] using rev_ind; [congruence|]. rewrite <- !app_assoc in H. cbn [app] in H. apply match_stops in H; [rewrite app_length; cbn [length]; lia|]. apply negb_true_iff. exact (by_chars _ F x).
Qed.
Lemma kw_dq_free k : In k v_keywords -> dq_free (ci k) = true.
Proof. intros I. assert (G : forallb (fun k => dq_free (ci k)) v_keywords = true) by (vm_compute; reflexivity). rewrite forallb_forall in G. exact (G k I). Qed.
Lemma basic_dq_free : dq_free BASIC_IDENTIFIER = true. Proof. vm_compute. reflexivity. Qed.
Lemma num_dq_free : dq_free DECIMAL_LITERAL && dq_free INTEGERv && dq_free BASED_LITERAL && dq_free DIGITv = true. Proof. vm_compute. reflexivity. Qed.
Lemma num_rules_re k r : In (k, r) num_rules -> r = BIT_STRING_LITERAL \/ dq_free r = true.
Proof.
  pose proof num_dq_free as G. do 3 (apply andb_true_iff in G as [G ?]). intros [I|[I|[I|[I|[I|[]]]]]]; injection I as _ <-; auto.
Qed.
Lemma letter_dq_free c k r : In (k, r) (kw_rules c ++ (V_BASIC_IDENTIFIER, BASIC_IDENTIFIER) :: bits_rules c) -> r = BIT_STRING_LITERAL \/ dq_free r = true.
Proof. intros I. apply letter_rules_re in I as [(k0 & I & ->)|[->| ->]]; [right; apply kw_dq_free; exact I|right; exact basic_dq_free|left; reflexivity]. Qed.
Lemma bits_pick c p s rest pre post : alive c = pre ++ (V_BIT_STRING_LITERAL, BIT_STRING_LITERAL) :: post -> hd_error p = Some c -> M BIT_STRING_LITERAL (p ++ dq :: s ++ [dq]) rest -> Forall (fun c => in_word c = true) p -> Forall (fun c => In c graphic_chars) s ->
  (forall k r, In (k, r) (alive c) -> r = BIT_STRING_LITERAL \/ dq_free r = true) -> (forall k r, In (k, r) pre -> dq_free r = true) ->
  v_best v_rules ((p ++ dq :: s ++ [dq]) ++ rest) None = Some (V_BIT_STRING_LITERAL, length (p ++ dq :: s ++ [dq])).
Proof.
  intros EA Hc HM Hp Hs A B. assert (N : p <> []) by (intros ->; discriminate). apply (pick c _ rest _ BIT_STRING_LITERAL pre post EA); [destruct p; [discriminate|exact Hc]|reflexivity|exact HM| |].
  - intros k r m I _ L H. rewrite <- EA in I. destruct (A k r I) as [->|F]; [exact (bits_self p s rest m Hp Hs L H)|]. apply (dq_stop r p s rest m F N) in H. rewrite app_length. lia.
  - intros k r I H. pose proof (dq_stop r p s rest (length (p ++ dq :: s ++ [dq])) (B k r I) N) as G. rewrite firstn_pre, skipn_pre in G. specialize (G H). rewrite app_length in G. cbn [length] in G. lia.
Qed.
Lemma base_hd b c b' : In (map small b) bases -> b = c :: b' -> bits_rules c = [(V_BIT_STRING_LITERAL, BIT_STRING_LITERAL)].
Proof.
  intros H ->. cbn [map] in H. unfold bits_rules. assert (G : mem_c (small c) $"boxusd" = true); [|rewrite G; reflexivity].
  unfold bases in H. cbn [In] in H. apply mem_c_In. repeat (destruct H as [H|H]; [injection H as <- _; cbn; tauto|]). contradiction.
Qed.
Lemma integer_word i : integer i -> Forall (fun c => in_word c = true) i.
Proof. intros H. apply run_all in H. eapply Forall_impl; [|exact H]. intros c [Hc| ->]; [apply alnum_word, digit_alnum, Hc|reflexivity]. Qed.
Lemma pick_bits p s rest : lexeme_ok (L_bits p s) -> v_best v_rules (lexeme_text (L_bits p s) ++ rest) None = Some (V_BIT_STRING_LITERAL, length (lexeme_text (L_bits p s))).
Proof.
  cbn [lexeme_ok lexeme_text]. intros [(i & b & -> & Hi & Hb) Hs]. apply bits_in in Hs. pose proof (bits_M i b s rest Hi Hb Hs) as HM. destruct (base_word b Hb) as [Wb (c & b' & Eb & Lc)]. destruct Hi as [->|Hi].
  - cbn [app] in *. apply (bits_pick c b s rest (kw_rules c ++ [(V_BASIC_IDENTIFIER, BASIC_IDENTIFIER)]) []); try assumption.
    + rewrite (alive_letter c Lc), <- app_assoc. rewrite (base_hd b c b' Hb Eb). reflexivity.
    + rewrite Eb. reflexivity.
    + rewrite (alive_letter c Lc). apply letter_dq_free.
    + intros k r I. apply in_app_iff in I as [I|[I|[]]]; [apply kw_rules_re in I as (k0 & I & ->); apply kw_dq_free; exact I|injection I as _ <-; exact basic_dq_free].
  - destruct (run_hd _ _ Hi) as (x & i' & Ei & Hx). apply (bits_pick x (i ++ b) s rest [(V_DECIMAL_LITERAL, DECIMAL_LITERAL); (V_INTEGER, INTEGERv); (V_BASED_LITERAL, BASED_LITERAL)] [(V_DELIM $"0-9", DIGITv)]); try assumption.
    + exact (alive_digit x Hx).
    + rewrite Ei. reflexivity.
    + apply Forall_app. split; [apply integer_word; exact Hi|exact Wb].
    + rewrite (alive_digit x Hx). apply num_rules_re.
    + pose proof num_dq_free as G. do 3 (apply andb_true_iff in G as [G ?]). intros k r [I|[I|[I|[]]]]; injection I as _ <-; assumption.
Qed.

(** ** Comments *)
Lemma comment_starts y z : M COMMENTv y z -> exists w, y = $"--" ++ w.
Proof. unfold COMMENTv. intros H. apply M_Seq_iff in H as (a & b & -> & Ha & _). apply M_lit in Ha as ->. eauto. Qed.
Lemma block_starts y z : M BLOCK_COMMENTv y z -> exists w, y = $"/*" ++ w.
Proof. intros H. change BLOCK_COMMENTv with COMMENT_re in H. apply block_inner in H as (t & -> & _). eauto. Qed.
Lemma alive_minus : alive "-" = [] ++ (V_COMMENT, COMMENTv) :: [(V_DELIM $"-", lit $"-")].
Proof. vm_compute. reflexivity. Qed.
Lemma comment_nl : forallb (fun x => negb (pairb COMMENTv x nl)) chars = true.
Proof. vm_compute. reflexivity. Qed.
Lemma pick_line s rest : piece_ok (P_line s) -> ends (P_line s) rest -> v_best v_rules (piece_text (P_line s) ++ rest) None = Some (V_COMMENT, length (piece_text (P_line s))).
Proof.
  cbn [piece_ok ends piece_text]. intros N S. apply (pick "-" _ rest V_COMMENT COMMENTv _ _ alive_minus); [reflexivity|reflexivity| | |intros k r []].
  - unfold COMMENTv. constructor; [apply M_lit; reflexivity|]. apply M_Star_not1. apply Forall_forall. intros c I [<-|[]]. exact (N I).
  - intros k r m [I|[I|[]]] _ L H; injection I as _ Er; rewrite <- Er in H.
    + revert L H. destruct ($"--" ++ s) as [|x t] eqn:E using rev_ind; [discriminate|]. intros L H. apply (stops COMMENTv t x rest m); [|exact L|exact H]. destruct rest as [|d rest]; [exact Logic.I|]. rewrite S. apply negb_true_iff. exact (by_chars _ comment_nl x).
    + apply (lit_stop $"-" _ rest); [cbn; lia|exact L|exact H].
Qed.
Lemma alive_slash : alive "/" = [] ++ (V_BLOCK_COMMENT, BLOCK_COMMENTv) :: [(V_DELIM $"/=", lit $"/="); (V_DELIM $"/", lit $"/")].
Proof. vm_compute. reflexivity. Qed.
Lemma block_M t rest : ~ occurs $"*/" t -> M BLOCK_COMMENTv ($"/*" ++ t ++ $"*/") rest.
Proof.
  intros N. destruct (block_star t N) as (u & k & -> & HM). unfold BLOCK_COMMENTv. cbn [Seqs]. constructor; [apply M_lit; reflexivity|]. rewrite <- app_assoc. constructor; [apply HM|].
  replace (repeat "*"%char k ++ $"*/") with (repeat "*"%char (S k) ++ $"/").
  - constructor; [apply plus_stars; exists k; reflexivity|apply M_one; eexists; split; [reflexivity|left; reflexivity]].
  - change ($"*/") with ($"*" ++ $"/"). rewrite app_assoc. f_equal. apply (repeat_cons k "*"%char).
Qed.
Lemma block_stop t rest m : ~ occurs $"*/" t -> m <= length (($"/*" ++ t ++ $"*/") ++ rest) -> M BLOCK_COMMENTv (firstn m (($"/*" ++ t ++ $"*/") ++ rest)) (skipn m (($"/*" ++ t ++ $"*/") ++ rest)) -> m <= length ($"/*" ++ t ++ $"*/").
Proof.
  intros N L H. destruct (match_prefix _ _ _ _ L H) as (y & z & H1 & E & <-). change BLOCK_COMMENTv with COMMENT_re in H1. apply block_inner in H1 as (b & -> & Nb). rewrite <- !app_assoc in E. apply app_inv_head in E. rewrite !app_length. cbn [length].
  destruct (app_eq_app _ _ _ _ E) as (w & [[E1 E2]|[E1 E2]]); [|subst; rewrite app_length; lia]. destruct w as [|c [|d w]].
  - rewrite app_nil_r in E1. subst. lia.
  - cbn in E2. injection E2 as _ E2. discriminate.
  - cbn in E2. injection E2 as <- <- _. exfalso. apply Nb. exists t, w. exact E1.
Qed.
Lemma pick_block t rest : piece_ok (P_block t) -> v_best v_rules (piece_text (P_block t) ++ rest) None = Some (V_BLOCK_COMMENT, length (piece_text (P_block t))).
Proof.
  cbn [piece_ok piece_text]. intros N. apply (pick "/" _ rest V_BLOCK_COMMENT BLOCK_COMMENTv _ _ alive_slash); [reflexivity|reflexivity|apply block_M; exact N| |intros k r []].
  intros k r m [I|[I|[I|[]]]] _ L H; injection I as _ Er; rewrite <- Er in H.
  - exact (block_stop t rest m N L H).
  - apply (lit_stop $"/=" _ rest); [cbn; lia|exact L|exact H].
  - apply (lit_stop $"/" _ rest); [cbn; lia|exact L|exact H].
Qed.
