(** Delimiters, white space and whole texts. *)
From Verif Require Import Base BaseFacts AstModel LitModel SvExprModel RegexModel RegexProofs RegexPairProofs PpLexProofs StrSpec PpLexerModel PpSrcLexProofs VhdlExprModel VhdlSyntaxModel VhdlLexModel VhdlLexSpec VhdlLexProofs VhdlTokenProofs VhdlPickProofs VhdlQuoteProofs.

(** ** Delimiters *)
Lemma rule_re_kind k r : In (k, r) v_rules ->
  match k with V_COMMENT => r = COMMENTv | V_BLOCK_COMMENT => r = BLOCK_COMMENTv | V_CHARACTER_LITERAL => r = CHARACTER_LITERAL | V_DELIM d => r = lit d \/ d = $"0-9" | _ => True end.
Proof.
  unfold v_rules. intros I. apply in_app_iff in I as [I|I]; [apply in_map_iff in I as (x & E & _); injection E as <- _; exact Logic.I|].
  apply in_app_iff in I as [I|I]; [repeat (destruct I as [I|I]; [injection I as <- <-; first [exact Logic.I|reflexivity]|]); contradiction|].
  apply in_app_iff in I as [I|I]; [apply in_map_iff in I as (x & E & _); injection E as <- <-; left; reflexivity|].
  destruct I as [I|I]; [injection I as <- <-; right; reflexivity|]. apply in_map_iff in I as (x & E & _); injection E as <- <-; left; reflexivity.
Qed.
Lemma in_alive c k r : In (k, r) (alive c) -> In (k, r) v_rules.
Proof. unfold alive. intros I. apply filter_In in I as [I _]. exact I. Qed.
Lemma delim_split d (l : list (vkind * re)) : (exists r, In (V_DELIM d, r) l) -> exists pre r post, l = pre ++ (V_DELIM d, r) :: post /\ forall r', ~ In (V_DELIM d, r') pre.
Proof.
  induction l as [|[k r] l IH]; intros (r0 & I); [destruct I|].
  assert (D : k = V_DELIM d \/ k <> V_DELIM d).
  { destruct k as [| | | | | | | | | | | |d']; try (right; discriminate). destruct (seqb d' d) eqn:E; [left; apply seqb_eq in E as ->; reflexivity|right; intros H; injection H as ->; rewrite seqb_refl in E; discriminate]. }
  destruct D as [->|D]; [exists [], r, l; split; [reflexivity|intros r' []]|]. destruct I as [I|I]; [injection I as E _; congruence|].
  destruct IH as (pre & r1 & post & -> & N); [eauto|]. exists ((k, r) :: pre), r1, post. split; [reflexivity|]. intros r' [E|I']; [injection E as E _; congruence|exact (N _ I')].
Qed.
Definition delim_kind (k : vkind) : bool := match k with V_COMMENT | V_BLOCK_COMMENT | V_CHARACTER_LITERAL | V_DELIM _ => true | _ => false end.
Definition has_delim (d : str) (l : list (vkind * re)) : bool := existsb (fun kr => match fst kr with V_DELIM d' => seqb d' d | _ => false end) l.
Definition delim_check (d : str) (a : list (vkind * re)) : bool :=
  negb (seqb d $"0-9") && negb (seqb d []) && has_delim d a && negb (is_prefix $"--" d) && negb (is_prefix $"/*" d) && negb (Nat.eqb (length d) 3 && ceqb (hd sp d) "'") &&
  forallb (fun kr => delim_kind (fst kr) && match fst kr with V_DELIM d' => negb (seqb d' $"0-9") && forallb (fun x => longer_delimiter d x || negb (is_prefix (d ++ [x]) d')) chars | _ => true end) a.
Lemma delims_checked d : In d delimiters -> delim_check d (alive (hd sp d)) = true.
Proof. assert (G : forallb (fun d => delim_check d (alive (hd sp d))) delimiters = true) by (vm_compute; reflexivity). rewrite forallb_forall in G. apply G. Qed.
Record delim_facts (d : str) (a : list (vkind * re)) : Prop := {
  df_cons : exists c d', d = c :: d';
  df_09 : d <> $"0-9";
  df_has : exists r, In (V_DELIM d, r) a;
  df_line : is_prefix $"--" d = false;
  df_block : is_prefix $"/*" d = false;
  df_char : length d = 3 -> hd sp d <> "'"%char;
  df_kind : forall k r, In (k, r) a -> delim_kind k = true /\ forall d', k = V_DELIM d' -> d' <> $"0-9" /\ forall x, longer_delimiter d x = false -> is_prefix (d ++ [x]) d' = false }.
Lemma delim_facts_of d a : delim_check d a = true -> delim_facts d a.
Proof.
  intros I. unfold delim_check in I. do 6 (apply andb_true_iff in I as [I ?]). constructor.
  - destruct d as [|c d]; [clear - H4; discriminate H4|eauto].
  - intros E. rewrite E in I. clear - I. discriminate I.
  - clear - H3. unfold has_delim in H3. apply existsb_exists in H3 as ([k r] & I3 & E). cbn [fst] in E. destruct k; try discriminate E. apply seqb_eq in E as ->. eauto.
  - apply negb_true_iff. assumption.
  - apply negb_true_iff. assumption.
  - clear - H0. intros L E. rewrite L, E in H0. discriminate H0.
  - clear - H. intros k r Ik. rewrite forallb_forall in H. specialize (H _ Ik). cbn [fst snd] in H. apply andb_true_iff in H as [Hk H]. split; [exact Hk|]. intros d' ->. apply andb_true_iff in H as [H H'].
    split; [intros ->; clear - H; discriminate H|]. intros x Lx. rewrite forallb_forall in H'. specialize (H' x (in_chars x)). rewrite Lx in H'. apply negb_true_iff. exact H'.
Qed.
Lemma starts_prefix p d s w z : length p = 2 -> is_prefix p d = false -> (p ++ w) ++ z = d ++ s -> d <> [] -> exists c s', d = [c] /\ s = s' /\ is_prefix p (d ++ s) = true.
Proof.
  intros L N E Nd. destruct p as [|a [|b [|? ?]]]; try discriminate. destruct d as [|c [|c' d]]; [congruence| |].
  - exists c, s. rewrite <- E. cbn. rewrite !Ascii.eqb_refl. auto.
  - cbn in E. injection E as -> -> _. cbn in N. rewrite !Ascii.eqb_refl in N. discriminate.
Qed.
Lemma is_prefix_two a b c s : is_prefix [a; b] ([c] ++ s) = true -> c = a /\ exists s', s = b :: s'.
Proof.
  cbn. intros H. apply andb_true_iff in H as [H1 H2]. apply ceqb_eq in H1 as ->. split; [reflexivity|]. destruct s as [|x s]; [discriminate|]. apply andb_true_iff in H2 as [H2 _]. apply ceqb_eq in H2 as ->. eauto.
Qed.
Lemma line_not d s m : delim_facts d (alive (hd sp d)) -> not_first (longer_delimiter d) s -> m <= length (d ++ s) -> ~ M COMMENTv (firstn m (d ++ s)) (skipn m (d ++ s)).
Proof.
  intros F S L H. destruct (match_prefix _ _ _ _ L H) as (y & z & H1 & E & _). apply comment_starts in H1 as (w & ->). destruct (df_cons d _ F) as (c0 & d0 & Ed).
  destruct (starts_prefix $"--" d s w z eq_refl (df_line d _ F) E) as (c & s' & E1 & _ & P); [rewrite Ed; discriminate|]. rewrite E1 in *. apply is_prefix_two in P as [-> (s'' & ->)]. discriminate S.
Qed.
Lemma block_not d s m : delim_facts d (alive (hd sp d)) -> not_first (longer_delimiter d) s -> m <= length (d ++ s) -> ~ M BLOCK_COMMENTv (firstn m (d ++ s)) (skipn m (d ++ s)).
Proof.
  intros F S L H. destruct (match_prefix _ _ _ _ L H) as (y & z & H1 & E & _). apply block_starts in H1 as (w & ->). destruct (df_cons d _ F) as (c0 & d0 & Ed).
  destruct (starts_prefix $"/*" d s w z eq_refl (df_block d _ F) E) as (c & s' & E1 & _ & P); [rewrite Ed; discriminate|]. rewrite E1 in *. apply is_prefix_two in P as [-> (s'' & ->)]. discriminate S.
Qed.
Lemma char_not d s m : delim_facts d (alive (hd sp d)) -> In d delimiters -> plain (P_lex (L_delim d)) s -> allowed V_CHARACTER_LITERAL (d ++ s) = true -> m <= length (d ++ s) -> ~ M CHARACTER_LITERAL (firstn m (d ++ s)) (skipn m (d ++ s)).
Proof.
  intros F I P A L H. destruct (match_prefix _ _ _ _ L H) as (y & z & H1 & E & _). apply char_shape in H1 as (c & ->). cbn [app] in E.
  assert (D : d = $"'").
  { destruct (df_cons d _ F) as (c0 & d0 & Ed). rewrite Ed in E. cbn in E. injection E as E _. subst c0. clear - I Ed. subst d. assert (G : forallb (fun d => if ceqb (hd sp d) "'" then seqb d $"'" else true) delimiters = true) by (vm_compute; reflexivity).
    rewrite forallb_forall in G. specialize (G _ I). cbn [hd] in G. apply seqb_eq. exact G. }
  subst d. cbn [plain] in P. specialize (P eq_refl). cbn in E. injection E as <-. destruct (P eq_refl) as [-> G]. destruct z as [|z0 [|z1 z]]; [discriminate G|discriminate G|]. cbn [nth_error] in G. injection G as ->. clear - A. discriminate A.
Qed.
Lemma longer_prefix d s d' z : d' ++ z = d ++ s -> length d < length d' -> exists x s', s = x :: s' /\ is_prefix (d ++ [x]) d' = true.
Proof.
  revert d'. induction d as [|c d IH]; intros d' E L; cbn [app] in E.
  - destruct d' as [|x d']; [cbn in L; lia|]. exists x, (d' ++ z). split; [symmetry; exact E|]. cbn. rewrite Ascii.eqb_refl. reflexivity.
  - destruct d' as [|x d']; [cbn in L; lia|]. cbn in E. injection E as -> E. destruct (IH d' E) as (y & s' & -> & P); [cbn in L; lia|]. exists y, s'. split; [reflexivity|]. cbn. rewrite Ascii.eqb_refl. exact P.
Qed.
Lemma delim_stop d s k r m : delim_facts d (alive (hd sp d)) -> In d delimiters -> not_first (longer_delimiter d) s -> plain (P_lex (L_delim d)) s -> In (k, r) (alive (hd sp d)) -> allowed k (d ++ s) = true ->
  m <= length (d ++ s) -> M r (firstn m (d ++ s)) (skipn m (d ++ s)) -> m <= length d.
Proof.
  intros F Id S P I A L H. destruct (df_kind d _ F k r I) as [K KD]. pose proof (rule_re_kind k r (in_alive _ _ _ I)) as R. destruct k as [| | | | | | | | | | | |e]; try (clear - K; discriminate K).
  - exfalso. rewrite R in H. exact (char_not d s m F Id P A L H).
  - exfalso. rewrite R in H. exact (line_not d s m F S L H).
  - exfalso. rewrite R in H. exact (block_not d s m F S L H).
  - destruct (KD _ eq_refl) as [N9 KP]. destruct R as [R|R]; [|destruct (N9 R)]. rewrite R in H. destruct (match_prefix _ _ _ _ L H) as (y & z & H1 & E & <-). apply M_lit in H1. rewrite H1 in E |- *. destruct (le_lt_dec (length e) (length d)) as [Ll|Ll]; [exact Ll|exfalso].
    destruct (longer_prefix d s e z E Ll) as (x & s' & Es & Px). rewrite Es in S. cbn [not_first] in S. rewrite (KP x S) in Px. discriminate.
Qed.
Lemma pick_delim d s : lexeme_ok (L_delim d) -> ends (P_lex (L_delim d)) s -> plain (P_lex (L_delim d)) s -> v_best v_rules (d ++ s) None = Some (V_DELIM d, length d) /\ d <> [].
Proof.
  cbn [lexeme_ok ends]. intros I S P. pose proof (delim_facts_of d _ (delims_checked d I)) as F. destruct (df_cons d _ F) as (c0 & d0 & Ed). split; [|rewrite Ed; discriminate].
  destruct (delim_split d _ (df_has d _ F)) as (pre & r & post & EA & N).
  assert (Er : r = lit d). { assert (Ir : In (V_DELIM d, r) (alive (hd sp d))) by (rewrite EA; apply in_app_iff; right; left; reflexivity). pose proof (rule_re_kind _ _ (in_alive _ _ _ Ir)) as R. destruct R as [R|R]; [exact R|destruct (df_09 d _ F R)]. }
  rewrite Er in EA. apply (pick (hd sp d) d s (V_DELIM d) (lit d) pre post EA); [rewrite Ed; reflexivity|reflexivity|apply M_lit; reflexivity| |].
  - rewrite <- EA. intros k r' m Ik A L H. exact (delim_stop d s k r' m F I S P Ik A L H).
  - intros k r' Ik H. assert (Ia : In (k, r') (alive (hd sp d))) by (rewrite EA; apply in_app_iff; left; exact Ik). destruct (df_kind d _ F k r' Ia) as [K KD]. pose proof (rule_re_kind k r' (in_alive _ _ _ Ia)) as R. destruct k as [| | | | | | | | | | | |e]; try (clear - K; discriminate K).
    + rewrite R in H. apply char_shape in H as (c & Hd). apply (df_char d _ F); rewrite Hd; reflexivity.
    + rewrite R in H. apply comment_starts in H as (w & Hd). pose proof (df_line d _ F) as G. rewrite Hd in G. clear - G; discriminate G.
    + rewrite R in H. apply block_starts in H as (w & Hd). pose proof (df_block d _ F) as G. rewrite Hd in G. clear - G; discriminate G.
    + destruct (KD _ eq_refl) as [N9 _]. destruct R as [R|R]; [|destruct (N9 R)]. rewrite R in H. apply M_lit in H. rewrite <- H in Ik. exact (N _ Ik).
Qed.

(** ** White space *)
Lemma vhdl_lex_skip t s k : t <> [] -> hidden k = true -> v_best v_rules (t ++ s) None = Some (k, length t) -> vhdl_lex (t ++ s) = vhdl_lex s.
Proof. intros N K H. rewrite (vhdl_lex_step t s k N H), K. destruct (vhdl_lex s); reflexivity. Qed.
Lemma alive_sp : alive sp = [] ++ (V_SKIP, Plus (one [sp])) :: [(V_DELIM $" ", lit $" ")].
Proof. vm_compute. reflexivity. Qed.
Lemma alive_tab : alive tab = [] ++ (V_SKIP, Plus (one [tab])) :: [].
Proof. vm_compute. reflexivity. Qed.
Lemma alive_nl : alive nl = [] ++ (V_SKIP, one [nl]) :: [].
Proof. vm_compute. reflexivity. Qed.
Lemma alive_cr : alive cr = [] ++ (V_SKIP, one [cr]) :: [].
Proof. vm_compute. reflexivity. Qed.
Lemma plus_M c n rest : M (Plus (one [c])) (repeat c (S n)) rest.
Proof.
  unfold Plus. change (repeat c (S n)) with ([c] ++ repeat c n). constructor; [apply M_q|]. apply M_Star_one. apply Forall_forall. intros x Hx. apply repeat_spec in Hx as ->. left. reflexivity.
Qed.
Lemma plus_stop c n s m : not_first (ceqb c) s -> m <= length (repeat c (S n) ++ s) -> M (Plus (one [c])) (firstn m (repeat c (S n) ++ s)) (skipn m (repeat c (S n) ++ s)) -> m <= length (repeat c (S n)).
Proof.
  intros S L H. destruct (match_prefix _ _ _ _ L H) as (y & z & H1 & E & <-). assert (F : Forall (fun x => x = c) y).
  { unfold Plus in H1. apply M_Seq_iff in H1 as (a & b & -> & Ha & Hb). apply M_one in Ha as (x & -> & [<-|[]]). constructor; [reflexivity|]. apply M_Star_one in Hb. eapply Forall_impl; [|exact Hb]. intros x [<-|[]]. reflexivity. }
  clear H1 H L. revert y F E. generalize (Datatypes.S n). clear n. intros n. induction n as [|n IH]; intros y F E.
  - destruct F as [|x y -> F]; [apply le_n|]. cbn in E. rewrite <- E in S. cbn in S. unfold ceqb in S. rewrite Ascii.eqb_refl in S. discriminate.
  - destruct F as [|x y -> F]; [cbn; lia|]. cbn in E. injection E as E. apply IH in E; [cbn; lia|exact F].
Qed.
Lemma take_run (c : ascii) (s : str) : exists n s', s = repeat c n ++ s' /\ not_first (ceqb c) s'.
Proof.
  induction s as [|x s (n & s' & E & N)]; [exists 0, []; split; [reflexivity|exact Logic.I]|]. destruct (ceqb c x) eqn:Ex.
  - apply ceqb_eq in Ex as <-. exists (S n), s'. rewrite E. split; [reflexivity|exact N].
  - exists 0, (x :: s). split; [reflexivity|exact Ex].
Qed.
Lemma run_skipped c post : alive c = [] ++ (V_SKIP, Plus (one [c])) :: post -> (forall k r, In (k, r) post -> r = lit [c]) -> forall n s, not_first (ceqb c) s -> vhdl_lex (repeat c n ++ s) = vhdl_lex s.
Proof.
  intros EA HP n s N. destruct n as [|n]; [reflexivity|]. apply (vhdl_lex_skip _ _ V_SKIP); [discriminate|reflexivity|]. apply (pick c _ s _ _ _ _ EA); [reflexivity|reflexivity|apply plus_M| |intros k r []].
  intros k r m [I|I] _ L H.
  - injection I as _ <-. exact (plus_stop c n s m N L H).
  - rewrite (HP _ _ I) in H. apply (lit_stop [c] _ s); [cbn; lia|exact L|exact H].
Qed.
Lemma skip_run c post s : alive c = [] ++ (V_SKIP, Plus (one [c])) :: post -> (forall k r, In (k, r) post -> r = lit [c]) -> vhdl_lex (c :: s) = vhdl_lex s.
Proof.
  intros EA HP. destruct (take_run c s) as (n & s' & -> & N). change (c :: repeat c n ++ s') with (repeat c (S n) ++ s'). rewrite (run_skipped c post EA HP (S n) s' N), (run_skipped c post EA HP n s' N). reflexivity.
Qed.
Lemma skip_one c s : alive c = [] ++ (V_SKIP, one [c]) :: [] -> vhdl_lex (c :: s) = vhdl_lex s.
Proof.
  intros EA. apply (vhdl_lex_skip [c] s V_SKIP); [discriminate|reflexivity|]. apply (pick c [c] s _ _ _ _ EA); [reflexivity|reflexivity|apply M_q| |intros k r []].
  intros k r m [I|[]] _ L H. injection I as _ <-. destruct (match_prefix _ _ _ _ L H) as (y & z & H1 & _ & <-). apply M_one in H1 as (x & -> & _). apply le_n.
Qed.
Lemma skip_blank c s : In c [sp; tab; nl; cr] -> vhdl_lex (c :: s) = vhdl_lex s.
Proof.
  intros [<-|[<-|[<-|[<-|[]]]]].
  - apply (skip_run sp _ s alive_sp). intros k r [I|[]]. injection I as _ <-. reflexivity.
  - apply (skip_run tab _ s alive_tab). intros k r [].
  - apply skip_one. exact alive_nl.
  - apply skip_one. exact alive_cr.
Qed.

(** ** Whole texts *)
Lemma lex_lexeme l s : lexeme_ok l -> ends (P_lex l) s -> plain (P_lex l) s -> vhdl_lex (lexeme_text l ++ s) = (rest <- vhdl_lex s ;; Ok (token_of l :: rest)).
Proof.
  intros K S P. assert (H : v_best v_rules (lexeme_text l ++ s) None = Some (fst (token_of l), length (lexeme_text l)) /\ lexeme_text l <> []).
  { destruct l.
    - apply pick_word; assumption.
    - split; [apply pick_extended; assumption|discriminate].
    - apply pick_decimal; assumption.
    - apply pick_based; assumption.
    - split; [apply pick_char; assumption|discriminate].
    - split; [apply pick_string; assumption|discriminate].
    - split; [apply pick_bits; assumption|cbn [lexeme_text]; destruct prefix; discriminate].
    - apply pick_delim; assumption. }
  destruct H as [H N]. rewrite (vhdl_lex_step _ _ _ N H). assert (Hh : hidden (fst (token_of l)) = false) by (destruct l; try reflexivity; cbn [token_of fst]; destruct (existsb (seqb (map small s0)) reserved); reflexivity). rewrite Hh. reflexivity.
Qed.
Theorem lex_reads prev ps s : reads plain prev ps s -> vhdl_lex s = Ok (map token_of (lexemes ps)).
Proof.
  induction 1 as [prev|prev p ps s K S A P _ IH]; [reflexivity|]. destruct p as [l|c|t|t]; cbn [lexemes map].
  - cbn [piece_text]. rewrite (lex_lexeme l s K S P), IH. reflexivity.
  - cbn [piece_text app]. rewrite (skip_blank c s P). exact IH.
  - rewrite (vhdl_lex_skip _ _ V_COMMENT); [exact IH|discriminate|reflexivity|apply pick_line; assumption].
  - rewrite (vhdl_lex_skip _ _ V_BLOCK_COMMENT); [exact IH|discriminate|reflexivity|apply pick_block; assumption].
Qed.
