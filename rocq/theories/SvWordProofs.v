(** Words, system names and signs of Verilog. *)
From Verif Require Import Base BaseFacts AstModel LitModel SvExprModel RegexModel RegexProofs RegexPairProofs PpLexProofs StrSpec VhdlLexModel VhdlLexSpec VhdlLexProofs VhdlTokenProofs SvLexModel SvLexSpec SvLexProofs.

(** [begins P r]: can a match of r begin with a character of P? *)
Definition begins (P : ascii -> bool) (r : re) : bool := existsb (fun c => P c && firstb r c) chars.
Lemma begins_no P r c : begins P r = false -> P c = true -> firstb r c = true -> False.
Proof. unfold begins. intros H HP HF. assert (G : existsb (fun c => P c && firstb r c) chars = true); [|congruence]. apply existsb_exists. exists c. split; [apply in_chars|]. rewrite HP, HF. reflexivity. Qed.
Definition alive_for (P : ascii -> bool) : list (skind * re) := filter (fun kr => begins P (snd kr)) (class_rules ++ layout_rules).
Lemma alive_in P k r c : P c = true -> In (k, r) (class_rules ++ layout_rules) -> firstb r c = true -> In (k, r) (alive_for P).
Proof. intros HP I F. apply filter_In. split; [exact I|]. cbn [snd]. destruct (begins P r) eqn:B; [reflexivity|]. destruct (begins_no P r c B HP F). Qed.

(** Signs consist of other characters than words, numbers, strings and white space. *)
Definition sign_first (c : ascii) : bool := negb (word_start c || digit c || white c || ceqb c dq).
Lemma sign_firsts : forallb (fun d => match d with c :: _ => sign_first c | [] => false end) s_signs = true.
Proof. vm_compute. reflexivity. Qed.
Lemma sign_is d : In d s_signs -> exists c t, d = c :: t /\ sign_first c = true.
Proof. intros I. pose proof sign_firsts as H. rewrite forallb_forall in H. specialize (H d I). destruct d as [|c t]; [discriminate|eauto]. Qed.
Lemma no_sign c u s : sign_first c = false -> forall d z, In d s_signs -> d ++ z = (c :: u) ++ s -> length d <= length (c :: u).
Proof. intros N d z I E. destruct (sign_is d I) as (x & t & -> & H). injection E as -> _. congruence. Qed.
Lemma all_forallb P s : forallb P s = true <-> all P s.
Proof. unfold all. rewrite Forall_forall, forallb_forall. reflexivity. Qed.
Lemma kw_word v w : In w (keywords v) -> all word_char w.
Proof. intros I. apply keyword_is in I. apply andb_true_iff in I as [I _]. apply all_forallb, I. Qed.
Lemma kw_within v t s : not_first word_char s -> forall w z, In w (keywords v) -> w ++ z = t ++ s -> length w <= length t.
Proof. intros N w z I E. exact (within word_char w z t s (kw_word v w I) E N). Qed.
Lemma kw_first v w c u z s : In w (keywords v) -> w ++ z = (c :: u) ++ s -> w = $"1step" \/ word_start c = true \/ c = "$"%char.
Proof.
  intros I E. apply keyword_is in I. apply andb_true_iff in I as [_ I]. apply orb_true_iff in I as [I|I]; [left; apply seqb_eq; exact I|]. destruct w as [|x w]; [discriminate|]. injection E as -> _.
  apply orb_true_iff in I as [I|I]; [tauto|apply ceqb_eq in I; tauto].
Qed.

(** ** Words *)
Lemma alive_word : alive_for word_start = [(S_EDGE_CONTROL_SPECIFIER, EDGE_CONTROL_SPECIFIER); (S_C_IDENTIFIER, C_IDENTIFIER); (S_SIMPLE_IDENTIFIER, SIMPLE_IDENTIFIER)].
Proof. vm_compute. reflexivity. Qed.
Lemma start_char c : word_start c = true -> word_char c = true.
Proof. revert c. apply by_imp. vm_compute. reflexivity. Qed.
Lemma start_in c : word_start c = true -> In c (v_letters ++ $"_").
Proof. intros H. apply mem_c_In. revert c H. apply by_imp. vm_compute. reflexivity. Qed.
Lemma word_dollar_in c : word_char c = true <-> In c s_word_dollar.
Proof.
  split; [intros H; apply mem_c_In; revert c H; apply by_imp; vm_compute; reflexivity|]. intros H. apply mem_c_In in H. revert c H. apply by_imp. vm_compute. reflexivity.
Qed.
Lemma word_in c : word_char c = true -> c <> "$"%char -> In c s_word.
Proof. intros H N. apply word_dollar_in in H. apply in_app_iff in H as [H|[H|[]]]; [exact H|congruence]. Qed.
Lemma s_word_no c : In c s_word -> word_char c = true /\ c <> "$"%char.
Proof. intros H. split; [apply word_dollar_in, in_app_iff; left; exact H|intros ->; apply mem_c_In in H; discriminate H]. Qed.
Lemma star_one_all cs y z : M (Star (one cs)) y z -> Forall (fun c => In c cs) y.
Proof. intros H. refine (M_Star_ind (one cs) (fun y _ => Forall (fun c => In c cs) y) _ _ _ _ H); [intros; constructor|]. intros x y' r' _ Hx _ IH. apply M_one in Hx as (c & -> & Hc). constructor; assumption. Qed.
Lemma star_one_M cs s rest : Forall (fun c => In c cs) s -> M (Star (one cs)) s rest.
Proof. induction 1 as [|c s H _ IH]; [constructor|]. change (c :: s) with ([c] ++ s). apply M_StarS; [discriminate|apply M_one; eauto|exact IH]. Qed.
Lemma simple_all y z : M SIMPLE_IDENTIFIER y z -> all word_char y.
Proof.
  unfold SIMPLE_IDENTIFIER. intros H. apply M_Seq_iff in H as (a & b & -> & Ha & Hb). apply M_one in Ha as (c & -> & Hc). apply star_one_all in Hb. constructor.
  - apply mem_c_In in Hc. revert c Hc. apply by_imp. vm_compute. reflexivity.
  - eapply Forall_impl; [|exact Hb]. intros x Hx. apply word_dollar_in. exact Hx.
Qed.
Lemma c_all y z : M C_IDENTIFIER y z -> all word_char y /\ ~ In "$"%char y.
Proof.
  unfold C_IDENTIFIER. intros H. apply M_Seq_iff in H as (a & b & -> & Ha & Hb). apply M_one in Ha as (c & -> & Hc). apply star_one_all in Hb. rewrite Forall_forall in Hb. split.
  - constructor; [apply mem_c_In in Hc; revert c Hc; apply by_imp; vm_compute; reflexivity|]. apply Forall_forall. intros x Hx. apply (s_word_no x (Hb x Hx)).
  - intros [->|I]; [apply mem_c_In in Hc; discriminate Hc|]. destruct (s_word_no _ (Hb _ I)) as [_ N]. congruence.
Qed.
Lemma edge_starts y z : M EDGE_CONTROL_SPECIFIER y z -> exists w, y = $"edge" ++ "["%char :: w.
Proof.
  unfold EDGE_CONTROL_SPECIFIER. cbn [Seqs]. intros H. apply M_Seq_iff in H as (a & b & -> & Ha & Hb). apply M_lit in Ha as ->. apply M_Seq_iff in Hb as (x & w & -> & Hx & _). apply M_one in Hx as (c & -> & [<-|[]]). exists w. reflexivity.
Qed.
Lemma simple_M c t rest : word_start c = true -> all word_char t -> M SIMPLE_IDENTIFIER (c :: t) rest.
Proof.
  intros Hc Ht. unfold SIMPLE_IDENTIFIER. apply (M_Seq _ _ [c]); [apply M_one; exists c; split; [reflexivity|apply start_in; exact Hc]|]. apply star_one_M. eapply Forall_impl; [|exact Ht]. intros x. apply word_dollar_in.
Qed.
Lemma c_M c t rest : word_start c = true -> all word_char t -> ~ In "$"%char t -> M C_IDENTIFIER (c :: t) rest.
Proof.
  intros Hc Ht N. unfold C_IDENTIFIER. apply (M_Seq _ _ [c]); [apply M_one; exists c; split; [reflexivity|apply start_in; exact Hc]|]. apply star_one_M. apply Forall_forall. intros x I. apply word_in; [exact (proj1 (Forall_forall _ _) Ht x I)|intros ->; exact (N I)].
Qed.
(** Where the first character outside of a class is. *)
Lemma same_span P (a b : str) x y s s' : all P a -> all P b -> P x = false -> P y = false -> a ++ x :: s = b ++ y :: s' -> a = b /\ x = y.
Proof.
  intros A. revert b. induction A as [|p a Hp _ IH]; intros b B Hx Hy E.
  - destruct B as [|q b Hq _]; injection E; intros; subst; [auto|congruence].
  - destruct B as [|q b Hq B]; injection E; intros E2 E1; subst; [congruence|]. destruct (IH b B Hx Hy E2) as [-> ->]. auto.
Qed.
Lemma word_within v c t rest : word_start c = true -> all word_char t -> not_first word_char rest -> (c :: t = $"edge" -> not_first (ceqb "[") rest) -> within_text (s_rules v) (c :: t) rest.
Proof.
  intros Hc Ht N NE. assert (A : all word_char (c :: t)) by (constructor; [apply start_char; exact Hc|exact Ht]). apply bound.
  - apply kw_within. exact N.
  - apply no_sign. unfold sign_first. rewrite Hc. reflexivity.
  - intros k r y z I F HM E. apply (alive_in word_start k r c Hc) in F; [|exact I]. rewrite alive_word in F. destruct F as [F|[F|[F|[]]]]; injection F as _ <-.
    + destruct (edge_starts y z HM) as (w & ->). destruct rest as [|d rest]; [rewrite app_nil_r in E; rewrite <- E, (app_length _ z); lia|].
      rewrite <- app_assoc in E. destruct (same_span word_char ($"edge") (c :: t) "[" d (w ++ z) rest) as [E1 E2]; [apply all_forallb; reflexivity|exact A|reflexivity|exact N|exact E|].
      specialize (NE (eq_sym E1)). subst d. discriminate NE.
    + apply (within word_char y z _ rest); [apply (c_all y z HM)|exact E|exact N].
    + apply (within word_char y z _ rest); [apply (simple_all y z HM)|exact E|exact N].
Qed.
(** Reserved words are the keywords of the version. *)
Definition all_langs : list lang := [VHDL; VERILOG1995; VERILOG2001; VERILOG2001_NOCONFIG; VERILOG2005; SV2005; SV2009; SV2012; SV2017; HWT; LANG_INVALID].
Lemma in_langs v : In v all_langs.
Proof. destruct v; cbn; tauto. Qed.
Definition agree (A B U : list str) : bool :=
  forallb (fun w => listed w B || listed w U) A && forallb (fun w => listed w A || listed w U || negb (match w with c :: _ => word_start c | [] => true end)) B.
Lemma word_lists : forallb (fun v => agree (reserved_words v ++ special_words) (keywords v) (unsettled v)) all_langs = true.
Proof. vm_compute. reflexivity. Qed.
Lemma listed_In s l : listed s l = true <-> In s l.
Proof.
  unfold listed. rewrite existsb_exists. split; [intros (x & I & E); apply seqb_eq in E as ->; exact I|]. intros I. exists s. split; [exact I|apply seqb_refl].
Qed.
Lemma lists_agree (A B U : list str) c t : agree A B U = true -> word_start c = true -> ~ In (c :: t) U -> listed (c :: t) A = listed (c :: t) B.
Proof.
  intros H Hc N. apply andb_true_iff in H as [H1 H2]. rewrite forallb_forall in H1, H2.
  apply eq_true_iff_eq. rewrite !listed_In. split; intros I.
  - specialize (H1 _ I). apply orb_true_iff in H1 as [H1|H1]; apply listed_In in H1; [exact H1|contradiction].
  - specialize (H2 _ I). cbn beta iota in H2. rewrite Hc in H2. cbn [negb] in H2. rewrite orb_false_r in H2. apply orb_true_iff in H2 as [H2|H2]; apply listed_In in H2; [exact H2|contradiction].
Qed.
Lemma word_lists_for v : agree (reserved_words v ++ special_words) (keywords v) (unsettled v) = true.
Proof. assert (H := word_lists). rewrite forallb_forall in H. exact (H v (in_langs v)). Qed.
Lemma reserved_keyword v c t : word_start c = true -> ~ In (c :: t) (unsettled v) -> listed (c :: t) (reserved_words v ++ special_words) = listed (c :: t) (keywords v).
Proof. exact (lists_agree (reserved_words v ++ special_words) (keywords v) (unsettled v) c t (word_lists_for v)). Qed.
Definition rest_rules : list (skind * re) := map sign_rule s_signs ++ layout_rules.
Lemma choose_kw ks c w rest : In w ks -> within_text (map kw_rule ks ++ c) w rest -> s_best (map kw_rule ks ++ c) (w ++ rest) None = Some (S_KW w, length w).
Proof.
  intros I W. apply (choose [] (map kw_rule ks) c); [exact W|intros k r []| |].
  - intros k r J HM. apply in_map_iff in J as (x & E & _). injection E as <- <-. apply M_lit in HM. congruence.
  - exists (lit w). split; [apply in_map_iff; exists w; split; [reflexivity|exact I]|apply lit_M].
Qed.
Lemma pick_keyword v w rest : In w (keywords v) -> within_text (s_rules v) w rest -> s_best (s_rules v) (w ++ rest) None = Some (S_KW w, length w).
Proof. exact (choose_kw (keywords v) (class_rules ++ map sign_rule s_signs ++ layout_rules) w rest). Qed.
Definition class_before (n : nat) := firstn n class_rules.
Definition class_after (n : nat) := skipn (S n) class_rules.
Lemma rules_at v n k r : nth_error class_rules n = Some (k, r) -> s_rules v = (map kw_rule (keywords v) ++ class_before n) ++ [(k, r)] ++ (class_after n ++ rest_rules).
Proof.
  intros H. rewrite s_rules_split. unfold class_before, class_after, rest_rules. rewrite <- !app_assoc. f_equal. rewrite (app_assoc [(k, r)]). rewrite (app_assoc (firstn n class_rules)). f_equal.
  apply nth_error_split in H as (l1 & l2 & E & <-). rewrite E. rewrite firstn_app, Nat.sub_diag, firstn_all, app_nil_r. replace (S (length l1)) with (length l1 + 1) by lia. rewrite skipn_app, skipn_all2 by lia. replace (length l1 + 1 - length l1) with 1 by lia. reflexivity.
Qed.
(** The rule n of the class rules is taken if no keyword and no class rule before it matches. *)
Lemma choose_class ks a k r c t rest : within_text ((map kw_rule ks ++ a) ++ [(k, r)] ++ c) t rest -> M r t rest -> ~ In t ks -> (forall k' r', In (k', r') a -> ~ M r' t rest) ->
  s_best ((map kw_rule ks ++ a) ++ [(k, r)] ++ c) (t ++ rest) None = Some (k, length t).
Proof.
  intros W HM NK NC. apply choose; [exact W| | |].
  - intros k' r' I. apply in_app_iff in I as [I|I]; [|exact (NC k' r' I)]. apply in_map_iff in I as (w & E & I). injection E as <- <-. intros H. apply M_lit in H as ->. exact (NK I).
  - intros k' r' [I|[]] _. injection I as -> _. reflexivity.
  - exists r. split; [left; reflexivity|exact HM].
Qed.
Lemma pick_class v n k r t rest : nth_error class_rules n = Some (k, r) -> within_text (s_rules v) t rest -> M r t rest -> ~ In t (keywords v) -> (forall k' r', In (k', r') (class_before n) -> ~ M r' t rest) ->
  s_best (s_rules v) (t ++ rest) None = Some (k, length t).
Proof. intros Hn. rewrite (rules_at v n k r Hn). exact (choose_class (keywords v) (class_before n) k r (class_after n ++ rest_rules) t rest). Qed.
Lemma class_in n k r : In (k, r) (class_before n) -> In (k, r) (class_rules ++ layout_rules).
Proof. intros I. apply in_app_iff. left. unfold class_before in I. rewrite <- (firstn_skipn n class_rules). apply in_app_iff. left. exact I. Qed.
Lemma mem_false c s : mem_c c s = false <-> ~ In c s.
Proof. rewrite <- mem_c_In. destruct (mem_c c s); split; try tauto; try discriminate; intros; congruence. Qed.
Lemma edge_not_word t rest : all word_char t -> ~ M EDGE_CONTROL_SPECIFIER t rest.
Proof. intros A H. destruct (edge_starts _ _ H) as (w & ->). apply Forall_app in A as [_ A]. apply Forall_inv in A. discriminate A. Qed.
Lemma before_c c k r : word_start c = true -> In (k, r) (class_before 9) -> firstb r c = true -> r = EDGE_CONTROL_SPECIFIER.
Proof.
  intros Hc I F. pose proof (alive_in word_start k r c Hc (class_in 9 k r I) F) as A. rewrite alive_word in A. destruct A as [A|[A|[A|[]]]]; injection A as <- <-; [reflexivity| |]; exfalso; cbn in I; repeat (destruct I as [I|I]; [discriminate I|]); exact I.
Qed.
Lemma before_simple c k r : word_start c = true -> In (k, r) (class_before 11) -> firstb r c = true -> r = EDGE_CONTROL_SPECIFIER \/ r = C_IDENTIFIER.
Proof.
  intros Hc I F. pose proof (alive_in word_start k r c Hc (class_in 11 k r I) F) as A. rewrite alive_word in A. destruct A as [A|[A|[A|[]]]]; injection A as <- <-; [tauto|tauto|]; exfalso; cbn in I; repeat (destruct I as [I|I]; [discriminate I|]); exact I.
Qed.
Definition word_kind (v : lang) (s : str) : skind :=
  if listed s (reserved_words v ++ special_words) then S_KW s else if mem_c "$"%char s then S_SIMPLE_IDENTIFIER else S_C_IDENTIFIER.
Lemma pick_word v s rest : elem_ok v (T_word s) -> stops_at v (G_elem (T_word s)) rest -> ~ In s (unsettled v) -> s_best (s_rules v) (s ++ rest) None = Some (word_kind v s, length s).
Proof.
  cbn [elem_ok stops_at]. intros (c & t & -> & Hc & Ht) [N NE] NU. pose proof (word_within v c t rest Hc Ht N NE) as W. assert (A : all word_char (c :: t)) by (constructor; [apply start_char; exact Hc|exact Ht]).
  unfold word_kind. rewrite (reserved_keyword v c t Hc NU). destruct (listed (c :: t) (keywords v)) eqn:L; [apply listed_In in L; apply pick_keyword; assumption|].
  assert (NK : ~ In (c :: t) (keywords v)) by (rewrite <- listed_In; congruence). clear L. destruct (mem_c "$" (c :: t)) eqn:D.
  - apply mem_c_In in D. apply (pick_class v 11 S_SIMPLE_IDENTIFIER SIMPLE_IDENTIFIER); [reflexivity|exact W|apply simple_M; assumption|exact NK|].
    intros k r I HM. destruct (before_simple c k r Hc I (first_char r (c :: t) rest c t HM eq_refl)) as [->| ->]; [exact (edge_not_word _ _ A HM)|]. destruct (c_all _ _ HM) as [_ X]. exact (X D).
  - apply mem_false in D. apply (pick_class v 9 S_C_IDENTIFIER C_IDENTIFIER); [reflexivity|exact W|apply c_M; [exact Hc|exact Ht|intros I; apply D; right; exact I]|exact NK|].
    intros k r I HM. rewrite (before_c c k r Hc I (first_char r (c :: t) rest c t HM eq_refl)) in HM. exact (edge_not_word _ _ A HM).
Qed.

(** ** System names *)
Lemma alive_dollar : alive_for (ceqb "$") = [(S_SYSTEM_TF_IDENTIFIER, SYSTEM_TF_IDENTIFIER)].
Proof. vm_compute. reflexivity. Qed.
Lemma system_all y z : M SYSTEM_TF_IDENTIFIER y z -> all word_char y.
Proof.
  unfold SYSTEM_TF_IDENTIFIER. intros H. apply M_Seq_iff in H as (a & b & -> & Ha & Hb). apply M_one in Ha as (c & -> & [<-|[]]). constructor; [reflexivity|]. apply M_Seq_iff in Hb as (x & w & -> & Hx & Hw).
  apply M_one in Hx as (c & -> & Hc). apply star_one_all in Hw. constructor; [apply word_dollar_in; exact Hc|]. eapply Forall_impl; [|exact Hw]. intros d. apply word_dollar_in.
Qed.
Lemma system_M s rest : s <> [] -> all word_char s -> M SYSTEM_TF_IDENTIFIER ("$"%char :: s) rest.
Proof.
  intros H0 H. unfold SYSTEM_TF_IDENTIFIER. apply (M_Seq _ _ ["$"%char]); [apply M_one; eexists; split; [reflexivity|left; reflexivity]|]. destruct H as [|c s Hc Hs]; [congruence|].
  apply (M_Seq _ _ [c]); [apply M_one; exists c; split; [reflexivity|apply word_dollar_in; exact Hc]|]. apply star_one_M. eapply Forall_impl; [|exact Hs]. intros d. apply word_dollar_in.
Qed.
Lemma dollar_signs : forallb (fun d => seqb d $"$" || negb (is_prefix $"$" d)) s_signs = true.
Proof. vm_compute. reflexivity. Qed.
Lemma dollar_sign d w : In d s_signs -> d = "$"%char :: w -> w = [].
Proof. intros I ->. pose proof dollar_signs as H. rewrite forallb_forall in H. specialize (H _ I). apply orb_true_iff in H as [H|H]; [apply seqb_eq in H; injection H as ->; reflexivity|discriminate H]. Qed.
Lemma system_within v u rest : u <> [] -> not_first word_char rest -> within_text (s_rules v) ("$"%char :: u) rest.
Proof.
  intros U N. apply bound.
  - apply kw_within. exact N.
  - intros d z I E. destruct d as [|c w]; [cbn; lia|]. injection E as -> _. rewrite (dollar_sign _ w I eq_refl). cbn. lia.
  - intros k r y z I F HM E. apply (alive_in (ceqb "$") k r "$" eq_refl) in F; [|exact I]. rewrite alive_dollar in F. destruct F as [F|[]]. injection F as _ <-. apply (within word_char y z _ rest); [apply (system_all y z HM)|exact E|exact N].
Qed.
Definition names_match (A B : list str) : bool :=
  forallb (fun w => listed ("$"%char :: w) B) A && forallb (fun w => match w with c :: t => negb (ceqb c "$") || listed t A | [] => true end) B.
Lemma name_lists : forallb (fun v => names_match special_names (keywords v)) all_langs = true.
Proof. vm_compute. reflexivity. Qed.
Lemma names_agree (A B : list str) s : names_match A B = true -> listed s A = listed ("$"%char :: s) B.
Proof.
  intros H. apply andb_true_iff in H as [H1 H2]. rewrite forallb_forall in H1, H2.
  apply eq_true_iff_eq. rewrite (listed_In s). split; intros I; [exact (H1 s I)|]. apply listed_In in I. specialize (H2 _ I). apply listed_In. exact H2.
Qed.
Lemma name_lists_for v : names_match special_names (keywords v) = true.
Proof. assert (H := name_lists). rewrite forallb_forall in H. exact (H v (in_langs v)). Qed.
Lemma special_keyword v s : listed s special_names = listed ("$"%char :: s) (keywords v).
Proof. exact (names_agree special_names (keywords v) s (name_lists_for v)). Qed.
Lemma before_system k r : In (k, r) (class_before 12) -> firstb r "$" = true -> False.
Proof.
  intros I F. pose proof (alive_in (ceqb "$") k r "$" eq_refl (class_in 12 k r I) F) as A. rewrite alive_dollar in A. destruct A as [A|[]]. injection A as <- <-. cbn in I. repeat (destruct I as [I|I]; [discriminate I|]). exact I.
Qed.
Lemma pick_system v s rest : elem_ok v (T_system s) -> stops_at v (G_elem (T_system s)) rest ->
  s_best (s_rules v) (("$"%char :: s) ++ rest) None = Some (fst (token_for v (T_system s)), length ("$"%char :: s)).
Proof.
  cbn [elem_ok stops_at token_for fst]. intros [U H] N. pose proof (system_within v s rest U N) as W. rewrite (special_keyword v s). destruct (listed ("$"%char :: s) (keywords v)) eqn:L; [apply listed_In in L; apply pick_keyword; assumption|].
  apply (pick_class v 12 S_SYSTEM_TF_IDENTIFIER SYSTEM_TF_IDENTIFIER); [reflexivity|exact W|apply system_M; assumption|rewrite <- listed_In; congruence|].
  intros k r I HM. exact (before_system k r I (first_char r _ rest "$" s HM eq_refl)).
Qed.
