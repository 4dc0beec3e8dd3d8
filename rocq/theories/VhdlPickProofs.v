(** The rule chosen for each lexical element. *)
From Verif Require Import Base BaseFacts AstModel LitModel SvExprModel RegexModel RegexProofs RegexPairProofs PpLexProofs StrSpec PpSrcLexProofs VhdlExprModel VhdlSyntaxModel VhdlLexModel VhdlLexSpec VhdlLexProofs VhdlTokenProofs.

Notation "a ==> b" := (if a then b else true) (at level 55, right associativity).
Lemma by_pairs (P : ascii -> bool) (Q : ascii -> ascii -> bool) : forallb (fun c => if P c then forallb (Q c) chars else true) chars = true -> forall c, P c = true -> forall d, Q c d = true.
Proof. intros H c HP d. pose proof (by_chars _ H c) as G. cbn beta in G. rewrite HP in G. exact (by_chars _ G d). Qed.

(** A bit string cannot begin with a text without quote that a word may not continue. *)
Lemma bits_at w s m : Forall (fun c => c <> dq) w -> not_first in_word s -> M BIT_STRING_LITERAL (firstn m (w ++ s)) (skipn m (w ++ s)) ->
  exists i b, w = i ++ b /\ (i = [] \/ exists x i', i = x :: i' /\ digit x = true) /\ In (map small b) bases /\ exists s', s = dq :: s'.
Proof.
  intros W S H. destruct (bits_shape _ _ H) as (i & b & c & E & Hi & Hw & Hb & _). pose proof (firstn_skipn m (w ++ s)) as E2. rewrite E in E2. rewrite <- app_assoc in E2. cbn [app] in E2.
  exists i, b. destruct (app_eq_app _ _ _ _ E2) as (l & [[E3 E4]|[E3 E4]]).
  - destruct l as [|x l]; [rewrite app_nil_r in E3; cbn in E4; repeat split; try assumption; [symmetry; exact E3|eexists; exact E4]|].
    cbn in E4. rewrite E4 in S. cbn in S. rewrite E3 in Hw. apply Forall_app in Hw as [_ Hw]. apply Forall_inv in Hw. congruence.
  - destruct l as [|x l]; [rewrite app_nil_r in E3; repeat split; try assumption; eexists; symmetry; exact E4|].
    cbn in E4. injection E4 as <- _. rewrite E3 in W. apply Forall_app in W as [_ W]. apply Forall_inv in W. congruence.
Qed.

(** ** Numbers *)
Definition num_rules : list (vkind * re) :=
  [(V_DECIMAL_LITERAL, DECIMAL_LITERAL); (V_INTEGER, INTEGERv); (V_BASED_LITERAL, BASED_LITERAL); (V_BIT_STRING_LITERAL, BIT_STRING_LITERAL); (V_DELIM $"0-9", DIGITv)].
Lemma alive_digit c : digit c = true -> alive c = num_rules.
Proof. intros H. apply digit_in in H. unfold v_digits in H. cbn in H. repeat (destruct H as [<-|H]; [vm_compute; reflexivity|]). contradiction. Qed.
Lemma num_pair x : num_end x = true -> forall d, in_number d = false -> pairb DECIMAL_LITERAL x d = false /\ pairb INTEGERv x d = false /\ pairb BASED_LITERAL x d = false /\ pairb DIGITv x d = false.
Proof.
  intros Hx d Hd. assert (G : negb (in_number d) ==> negb (pairb DECIMAL_LITERAL x d || pairb INTEGERv x d || pairb BASED_LITERAL x d || pairb DIGITv x d) = true).
  { revert x Hx d Hd. intros x Hx d _. revert x Hx d. apply by_pairs. vm_compute. reflexivity. }
  rewrite Hd in G. cbn [negb] in G. apply negb_true_iff in G. do 3 (apply orb_false_iff in G as [G ?]). auto.
Qed.
Lemma not_number_word s : not_first in_number s -> not_first in_word s /\ not_first (ceqb dq) s.
Proof.
  destruct s as [|d s]; [split; exact I|]. cbn. unfold in_number. intros H. apply orb_false_iff in H as [H1 H2]. split; [exact H1|]. cbn in H2. apply orb_false_iff in H2 as [H2 _]. unfold ceqb in *. rewrite Ascii.eqb_sym in H2. exact H2.
Qed.
Lemma num_stop t x s k r m : num_end x = true -> not_first in_number s -> Forall (fun c => c <> dq) (t ++ [x]) -> In (k, r) num_rules -> m <= length ((t ++ [x]) ++ s) ->
  M r (firstn m ((t ++ [x]) ++ s)) (skipn m ((t ++ [x]) ++ s)) -> m <= length (t ++ [x]).
Proof.
  intros Hx S W I L H. destruct (not_number_word s S) as [S1 S2].
  assert (P : r <> BIT_STRING_LITERAL -> match s with d :: _ => pairb r x d = false | [] => True end).
  { intros N. destruct s as [|d s]; [exact Logic.I|]. destruct (num_pair x Hx d S) as (P1 & P2 & P3 & P4). destruct I as [I|[I|[I|[I|[I|[]]]]]]; injection I as <- <-; try assumption. destruct (N eq_refl). }
  assert (D : k = V_BIT_STRING_LITERAL /\ r = BIT_STRING_LITERAL \/ r <> BIT_STRING_LITERAL).
  { destruct I as [I|[I|[I|[I|[I|[]]]]]]; injection I as <- <-; first [left; split; reflexivity|right; discriminate]. }
  destruct D as [[-> ->]|D]; [|apply (stops r t x s m); [apply P; exact D|exact L|exact H]].
  exfalso. destruct (bits_at _ _ _ W S1 H) as (i & b & _ & _ & _ & s' & ->). cbn in S2. discriminate.
Qed.
Lemma no_dq_word c : in_word c = true -> c <> dq.
Proof. intros H ->. discriminate. Qed.
Lemma integer_no_dq (P : ascii -> bool) i : (forall c, P c = true -> alnum c = true) -> run P i -> Forall (fun c => c <> dq) i.
Proof. intros H R. apply run_all in R. eapply Forall_impl; [|exact R]. intros c [Hc| ->]; [|discriminate]. apply no_dq_word, alnum_word, H, Hc. Qed.
Lemma digit_alnum c : digit c = true -> alnum c = true.
Proof. intros H. unfold alnum. rewrite H. apply orb_true_r. Qed.
Lemma exponent_no_dq e : optional exponent e -> Forall (fun c => c <> dq) e.
Proof.
  intros [->|H]; [constructor|]. destruct H as [e i He Hi|e g i He Hg Hi]; repeat apply Forall_cons; try (apply (integer_no_dq digit i digit_alnum Hi)).
  - destruct He as [<-|[<-|[]]]; discriminate.
  - destruct He as [<-|[<-|[]]]; discriminate.
  - destruct Hg as [<-|[<-|[]]]; discriminate.
Qed.
Lemma fraction_no_dq P f : (forall c, P c = true -> alnum c = true) -> optional (fraction (run P)) f -> Forall (fun c => c <> dq) f.
Proof. intros H [->|(i & -> & Hi)]; [constructor|]. apply Forall_cons; [discriminate|apply (integer_no_dq P i H Hi)]. Qed.
Lemma pick_decimal t s : lexeme_ok (L_decimal t) -> ends (P_lex (L_decimal t)) s -> v_best v_rules (t ++ s) None = Some (V_DECIMAL_LITERAL, length t) /\ t <> [].
Proof.
  intros (i & f & e & -> & Hi & Hf & He) S. cbn [ends] in S. destruct (run_hd _ _ Hi) as (c & i' & -> & Hc). split; [|discriminate].
  apply (pick c _ s V_DECIMAL_LITERAL DECIMAL_LITERAL [] [(V_INTEGER, INTEGERv); (V_BASED_LITERAL, BASED_LITERAL); (V_BIT_STRING_LITERAL, BIT_STRING_LITERAL); (V_DELIM $"0-9", DIGITv)]).
  - apply alive_digit. exact Hc.
  - reflexivity.
  - reflexivity.
  - apply decimal_M; assumption.
  - intros k r m I _ L H. destruct (decimal_last _ _ _ Hi Hf He) as (t & x & E & Hx). assert (W : Forall (fun c => c <> dq) (t ++ [x])).
    { rewrite <- E. apply Forall_app. split; [apply (integer_no_dq digit _ digit_alnum Hi)|]. apply Forall_app. split; [apply (fraction_no_dq digit _ digit_alnum Hf)|apply exponent_no_dq; exact He]. }
    rewrite E in *. apply (num_stop t x s k r m); try assumption. unfold num_end. rewrite Hx. reflexivity.
  - intros k r [].
Qed.
Lemma pick_based t s : lexeme_ok (L_based t) -> ends (P_lex (L_based t)) s -> v_best v_rules (t ++ s) None = Some (V_BASED_LITERAL, length t) /\ t <> [].
Proof.
  intros (i & d & f & e & -> & Hi & Hd & Hf & He) S. cbn [ends] in S. destruct (run_hd _ _ Hi) as (c & i' & Ei & Hc). split; [|rewrite Ei; discriminate].
  apply (pick c _ s V_BASED_LITERAL BASED_LITERAL [(V_DECIMAL_LITERAL, DECIMAL_LITERAL); (V_INTEGER, INTEGERv)] [(V_BIT_STRING_LITERAL, BIT_STRING_LITERAL); (V_DELIM $"0-9", DIGITv)]).
  - apply alive_digit. exact Hc.
  - rewrite Ei. reflexivity.
  - reflexivity.
  - apply basedlit_M; assumption.
  - intros k r m I _ L H. destruct (based_last i d f e He) as (t & x & E & Hx). assert (W : Forall (fun c => c <> dq) (t ++ [x])).
    { rewrite <- E. apply Forall_app. split; [apply (integer_no_dq digit _ digit_alnum Hi)|]. apply Forall_cons; [discriminate|]. apply Forall_app. split; [apply (integer_no_dq alnum d); auto|].
      apply Forall_app. split; [apply (fraction_no_dq alnum); auto|]. apply Forall_cons; [discriminate|apply exponent_no_dq; exact He]. }
    rewrite E in *. apply (num_stop t x s k r m); assumption.
  - intros k r I H. destruct (run_last _ _ Hi) as (t & x & -> & Hx). rewrite <- app_assoc in H. cbn [app] in H. pose proof (sh_pair _ _ (M_shape _ _ _ H) _ _ _ _ eq_refl) as P.
    assert (Q : forall x, digit x = true -> negb (pairb DECIMAL_LITERAL x "#") && negb (pairb INTEGERv x "#") = true) by (apply by_imp; vm_compute; reflexivity).
    specialize (Q x Hx). destruct I as [I|[I|[]]]; injection I as <- <-; rewrite P in Q; cbn in Q; [discriminate|rewrite andb_false_r in Q; discriminate].
Qed.

(** ** Words *)
Definition kw_rules (c : ascii) : list (vkind * re) := map (fun k => (V_KW k, ci k)) (filter (fun k => ceqb (hd sp k) (small c)) v_keywords).
Definition bits_rules (c : ascii) : list (vkind * re) := if mem_c (small c) $"boxusd" then [(V_BIT_STRING_LITERAL, BIT_STRING_LITERAL)] else [].
Lemma alive_letter c : letter c = true -> alive c = kw_rules c ++ (V_BASIC_IDENTIFIER, BASIC_IDENTIFIER) :: bits_rules c.
Proof. intros H. apply letter_in in H. unfold v_letters, v_lower, v_upper in H. cbn in H. repeat (destruct H as [<-|H]; [vm_compute; reflexivity|]). contradiction. Qed.
Lemma kw_small : forallb (forallb small_letter) v_keywords = true.
Proof. vm_compute. reflexivity. Qed.
Lemma kw_nodup : NoDup v_keywords.
Proof.
  assert (G : (fix nd l := match l with [] => true | x :: l' => negb (existsb (seqb x) l') && nd l' end) v_keywords = true) by (vm_compute; reflexivity). revert G. generalize v_keywords.
  induction l as [|x l IH]; intros G; [constructor|]. apply andb_true_iff in G as [G1 G2]. constructor; [|apply IH; exact G2]. intros I. apply negb_true_iff in G1.
  assert (existsb (seqb x) l = true) by (apply existsb_exists; exists x; split; [exact I|apply seqb_eq; reflexivity]). congruence.
Qed.
Lemma kw_reserved k : existsb (seqb k) reserved = true <-> In k v_keywords.
Proof.
  split.
  - intros H. apply existsb_exists in H as (x & I & E). apply seqb_eq in E as ->. assert (G : forallb (fun x => existsb (seqb x) v_keywords) reserved = true) by (vm_compute; reflexivity).
    rewrite forallb_forall in G. specialize (G _ I). apply existsb_exists in G as (y & Iy & E). apply seqb_eq in E as ->. exact Iy.
  - intros I. assert (G : forallb (fun x => existsb (seqb x) reserved) v_keywords = true) by (vm_compute; reflexivity). rewrite forallb_forall in G. exact (G _ I).
Qed.
Lemma kw_M k t rest : In k v_keywords -> M (ci k) t rest <-> map small t = k.
Proof. intros I. apply M_ci_small. pose proof kw_small as G. rewrite forallb_forall in G. exact (G _ I). Qed.
Lemma basic_M w rest : run alnum w -> letter (hd sp w) = true -> M BASIC_IDENTIFIER w rest.
Proof.
  intros R L. unfold BASIC_IDENTIFIER. destruct w as [|c w]; [inversion R|]. change (c :: w) with ([c] ++ w). constructor; [apply M_one; exists c; split; [reflexivity|apply letter_in; exact L]|].
  apply (run_tail alnum (v_letters ++ v_digits) alnum_in c w R).
Qed.
Lemma basic_pair x : alnum x = true -> forall d, in_word d = false -> pairb BASIC_IDENTIFIER x d = false.
Proof.
  intros Hx d Hd. assert (G : (negb (in_word d) ==> negb (pairb BASIC_IDENTIFIER x d)) = true).
  { clear Hd. revert x Hx d. apply by_pairs. vm_compute. reflexivity. }
  rewrite Hd in G. cbn [negb] in G. apply negb_true_iff in G. exact G.
Qed.
Lemma small_word d : small_letter (small d) = true -> in_word d = true.
Proof. revert d. apply (by_imp (fun d => small_letter (small d))). vm_compute. reflexivity. Qed.
Lemma digit_no_letter d : digit d = true -> letter d = false.
Proof. intros H. apply negb_true_iff. revert d H. apply by_imp. vm_compute. reflexivity. Qed.
Lemma kw_stop w s k m : In k v_keywords -> not_first in_word s -> m <= length (w ++ s) -> M (ci k) (firstn m (w ++ s)) (skipn m (w ++ s)) -> m <= length w.
Proof.
  intros Ik S L H. apply kw_M in H; [|exact Ik]. destruct (le_lt_dec m (length w)) as [G|G]; [exact G|exfalso]. destruct s as [|d s]; [rewrite app_nil_r in L; lia|].
  assert (D : In (small d) k). { rewrite <- H. apply in_map. rewrite firstn_app. apply in_app_iff. right. replace (m - length w) with (Datatypes.S (m - length w - 1)) by lia. left. reflexivity. }
  pose proof kw_small as Q. rewrite forallb_forall in Q. specialize (Q _ Ik). rewrite forallb_forall in Q. specialize (Q _ D). pose proof (small_word _ Q) as B. unfold not_first in S. rewrite B in S. discriminate.
Qed.
Lemma bits_stop w s m : run alnum w -> letter (hd sp w) = true -> ends (P_lex (L_word w)) s -> ~ M BIT_STRING_LITERAL (firstn m (w ++ s)) (skipn m (w ++ s)).
Proof.
  intros R Lw [S SB] H. assert (W : Forall (fun c => c <> dq) w) by (apply (integer_no_dq alnum w); auto). destruct (bits_at _ _ _ W S H) as (i & b & E & Hi & Hb & s' & Es).
  assert (Ei : i = []). { destruct Hi as [Hi|(y & i' & Ei & Hy)]; [exact Hi|]. rewrite E, Ei in Lw. change (letter y = true) in Lw. rewrite (digit_no_letter _ Hy) in Lw. discriminate. }
  rewrite Ei in E. cbn [app] in E. rewrite <- E in Hb. specialize (SB Hb). rewrite Es in SB. discriminate.
Qed.
Lemma basic_stop t x w s m : w = t ++ [x] -> alnum x = true -> not_first in_word s -> m <= length (w ++ s) ->
  M BASIC_IDENTIFIER (firstn m (w ++ s)) (skipn m (w ++ s)) -> m <= length w.
Proof.
  intros -> Hx S L H. apply (stops BASIC_IDENTIFIER t x s m); [|exact L|exact H]. destruct s as [|d s]; [exact Logic.I|]. exact (basic_pair x Hx d S).
Qed.
Lemma kw_rules_re c k r : In (k, r) (kw_rules c) -> exists k0, In k0 v_keywords /\ r = ci k0.
Proof. unfold kw_rules. intros I. apply in_map_iff in I as (k0 & I & Ik). apply filter_In in Ik as [Ik _]. exists k0. split; [exact Ik|]. injection I as _ E. symmetry. exact E. Qed.
Lemma bits_rules_re c k r : In (k, r) (bits_rules c) -> r = BIT_STRING_LITERAL.
Proof. unfold bits_rules. destruct (mem_c (small c) $"boxusd"); [|intros []]. intros [I|[]]. injection I as _ E. symmetry. exact E. Qed.
Lemma letter_rules_re c k r : In (k, r) (kw_rules c ++ (V_BASIC_IDENTIFIER, BASIC_IDENTIFIER) :: bits_rules c) -> (exists k0, In k0 v_keywords /\ r = ci k0) \/ r = BASIC_IDENTIFIER \/ r = BIT_STRING_LITERAL.
Proof.
  intros I. apply in_app_or in I as [I|[I|I]]; [left; exact (kw_rules_re _ _ _ I)|right; left|right; right; exact (bits_rules_re _ _ _ I)]. injection I as _ E. symmetry. exact E.
Qed.
Lemma word_stop t x w s c k r m : w = t ++ [x] -> alnum x = true -> run alnum w -> letter (hd sp w) = true -> ends (P_lex (L_word w)) s -> In (k, r) (kw_rules c ++ (V_BASIC_IDENTIFIER, BASIC_IDENTIFIER) :: bits_rules c) -> m <= length (w ++ s) ->
  M r (firstn m (w ++ s)) (skipn m (w ++ s)) -> m <= length w.
Proof.
  intros Ew Hx R Lw S I L H. assert (S1 : not_first in_word s) by (destruct S as [S1 _]; exact S1). destruct (letter_rules_re _ _ _ I) as [(k0 & Ik & E)|[E|E]]; rewrite E in H.
  - exact (kw_stop w s k0 m Ik S1 L H).
  - exact (basic_stop t x w s m Ew Hx S1 L H).
  - destruct (bits_stop w s m R Lw S H).
Qed.
Lemma kw_split w c : In (map small w) v_keywords -> hd sp (map small w) = small c -> exists l1 l2,
  kw_rules c = map (fun k => (V_KW k, ci k)) l1 ++ (V_KW (map small w), ci (map small w)) :: map (fun k => (V_KW k, ci k)) l2 /\ ~ In (map small w) l1 /\ (forall k, In k l1 -> In k v_keywords).
Proof.
  intros K Hc. assert (F : In (map small w) (filter (fun k => ceqb (hd sp k) (small c)) v_keywords)) by (apply filter_In; split; [exact K|rewrite Hc; apply Ascii.eqb_refl]).
  pose proof (NoDup_filter (fun k => ceqb (hd sp k) (small c)) kw_nodup) as N. unfold kw_rules. assert (G : forall k, In k (filter (fun k => ceqb (hd sp k) (small c)) v_keywords) -> In k v_keywords) by (intros k Ik; apply filter_In in Ik; tauto).
  revert F N G. generalize (filter (fun k => ceqb (hd sp k) (small c)) v_keywords). intros l F N G. destruct (in_split _ _ F) as (l1 & l2 & E). subst l. exists l1, l2. split; [apply map_app|]. split.
  - intros I. apply NoDup_remove_2 in N. apply N, in_app_iff. left. exact I.
  - intros k Ik. apply G, in_app_iff. left. exact Ik.
Qed.
Lemma in_kw_list l k r : In (k, r) (map (fun k => (V_KW k, ci k)) l) -> exists k0, In k0 l /\ r = ci k0.
Proof. intros I. apply in_map_iff in I as (k0 & I & Ik). exists k0. split; [exact Ik|]. injection I as _ E. symmetry. exact E. Qed.
Lemma pick_reserved w s c w0 t x : w = c :: w0 -> w = t ++ [x] -> alnum x = true -> run alnum w -> letter (hd sp w) = true -> letter c = true -> ends (P_lex (L_word w)) s -> In (map small w) v_keywords ->
  v_best v_rules (w ++ s) None = Some (V_KW (map small w), length w).
Proof.
  intros Ew Et Hx R L Lc S K. destruct (kw_split w c K) as (l1 & l2 & E & N & G); [rewrite Ew; reflexivity|].
  assert (EA : alive c = map (fun k => (V_KW k, ci k)) l1 ++ (V_KW (map small w), ci (map small w)) :: (map (fun k => (V_KW k, ci k)) l2 ++ (V_BASIC_IDENTIFIER, BASIC_IDENTIFIER) :: bits_rules c)).
  { rewrite (alive_letter c Lc), E, <- app_assoc. reflexivity. }
  apply (pick c w s (V_KW (map small w)) (ci (map small w)) _ _ EA); [rewrite Ew; reflexivity|reflexivity| | |].
  - apply kw_M; [exact K|reflexivity].
  - rewrite <- EA, (alive_letter c Lc). intros k r m I _ Lm H. exact (word_stop t x w s c k r m Et Hx R L S I Lm H).
  - intros k r I H. destruct (in_kw_list _ _ _ I) as (k0 & Ik & Er). rewrite Er in H. apply kw_M in H; [|apply G; exact Ik]. apply N. rewrite H. exact Ik.
Qed.
Lemma pick_identifier w s c w0 t x : w = c :: w0 -> w = t ++ [x] -> alnum x = true -> run alnum w -> letter (hd sp w) = true -> letter c = true -> ends (P_lex (L_word w)) s -> ~ In (map small w) v_keywords ->
  v_best v_rules (w ++ s) None = Some (V_BASIC_IDENTIFIER, length w).
Proof.
  intros Ew Et Hx R L Lc S K. apply (pick c w s V_BASIC_IDENTIFIER BASIC_IDENTIFIER _ _ (alive_letter c Lc)); [rewrite Ew; reflexivity|reflexivity| | |].
  - apply basic_M; assumption.
  - intros k r m I _ Lm H. exact (word_stop t x w s c k r m Et Hx R L S I Lm H).
  - intros k r I H. destruct (kw_rules_re _ _ _ I) as (k0 & Ik & Er). rewrite Er in H. apply kw_M in H; [|exact Ik]. apply K. rewrite H. exact Ik.
Qed.
Lemma pick_word w s : lexeme_ok (L_word w) -> ends (P_lex (L_word w)) s -> v_best v_rules (w ++ s) None = Some (fst (token_of (L_word w)), length w) /\ w <> [].
Proof.
  intros [R L] S. destruct w as [|c w0] eqn:Ew; [inversion R|]. rewrite <- Ew in *. assert (Lc : letter c = true) by (rewrite Ew in L; exact L). split; [|rewrite Ew; discriminate].
  destruct (run_last _ _ R) as (t & x & Et & Hx). cbn [token_of fst]. destruct (existsb (seqb (map small w)) reserved) eqn:K.
  - apply (pick_reserved w s c w0 t x); try assumption. apply kw_reserved. exact K.
  - apply (pick_identifier w s c w0 t x); try assumption. intros I. apply kw_reserved in I. rewrite I in K. discriminate.
Qed.
