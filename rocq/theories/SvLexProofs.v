(** How the lexer of Verilog chooses a rule, and which rules can read a text with a given first character. *)
From Verif Require Import Base BaseFacts AstModel LitModel SvExprModel RegexModel RegexProofs RegexPairProofs PpLexProofs StrSpec VhdlLexModel VhdlLexSpec VhdlLexProofs VhdlTokenProofs SvLexModel SvLexSpec.

(** ** The choice of the rule *)
Lemma lm_M r s m : lmatch r s = Some m -> M r (firstn m s) (skipn m s) /\ m <= length s.
Proof. intros H. apply lmatch_Some in H as (A & B & _). split; assumption. Qed.
Lemma s_best_cons k r rs s best : s_best ((k, r) :: rs) s best = s_best rs s (match lmatch r s with None => best | Some n => match best with Some (_, m) => if m <? n then Some (k, n) else best | None => Some (k, n) end end).
Proof. reflexivity. Qed.
Lemma s_best_app a b s best : s_best (a ++ b) s best = s_best b s (s_best a s best).
Proof. revert best. induction a as [|[k r] a IH]; intros best; [reflexivity|]. cbn [app]. rewrite !s_best_cons. apply IH. Qed.
Definition below (n : nat) (best : option (skind * nat)) : Prop := match best with Some (_, m) => m < n | None => True end.
Lemma s_best_lose rs s n best : (forall k r m, In (k, r) rs -> lmatch r s = Some m -> m < n) -> below n best -> below n (s_best rs s best).
Proof.
  revert best. induction rs as [|[k r] rs IH]; intros best H B; [exact B|]. rewrite s_best_cons. apply IH; [intros k' r' m I; apply (H k' r'); right; exact I|].
  specialize (H k r). destruct (lmatch r s) as [m|]; [|exact B]. specialize (H m (or_introl eq_refl) eq_refl). destruct best as [[k0 m0]|]; [destruct (m0 <? m)|]; assumption.
Qed.
Lemma s_best_keep rs s k n : (forall k' r m, In (k', r) rs -> lmatch r s = Some m -> m <= n) -> s_best rs s (Some (k, n)) = Some (k, n).
Proof.
  induction rs as [|[k' r'] rs IH]; intros H; [reflexivity|]. rewrite s_best_cons. pose proof (H k' r') as H0. assert (IH' := IH (fun k0 r0 m I => H k0 r0 m (or_intror I))).
  destruct (lmatch r' s) as [m|]; [|exact IH']. specialize (H0 m (or_introl eq_refl) eq_refl). destruct (Nat.ltb_spec n m); [lia|exact IH'].
Qed.
Lemma s_best_win rs s k n best : (forall k' r m, In (k', r) rs -> lmatch r s = Some m -> m < n \/ (m = n /\ k' = k)) -> (exists r, In (k, r) rs /\ lmatch r s = Some n) -> below n best ->
  s_best rs s best = Some (k, n).
Proof.
  revert best. induction rs as [|[k' r'] rs IH]; intros best H (r & I & E) B; [destruct I|]. rewrite s_best_cons.
  assert (HT : forall k0 r0 m, In (k0, r0) rs -> lmatch r0 s = Some m -> m < n \/ (m = n /\ k0 = k)) by (intros k0 r0 m J; apply (H k0 r0); right; exact J).
  assert (K : forall k' r m, In (k', r) rs -> lmatch r s = Some m -> m <= n) by (intros k0 r0 m J F; destruct (HT _ _ _ J F) as [|[-> _]]; lia).
  pose proof (fun m => H k' r' m (or_introl eq_refl)) as H0. destruct I as [I|I].
  - injection I as -> ->. rewrite E in *. destruct best as [[k0 m0]|]; [cbn in B; apply Nat.ltb_lt in B; rewrite B|]; apply s_best_keep; exact K.
  - destruct (lmatch r' s) as [m|]; [|apply IH; eauto]. destruct (H0 m eq_refl) as [L|[-> ->]].
    + apply IH; [exact HT|eauto|]. destruct best as [[k0 m0]|]; [destruct (m0 <? m)|]; assumption.
    + destruct best as [[k0 m0]|]; [cbn in B; apply Nat.ltb_lt in B; rewrite B|]; apply s_best_keep; exact K.
Qed.
(** [within_text rs t s]: no rule of rs reads further than t in the text t ++ s. *)
Definition within_text (rs : list (skind * re)) (t s : str) : Prop := forall k r y z, In (k, r) rs -> M r y z -> y ++ z = t ++ s -> length y <= length t.
Lemma within_lm rs t s k r m : within_text rs t s -> In (k, r) rs -> lmatch r (t ++ s) = Some m -> m <= length t /\ (m = length t -> M r t s).
Proof.
  intros W I E. apply lm_M in E as [HM L]. split.
  - rewrite <- (firstn_length_le _ L). apply (W k r _ _ I HM). apply firstn_skipn.
  - intros ->. rewrite firstn_pre, skipn_pre in HM. exact HM.
Qed.
Lemma choose a b c t s k : within_text (a ++ b ++ c) t s -> (forall k' r', In (k', r') a -> ~ M r' t s) -> (forall k' r', In (k', r') b -> M r' t s -> k' = k) -> (exists r, In (k, r) b /\ M r t s) ->
  s_best (a ++ b ++ c) (t ++ s) None = Some (k, length t).
Proof.
  intros W A B (r & I & HM). rewrite !s_best_app.
  rewrite (s_best_win b (t ++ s) k (length t)).
  - apply s_best_keep. intros k' r' m J E. apply (within_lm _ t s k' r' m W); [rewrite !in_app_iff; tauto|exact E].
  - intros k' r' m J E. destruct (within_lm _ t s k' r' m W) as [L X]; [rewrite !in_app_iff; tauto|exact E|]. destruct (Nat.eq_dec m (length t)) as [e|]; [|left; lia]. right. split; [exact e|]. apply (B k' r' J). apply X, e.
  - exists r. split; [exact I|]. apply lmatch_Some. split; [rewrite app_length; lia|]. split; [rewrite firstn_pre, skipn_pre; exact HM|].
    intros m L Hm. rewrite <- (firstn_length_le _ L). eapply (W k r); [rewrite !in_app_iff; tauto|exact Hm|apply firstn_skipn].
  - apply s_best_lose; [|exact Logic.I]. intros k' r' m J E. destruct (within_lm _ t s k' r' m W) as [L X]; [rewrite !in_app_iff; tauto|exact E|]. destruct (Nat.eq_dec m (length t)) as [e|]; [|lia]. destruct (A k' r' J (X e)).
Qed.

(** ** The rules *)
Definition kw_rule (k : str) : skind * re := (S_KW k, lit k).
Definition sign_rule (d : str) : skind * re := (S_SIGN d, lit d).
Lemma s_rules_split v : s_rules v = map kw_rule (keywords v) ++ class_rules ++ map sign_rule s_signs ++ layout_rules.
Proof. reflexivity. Qed.
Lemma in_rules v k r : In (k, r) (s_rules v) -> (exists w, In w (keywords v) /\ k = S_KW w /\ r = lit w) \/ (exists d, In d s_signs /\ k = S_SIGN d /\ r = lit d) \/ In (k, r) (class_rules ++ layout_rules).
Proof.
  rewrite s_rules_split. rewrite !in_app_iff, !in_map_iff. intros [(w & E & I)|[I|[(d & E & I)|I]]]; [left|right; right; tauto|right; left|right; right; tauto]; injection E as <- <-; eauto.
Qed.
Lemma in_keywords v w : In w (keywords v) -> In w (map snd s_keywords).
Proof. unfold keywords. rewrite !in_map_iff. intros (x & E & I). apply filter_In in I as [I _]. eauto. Qed.
Definition keyword_shape (w : str) : bool := forallb word_char w && (seqb w $"1step" || match w with c :: _ => word_start c || ceqb c "$" | [] => false end).
Lemma keyword_shapes : forallb keyword_shape (map snd s_keywords) = true.
Proof. vm_compute. reflexivity. Qed.
Lemma keyword_is v w : In w (keywords v) -> keyword_shape w = true.
Proof. intros I. pose proof keyword_shapes as H. rewrite forallb_forall in H. apply H. exact (in_keywords v w I). Qed.
(** Which characters begin a match of the other rules *)
Lemma first_char r y z c t : M r y z -> y = c :: t -> firstb r c = true.
Proof. intros H. exact (sh_first _ _ (M_shape _ _ _ H) c t). Qed.
Lemma rules_nonnull : forallb (fun kr => negb (nullb (snd kr))) (class_rules ++ layout_rules) = true.
Proof. vm_compute. reflexivity. Qed.
Lemma nonempty k r y z : In (k, r) (class_rules ++ layout_rules) -> M r y z -> y <> [].
Proof. intros I H ->. pose proof rules_nonnull as N. rewrite forallb_forall in N. specialize (N _ I). cbn [snd] in N. rewrite (sh_null _ _ (M_shape _ _ _ H) eq_refl) in N. discriminate N. Qed.
Lemma lit_M d rest : M (lit d) d rest.
Proof. apply M_lit. reflexivity. Qed.

(** To bound all rules: keywords, signs, and the other rules that can begin with the first character. *)
Lemma bound v c u s :
  (forall w z, In w (keywords v) -> w ++ z = (c :: u) ++ s -> length w <= length (c :: u)) ->
  (forall d z, In d s_signs -> d ++ z = (c :: u) ++ s -> length d <= length (c :: u)) ->
  (forall k r y z, In (k, r) (class_rules ++ layout_rules) -> firstb r c = true -> M r y z -> y ++ z = (c :: u) ++ s -> length y <= length (c :: u)) ->
  within_text (s_rules v) (c :: u) s.
Proof.
  intros HK HS HC k r y z I HM E. apply in_rules in I as [(w & I & _ & ->)|[(d & I & _ & ->)|I]].
  - apply M_lit in HM as ->. exact (HK w z I E).
  - apply M_lit in HM as ->. exact (HS d z I E).
  - apply (HC k r y z I); [|exact HM|exact E]. destruct y as [|c' y]; [destruct (nonempty k r [] z I HM eq_refl)|]. injection E as -> _. exact (first_char r (c :: y) z c y HM eq_refl).
Qed.
(** A prefix that consists of characters of one kind does not reach over the first character of another. *)
Lemma within P (y z t s : str) : all P y -> y ++ z = t ++ s -> not_first P s -> length y <= length t.
Proof.
  intros A E N. destruct (app_eq_app _ _ _ _ E) as (l & [[E1 E2]|[E1 E2]]); [|rewrite E1, app_length; lia]. destruct l as [|d l]; [rewrite E1, app_nil_r; lia|].
  rewrite E2 in N. cbn in N. rewrite E1 in A. apply Forall_app in A as [_ A]. apply Forall_inv in A. congruence.
Qed.
(** The same for a pair of neighbours. *)
Lemma pair_within r y z t x d s : M r y z -> y ++ z = (t ++ [x]) ++ d :: s -> pairb r x d = false -> length y <= length (t ++ [x]).
Proof.
  intros HM E P. rewrite <- app_assoc in E. cbn [app] in E. rewrite <- (firstn_pre y z), <- (skipn_pre y z), E in HM. rewrite app_length. cbn [length].
  pose proof (match_stops r t x d s (length y) P) as G. rewrite <- E, firstn_pre, skipn_pre in G. rewrite <- E, firstn_pre, skipn_pre in HM. specialize (G HM). lia.
Qed.

(** ** The loop *)
Definition s_next (v : lang) (fuel : nat) (table : bool) (s : str) : outcome (list (skind * str)) :=
  match s_step v table s with
  | None | Some (_, 0) => Throw (ParseException $"token recognition error")
  | Some (k, n) => rest <- s_loop v fuel (s_mode table k) (skipn n s) ;; Ok (if s_hidden k then rest else (k, firstn n s) :: rest)
  end.
Lemma s_loop_S v fuel table c s : s_loop v (S fuel) table (c :: s) = s_next v fuel table (c :: s).
Proof. unfold s_next. reflexivity. Qed.
Lemma s_loop_fuel v : forall f f' b s, length s <= f -> length s <= f' -> s_loop v f b s = s_loop v f' b s.
Proof.
  induction f as [|f IH]; intros f' b s H H'.
  - destruct s; [destruct f'; reflexivity|cbn in H; lia].
  - destruct s as [|c s]; [destruct f'; reflexivity|]. destruct f' as [|f']; [cbn in H'; lia|]. rewrite !s_loop_S. unfold s_next.
    destruct (s_step v b (c :: s)) as [[k [|n]]|]; try reflexivity.
    assert (length (skipn (S n) (c :: s)) <= length s) by (cbn [skipn]; rewrite skipn_length; lia). rewrite (IH f'); [reflexivity|cbn in *; lia|cbn in *; lia].
Qed.
Lemma sv_lex_step v t s k : t <> [] -> s_best (s_rules v) (t ++ s) None = Some (k, length t) -> s_mode false k = false ->
  sv_lex v (t ++ s) = (rest <- sv_lex v s ;; Ok (if s_hidden k then rest else (k, t) :: rest)).
Proof.
  intros N H Hm. unfold sv_lex. destruct t as [|c t]; [congruence|]. cbn [app length]. rewrite s_loop_S. unfold s_next. change (s_step v false (c :: t ++ s)) with (s_best (s_rules v) ((c :: t) ++ s) None). rewrite H. cbn [length].
  change (S (length t)) with (length (c :: t)). change (c :: t ++ s) with ((c :: t) ++ s). rewrite firstn_pre, skipn_pre, Hm. rewrite (s_loop_fuel v (length (t ++ s)) (length s) false s); [reflexivity|rewrite app_length; lia|lia].
Qed.
