(** Every lexical element is recognised by the rule made for it, and no rule reads further. *)
From Verif Require Import Base AstModel LitModel SvExprModel RegexModel RegexProofs RegexPairProofs PpLexProofs StrSpec PpSrcLexProofs VhdlExprModel VhdlSyntaxModel VhdlLexModel VhdlLexSpec.

(** ** The choice of the rule *)
Definition hit (s : str) (kr : vkind * re) : option nat := if allowed (fst kr) s then lmatch (snd kr) s else None.
Lemma hit_M s k r m : hit s (k, r) = Some m -> allowed k s = true /\ M r (firstn m s) (skipn m s) /\ m <= length s.
Proof.
  unfold hit. cbn [fst snd]. destruct (allowed k s); [|discriminate]. intros H. apply lmatch_Some in H. destruct H as (A & B & _). repeat split; assumption.
Qed.
Lemma v_best_cons k r rs s best : v_best ((k, r) :: rs) s best = v_best rs s (match hit s (k, r) with None => best | Some n => match best with Some (_, m) => if m <? n then Some (k, n) else best | None => Some (k, n) end end).
Proof. reflexivity. Qed.
Lemma v_best_keep rs s k n : (forall kr m, In kr rs -> hit s kr = Some m -> m <= n) -> v_best rs s (Some (k, n)) = Some (k, n).
Proof.
  induction rs as [|[k' r'] rs IH]; intros H; [reflexivity|]. rewrite v_best_cons. generalize (H (k', r')). destruct (hit s (k', r')) as [m|]; intros Hm.
  - assert (m <= n) by (apply Hm; [left; reflexivity|reflexivity]). destruct (Nat.ltb_spec n m); [lia|]. apply IH. intros kr m' I. apply H. right. exact I.
  - apply IH. intros kr m' I. apply H. right. exact I.
Qed.
Lemma v_best_pick pre k r post s n best : hit s (k, r) = Some n ->
  (forall kr m, In kr pre -> hit s kr = Some m -> m < n) -> (forall kr m, In kr post -> hit s kr = Some m -> m <= n) ->
  match best with Some (_, m) => m < n | None => True end -> v_best (pre ++ (k, r) :: post) s best = Some (k, n).
Proof.
  intros Hk. revert best. induction pre as [|[k' r'] pre IH]; intros best Hpre Hpost Hb; cbn [app]; rewrite v_best_cons.
  - rewrite Hk. destruct best as [[k0 m0]|]; [apply Nat.ltb_lt in Hb; rewrite Hb|]; apply v_best_keep; exact Hpost.
  - apply IH; [intros kr m I; apply Hpre; right; exact I|exact Hpost|]. generalize (Hpre (k', r')). destruct (hit s (k', r')) as [m|]; intros H; [|exact Hb].
    assert (m < n) by (apply H; [left; reflexivity|reflexivity]). destruct best as [[k0 m0]|]; [destruct (m0 <? m); assumption|assumption].
Qed.
(** Rules that cannot begin with the first character play no part. *)
Definition alive (c : ascii) : list (vkind * re) := filter (fun kr => firstb (snd kr) c) v_rules.
Lemma v_rules_nonnull : forallb (fun kr => negb (nullb (snd kr))) v_rules = true.
Proof. vm_compute. reflexivity. Qed.
Lemma hit_first s c k r m : In (k, r) v_rules -> hit (c :: s) (k, r) = Some m -> firstb r c = true /\ 0 < m.
Proof.
  intros I H. apply hit_M in H as (_ & H & _). pose proof v_rules_nonnull as N. rewrite forallb_forall in N. specialize (N _ I). cbn [snd] in N.
  destruct m as [|m].
  - rewrite (sh_null _ _ (M_shape _ _ _ H) eq_refl) in N. discriminate.
  - split; [exact (sh_first _ _ (M_shape _ _ _ H) _ _ eq_refl)|lia].
Qed.
Lemma v_best_alive c s : v_best v_rules (c :: s) None = v_best (alive c) (c :: s) None.
Proof.
  unfold alive. assert (H : forall kr, In kr v_rules -> firstb (snd kr) c = false -> hit (c :: s) kr = None).
  { intros [k r] I F. destruct (hit (c :: s) (k, r)) as [m|] eqn:E; [|reflexivity]. apply hit_first in E as [E _]; [cbn in F; congruence|exact I]. }
  revert H. generalize (@None (vkind * nat)). generalize v_rules. induction l as [|[k r] l IH]; intros best H; [reflexivity|]. rewrite v_best_cons. cbn [filter snd].
  destruct (firstb r c) eqn:F.
  - rewrite v_best_cons. apply IH. intros kr I. apply H. right. exact I.
  - rewrite (H (k, r) (or_introl eq_refl) F). apply IH. intros kr I. apply H. right. exact I.
Qed.
Lemma hit_is s k r n : allowed k s = true -> n <= length s -> M r (firstn n s) (skipn n s) -> (forall m, m <= length s -> M r (firstn m s) (skipn m s) -> m <= n) -> hit s (k, r) = Some n.
Proof. intros A L H B. unfold hit. cbn [fst snd]. rewrite A. apply lmatch_Some. repeat split; assumption. Qed.
Lemma firstn_pre {A} (t s : list A) : firstn (length t) (t ++ s) = t.
Proof. rewrite firstn_app, Nat.sub_diag, firstn_all, app_nil_r. reflexivity. Qed.
Lemma skipn_pre {A} (t s : list A) : skipn (length t) (t ++ s) = s.
Proof. rewrite skipn_app, Nat.sub_diag, skipn_all. reflexivity. Qed.
(** The main tool: rule (k, r) matches t, no rule reads further and no earlier rule reads as far. *)
Lemma pick c t s k r pre post : alive c = pre ++ (k, r) :: post -> hd_error (t ++ s) = Some c -> allowed k (t ++ s) = true -> M r t s ->
  (forall k' r' m, In (k', r') (pre ++ (k, r) :: post) -> allowed k' (t ++ s) = true -> m <= length (t ++ s) -> M r' (firstn m (t ++ s)) (skipn m (t ++ s)) -> m <= length t) ->
  (forall k' r', In (k', r') pre -> ~ M r' t s) -> v_best v_rules (t ++ s) None = Some (k, length t).
Proof.
  intros EA EC A HM B P. destruct (t ++ s) as [|c0 u] eqn:E; [discriminate|]. injection EC as ->. rewrite v_best_alive, EA. rewrite <- E in *.
  assert (B' : forall kr m, In kr (pre ++ (k, r) :: post) -> hit (t ++ s) kr = Some m -> m <= length t).
  { intros [k' r'] m I H. apply hit_M in H as (H1 & H2 & H3). eapply B; eassumption. }
  apply v_best_pick; [| | |exact I].
  - apply hit_is; [exact A|rewrite app_length; lia|rewrite firstn_pre, skipn_pre; exact HM|]. intros m L H. eapply B; [apply in_app_iff; right; left; reflexivity|exact A|exact L|exact H].
  - intros [k' r'] m I H. assert (m <= length t) by (apply (B' (k', r')); [apply in_app_iff; left; exact I|exact H]). destruct (Nat.eq_dec m (length t)) as [->|]; [|lia].
    apply hit_M in H as (_ & H & _). rewrite firstn_pre, skipn_pre in H. destruct (P _ _ I H).
  - intros kr m I. apply B'. apply in_app_iff. right. right. exact I.
Qed.
(** No rule of a list allows the last character of t and the first one of s as neighbours. *)
Lemma stops r t x s m : (match s with d :: _ => pairb r x d = false | [] => True end) -> m <= length ((t ++ [x]) ++ s) ->
  M r (firstn m ((t ++ [x]) ++ s)) (skipn m ((t ++ [x]) ++ s)) -> m <= length (t ++ [x]).
Proof.
  destruct s as [|d s]; intros P L H; [rewrite app_nil_r in L; exact L|]. rewrite <- app_assoc in H. cbn [app] in H. apply match_stops in H; [|exact P]. rewrite app_length. cbn [length]. lia.
Qed.

(** ** The loop *)
Lemma v_loop_fuel : forall f f' s, length s <= f -> length s <= f' -> v_loop f s = v_loop f' s.
Proof.
  induction f as [|f IH]; intros f' s H H'.
  - destruct s; [destruct f'; reflexivity|cbn in H; lia].
  - destruct s as [|c s]; [destruct f'; reflexivity|]. destruct f' as [|f']; [cbn in H'; lia|]. cbn [v_loop].
    destruct (v_best v_rules (c :: s) None) as [[k [|n]]|]; try reflexivity.
    assert (length (skipn (S n) (c :: s)) <= length s) by (cbn [skipn]; rewrite skipn_length; lia). rewrite (IH f'); [reflexivity|cbn in *; lia|cbn in *; lia].
Qed.
Lemma vhdl_lex_step t s k : t <> [] -> v_best v_rules (t ++ s) None = Some (k, length t) -> vhdl_lex (t ++ s) = (rest <- vhdl_lex s ;; Ok (if hidden k then rest else (k, t) :: rest)).
Proof.
  intros N H. unfold vhdl_lex. destruct t as [|c t]; [congruence|]. change (v_loop (length ((c :: t) ++ s)) ((c :: t) ++ s)) with
    (match v_best v_rules ((c :: t) ++ s) None with None | Some (_, 0) => Throw (ParseException $"token recognition error") | Some (k, n) => rest <- v_loop (length (t ++ s)) (skipn n ((c :: t) ++ s)) ;; Ok (if hidden k then rest else (k, firstn n ((c :: t) ++ s)) :: rest) end).
  rewrite H. cbn [length]. change (S (length t)) with (length (c :: t)). rewrite firstn_pre, skipn_pre. rewrite (v_loop_fuel (length (t ++ s)) (length s) s); [reflexivity|rewrite app_length; lia|lia].
Qed.
