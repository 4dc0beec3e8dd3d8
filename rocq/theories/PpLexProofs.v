(** Lemmas about the lexer model. *)
From Verif Require Import Base BaseFacts RegexModel RegexProofs PpLexerModel.

(** ** Longest match, first rule *)
Definition beats (best : option (rule * nat)) (r : rule) (n : nat) : Prop :=
  match best with Some (_, m) => m < n | None => True end.

Lemma best_rule_gen s : forall rs best res, best_rule rs s best = res ->
  (res = best /\ (forall r m, In r rs -> lmatch (rule_re r) s = Some m ->
                    exists r0 n, best = Some (r0, n) /\ m <= n))
  \/ exists pre r post n, rs = pre ++ r :: post /\ res = Some (r, n)
       /\ lmatch (rule_re r) s = Some n
       /\ (forall r0 m, best = Some (r0, m) -> m < n)
       /\ (forall r' m, In r' pre -> lmatch (rule_re r') s = Some m -> m < n)
       /\ (forall r' m, In r' post -> lmatch (rule_re r') s = Some m -> m <= n).
Proof.
  induction rs as [|r rs IH]; intros best res E; cbn [best_rule] in E.
  - left. split; [auto|]. intros r m [].
  - set (best' := match lmatch (rule_re r) s with
                  | None => best
                  | Some n => match best with
                              | Some (_, m) => if m <? n then Some (r, n) else best
                              | None => Some (r, n)
                              end
                  end) in *.
    assert (best' = best /\ (forall n, lmatch (rule_re r) s = Some n ->
                               exists r0 m, best = Some (r0, m) /\ n <= m)
            \/ exists n, lmatch (rule_re r) s = Some n /\ best' = Some (r, n) /\
                         forall r0 m, best = Some (r0, m) -> m < n) as HB.
    { unfold best'. destruct (lmatch (rule_re r) s) as [n|] eqn:L.
      - destruct best as [[r0 m]|].
        + destruct (Nat.ltb_spec m n).
          * right. exists n. repeat split. intros r1 m1 Q; inversion Q; subst; assumption.
          * left. split; [reflexivity|]. intros n' Q; inversion Q; subst. exists r0, m. auto.
        + right. exists n. repeat split. discriminate.
      - left. split; [reflexivity|discriminate]. }
    destruct (IH best' res E) as [(E1 & H1)|(pre & r1 & post & n & E1 & E2 & L & Hb & Hpre & Hpost)].
    + destruct HB as [(Eb & Hr)|(n & L & Eb & Hm)].
      * left. split; [congruence|]. intros r' m [->|Hin] Lm.
        -- apply Hr; exact Lm.
        -- destruct (H1 r' m Hin Lm) as (r0 & n & Q & Hle). exists r0, n. split; [congruence|exact Hle].
      * right. exists [], r, rs, n. split; [reflexivity|]. split; [congruence|]. split; [exact L|].
        split; [exact Hm|]. split; [intros r' m []|].
        intros r' m Hin Lm. destruct (H1 r' m Hin Lm) as (r0 & n0 & Q & Hle).
        rewrite Eb in Q. inversion Q; subst. exact Hle.
    + right. exists (r :: pre), r1, post, n. split; [cbn; congruence|]. split; [exact E2|].
      split; [exact L|]. split; [|split; [|exact Hpost]].
      * destruct HB as [(Eb & _)|(n' & _ & Eb & Hm)].
        -- rewrite Eb in Hb. exact Hb.
        -- intros r0 m Q. specialize (Hm _ _ Q). specialize (Hb _ _ Eb). lia.
      * intros r' m [->|Hin] Lm; [|eapply Hpre; eauto].
        destruct HB as [(Eb & Hr)|(n' & L' & Eb & Hm)].
        -- destruct (Hr m Lm) as (r0 & m0 & Q & Hle). rewrite <- Eb in Q. specialize (Hb _ _ Q). lia.
        -- specialize (Hb _ _ Eb). congruence.
Qed.

Lemma best_rule_Some rs s r n : best_rule rs s None = Some (r, n) ->
  exists pre post, rs = pre ++ r :: post
    /\ lmatch (rule_re r) s = Some n
    /\ (forall r' m, In r' pre -> lmatch (rule_re r') s = Some m -> m < n)
    /\ (forall r' m, In r' post -> lmatch (rule_re r') s = Some m -> m <= n).
Proof.
  intros E. destruct (best_rule_gen s rs None _ E) as [(Q & _)|(pre & r1 & post & n1 & E1 & E2 & L & _ & H1 & H2)];
    [discriminate|]. inversion E2; subst. exists pre, post. auto.
Qed.
Lemma best_rule_None rs s : best_rule rs s None = None ->
  forall r, In r rs -> lmatch (rule_re r) s = None.
Proof.
  intros E r Hin. destruct (best_rule_gen s rs None _ E) as [(_ & H)|(pre & r1 & post & n1 & _ & E2 & _)];
    [|discriminate]. destruct (lmatch (rule_re r) s) as [m|] eqn:L; [|reflexivity].
  destruct (H r m Hin L) as (? & ? & Q & _). discriminate.
Qed.
Lemma best_rule_In rs s r n : best_rule rs s None = Some (r, n) -> In r rs.
Proof.
  intros E. apply best_rule_Some in E as (pre & post & -> & _). apply in_or_app. right; left; reflexivity.
Qed.
Lemma best_rule_longest rs s r n : best_rule rs s None = Some (r, n) -> longest (rule_re r) s n.
Proof. intros E. apply best_rule_Some in E as (? & ? & _ & L & _). apply lmatch_Some; exact L. Qed.
(** Any match of any rule is at most as long as the chosen one; so something is chosen. *)
Lemma best_rule_max rs s r k : In r rs -> k <= length s -> M (rule_re r) (firstn k s) (skipn k s) ->
  exists r' n, best_rule rs s None = Some (r', n) /\ k <= n.
Proof.
  intros Hin Hk HM. destruct (lmatch (rule_re r) s) as [m|] eqn:L.
  2:{ apply lmatch_None in L. exfalso. exact (L k Hk HM). }
  assert (k <= m) as Hkm by (apply lmatch_Some in L as (_ & _ & H); exact (H k Hk HM)).
  destruct (best_rule rs s None) as [[r' n]|] eqn:E.
  - exists r', n. split; [reflexivity|]. apply best_rule_Some in E as (pre & post & -> & L' & H1 & H2).
    apply in_app_or in Hin as [Hin|[->|Hin]].
    + specialize (H1 _ _ Hin L). lia.
    + rewrite L in L'. inversion L'; subst; lia.
    + specialize (H2 _ _ Hin L). lia.
  - rewrite (best_rule_None _ _ E r Hin) in L. discriminate.
Qed.

(** ** Unfolding of the token loop *)
Lemma lex_loop_S fuel st c s line col :
  lex_loop (S fuel) st (c :: s) line col =
  match best_rule (mode_rules (lx_mode st)) (c :: s) None with
  | None | Some (_, 0) => Throw syntax_error
  | Some (r, n) =>
      '(st', e) <- rule_act r st (firstn n (c :: s)) ;;
      let '(line', col') := advance (firstn n (c :: s)) line col in
      rest <- lex_loop fuel st' (skipn n (c :: s)) line' col' ;;
      Ok (match e with
          | Skip => rest
          | Emit t ch text => mkTok t ch text (firstn n (c :: s)) line col :: rest
          end)
  end.
Proof. reflexivity. Qed.

(** Fuel: every step consumes at least one character. *)
Lemma lex_loop_fuel : forall fuel fuel' st s line col,
  length s <= fuel -> length s <= fuel' ->
  lex_loop fuel st s line col = lex_loop fuel' st s line col.
Proof.
  induction fuel as [|fuel IH]; intros fuel' st s line col H H'.
  - destruct s; [destruct fuel'; reflexivity|cbn in H; lia].
  - destruct s as [|c s]; [destruct fuel'; reflexivity|].
    destruct fuel' as [|fuel']; [cbn in H'; lia|]. rewrite !lex_loop_S.
    destruct (best_rule _ _ None) as [[r [|n]]|]; try reflexivity.
    destruct (rule_act r st _) as [[st' e]|e|w|]; cbn [bind]; try reflexivity.
    destruct (advance _ line col) as [line' col'].
    assert (length (skipn (S n) (c :: s)) <= length s) by (cbn [skipn]; rewrite skipn_length; lia).
    rewrite (IH fuel' st' (skipn (S n) (c :: s)) line' col'); [reflexivity|cbn in *; lia|cbn in *; lia].
Qed.

Lemma rule_act_no_fuel r st s : rule_act r st s <> OutOfFuel.
Proof.
  assert (forall st', pop_mode st' <> OutOfFuel) as HP
    by (intros st'; unfold pop_mode; destruct (lx_stack st'); discriminate).
  assert (forall m st', pop_push m st' <> OutOfFuel) as HQ
    by (intros m st'; unfold pop_push, pop_mode; destruct (lx_stack st'); discriminate).
  destruct r; cbn; unfold pop_push, pop_mode, bind;
    repeat match goal with
    | |- context [if ?b then _ else _] => destruct b
    | |- context [match lx_stack ?x with _ => _ end] => destruct (lx_stack x)
    | |- _ => discriminate
    | |- context [match ?x with [] => _ | _ :: _ => _ end] => destruct x
    end.
Qed.

Lemma lex_loop_no_fuel : forall fuel st s line col, length s <= fuel ->
  lex_loop fuel st s line col <> OutOfFuel.
Proof.
  induction fuel as [|fuel IH]; intros st s line col H.
  - destruct s; [discriminate|cbn in H; lia].
  - destruct s as [|c s]; [discriminate|]. rewrite lex_loop_S.
    destruct (best_rule _ _ None) as [[r [|n]]|]; try discriminate.
    pose proof (rule_act_no_fuel r st (firstn (S n) (c :: s))) as HR.
    destruct (rule_act r st _) as [[st' e]|e|w|]; cbn [bind]; try discriminate; [|congruence].
    destruct (advance _ line col) as [line' col'].
    assert (length (skipn (S n) (c :: s)) <= fuel) by (cbn [skipn length] in *; rewrite skipn_length; lia).
    pose proof (IH st' (skipn (S n) (c :: s)) line' col' H0) as HI.
    destruct (lex_loop fuel st' _ line' col'); cbn [bind]; congruence.
Qed.
Lemma lex_no_fuel s : lex s <> OutOfFuel.
Proof. apply lex_loop_no_fuel. lia. Qed.

Lemma advance_app a : forall b line col,
  advance (a ++ b) line col = let '(l, c) := advance a line col in advance b l c.
Proof.
  induction a as [|x a IH]; intros b line col; cbn [advance app]; [reflexivity|].
  destruct (ceqb x nl); apply IH.
Qed.
Lemma advance_line a : forall line col, fst (advance a line col) = line + count_nl a.
Proof.
  induction a as [|x a IH]; intros line col; cbn [advance]; [cbn; lia|].
  unfold count_nl. cbn [count_occ]. destruct (ceqb x nl) eqn:E.
  - apply ceqb_eq in E. subst. rewrite IH. unfold count_nl.
    destruct (ascii_dec nl nl); [lia|congruence].
  - apply ceqb_neq in E. rewrite IH. unfold count_nl. destruct (ascii_dec x nl); [congruence|lia].
Qed.

(** ** Inversion of concrete regular expressions *)
Lemma cc_mem_one cs c : cc_mem (CC false cs) c = true <-> In c cs.
Proof. unfold cc_mem. cbn [cc_neg cc_set]. rewrite <- mem_c_In. destruct (mem_c c cs); cbn; split; congruence. Qed.
Lemma cc_mem_not cs c : cc_mem (CC true cs) c = true <-> ~ In c cs.
Proof. unfold cc_mem. cbn [cc_neg cc_set]. rewrite <- mem_c_nIn. destruct (mem_c c cs); cbn; split; congruence. Qed.
Lemma M_one cs s rest : M (one cs) s rest <-> exists c, s = [c] /\ In c cs.
Proof.
  unfold one. rewrite M_Chr_iff. split; intros (c & E & H); exists c; (split; [exact E|]);
    apply cc_mem_one; exact H.
Qed.
Lemma M_not1 cs s rest : M (not1 cs) s rest <-> exists c, s = [c] /\ ~ In c cs.
Proof.
  unfold not1. rewrite M_Chr_iff. split; intros (c & E & H); exists c; (split; [exact E|]);
    apply cc_mem_not; exact H.
Qed.
Lemma M_lit l : forall s rest, M (lit l) s rest <-> s = l.
Proof.
  induction l as [|c l IH]; intros s rest; cbn [lit fold_right].
  - apply M_Eps_iff.
  - rewrite M_Seq_iff. split.
    + intros (x & y & -> & H1 & H2). fold (lit l) in H2. apply IH in H2. subst y.
      apply (M_one [c]) in H1 as (d & -> & [->|[]]). reflexivity.
    + intros ->. exists [c], l. split; [reflexivity|]. split.
      * apply (M_one [c]). exists c. split; [reflexivity|left; reflexivity].
      * apply IH. reflexivity.
Qed.

(** A star of single characters. *)
Lemma M_Star_chr k s rest : M (Star (Chr k)) s rest <-> Forall (fun c => cc_mem k c = true) s.
Proof.
  split.
  - remember (Star (Chr k)) as r eqn:Er. intros H. revert Er.
    induction H as [| | | | | |a rest|a x y rest Hx H1 IH1 H2 IH2]; intros Er; try discriminate.
    + constructor.
    + inversion Er; subst. apply Forall_app. split; [|apply IH2; reflexivity].
      apply M_Chr_iff in H1 as (c & -> & Hc). constructor; [exact Hc|constructor].
  - induction 1 as [|c s Hc Hs IH]; [constructor|].
    change (c :: s) with ([c] ++ s). apply M_StarS; [discriminate|constructor; exact Hc|exact IH].
Qed.
Lemma M_Star_one cs s rest : M (Star (one cs)) s rest <-> Forall (fun c => In c cs) s.
Proof.
  unfold one. rewrite M_Star_chr. split; intros H; eapply Forall_impl; try exact H;
    intros c Hc; apply cc_mem_one; exact Hc.
Qed.
Lemma M_Star_not1 cs s rest : M (Star (not1 cs)) s rest <-> Forall (fun c => ~ In c cs) s.
Proof.
  unfold not1. rewrite M_Star_chr. split; intros H; eapply Forall_impl; try exact H;
    intros c Hc; apply cc_mem_not; exact Hc.
Qed.

(** Unfold a star from an induction hypothesis on its pieces. *)
Lemma M_Star_ind (a : re) (P : str -> str -> Prop) :
  (forall rest, P [] rest) ->
  (forall x y rest, x <> [] -> M a x (y ++ rest) -> M (Star a) y rest -> P y rest -> P (x ++ y) rest) ->
  forall s rest, M (Star a) s rest -> P s rest.
Proof.
  intros H0 HS s rest H. remember (Star a) as r eqn:Er. revert Er.
  induction H as [| | | | | |a0 rest|a0 x y rest Hx H1 IH1 H2 IH2]; intros Er; try discriminate.
  - apply H0.
  - inversion Er; subst. apply HS; auto.
Qed.
