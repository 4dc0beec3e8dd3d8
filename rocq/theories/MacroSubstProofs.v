(** The body parser of macros agrees with the one-pass substitution of MacroSpec. *)
From Verif Require Import Base BaseFacts StrUtilsProofs MacroDefModel MacroSpec MacroDefProofs.
From Coq Require Import Sorted ZifyBool ZifyNat ZifyN.

Lemma lastof_snoc prev d c : lastof prev (d ++ [c]) = Some c.
Proof. rewrite lastof_app. reflexivity. Qed.

Lemma prev_char (f : ascii -> bool) d e :
  match length d with
  | 0 => Ok false
  | S j => c <- char_at (d ++ e) j ;; Ok (f c)
  end = Ok (match lastof None d with None => false | Some c => f c end).
Proof.
  destruct d as [|c d _] using rev_ind; [reflexivity|].
  rewrite lastof_snoc, app_length, Nat.add_1_r, <- app_assoc. cbn [app].
  rewrite char_at_app. reflexivity.
Qed.

(** ** String intervals *)
Fixpoint scanq (pos : nat) (pc : option ascii) (prev : option nat) (rest : str)
         (acc : list (nat * nat)) : option nat * list (nat * nat) :=
  match rest with
  | [] => (prev, acc)
  | c :: r =>
      if string_quote pc c then
        match prev with
        | None => scanq (S pos) (Some c) (Some pos) r acc
        | Some q => scanq (S pos) (Some c) None r (acc ++ [(q, pos - q)])
        end
      else scanq (S pos) (Some c) prev r acc
  end.

Lemma scanq_skip : forall a pos pc prev r acc, ~ In dq a ->
  scanq pos pc prev (a ++ r) acc = scanq (pos + length a) (lastof pc a) prev r acc.
Proof.
  induction a as [|c a IH]; intros pos pc prev r acc H; [rewrite Nat.add_0_r; reflexivity|].
  cbn [app scanq lastof length]. assert (string_quote pc c = false) as ->.
  { unfold string_quote. assert (ceqb c dq = false) as -> by (apply ceqb_neq; intros ->; apply H; left; reflexivity).
    reflexivity. }
  rewrite IH by (intros Hc; apply H; right; exact Hc). f_equal. lia.
Qed.

Lemma collect_scan t : forall fuel done rest prev acc, t = done ++ rest -> length rest < fuel ->
  collect_loop fuel t (length done) prev acc = Ok (scanq (length done) (lastof None done) prev rest acc).
Proof.
  induction fuel as [|fuel IH]; intros done rest prev acc E Hf; [lia|].
  cbn [collect_loop]. rewrite E at 1. rewrite find_from_app.
  destruct (find [dq] rest) as [i|] eqn:F; cbn [option_map].
  - apply find_Some in F as (a & b & E2 & Hl & Hmin). subst i.
    assert (~ In dq a) as Ha.
    { intros Hin. apply in_split in Hin as (a1 & a2 & ->). specialize (Hmin a1 (a2 ++ [dq] ++ b)).
      rewrite E2, <- app_assoc in Hmin. specialize (Hmin eq_refl). rewrite app_length in Hmin. cbn in Hmin. lia. }
    rewrite E2. rewrite scanq_skip by exact Ha. rewrite <- lastof_app.
    pose proof (prev_char (fun c => ceqb c bt || ceqb c bs) (done ++ a) (dq :: b)) as HP.
    rewrite app_length in HP. replace ((done ++ a) ++ dq :: b) with t in HP
      by (rewrite E, E2, <- app_assoc; reflexivity).
    rewrite HP. cbn [bind]. cbn [app scanq]. unfold string_quote at 1. rewrite ceqb_refl.
    assert (t = (done ++ a ++ [dq]) ++ b) as E3 by (rewrite E, E2, <- !app_assoc; reflexivity).
    assert (length (done ++ a ++ [dq]) = S (length done + length a)) as E4 by len.
    assert (lastof None (done ++ a ++ [dq]) = Some dq) as E5 by (rewrite app_assoc; apply lastof_snoc).
    assert (length b < fuel) as Hb by (rewrite E2 in Hf; revert Hf; len).
    destruct (match lastof None (done ++ a) with None => false | Some c => ceqb c bt || ceqb c bs end);
      cbn [negb andb].
    + rewrite <- E4, <- E5. apply IH; assumption.
    + destruct prev; rewrite <- E4, <- E5; apply IH; assumption.
  - assert (~ In dq rest) as Hr.
    { intros Hin. apply in_split in Hin as (a1 & a2 & ->).
      apply (proj1 (find_None _ _) F a1 a2). reflexivity. }
    rewrite <- (app_nil_r rest) at 1. rewrite scanq_skip by exact Hr. reflexivity.
Qed.

(** [marks]: for each character, is it in a string (opening quote included, closing excluded). *)
Fixpoint marks (inside : bool) (pc : option ascii) (s : str) : list bool :=
  match s with
  | [] => []
  | c :: r => let i' := xorb inside (string_quote pc c) in i' :: marks i' (Some c) r
  end.
Definition covered (ivs : list (nat * nat)) (q : nat) : Prop :=
  exists a n, In (a, n) ivs /\ a <= q < a + n.

Lemma covered_app a b q : covered (a ++ b) q <-> covered a q \/ covered b q.
Proof.
  unfold covered. split.
  - intros (x & n & H & ?). apply in_app_or in H as [H|H]; [left|right]; eauto.
  - intros [(x & n & H & ?)|(x & n & H & ?)]; exists x, n; split; auto; apply in_or_app; auto.
Qed.
Lemma covered_one a n q : covered [(a, n)] q <-> a <= q < a + n.
Proof.
  unfold covered. split.
  - intros (x & m & [E|[]] & H). inversion E; subst. exact H.
  - intros H. exists a, n. split; [left; reflexivity|exact H].
Qed.
Lemma covered_check ivs q : covered ivs q <-> check_is_in_string ivs q <> None.
Proof.
  unfold check_is_in_string. split.
  - intros (a & n & Hin & H) E. apply (List.find_none _ _ E) in Hin. cbn [fst snd] in Hin.
    apply andb_false_iff in Hin as [Hin|Hin].
    + apply Nat.leb_gt in Hin. lia.
    + apply Nat.ltb_ge in Hin. lia.
  - intros H. destruct (List.find _ ivs) as [[a n]|] eqn:E; [|congruence].
    pose proof (check_in_string_spec ivs q a n E). apply List.find_some in E as [Hin _].
    exists a, n. auto.
Qed.

Definition is_some {A} (o : option A) : bool := match o with Some _ => true | None => false end.

Lemma scanq_cover : forall rest pos pc prev acc ivs,
  (forall q0, prev = Some q0 -> q0 < pos) ->
  scanq pos pc prev rest acc = (None, ivs) ->
  forall q, covered ivs q <->
    covered acc q \/ (exists q0, prev = Some q0 /\ q0 <= q < pos)
    \/ (pos <= q /\ nth (q - pos) (marks (is_some prev) pc rest) false = true).
Proof.
  induction rest as [|c r IH]; intros pos pc prev acc ivs Hprev E q; cbn [scanq] in E.
  - inversion E; subst. cbn [marks]. split; [auto|].
    intros [H|[(q0 & H & _)|(_ & H)]]; [exact H|discriminate H|]. destruct (q - pos); discriminate H.
  - assert (forall i m, nth (q - pos) (i :: m) false = if q =? pos then i else if q <? pos then i else nth (q - S pos) m false) as HN.
    { intros i m. destruct (Nat.eqb_spec q pos) as [->|Hne]; [rewrite Nat.sub_diag; reflexivity|].
      destruct (Nat.ltb_spec q pos).
      - replace (q - pos) with 0 by lia. reflexivity.
      - replace (q - pos) with (S (q - S pos)) by lia. reflexivity. }
    cbn [marks]. destruct (string_quote pc c); [destruct prev as [q1|]|].
    + (* closing *)
      specialize (Hprev q1 eq_refl).
      rewrite (IH (S pos) (Some c) None _ ivs ltac:(intros q0 Q; discriminate Q) E q), covered_app, covered_one. cbn [is_some xorb]. rewrite HN.
      split.
      * intros [[H|H]|[(q0 & H & _)|(H & H')]]; [auto|right; left; exists q1; split; [reflexivity|lia]|discriminate|].
        right; right. split; [lia|]. destruct (Nat.eqb_spec q pos); [lia|]. destruct (Nat.ltb_spec q pos); [lia|exact H'].
      * intros [H|[(q0 & H & ?)|(H & H')]]; [auto| |].
        -- inversion H; subst. left; right. lia.
        -- destruct (Nat.eqb_spec q pos); [discriminate|]. destruct (Nat.ltb_spec q pos); [lia|].
           right; right. split; [lia|exact H'].
    + (* opening *)
      rewrite (IH (S pos) (Some c) (Some pos) acc ivs ltac:(intros q0 Q; inversion Q; lia) E q). cbn [is_some xorb]. rewrite HN.
      split.
      * intros [H|[(q0 & H & ?)|(H & H')]]; [auto| |].
        -- inversion H; subst. right; right. split; [lia|]. destruct (Nat.eqb_spec q q0); [reflexivity|lia].
        -- right; right. split; [lia|]. destruct (Nat.eqb_spec q pos); [reflexivity|].
           destruct (Nat.ltb_spec q pos); [lia|exact H'].
      * intros [H|[(q0 & H & ?)|(H & H')]]; [auto|discriminate|].
        destruct (Nat.eqb_spec q pos); [right; left; exists pos; split; [reflexivity|lia]|].
        destruct (Nat.ltb_spec q pos); [lia|]. right; right. split; [lia|exact H'].
    + rewrite xorb_false_r.
      rewrite (IH (S pos) (Some c) prev acc ivs ltac:(intros q0 Q; specialize (Hprev _ Q); lia) E q). rewrite HN.
      split.
      * intros [H|[(q0 & H & ?)|(H & H')]]; [auto| |].
        -- destruct (Nat.eqb_spec q pos) as [Heq|Hne].
           ++ right; right. split; [lia|]. rewrite H. reflexivity.
           ++ right; left. exists q0. split; [exact H|lia].
        -- right; right. split; [lia|]. destruct (Nat.eqb_spec q pos); [lia|].
           destruct (Nat.ltb_spec q pos); [lia|exact H'].
      * intros [H|[(q0 & H & ?)|(H & H')]]; [auto| |].
        -- right; left. exists q0. split; [exact H|lia].
        -- destruct (Nat.eqb_spec q pos) as [Heq|Hne].
           ++ destruct prev as [q0|]; [|discriminate]. right; left. exists q0. split; [reflexivity|].
              specialize (Hprev q0 eq_refl). lia.
           ++ destruct (Nat.ltb_spec q pos); [lia|]. right; right. split; [lia|exact H'].
Qed.

(** Final state of the quote scanner. *)
Fixpoint final_inside (inside : bool) (pc : option ascii) (s : str) : bool :=
  match s with
  | [] => inside
  | c :: r => final_inside (xorb inside (string_quote pc c)) (Some c) r
  end.
Lemma scanq_final : forall rest pos pc prev acc,
  is_some (fst (scanq pos pc prev rest acc)) = final_inside (is_some prev) pc rest.
Proof.
  induction rest as [|c r IH]; intros; cbn [scanq final_inside]; [reflexivity|].
  destruct (string_quote pc c); [destruct prev|]; rewrite IH; cbn [is_some xorb]; rewrite ?xorb_false_r; reflexivity.
Qed.
Lemma word_not_quote pc c : word_char c = true -> string_quote pc c = false.
Proof.
  intros H. unfold string_quote. destruct (ceqb c dq) eqn:E; [|reflexivity].
  apply ceqb_eq in E. subst. discriminate.
Qed.
Lemma subst_None stop f : forall s w inside pc,
  subst_body stop f w inside pc s = None <-> final_inside inside pc s = true.
Proof.
  induction s as [|c s IH]; intros w inside pc; cbn [subst_body final_inside].
  - destruct inside; split; congruence.
  - destruct inside.
    + assert (xorb true (string_quote pc c) = negb (string_quote pc c)) as -> by (destruct (string_quote pc c); reflexivity).
      specialize (IH [] (negb (string_quote pc c)) (Some c)).
      destruct (subst_body stop f [] (negb (string_quote pc c)) (Some c) s); cbn [option_map]; rewrite <- IH; split; intros Q; (discriminate Q || reflexivity).
    + assert (xorb false (string_quote pc c) = string_quote pc c) as -> by (destruct (string_quote pc c); reflexivity).
      destruct (word_char c) eqn:W.
      * rewrite (word_not_quote pc c W). apply IH.
      * specialize (IH [] (string_quote pc c) (Some c)).
        destruct (subst_body stop f [] (string_quote pc c) (Some c) s); cbn [option_map]; rewrite <- IH; split; intros Q; (discriminate Q || reflexivity).
Qed.

(** ** Usages *)
Definition in_str (ivs : list (nat * nat)) (q : nat) : bool := is_some (check_is_in_string ivs q).
Definition usage (ivs : list (nat * nat)) (body name : str) (q : nat) : bool :=
  is_prefix name (skipn q body)
  && negb (match q with 0 => false | S j => part_pre (nth j body c0) end)
  && negb (part_post (nth (q + length name) body c0))
  && negb (in_str ivs q).

Lemma char_at_nth s i : i <= length s -> char_at s i = Ok (nth i s c0).
Proof.
  intros H. unfold char_at. destruct (nth_error s i) eqn:E.
  - f_equal. symmetry. apply nth_error_nth. exact E.
  - apply nth_error_None in E. rewrite (proj2 (Nat.eqb_eq _ _)) by lia.
    rewrite nth_overflow by lia. reflexivity.
Qed.

Lemma occ_at p s q : q <= length s -> (is_prefix p (skipn q s) = true <-> exists a b, s = a ++ p ++ b /\ length a = q).
Proof.
  intros Hq. rewrite is_prefix_spec. split.
  - intros (b & E). exists (firstn q s), b. split; [rewrite <- E; symmetry; apply firstn_skipn|].
    rewrite firstn_length. lia.
  - intros (a & b & -> & <-). exists b. apply skipn_app_len.
Qed.
Lemma find_from_first p s pos i : find_from p s pos = Some i ->
  pos <= i /\ i + length p <= length s /\ is_prefix p (skipn i s) = true
  /\ forall q, pos <= q < i -> is_prefix p (skipn q s) = false.
Proof.
  intros F. pose proof (find_from_Some _ _ _ _ F) as (H1 & H2 & H3).
  split; [exact H1|]. split; [exact H2|]. split; [apply occ_at; [lia|exact H3]|].
  intros q Hq. destruct (is_prefix p (skipn q s)) eqn:E; [|reflexivity]. exfalso.
  unfold find_from in F. destruct (Nat.ltb_spec (length s) pos); [discriminate|].
  destruct (find p (skipn pos s)) as [j|] eqn:G; [|discriminate]. cbn in F. inversion F; subst.
  apply find_Some in G as (_ & _ & _ & _ & Hmin).
  apply is_prefix_spec in E as (b & E).
  specialize (Hmin (firstn (q - pos) (skipn pos s)) b).
  assert (skipn pos s = firstn (q - pos) (skipn pos s) ++ p ++ b) as EE.
  { rewrite <- E. replace q with ((q - pos) + pos) at 2 by lia. rewrite <- skipn_skipn.
    symmetry. apply firstn_skipn. }
  specialize (Hmin EE). rewrite firstn_length, skipn_length in Hmin. lia.
Qed.
Lemma find_from_None p s pos : find_from p s pos = None ->
  forall q, pos <= q <= length s -> is_prefix p (skipn q s) = false.
Proof.
  intros F q Hq. destruct (is_prefix p (skipn q s)) eqn:E; [|reflexivity]. exfalso.
  unfold find_from in F. destruct (Nat.ltb_spec (length s) pos); [lia|].
  destruct (find p (skipn pos s)) as [j|] eqn:G; [discriminate|].
  apply is_prefix_spec in E as (b & E). apply (proj1 (find_None _ _) G (firstn (q - pos) (skipn pos s)) b).
  rewrite <- E. replace q with ((q - pos) + pos) at 2 by lia. rewrite <- skipn_skipn.
  symmetry. apply firstn_skipn.
Qed.

Lemma filter_seq_skip f a b n : a <= b -> (forall q, a <= q < b -> f q = false) ->
  filter f (seq a (n - a)) = filter f (seq b (n - b)).
Proof.
  intros Hab Hf. destruct (Nat.lt_ge_cases n b) as [Hn|Hn].
  - replace (n - b) with 0 by lia. cbn [seq filter].
    assert (forall k a', a <= a' -> a' + k <= b -> filter f (seq a' k) = []) as H.
    { induction k as [|k IH]; intros a' H1 H2; cbn [seq filter]; [reflexivity|].
      rewrite Hf by lia. apply IH; lia. }
    apply H; lia.
  - replace (n - a) with ((b - a) + (n - b)) by lia. rewrite seq_app, filter_app.
    assert (forall k a', a <= a' -> a' + k <= b -> filter f (seq a' k) = []) as H.
    { induction k as [|k IH]; intros a' H1 H2; cbn [seq filter]; [reflexivity|].
      rewrite Hf by lia. apply IH; lia. }
    rewrite H by lia. cbn [app]. do 2 f_equal. lia.
Qed.

Lemma usage_loop_filter ivs body name : forall fuel pos, S (length body) - pos < fuel ->
  usage_loop fuel ivs body name pos
  = Ok (filter (usage ivs body name) (seq pos (S (length body) - pos))).
Proof.
  induction fuel as [|fuel IH]; intros pos Hf; [lia|]. cbn [usage_loop].
  destruct (find_from name body pos) as [p|] eqn:F.
  - apply find_from_first in F as (H1 & H2 & H3 & H4).
    assert (forall q, pos <= q < p -> usage ivs body name q = false) as Hskip.
    { intros q Hq. unfold usage. rewrite H4 by lia. reflexivity. }
    assert (match p with 0 => Ok false | S j => c <- char_at body j;; Ok (part_pre c) end
            = Ok (match p with 0 => false | S j => part_pre (nth j body c0) end)) as ->.
    { destruct p as [|j]; [reflexivity|]. rewrite char_at_nth by lia. reflexivity. }
    cbn [bind]. rewrite (filter_seq_skip _ pos p) by (lia || exact Hskip).
    assert (seq p (S (length body) - p) = p :: seq (S p) (S (length body) - S p)) as Hseq.
    { replace (S (length body) - p) with (S (S (length body) - S p)) by lia. reflexivity. }
    destruct (match p with 0 => false | S j => part_pre (nth j body c0) end) eqn:Hpre.
    { rewrite IH by lia. rewrite Hseq. cbn [filter]. unfold usage at 2. rewrite Hpre.
      rewrite andb_false_r. reflexivity. }
    rewrite char_at_nth by lia. cbn [bind].
    destruct (part_post (nth (p + length name) body c0)) eqn:Hpost.
    { rewrite IH by lia. rewrite Hseq. cbn [filter]. unfold usage at 2. rewrite Hpre, Hpost.
      rewrite !andb_false_r. reflexivity. }
    destruct (check_is_in_string ivs p) as [[a n]|] eqn:C.
    + pose proof (check_in_string_spec _ _ _ _ C) as Han. apply List.find_some in C as [Cin _].
      rewrite IH by lia. f_equal. symmetry. apply filter_seq_skip; [lia|].
      intros q Hq. unfold usage, in_str. assert (check_is_in_string ivs q <> None) as HC.
      { apply covered_check. exists a, n. split; [exact Cin|lia]. }
      destruct (check_is_in_string ivs q); [|congruence]. cbn. rewrite andb_false_r. reflexivity.
    + rewrite IH by lia. cbn [bind]. rewrite Hseq. cbn [filter]. unfold usage at 2.
      rewrite H3, Hpre, Hpost. unfold in_str. rewrite C. reflexivity.
  - f_equal. symmetry. destruct (Nat.lt_ge_cases (length body) pos) as [Hp|Hp].
    + replace (S (length body) - pos) with 0 by lia. reflexivity.
    + rewrite (filter_seq_skip _ pos (S (length body))).
      * rewrite Nat.sub_diag. reflexivity.
      * lia.
      * intros q Hq. unfold usage. rewrite (find_from_None _ _ _ F) by lia. reflexivity.
Qed.

(** ** The sorted list of usages *)
Section Usages.
Context (ivs : list (nat * nat)) (body : str).
Notation usage := (usage ivs body).

Fixpoint usages_of (ps : list param_info) (i : nat) : list (nat * nat) :=
  match ps with
  | [] => []
  | p :: ps' => map (fun u => (u, i)) (filter (usage (p_name p)) (seq 0 (S (length body))))
                ++ usages_of ps' (S i)
  end.
Lemma all_usages_eq : forall ps i, all_usages ivs body ps i = Ok (usages_of ps i).
Proof.
  induction ps as [|p ps IH]; intros i; cbn [all_usages usages_of]; [reflexivity|].
  rewrite usage_loop_filter by lia. cbn [bind]. rewrite IH. cbn [bind]. rewrite Nat.sub_0_r. reflexivity.
Qed.
Fixpoint hits (ps : list param_info) (q i : nat) : list (nat * nat) :=
  match ps with
  | [] => []
  | p :: ps' => (if usage (p_name p) q then [(q, i)] else []) ++ hits ps' q (S i)
  end.
Definition us_from (ps : list param_info) (p m : nat) : list (nat * nat) :=
  flat_map (fun q => hits ps q 0) (seq p m).

Lemma usages_of_In : forall ps i q k, In (q, k) (usages_of ps i) <->
  q <= length body /\ i <= k /\ exists p, nth_error ps (k - i) = Some p /\ usage (p_name p) q = true.
Proof.
  induction ps as [|p ps IH]; intros i q k; cbn [usages_of].
  - split; [intros []|]. intros (_ & _ & p & H & _). destruct (k - i); discriminate.
  - rewrite in_app_iff, in_map_iff, IH. split.
    + intros [(u & E & Hin)|(H1 & H2 & p' & H3 & H4)].
      * inversion E; subst. apply filter_In in Hin as [Hin Hu]. apply in_seq in Hin.
        split; [lia|]. split; [lia|]. exists p. rewrite Nat.sub_diag. auto.
      * split; [exact H1|]. split; [lia|]. exists p'. replace (k - i) with (S (k - S i)) by lia. auto.
    + intros (H1 & H2 & p' & H3 & H4). destruct (Nat.eq_dec k i) as [->|Hne].
      * left. rewrite Nat.sub_diag in H3. inversion H3; subst. exists q. split; [reflexivity|].
        apply filter_In. split; [apply in_seq; lia|exact H4].
      * right. split; [exact H1|]. split; [lia|]. exists p'.
        replace (k - i) with (S (k - S i)) in H3 by lia. auto.
Qed.
Lemma hits_In : forall ps q i x, In x (hits ps q i) <->
  fst x = q /\ i <= snd x /\ exists p, nth_error ps (snd x - i) = Some p /\ usage (p_name p) q = true.
Proof.
  induction ps as [|p ps IH]; intros q i [q' k]; cbn [hits fst snd].
  - split; [intros []|]. intros (_ & _ & p & H & _). destruct (k - i); discriminate.
  - rewrite in_app_iff, IH. cbn [fst snd]. split.
    + intros [H|(H1 & H2 & p' & H3 & H4)].
      * destruct (usage (p_name p) q) eqn:U; [|destruct H]. destruct H as [E|[]]. inversion E; subst.
        split; [reflexivity|]. split; [lia|]. exists p. rewrite Nat.sub_diag. auto.
      * split; [exact H1|]. split; [lia|]. exists p'. replace (k - i) with (S (k - S i)) by lia. auto.
    + intros (H1 & H2 & p' & H3 & H4). destruct (Nat.eq_dec k i) as [->|Hne].
      * left. rewrite Nat.sub_diag in H3. inversion H3; subst. rewrite H4. left; reflexivity.
      * right. split; [exact H1|]. split; [lia|]. exists p'.
        replace (k - i) with (S (k - S i)) in H3 by lia. auto.
Qed.

Definition plt (a b : nat * nat) : Prop := fst a < fst b \/ (fst a = fst b /\ snd a < snd b).
Definition ple (a b : nat * nat) : Prop := fst a < fst b \/ (fst a = fst b /\ snd a <= snd b).

Lemma SSorted_app {A} (R : A -> A -> Prop) l l' :
  StronglySorted R l -> StronglySorted R l' -> (forall x y, In x l -> In y l' -> R x y) ->
  StronglySorted R (l ++ l').
Proof.
  induction 1 as [|x l H IH HF]; intros H' HR; cbn [app]; [exact H'|].
  constructor.
  - apply IH; [exact H'|]. intros a b Ha Hb. apply HR; [right; exact Ha|exact Hb].
  - apply Forall_app. split; [exact HF|]. apply Forall_forall. intros y Hy. apply HR; [left; reflexivity|exact Hy].
Qed.
Lemma hits_sorted : forall ps q i, StronglySorted plt (hits ps q i).
Proof.
  induction ps as [|p ps IH]; intros q i; cbn [hits]; [constructor|].
  apply SSorted_app; [destruct (usage _ _); repeat constructor|apply IH|].
  intros x y Hx Hy. destruct (usage _ _); [|destruct Hx]. destruct Hx as [<-|[]].
  apply hits_In in Hy as (H1 & H2 & _). right. cbn [fst snd]. split; [congruence|lia].
Qed.
Lemma us_from_In ps p m x : In x (us_from ps p m) -> p <= fst x < p + m.
Proof.
  unfold us_from. intros H. apply in_flat_map in H as (q & Hq & Hx). apply in_seq in Hq.
  apply hits_In in Hx as (-> & _). exact Hq.
Qed.
Lemma us_from_sorted ps : forall m p, StronglySorted plt (us_from ps p m).
Proof.
  induction m as [|m IH]; intros p; [constructor|]. unfold us_from. cbn [seq flat_map].
  apply SSorted_app; [apply hits_sorted|apply IH|].
  intros x y Hx Hy. apply hits_In in Hx as (H1 & _). apply (us_from_In ps (S p) m) in Hy. left. lia.
Qed.

Lemma plt_unique : forall l l', StronglySorted plt l -> StronglySorted plt l' ->
  (forall x, In x l <-> In x l') -> l = l'.
Proof.
  assert (forall x y, plt x y -> plt y x -> False) as Hasym by (unfold plt; intros; lia).
  assert (forall x, plt x x -> False) as Hirr by (unfold plt; intros; lia).
  induction l as [|x l IH]; intros [|y l'] H H' HI.
  - reflexivity.
  - exfalso. apply (proj2 (HI y)). left; reflexivity.
  - exfalso. apply (proj1 (HI x)). left; reflexivity.
  - inversion H as [|? ? HS HF]; subst. inversion H' as [|? ? HS' HF']; subst.
    rewrite Forall_forall in HF, HF'.
    assert (x = y) as <-.
    { destruct (proj1 (HI x) ltac:(left; reflexivity)) as [E|Hx]; [auto|].
      destruct (proj2 (HI y) ltac:(left; reflexivity)) as [E|Hy]; [auto|].
      exfalso. eapply Hasym; [apply HF; exact Hy|apply HF'; exact Hx]. }
    f_equal. apply IH; [exact HS|exact HS'|]. intros z. split; intros Hz.
    + destruct (proj1 (HI z) ltac:(right; exact Hz)) as [<-|?]; [|assumption].
      exfalso. eapply Hirr. apply HF. exact Hz.
    + destruct (proj2 (HI z) ltac:(right; exact Hz)) as [<-|?]; [|assumption].
      exfalso. eapply Hirr. apply HF'. exact Hz.
Qed.

Lemma pair_le_spec x y : if pair_le x y then ple x y else ple y x.
Proof.
  unfold pair_le, ple. destruct x as [a b], y as [c d]. cbn [fst snd].
  destruct (Nat.ltb_spec a c); cbn [orb]; [left; lia|].
  destruct (Nat.eqb_spec a c); cbn [andb]; [|left; lia].
  destruct (Nat.leb_spec b d); right; lia.
Qed.
Lemma insert_sorted x l : StronglySorted ple l -> StronglySorted ple (insert_pair x l).
Proof.
  assert (forall a b c, ple a b -> ple b c -> ple a c) as Htr by (unfold ple; intros; lia).
  induction 1 as [|y l H IH HF]; cbn [insert_pair]; [repeat constructor|].
  pose proof (pair_le_spec x y) as HP. destruct (pair_le x y).
  - constructor; [constructor; assumption|]. constructor; [exact HP|].
    eapply Forall_impl; [|exact HF]. intros z Hz. eapply Htr; eassumption.
  - constructor; [exact IH|]. eapply Permutation.Permutation_Forall; [apply insert_pair_perm|].
    constructor; assumption.
Qed.
Lemma sort_sorted l : StronglySorted ple (sort_pairs l).
Proof. induction l as [|x l IH]; cbn; [constructor|]. apply insert_sorted. exact IH. Qed.
Lemma ple_nodup l : StronglySorted ple l -> NoDup l -> StronglySorted plt l.
Proof.
  induction 1 as [|x l H IH HF]; intros HN; [constructor|]. inversion HN; subst.
  constructor; [apply IH; assumption|]. apply Forall_forall. intros y Hy.
  rewrite Forall_forall in HF. specialize (HF y Hy).
  assert (x <> y) by congruence. destruct x, y. unfold ple, plt in *. cbn [fst snd] in *.
  destruct HF as [?|[? ?]]; [left; assumption|right]. split; [assumption|].
  assert (n0 <> n2) by congruence. lia.
Qed.
Lemma usages_of_NoDup : forall ps i, NoDup (usages_of ps i).
Proof.
  induction ps as [|p ps IH]; intros i; cbn [usages_of]; [constructor|].
  assert (forall (l l' : list (nat * nat)), NoDup l -> NoDup l' -> (forall x, In x l -> ~ In x l') -> NoDup (l ++ l')) as HA.
  { clear. induction l as [|x l IH]; intros l' H H' HD; [exact H'|]. inversion H; subst. cbn. constructor.
    - intros Hin. apply in_app_or in Hin as [Hin|Hin]; [contradiction|]. eapply HD; [left; reflexivity|exact Hin].
    - apply IH; [assumption|assumption|]. intros y Hy. apply HD. right; exact Hy. }
  apply HA.
  - apply FinFun.Injective_map_NoDup; [intros a b E; inversion E; reflexivity|].
    apply NoDup_filter. apply seq_NoDup.
  - apply IH.
  - intros [q k] Hx Hy. apply in_map_iff in Hx as (u & E & _). inversion E; subst.
    apply usages_of_In in Hy as (_ & ? & _). lia.
Qed.

Lemma sorted_usages ps : sort_pairs (usages_of ps 0) = us_from ps 0 (S (length body)).
Proof.
  apply plt_unique.
  - apply ple_nodup; [apply sort_sorted|].
    eapply Permutation.Permutation_NoDup; [apply sort_pairs_perm|apply usages_of_NoDup].
  - apply us_from_sorted.
  - intros [q k]. split; intros H.
    + apply (Permutation.Permutation_in _ (Permutation.Permutation_sym (sort_pairs_perm _))) in H.
      apply usages_of_In in H as (H1 & H2 & p & H3 & H4).
      unfold us_from. apply in_flat_map. exists q. split; [apply in_seq; lia|].
      apply hits_In. cbn [fst snd]. split; [reflexivity|]. split; [lia|]. eauto.
    + apply (Permutation.Permutation_in _ (sort_pairs_perm _)). apply usages_of_In.
      unfold us_from in H. apply in_flat_map in H as (q' & Hq & H). apply in_seq in Hq.
      apply hits_In in H as (E & H2 & p & H3 & H4). cbn [fst snd] in *. subst q'.
      split; [lia|]. split; [lia|]. eauto.
Qed.
End Usages.

(** ** Cutting = substituting *)
Lemma part_pre_word c : part_pre c = word_char c.
Proof.
  unfold part_pre, word_char, isalnum. rewrite (Ascii.eqb_sym "_" c), (Ascii.eqb_sym "$" c) || idtac.
  unfold ceqb. rewrite (Ascii.eqb_sym "_"), (Ascii.eqb_sym "$"). reflexivity.
Qed.
Lemma part_post_word c : part_post c = word_char c || open_bracket c.
Proof.
  unfold part_post. unfold word_char, isalnum, open_bracket, ceqb.
  rewrite (Ascii.eqb_sym "_"), (Ascii.eqb_sym "$"), (Ascii.eqb_sym "("), (Ascii.eqb_sym "["), (Ascii.eqb_sym "{").
  rewrite <- !orb_assoc. reflexivity.
Qed.

Lemma identifier_word s : identifier s -> s <> [] /\ Forall (fun c => word_char c = true) s.
Proof.
  intros (c & r & -> & Hc & Hr). split; [discriminate|]. constructor; [|exact Hr].
  unfold word_char. apply orb_true_iff in Hc as [->| ->]; rewrite ?orb_true_r; reflexivity.
Qed.

Lemma lastof_nth d c : lastof None d = Some c -> forall e, nth (pred (length d)) (d ++ e) c0 = c /\ d <> [].
Proof.
  destruct d as [|x d _] using rev_ind; [discriminate|]. rewrite lastof_snoc. intros E; inversion E; subst.
  intros e. split; [|destruct d; discriminate]. rewrite app_length, Nat.add_1_r. cbn [pred].
  rewrite <- app_assoc. cbn [app]. rewrite app_nth2 by lia. rewrite Nat.sub_diag. reflexivity.
Qed.
Lemma nth_app_len (d e : str) x : nth (length d) (d ++ e) x = nth 0 e x.
Proof. rewrite app_nth2 by lia. rewrite Nat.sub_diag. reflexivity. Qed.

Fixpoint index_of (names : list str) (w : str) (i : nat) : option nat :=
  match names with
  | [] => None
  | n :: names' => if seqb n w then Some i else index_of names' w (S i)
  end.
Lemma index_of_ge : forall names w i k, index_of names w i = Some k -> i <= k.
Proof.
  induction names as [|n names IH]; intros w i k H; cbn in H; [discriminate|].
  destruct (seqb n w); [inversion H; lia|]. apply IH in H. lia.
Qed.
Lemma index_lookup : forall names vals w i, length vals = length names ->
  match index_of names w i with
  | Some k => exists v, lookup names vals w = Some v /\ nth_error vals (k - i) = Some v
              /\ nth_error names (k - i) = Some w
  | None => lookup names vals w = None
  end.
Proof.
  induction names as [|n names IH]; intros [|v vals] w i L; cbn in L; try lia; cbn [index_of lookup]; [reflexivity|].
  destruct (seqb n w) eqn:E.
  - apply seqb_eq in E. subst. rewrite Nat.sub_diag. exists v. repeat split; reflexivity.
  - specialize (IH vals w (S i) ltac:(lia)). destruct (index_of names w (S i)) as [k|] eqn:EI; [|exact IH].
    apply index_of_ge in EI. replace (k - i) with (S (k - S i)) by lia. exact IH.
Qed.

Section Cut.
Context (ivs : list (nat * nat)) (body : str).
Notation usage := (usage ivs body).

Lemma usage_not_word name q : identifier name -> word_char (nth q body c0) = false -> usage name q = false.
Proof.
  intros Hid Hq. apply identifier_word in Hid as (Hne & HF). unfold MacroSubstProofs.usage.
  destruct (is_prefix name (skipn q body)) eqn:P; [|reflexivity]. exfalso.
  apply is_prefix_spec in P as (b & E). destruct name as [|c name]; [congruence|].
  inversion HF; subst. assert (nth q body c0 = c) as Hc.
  { rewrite <- (firstn_skipn q body), E. assert (q < length body) as Hl.
    { destruct (Nat.lt_ge_cases q (length body)); [assumption|]. rewrite skipn_all2 in E by lia. discriminate. }
    rewrite app_nth2; rewrite firstn_length; [|lia]. replace (q - Nat.min q (length body)) with 0 by lia. reflexivity. }
  congruence.
Qed.
Lemma usage_after_word name q : word_char (nth q body c0) = true -> usage name (S q) = false.
Proof.
  intros H. unfold MacroSubstProofs.usage. rewrite part_pre_word, H. rewrite andb_false_r. reflexivity.
Qed.
Lemma usage_in_str name q : in_str ivs q = true -> usage name q = false.
Proof. intros H. unfold MacroSubstProofs.usage. rewrite H, andb_false_r. reflexivity. Qed.

Definition next_of (rest : str) : ascii := nth 0 rest c0.
Lemma word_prefix name w rest :
  Forall (fun c => word_char c = true) name -> Forall (fun c => word_char c = true) w ->
  word_char (next_of rest) = false -> is_prefix name (w ++ rest) = true ->
  exists w', w = name ++ w'.
Proof.
  revert w; induction name as [|c name IH]; intros w Hn Hw Hr P; [exists w; reflexivity|].
  inversion Hn; subst. destruct w as [|d w].
  - destruct rest as [|x rest]; [discriminate|]. cbn in P, Hr. apply andb_prop in P as [P _].
    apply ceqb_eq in P. congruence.
  - inversion Hw; subst. cbn in P. apply andb_prop in P as [P1 P2]. apply ceqb_eq in P1. subst d.
    destruct (IH w) as (w' & ->); try assumption. exists w'. reflexivity.
Qed.

Lemma usage_run name done w rest : body = done ++ w ++ rest -> identifier name ->
  Forall (fun c => word_char c = true) w ->
  word_char (next_of rest) = false ->
  (forall c, lastof None done = Some c -> word_char c = false) ->
  in_str ivs (length done) = false ->
  usage name (length done) = seqb name w && negb (open_bracket (next_of rest)).
Proof.
  intros E Hid Hw Hr Hb Hi. apply identifier_word in Hid as (Hne & HF).
  unfold MacroSubstProofs.usage. rewrite Hi. cbn [negb]. rewrite andb_true_r.
  assert (match length done with 0 => false | S j => part_pre (nth j body c0) end = false) as ->.
  { destruct (lastof None done) as [c|] eqn:EL.
    - destruct (lastof_nth done c EL (w ++ rest)) as (Hn & Hd). rewrite <- E in Hn.
      destruct (length done) as [|j] eqn:El; [reflexivity|]. cbn [pred] in Hn. rewrite Hn, part_pre_word.
      apply Hb. reflexivity.
    - destruct done as [|c d]; [reflexivity|]. destruct d using rev_ind; [discriminate|].
      rewrite app_comm_cons, lastof_snoc in EL. discriminate. }
  cbn [negb]. rewrite andb_true_r.
  rewrite E at 1. rewrite skipn_app_len.
  destruct (is_prefix name (w ++ rest)) eqn:P; cbn [andb].
  - destruct (word_prefix name w rest HF Hw Hr P) as (w' & Ew). rewrite part_post_word.
    destruct w' as [|c w'].
    + rewrite app_nil_r in Ew. subst w. rewrite seqb_refl. cbn [andb].
      assert (nth (length done + length name) body c0 = next_of rest) as ->.
      { rewrite E. rewrite app_assoc, <- app_length. apply nth_app_len. }
      rewrite Hr. reflexivity.
    + assert (nth (length done + length name) body c0 = c) as ->.
      { rewrite E, Ew, <- app_assoc, app_assoc, <- app_length. rewrite nth_app_len. reflexivity. }
      assert (word_char c = true) as ->.
      { rewrite Ew in Hw. apply Forall_app in Hw as [_ Hw]. inversion Hw; assumption. }
      assert (seqb name w = false) as ->; [|reflexivity].
      apply seqb_neq. intros EE. rewrite Ew in EE. assert (length name = length (name ++ c :: w')) by congruence.
      rewrite app_length in H. cbn in H. lia.
  - assert (seqb name w = false) as ->; [|reflexivity].
    apply seqb_neq. intros ->. assert (is_prefix w (w ++ rest) = true) by (apply is_prefix_spec; eauto). congruence.
Qed.

Lemma hits_none : forall ps q i, (forall p, In p ps -> usage (p_name p) q = false) -> hits ivs body ps q i = [].
Proof.
  induction ps as [|p ps IH]; intros q i H; cbn [hits]; [reflexivity|].
  rewrite H by (left; reflexivity). cbn [app]. apply IH. intros p' Hp. apply H. right; exact Hp.
Qed.

Lemma hits_run done w rest : body = done ++ w ++ rest -> 
  Forall (fun c => word_char c = true) w ->
  word_char (next_of rest) = false ->
  (forall c, lastof None done = Some c -> word_char c = false) ->
  in_str ivs (length done) = false ->
  forall ps i, Forall (fun p => identifier (p_name p)) ps -> NoDup (map p_name ps) ->
  hits ivs body ps (length done) i =
  if open_bracket (next_of rest) then []
  else match index_of (map p_name ps) w i with Some k => [(length done, k)] | None => [] end.
Proof.
  intros E Hw Hr Hb Hi. induction ps as [|p ps IH]; intros i HF HN; cbn [hits map index_of].
  - destruct (open_bracket _); reflexivity.
  - inversion HF as [|? ? Hp1 Hps]. inversion HN as [|? ? Hn1 Hns].
    rewrite (usage_run (p_name p) done w rest) by (assumption || reflexivity).
    rewrite IH by assumption.
    destruct (open_bracket (next_of rest)); [rewrite andb_false_r; reflexivity|].
    cbn [negb]. rewrite andb_true_r. destruct (seqb (p_name p) w) eqn:ES; [|reflexivity].
    apply seqb_eq in ES. rewrite <- ES. cbn [app].
    assert (forall names j, ~ In (p_name p) names -> index_of names (p_name p) j = None) as HI.
    { clear. induction names as [|n names IH]; intros j H; cbn; [reflexivity|].
      destruct (seqb n (p_name p)) eqn:E; [apply seqb_eq in E; exfalso; apply H; left; exact E|].
      apply IH. intros Hin. apply H. right; exact Hin. }
    rewrite HI by assumption. reflexivity.
Qed.

(** Splitting [us_from]. *)
Lemma us_from_cons ps p m : us_from ivs body ps p (S m) = hits ivs body ps p 0 ++ us_from ivs body ps (S p) m.
Proof. reflexivity. Qed.
Lemma us_from_skip ps : forall n p m, (forall q, p <= q < p + n -> hits ivs body ps q 0 = []) ->
  us_from ivs body ps p (n + m) = us_from ivs body ps (p + n) m.
Proof.
  induction n as [|n IH]; intros p m H; [rewrite Nat.add_0_r; reflexivity|].
  cbn [plus]. rewrite us_from_cons, H by lia. cbn [app]. rewrite IH; [f_equal; lia|].
  intros q Hq. apply H. lia.
Qed.

Context (params : list param_info) (vals : list str).
Hypothesis Hids : Forall (fun p => identifier (p_name p)) params.
Hypothesis Hdup : NoDup (map p_name params).
Hypothesis Hlen : length vals = length params.
Notation names := (map p_name params).

Lemma ids_In p : In p params -> identifier (p_name p).
Proof. rewrite Forall_forall in Hids. apply Hids. Qed.
Lemma lookup_nil : lookup names vals [] = None.
Proof.
  pose proof (index_lookup names vals [] 0 ltac:(rewrite map_length; exact Hlen)) as H.
  destruct (index_of names [] 0) as [k|]; [|exact H]. destruct H as (v & _ & _ & Hn).
  apply nth_error_In in Hn. apply in_map_iff in Hn as (p & Hp & Hin). apply ids_In in Hin.
  apply identifier_word in Hin as (Hne & _). congruence.
Qed.

(** What the cutting loop yields, rendered. *)
Definition cuts_to (us : list (nat * nat)) (start : nat) (t : str) : Prop :=
  exists fs, cut body params us start = Ok fs /\ render fs vals = Ok t.

Lemma cuts_end start : start <= length body -> cuts_to [] start (skipn start body).
Proof.
  intros H. unfold cuts_to. cbn [cut]. destruct (Nat.eqb_spec start (length body)) as [->|Hne].
  - exists []. split; [reflexivity|]. rewrite skipn_all. reflexivity.
  - unfold substr. rewrite (proj2 (Nat.ltb_ge _ _)) by lia. cbn [bind].
    eexists; split; [reflexivity|]. cbn [render bind]. rewrite app_nil_r.
    rewrite firstn_all2; [reflexivity|]. rewrite skipn_length. lia.
Qed.
Lemma cuts_hit us start done w rest k v t : body = done ++ w ++ rest -> start <= length done ->
  nth_error names k = Some w -> nth_error vals k = Some v ->
  cuts_to us (length (done ++ w)) t ->
  cuts_to ((length done, k) :: us) start (skipn start done ++ v ++ t).
Proof.
  intros E Hs Hn Hv (fs & Ec & Er). unfold cuts_to. cbn [cut].
  rewrite nth_error_map in Hn. destruct (nth_error params k) as [p|] eqn:Hp; [|discriminate].
  cbn in Hn. inversion Hn; subst w. rewrite <- app_length, Ec.
  destruct (Nat.ltb_spec start (length done)) as [Hlt|Hge].
  - unfold substr. rewrite (proj2 (Nat.ltb_ge _ _)) by (rewrite E; len). cbn [bind].
    eexists; split; [reflexivity|]. cbn [app render bind]. rewrite Hv, Er. cbn [bind].
    do 2 f_equal. rewrite E. rewrite skipn_app. replace (start - length done) with 0 by lia. cbn [skipn].
    rewrite firstn_app. rewrite skipn_length. rewrite Nat.sub_diag. cbn [firstn]. rewrite app_nil_r.
    rewrite firstn_all2; [reflexivity|]. rewrite skipn_length. lia.
  - cbn [bind]. eexists; split; [reflexivity|]. cbn [app render bind]. rewrite Hv, Er. cbn [bind].
    rewrite skipn_all2 by lia. reflexivity.
Qed.

Lemma skipn_app_l (start : nat) (d e : str) : start <= length d -> skipn start (d ++ e) = skipn start d ++ e.
Proof. intros H. rewrite skipn_app. replace (start - length d) with 0 by lia. reflexivity. Qed.

(** Finishing the word [w]: either it is a usage or it is copied. *)
Lemma flush_word done w rest m start t :
  body = done ++ w ++ rest -> Forall (fun c => word_char c = true) w ->
  word_char (next_of rest) = false ->
  (forall c, lastof None done = Some c -> word_char c = false) ->
  (forall q, q < length w -> in_str ivs (length done + q) = false) ->
  start <= length done ->
  (forall st, st <= length (done ++ w) ->
     cuts_to (us_from ivs body params (length (done ++ w)) m) st (skipn st (done ++ w) ++ t)) ->
  cuts_to (us_from ivs body params (length done) (length w + m)) start
          (skipn start done
           ++ subst_word open_bracket (lookup names vals) w
                (match rest with [] => None | c :: _ => Some c end) ++ t).
Proof.
  intros E Hw Hr Hb Hi Hs HK.
  destruct w as [|c w'].
  - unfold subst_word. rewrite lookup_nil. specialize (HK start). rewrite app_nil_r in HK. cbn [length plus app].
    apply HK. exact Hs.
  - cbn [length plus]. rewrite us_from_cons.
    rewrite (hits_run done (c :: w') rest E Hw Hr Hb)
      by (try assumption; specialize (Hi 0 ltac:(cbn; lia)); rewrite Nat.add_0_r in Hi; exact Hi).
    rewrite us_from_skip.
    2:{ intros q Hq. apply hits_none. intros p Hp.
        replace q with (S (pred q)) by lia. apply usage_after_word.
        rewrite E, app_nth2 by lia. rewrite app_nth1 by (cbn; lia).
        rewrite Forall_forall in Hw. apply Hw. apply nth_In. cbn. lia. }
    replace (S (length done) + length w') with (length (done ++ c :: w')) by len.
    assert ((match (match rest with [] => None | x :: _ => Some x end) with Some x => open_bracket x | None => false end)
            = open_bracket (next_of rest)) as HO by (destruct rest; reflexivity).
    unfold subst_word. rewrite HO.
    pose proof (index_lookup names vals (c :: w') 0 ltac:(rewrite map_length; exact Hlen)) as HL.
    destruct (index_of names (c :: w') 0) as [k|].
    + destruct HL as (v & -> & Hv & Hn). rewrite Nat.sub_0_r in *.
      destruct (open_bracket (next_of rest)).
      * cbn [app]. specialize (HK start ltac:(len)). rewrite skipn_app_l, <- app_assoc in HK by exact Hs. exact HK.
      * cbn [app]. eapply cuts_hit; [exact E|exact Hs|exact Hn|exact Hv|].
        specialize (HK (length (done ++ c :: w')) ltac:(lia)). rewrite skipn_all in HK. exact HK.
    + rewrite HL. specialize (HK start ltac:(len)). rewrite skipn_app_l, <- app_assoc in HK by exact Hs.
      destruct (open_bracket (next_of rest)); exact HK.
Qed.

Lemma cut_scan : forall rest done w pc inside start t m,
  body = done ++ w ++ rest ->
  Forall (fun c => word_char c = true) w -> (inside = true -> w = []) ->
  (inside = false -> forall c, lastof None done = Some c -> word_char c = false) ->
  (forall q, in_str ivs (length (done ++ w) + q) = nth q (marks inside pc rest) false) ->
  (forall q, q < length w -> in_str ivs (length done + q) = false) ->
  start <= length done ->
  m = S (length rest) ->
  subst_body open_bracket (lookup names vals) w inside pc rest = Some t ->
  cuts_to (us_from ivs body params (length done) (length w + m)) start (skipn start done ++ t).
Proof.
  induction rest as [|c rest IH]; intros done w pc inside start t m E Hw Hin Hb HM Hi Hs -> HT;
    cbn [subst_body] in HT.
  - destruct inside; [discriminate|]. inversion HT; subst t.
    rewrite <- (app_nil_r (subst_word _ _ _ _)).
    apply (flush_word done w []); try assumption; try (apply Hb; reflexivity); [reflexivity|].
    intros st Hst. rewrite app_nil_r in *. rewrite us_from_cons.
    rewrite hits_none.
    2:{ intros p Hp. apply usage_not_word; [apply ids_In; exact Hp|].
        rewrite nth_overflow by (rewrite E; lia). reflexivity. }
    rewrite <- E in *. apply cuts_end. exact Hst.
  - assert (E' : body = (done ++ w ++ [c]) ++ [] ++ rest) by (rewrite E, <- !app_assoc; reflexivity).
    destruct inside.
    + specialize (Hin eq_refl). subst w. cbn [app] in *.
      destruct (subst_body open_bracket (lookup names vals) [] (negb (string_quote pc c)) (Some c) rest)
        as [t'|] eqn:ET; [|discriminate]. cbn in HT. inversion HT; subst t.
      assert (forall b, xorb true b = negb b) as HX by (intros []; reflexivity).
      cbn [length plus]. rewrite us_from_cons.
      rewrite hits_none.
      2:{ intros p Hp. pose proof (HM 0) as H0. cbn [marks nth] in H0. rewrite app_nil_r, Nat.add_0_r, HX in H0.
          destruct (string_quote pc c) eqn:Q; cbn [negb] in H0.
          - apply usage_not_word; [apply ids_In; exact Hp|]. rewrite E, nth_app_len. cbn [nth].
            destruct (word_char c) eqn:W; [|reflexivity]. rewrite (word_not_quote pc c W) in Q. discriminate.
          - apply usage_in_str. exact H0. }
      cbn [app].
      specialize (IH (done ++ [c]) [] (Some c) (negb (string_quote pc c)) start t' (S (length rest))).
      replace (skipn start (done ++ [c]) ++ t') with (skipn start done ++ c :: t') in IH
        by (rewrite skipn_app_l, <- app_assoc by exact Hs; reflexivity).
      cbn [app length plus] in IH.
      replace (length (done ++ [c])) with (S (length done)) in IH by len. apply IH; try assumption; try reflexivity; try (intros; reflexivity).
      * intros Hq c' Hc'. rewrite lastof_snoc in Hc'. inversion Hc'; subst c'.
        destruct (word_char c) eqn:W; [|reflexivity]. rewrite (word_not_quote pc c W) in Hq. discriminate.
      * intros q. specialize (HM (S q)). cbn [marks nth] in HM. rewrite HX in HM. rewrite app_nil_r in *.
        rewrite <- HM. f_equal. len.
      * intros q Hq. cbn in Hq. lia.
      * lia.
    + specialize (Hb eq_refl).
      assert (forall b, xorb false b = b) as HX by (intros []; reflexivity).
      destruct (word_char c) eqn:W.
      * specialize (IH done (w ++ [c]) (Some c) false start t (S (length rest))).
        cbn [length].
        replace (length w + S (S (length rest))) with (length (w ++ [c]) + S (length rest)) by len.
        apply IH; try assumption; try reflexivity.
        -- rewrite E, <- !app_assoc. reflexivity.
        -- apply Forall_app. split; [exact Hw|]. constructor; [exact W|constructor].
        -- discriminate.
        -- intros _. exact Hb.
        -- intros q. specialize (HM (S q)). cbn [marks nth] in HM.
           rewrite (word_not_quote pc c W) in HM. cbn [xorb] in HM. rewrite <- HM. f_equal. len.
        -- intros q Hq. destruct (Nat.eq_dec q (length w)) as [->|Hne].
           ++ specialize (HM 0). cbn [marks nth] in HM. rewrite (word_not_quote pc c W) in HM. cbn [xorb] in HM.
              rewrite <- HM. f_equal. len.
           ++ apply Hi. rewrite app_length in Hq. cbn [length] in Hq. lia.
      * destruct (subst_body open_bracket (lookup names vals) [] (string_quote pc c) (Some c) rest)
          as [t'|] eqn:ET; [|discriminate]. cbn [option_map] in HT. inversion HT; subst t.
        apply (flush_word done w (c :: rest)); try assumption.
        intros st Hst. cbn [length]. rewrite us_from_cons. rewrite hits_none.
        2:{ intros p Hp. apply usage_not_word; [apply ids_In; exact Hp|].
            rewrite E, app_assoc, nth_app_len. exact W. }
        cbn [app].
        specialize (IH (done ++ w ++ [c]) [] (Some c) (string_quote pc c) st t' (S (length rest))).
        replace (skipn st (done ++ w ++ [c]) ++ t') with (skipn st (done ++ w) ++ c :: t') in IH
          by (rewrite app_assoc, (skipn_app_l st (done ++ w)), <- app_assoc by exact Hst; reflexivity).
        cbn [app length plus] in IH.
        replace (length (done ++ w ++ [c])) with (S (length (done ++ w))) in IH by len.
        apply IH; try assumption; try reflexivity; try (intros; reflexivity).
        -- constructor.
        -- intros Hq c' Hc'. rewrite app_assoc, lastof_snoc in Hc'. inversion Hc'; subst c'. exact W.
        -- intros q. specialize (HM (S q)). cbn [marks nth] in HM. rewrite HX in HM. rewrite app_nil_r.
           rewrite <- HM. f_equal. len.
        -- intros q Hq. cbn in Hq. lia.
        -- lia.
Qed.
End Cut.

(** ** The constructor *)
Lemma parse_body_subst name params vals body :
  Forall (fun p => identifier (p_name p)) params -> NoDup (map p_name params) ->
  length vals = length params ->
  match subst_no_bracket (lookup (map p_name params) vals) body with
  | Some t => exists fs, parse_body name params body = Ok fs /\ render fs vals = Ok t
  | None => parse_body name params body
            = Throw (ParseException ($"Unfinished string in definition of macro " ++ name ++ $"."))
  end.
Proof.
  intros Hid Hdup Hlen. unfold parse_body, collect_string_intervals.
  pose proof (collect_scan body (S (length body)) [] body None [] eq_refl ltac:(lia)) as HC.
  cbn [length lastof] in HC. rewrite HC. cbn [bind].
  pose proof (scanq_final body 0 None None []) as HF.
  destruct (scanq 0 None None body []) as [pr ivs] eqn:ES. cbn [fst is_some] in HF.
  unfold subst_no_bracket.
  pose proof (subst_None open_bracket (lookup (map p_name params) vals) body [] false None) as HN.
  destruct (subst_body open_bracket (lookup (map p_name params) vals) [] false None body) as [t|] eqn:ET.
  - assert (final_inside false None body = false) as HF0.
    { destruct (final_inside false None body); [|reflexivity].
      destruct HN as [_ HN]. specialize (HN eq_refl). discriminate HN. }
    rewrite HF0 in HF. destruct pr; [discriminate|]. cbn [bind].
    assert (cuts_to body params vals (sort_pairs (usages_of ivs body params 0)) 0 t) as HK.
    { rewrite sorted_usages.
      change 0 with (@length ascii []) at 1. change (S (length body)) with (@length ascii [] + S (length body)).
      replace t with (skipn 0 (@nil ascii) ++ t) by reflexivity.
      eapply (cut_scan ivs body params vals Hid Hdup Hlen body [] [] None false 0 t (S (length body)));
        try reflexivity; try assumption.
      - constructor.
      - intros _ c H. discriminate H.
      - intros q. cbn [length app plus]. unfold in_str.
        pose proof (scanq_cover body 0 None None [] ivs ltac:(intros q0 Q; discriminate Q) ES q) as HCv.
        rewrite covered_check in HCv. rewrite Nat.sub_0_r in HCv. cbn [is_some] in HCv.
        destruct (check_is_in_string ivs q) as [x|] eqn:CK; cbn [is_some].
        + destruct HCv as [HCv _]. destruct HCv as [(a & n & [] & _)|[(q0 & Q & _)|(_ & Q)]]; [congruence|discriminate|].
          symmetry; exact Q.
        + destruct (nth q (marks false None body) false) eqn:Q; [|reflexivity]. exfalso.
          destruct HCv as [_ HCv]. apply HCv; [|reflexivity]. right; right. split; [lia|reflexivity].
      - intros q Hq. cbn in Hq. lia. }
    destruct body as [|c body'].
    + eexists; split; [reflexivity|]. cbn in ET. inversion ET. unfold subst_word.
      rewrite (lookup_nil params vals Hid Hlen). reflexivity.
    + destruct params as [|p ps].
      * destruct HK as (fs & Ec & Er). cbn in Ec. inversion Ec; subst.
        eexists; split; [reflexivity|]. rewrite <- Er, firstn_all. reflexivity.
      * rewrite all_usages_eq. cbn [bind]. exact HK.
  - assert (final_inside false None body = true) as HF0 by (apply HN; reflexivity).
    rewrite HF0 in HF. destruct pr; [reflexivity|discriminate].
Qed.

(** ** Expansion *)
Lemma new_macro_body name hp params body m : new_macro name hp params body = Ok m ->
  parse_body name params body = Ok (m_body m).
Proof. unfold new_macro. intros H. apply bind_ok in H as (b & E & Q). inversion Q; subst. exact E. Qed.

Lemma replace_subst name hp params body m args vals t :
  Forall (fun p => identifier (p_name p)) params -> NoDup (map p_name params) ->
  new_macro name hp params body = Ok m ->
  bound params args vals -> length args <= length params ->
  (macro_replace m args hp = Ok t <->
   subst_no_bracket (lookup (map p_name params) vals) body = Some t).
Proof.
  intros Hid Hdup HM HB Hl. pose proof (new_macro_body _ _ _ _ _ HM) as HPB.
  pose proof (parse_body_subst name params vals body Hid Hdup (proj1 HB)) as HS.
  destruct (macro_replace_cases name hp params body m args hp HM)
    as [(_ & _ & vals' & t' & HB' & E & R)|(HN & _)].
  2:{ exfalso. apply HN. split; [reflexivity|]. apply (bound_acceptable params args Hl). eauto. }
  rewrite (bound_unique _ _ _ _ HB' HB) in R. rewrite E.
  destruct (subst_no_bracket (lookup (map p_name params) vals) body) as [u|].
  - destruct HS as (fs & E1 & R1). rewrite HPB in E1. inversion E1; subst fs.
    rewrite R in R1. inversion R1; subst u. split; intros Q; inversion Q; reflexivity.
  - rewrite HPB in HS. discriminate.
Qed.

Lemma new_macro_defined name hp params body :
  Forall (fun p => identifier (p_name p)) params -> NoDup (map p_name params) ->
  ((exists m, new_macro name hp params body = Ok m) <-> final_inside false None body = false).
Proof.
  intros Hid Hdup.
  set (vals := map (fun _ : param_info => @nil ascii) params).
  pose proof (parse_body_subst name params vals body Hid Hdup ltac:(unfold vals; apply map_length)) as HS.
  pose proof (subst_None open_bracket (lookup (map p_name params) vals) body [] false None) as HN.
  unfold subst_no_bracket in HS. unfold new_macro.
  destruct (subst_body open_bracket (lookup (map p_name params) vals) [] false None body).
  - destruct HS as (fs & -> & _). cbn [bind]. split; [|eauto]. intros _.
    destruct (final_inside false None body); [|reflexivity]. destruct HN as [_ HN]. discriminate (HN eq_refl).
  - rewrite HS. cbn [bind]. split; [intros (m & Q); discriminate|]. intros Q.
    rewrite (proj1 HN eq_refl) in Q. discriminate.
Qed.

(** If no parameter name is directly followed by an opening bracket the bracket rule is idle. *)
Lemma subst_stop_idle names vals body :
  (forall a w c b, body = a ++ w ++ c :: b -> In w names -> open_bracket c = false) ->
  subst_no_bracket (lookup names vals) body = subst_std (lookup names vals) body.
Proof.
  intros H. unfold subst_no_bracket, subst_std.
  assert (forall rest done w inside pc, body = done ++ w ++ rest ->
    subst_body open_bracket (lookup names vals) w inside pc rest
    = subst_body (fun _ => false) (lookup names vals) w inside pc rest) as HX.
  { induction rest as [|c rest IH]; intros done w inside pc E; cbn [subst_body].
    - reflexivity.
    - assert (body = (done ++ w ++ [c]) ++ [] ++ rest) as E' by (rewrite E, <- !app_assoc; reflexivity).
      destruct inside; [rewrite (IH _ _ _ _ E'); reflexivity|].
      destruct (word_char c).
      + apply (IH done). rewrite E, <- !app_assoc. reflexivity.
      + rewrite (IH _ _ _ _ E'). f_equal. unfold subst_word.
        destruct (lookup names vals w) eqn:EL; [|reflexivity].
        rewrite (H done w c rest E); [reflexivity|].
        clear - EL. revert vals EL. induction names as [|n ns IH]; intros [|v vals] EL; try discriminate.
        cbn in EL. destruct (seqb n w) eqn:Q; [left; apply seqb_eq; exact Q|right; eapply IH; exact EL]. }
  apply (HX body [] [] false None). reflexivity.
Qed.

Lemma replace_subst_std name hp params body m args vals t :
  Forall (fun p => identifier (p_name p)) params -> NoDup (map p_name params) ->
  new_macro name hp params body = Ok m ->
  bound params args vals -> length args <= length params ->
  (forall a w c b, body = a ++ w ++ c :: b -> In w (map p_name params) -> open_bracket c = false) ->
  (macro_replace m args hp = Ok t <->
   subst_std (lookup (map p_name params) vals) body = Some t).
Proof.
  intros Hid Hd Hm Hb Hl Hs. rewrite <- (subst_stop_idle _ _ _ Hs). eapply replace_subst; eassumption.
Qed.

Lemma replace_subst_bracket : exists name hp params body m args vals t,
  Forall (fun p => identifier (p_name p)) params /\ NoDup (map p_name params) /\
  new_macro name hp params body = Ok m /\
  bound params args vals /\ length args <= length params /\
  subst_std (lookup (map p_name params) vals) body = Some t /\
  macro_replace m args hp <> Ok t.
Proof.
  exists $"BIT", true, [mkParam $"v" false []], $"v[0]".
  eexists (mkMacro _ _ _ _), [$"data"], [$"data"], $"data[0]".
  split; [repeat constructor; eexists _, _; repeat split; repeat constructor|].
  split; [repeat constructor; cbn; intuition|].
  split; [vm_compute; reflexivity|].
  split. { split; [reflexivity|]. intros [|[|i]] p v Hp Hv; cbn in *; try discriminate;
      inversion Hp; inversion Hv; reflexivity. }
  split; [cbn; lia|]. split; [vm_compute; reflexivity|vm_compute; discriminate].
Qed.

Lemma subst_body_none_irrel stop stop' f f' : forall s w w' inside prev,
  subst_body stop f w inside prev s = None <-> subst_body stop' f' w' inside prev s = None.
Proof.
  induction s as [|c s IH]; intros w w' inside prev; cbn [subst_body].
  - destruct inside; split; intros; try reflexivity; discriminate.
  - destruct inside; [|destruct (word_char c)].
    + destruct (IH [] [] (negb (string_quote prev c)) (Some c)) as (H1 & H2).
      do 2 destruct (subst_body _ _ _ _ _ s); cbn; split; intros Q; try discriminate; try reflexivity.
      * discriminate (H2 eq_refl). * discriminate (H1 eq_refl).
    + apply IH.
    + destruct (IH [] [] (string_quote prev c) (Some c)) as (H1 & H2).
      do 2 destruct (subst_body _ _ _ _ _ s); cbn; split; intros Q; try discriminate; try reflexivity.
      * discriminate (H2 eq_refl). * discriminate (H1 eq_refl).
Qed.

Lemma new_macro_constructible name hp params body :
  Forall (fun p => identifier (p_name p)) params -> NoDup (map p_name params) ->
  ((exists m, new_macro name hp params body = Ok m) <->
   subst_std (fun _ => None) body <> None).
Proof.
  intros Hid Hdup.
  set (vals := map (fun _ : param_info => @nil ascii) params).
  pose proof (parse_body_subst name params vals body Hid Hdup ltac:(unfold vals; apply map_length)) as HS.
  pose proof (subst_body_none_irrel open_bracket (fun _ => false) (lookup (map p_name params) vals)
                (fun _ => None) body [] [] false None) as HN.
  unfold subst_no_bracket in HS. unfold subst_std, new_macro.
  destruct (subst_body open_bracket (lookup (map p_name params) vals) [] false None body).
  - destruct HS as (fs & -> & _). cbn [bind]. split; [|eauto].
    intros _ Q. apply HN in Q. discriminate.
  - rewrite HS. cbn [bind]. split; [intros (m & Q); discriminate|].
    intros Q. exfalso. apply Q. apply HN. reflexivity.
Qed.
