(** The derivative matcher computes exactly the longest match of the declarative semantics. *)
From Verif Require Import Base BaseFacts RegexModel.

Lemma M_Emp s rest : M Emp s rest <-> False.
Proof. split; [intros H; inversion H|tauto]. Qed.
Lemma M_Eps_iff s rest : M Eps s rest <-> s = [].
Proof. split; [intros H; inversion H; reflexivity|intros ->; constructor]. Qed.
Lemma M_Eof_iff s rest : M Eof s rest <-> s = [] /\ rest = [].
Proof. split; [intros H; inversion H; auto|intros [-> ->]; constructor]. Qed.
Lemma M_Chr_iff k s rest : M (Chr k) s rest <-> exists c, s = [c] /\ cc_mem k c = true.
Proof.
  split; [intros H; inversion H; subst; eauto|intros (c & -> & H); constructor; exact H].
Qed.
Lemma M_Seq_iff a b s rest :
  M (Seq a b) s rest <-> exists x y, s = x ++ y /\ M a x (y ++ rest) /\ M b y rest.
Proof.
  split; [intros H; inversion H; subst; eauto|intros (x & y & -> & H1 & H2); constructor; assumption].
Qed.
Lemma M_Alt_iff a b s rest : M (Alt a b) s rest <-> M a s rest \/ M b s rest.
Proof.
  split; [intros H; inversion H; subst; auto|intros [H|H]; [apply M_AltL|apply M_AltR]; exact H].
Qed.
Lemma M_Star_iff a s rest : M (Star a) s rest <->
  s = [] \/ exists x y, s = x ++ y /\ x <> [] /\ M a x (y ++ rest) /\ M (Star a) y rest.
Proof.
  split.
  - intros H; inversion H; subst; [left; reflexivity|right; eauto 7].
  - intros [->|(x & y & -> & Hx & H1 & H2)]; [constructor|apply M_StarS; assumption].
Qed.

Lemma cc_eqb_eq a b : cc_eqb a b = true -> a = b.
Proof.
  destruct a, b. unfold cc_eqb. cbn. rewrite andb_true_iff, Bool.eqb_true_iff, seqb_eq.
  intros [-> ->]. reflexivity.
Qed.
Lemma re_eqb_eq a : forall b, re_eqb a b = true -> a = b.
Proof.
  induction a; intros [| | | | | |]; cbn; try discriminate; try reflexivity.
  - intros H. f_equal. apply cc_eqb_eq; exact H.
  - rewrite andb_true_iff. intros [H1 H2]. f_equal; auto.
  - rewrite andb_true_iff. intros [H1 H2]. f_equal; auto.
  - intros H. f_equal; auto.
Qed.

Lemma seq_M a b s rest : M (seq a b) s rest <-> M (Seq a b) s rest.
Proof.
  assert (forall a, M (Seq a Emp) s rest <-> False) as HE.
  { intros a'. rewrite M_Seq_iff. split; [intros (x & y & _ & _ & H); inversion H|tauto]. }
  assert (forall b, M (Seq Emp b) s rest <-> False) as HE'.
  { intros b'. rewrite M_Seq_iff. split; [intros (x & y & _ & H & _); inversion H|tauto]. }
  assert (forall b, M (Seq Eps b) s rest <-> M b s rest) as H0.
  { intros b'. rewrite M_Seq_iff. split.
    - intros (x & y & -> & H1 & H2). apply M_Eps_iff in H1. subst. exact H2.
    - intros H. exists [], s. repeat split; [constructor|exact H]. }
  destruct a; cbn [seq]; try (rewrite ?HE', ?M_Emp; tauto);
    destruct b; rewrite ?HE, ?H0, ?M_Emp; reflexivity.
Qed.

Lemma in_alt_M a b s rest : in_alt a b = true -> M a s rest -> M b s rest.
Proof.
  revert a; induction b; intros a H HM; cbn [in_alt] in H;
    rewrite ?orb_false_r in H; try (apply re_eqb_eq in H; subst; exact HM).
  apply orb_true_iff in H as [H|H]; [apply re_eqb_eq in H; subst; exact HM|].
  apply orb_true_iff in H as [H|H]; apply M_Alt_iff.
  - apply re_eqb_eq in H; subst. left; exact HM.
  - right. apply IHb2 with (a := a); assumption.
Qed.
Lemma alt1_M a b s rest : M (alt1 a b) s rest <-> M a s rest \/ M b s rest.
Proof.
  assert (forall a b, M (if in_alt a b then b else Alt a b) s rest <-> M a s rest \/ M b s rest) as H.
  { intros x y. destruct (in_alt x y) eqn:E; [|apply M_Alt_iff].
    split; [tauto|]. intros [H|H]; [|exact H]. eapply in_alt_M; eauto. }
  unfold alt1. destruct a; destruct b; rewrite ?H, ?M_Emp; tauto.
Qed.
Lemma alt_M a : forall b s rest, M (alt a b) s rest <-> M a s rest \/ M b s rest.
Proof.
  induction a; intros b s rest; cbn [alt]; try apply alt1_M.
  rewrite alt1_M, IHa2, M_Alt_iff. tauto.
Qed.

Lemma nullable_spec r : forall rest, nullable (is_nil rest) r = true <-> M r [] rest.
Proof.
  induction r; intros rest; cbn [nullable].
  - rewrite M_Emp. split; [discriminate|tauto].
  - split; [constructor|reflexivity].
  - rewrite M_Eof_iff. destruct rest; cbn; split; try tauto; try discriminate. intros [_ H]; discriminate.
  - rewrite M_Chr_iff. split; [discriminate|intros (c & H & _); discriminate].
  - rewrite andb_true_iff, IHr1, IHr2, M_Seq_iff. split.
    + intros [H1 H2]. exists [], []. auto.
    + intros (x & y & E & H1 & H2). symmetry in E. apply app_eq_nil in E as [-> ->]. auto.
  - rewrite orb_true_iff, IHr1, IHr2, M_Alt_iff. reflexivity.
  - split; [constructor|reflexivity].
Qed.

Lemma deriv_spec r : forall c s rest, M (deriv c r) s rest <-> M r (c :: s) rest.
Proof.
  induction r; intros c s rest; cbn [deriv].
  - rewrite !M_Emp. reflexivity.
  - rewrite M_Emp, M_Eps_iff. split; [tauto|discriminate].
  - rewrite M_Emp, M_Eof_iff. split; [tauto|intros [H _]; discriminate].
  - rewrite M_Chr_iff. destruct (cc_mem k c) eqn:E.
    + rewrite M_Eps_iff. split; [intros ->; eauto|].
      intros (x & H & _); inversion H; reflexivity.
    + rewrite M_Emp. split; [tauto|]. intros (x & H & H'). inversion H; subst. congruence.
  - assert (M (seq (deriv c r1) r2) s rest <->
            exists x y, s = x ++ y /\ M r1 (c :: x) (y ++ rest) /\ M r2 y rest) as HS.
    { rewrite seq_M, M_Seq_iff. split; intros (x & y & E & H1 & H2); exists x, y;
        (split; [exact E|split; [apply IHr1; exact H1|exact H2]]). }
    assert (M (Seq r1 r2) (c :: s) rest <->
            (exists x y, s = x ++ y /\ M r1 (c :: x) (y ++ rest) /\ M r2 y rest)
            \/ (M r1 [] (c :: s ++ rest) /\ M r2 (c :: s) rest)) as HQ.
    { rewrite M_Seq_iff. split.
      - intros ([|d x] & y & E & H1 & H2).
        + right. cbn in E. subst y. split; assumption.
        + left. cbn in E. inversion E; subst. exists x, y. auto.
      - intros [(x & y & -> & H1 & H2)|(H1 & H2)].
        + exists (c :: x), y. auto.
        + exists [], (c :: s). auto. }
    rewrite HQ. destruct (nullable false r1) eqn:N.
    + rewrite alt_M, HS, IHr2.
      assert (M r1 [] (c :: s ++ rest)) by (apply nullable_spec; exact N). tauto.
    + rewrite HS. assert (~ M r1 [] (c :: s ++ rest)); [|tauto].
      intros H. apply nullable_spec in H. cbn in H. congruence.
  - rewrite alt_M, IHr1, IHr2, M_Alt_iff. reflexivity.
  - rewrite seq_M, M_Seq_iff, M_Star_iff. split.
    + intros (x & y & -> & H1 & H2). right. exists (c :: x), y.
      repeat split; [discriminate|apply IHr; exact H1|exact H2].
    + intros [H|([|d x] & y & E & Hx & H1 & H2)]; [discriminate|congruence|].
      cbn in E. inversion E; subst. exists x, y. repeat split; [apply IHr; exact H1|exact H2].
Qed.

(** [n] is the length of the longest prefix of [s] matched by [r]. *)
Definition longest (r : re) (s : str) (n : nat) : Prop :=
  n <= length s /\ M r (firstn n s) (skipn n s)
  /\ forall k, k <= length s -> M r (firstn k s) (skipn k s) -> k <= n.
Definition no_match (r : re) (s : str) : Prop :=
  forall k, k <= length s -> ~ M r (firstn k s) (skipn k s).

Lemma lmatch_from_spec s : forall r n best,
  (exists m, longest r s m /\ lmatch_from r s n best = Some (n + m))
  \/ (no_match r s /\ lmatch_from r s n best = best).
Proof.
  induction s as [|c s IH]; intros r n best.
  - destruct (nullable true r) eqn:N.
    + left. exists 0. split.
      * repeat split; [cbn; lia|apply (nullable_spec r []); exact N|cbn; intros; lia].
      * destruct r; cbn [lmatch_from is_nil]; try discriminate; rewrite N, Nat.add_0_r; reflexivity.
    + right. split.
      * intros k Hk H. cbn in Hk. replace k with 0 in H by lia.
        apply (nullable_spec r []) in H. cbn in H. congruence.
      * destruct r; cbn [lmatch_from is_nil]; try reflexivity; rewrite N; reflexivity.
  - assert (lmatch_from r (c :: s) n best =
            lmatch_from (deriv c r) s (S n) (if nullable false r then Some n else best)) as E.
    { destruct r; try reflexivity. cbn. destruct s; reflexivity. }
    rewrite E. destruct (IH (deriv c r) (S n) (if nullable false r then Some n else best))
      as [(m & (L1 & L2 & L3) & R)|(NM & R)]; rewrite R.
    + left. exists (S m). split; [|f_equal; lia]. repeat split.
      * cbn. lia.
      * cbn [firstn skipn]. apply deriv_spec. exact L2.
      * intros [|k] Hk H; [lia|]. cbn [firstn skipn length] in *. apply deriv_spec in H.
        apply le_n_S. apply L3; [lia|exact H].
    + assert (forall k, S k <= length (c :: s) -> ~ M r (firstn (S k) (c :: s)) (skipn (S k) (c :: s))) as NK.
      { intros k Hk H. cbn [firstn skipn length] in *. apply deriv_spec in H.
        apply (NM k); [lia|exact H]. }
      destruct (nullable false r) eqn:N.
      * left. exists 0. split; [|f_equal; lia]. repeat split; [cbn; lia| |].
        -- apply (nullable_spec r (c :: s)); exact N.
        -- intros [|k] Hk H; [lia|]. exfalso. exact (NK k Hk H).
      * right. split; [|reflexivity]. intros [|k] Hk H.
        -- apply (nullable_spec r (c :: s)) in H. cbn in H. congruence.
        -- exact (NK k Hk H).
Qed.

Lemma lmatch_Some r s n : lmatch r s = Some n <-> longest r s n.
Proof.
  unfold lmatch. destruct (lmatch_from_spec s r 0 None) as [(m & L & E)|(NM & E)]; rewrite E.
  - cbn. split; [intros H; inversion H; subst; exact L|].
    intros (L1 & L2 & L3). destruct L as (M1 & M2 & M3). f_equal.
    apply Nat.le_antisymm; [apply L3|apply M3]; assumption.
  - split; [discriminate|]. intros (L1 & L2 & _). exfalso. exact (NM n L1 L2).
Qed.
Lemma lmatch_None r s : lmatch r s = None <-> no_match r s.
Proof.
  unfold lmatch. destruct (lmatch_from_spec s r 0 None) as [(m & L & E)|(NM & E)]; rewrite E.
  - split; [discriminate|]. intros H. destruct L as (M1 & M2 & _). exfalso. exact (H m M1 M2).
  - tauto.
Qed.
