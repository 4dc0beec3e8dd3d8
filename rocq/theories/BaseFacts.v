(** Lemmas about the string primitives of Base.v. *)
From Verif Require Import Base.
From Coq Require Import ZifyBool ZifyNat ZifyN.
Ltac Zify.zify_post_hook ::= Z.div_mod_to_equations.

Lemma ceqb_eq a b : ceqb a b = true <-> a = b.
Proof. apply Ascii.eqb_eq. Qed.
Lemma ceqb_neq a b : ceqb a b = false <-> a <> b.
Proof. apply Ascii.eqb_neq. Qed.
Lemma ceqb_refl a : ceqb a a = true.
Proof. apply Ascii.eqb_refl. Qed.

Lemma seqb_eq a b : seqb a b = true <-> a = b.
Proof.
  revert b; induction a as [|x a IH]; intros [|y b]; cbn [seqb]; try (split; congruence).
  rewrite andb_true_iff, ceqb_eq, IH. split; [intros [? ?]; congruence|intros E; inversion E; auto].
Qed.
Lemma seqb_refl a : seqb a a = true.
Proof. apply seqb_eq; reflexivity. Qed.
Lemma seqb_neq a b : seqb a b = false <-> a <> b.
Proof. rewrite <- (seqb_eq a b). destruct (seqb a b); split; congruence. Qed.

Lemma mem_c_In c l : mem_c c l = true <-> In c l.
Proof.
  unfold mem_c. rewrite existsb_exists. split.
  - intros (x & Hx & E). apply ceqb_eq in E. subst. exact Hx.
  - intros H. exists c. split; [exact H|apply ceqb_refl].
Qed.
Lemma mem_c_nIn c l : mem_c c l = false <-> ~ In c l.
Proof. rewrite <- mem_c_In. destruct (mem_c c l); split; congruence. Qed.

Lemma is_prefix_spec p s : is_prefix p s = true <-> exists b, s = p ++ b.
Proof.
  revert s; induction p as [|x p IH]; intros s; cbn [is_prefix].
  - split; [intros _; exists s; reflexivity|reflexivity].
  - destruct s as [|y s].
    + split; [discriminate|intros (b & E); discriminate].
    + rewrite andb_true_iff, ceqb_eq, IH. split.
      * intros (-> & b & ->). exists b; reflexivity.
      * intros (b & E). cbn in E. inversion E; subst. split; [reflexivity|exists b; reflexivity].
Qed.

Lemma find_nil p : find p [] = if is_prefix p [] then Some 0 else None.
Proof. reflexivity. Qed.

Lemma find_Some p s i : find p s = Some i ->
  exists a b, s = a ++ p ++ b /\ length a = i /\
              (forall a' b', s = a' ++ p ++ b' -> i <= length a').
Proof.
  revert i; induction s as [|c s IH]; intros i; cbn [find].
  - destruct (is_prefix p []) eqn:E; [|discriminate].
    intros H; inversion H; subst. apply is_prefix_spec in E as (b & E).
    exists [], b. repeat split; [exact E|intros; lia].
  - destruct (is_prefix p (c :: s)) eqn:E.
    + intros H; inversion H; subst. apply is_prefix_spec in E as (b & E).
      exists [], b. repeat split; [exact E|intros; lia].
    + destruct (find p s) as [j|] eqn:F; cbn; [|discriminate].
      intros H; inversion H; subst. destruct (IH j eq_refl) as (a & b & E1 & E2 & E3).
      exists (c :: a), b. cbn. rewrite E1 at 1. repeat split; [lia|].
      intros [|c' a'] b' Hs.
      * exfalso. assert (is_prefix p (c :: s) = true) as X; [|congruence].
        apply is_prefix_spec. exists b'. exact Hs.
      * cbn in Hs. inversion Hs. cbn. specialize (E3 a' b'). apply le_n_S. apply E3. assumption.
Qed.
Lemma find_None p s : find p s = None <-> forall a b, s <> a ++ p ++ b.
Proof.
  split.
  - induction s as [|c s IH]; cbn [find].
    + destruct (is_prefix p []) eqn:E; [discriminate|]. intros _ a b H.
      symmetry in H. apply app_eq_nil in H as [-> H].
      cbn in *. assert (is_prefix p [] = true); [|congruence]. apply is_prefix_spec. exists b; congruence.
    + destruct (is_prefix p (c :: s)) eqn:E; [discriminate|].
      destruct (find p s) as [j|] eqn:F; cbn; [discriminate|]. intros _ [|c' a] b H.
      * assert (is_prefix p (c :: s) = true); [|congruence]. apply is_prefix_spec. exists b; exact H.
      * cbn in H. inversion H. apply (IH eq_refl a b). assumption.
  - intros H. destruct (find p s) as [j|] eqn:F; [|reflexivity].
    apply find_Some in F as (a & b & E & _). exfalso. exact (H a b E).
Qed.

Lemma skipn_app_len {A} (a b : list A) : skipn (length a) (a ++ b) = b.
Proof. rewrite skipn_app, skipn_all, Nat.sub_diag. reflexivity. Qed.
Lemma firstn_app_len {A} (a b : list A) : firstn (length a) (a ++ b) = a.
Proof. rewrite firstn_app, firstn_all, Nat.sub_diag. cbn. apply app_nil_r. Qed.
Lemma skipn_app_plus {A} (a b : list A) n : skipn (length a + n) (a ++ b) = skipn n b.
Proof.
  rewrite skipn_app. rewrite skipn_all2 by lia. cbn. f_equal. lia.
Qed.
Lemma firstn_app_plus {A} (a b : list A) n : firstn (length a + n) (a ++ b) = a ++ firstn n b.
Proof. apply firstn_app_2. Qed.

Lemma find_from_app p d s : find_from p (d ++ s) (length d) = option_map (fun i => length d + i) (find p s).
Proof.
  unfold find_from. rewrite skipn_app_len, app_length.
  destruct (Nat.ltb_spec (length d + length s) (length d)); [lia|reflexivity].
Qed.

Lemma char_at_app a c b : char_at (a ++ c :: b) (length a) = Ok c.
Proof.
  unfold char_at. rewrite nth_error_app2 by lia. rewrite Nat.sub_diag. reflexivity.
Qed.
Lemma char_at_lt s i : i < length s -> exists c, char_at s i = Ok c /\ nth_error s i = Some c.
Proof.
  intros H. unfold char_at. destruct (nth_error s i) eqn:E; [eauto|].
  apply nth_error_None in E. lia.
Qed.
Lemma char_at_end s : char_at s (length s) = Ok c0.
Proof.
  unfold char_at. destruct (nth_error s (length s)) eqn:E.
  - assert (nth_error s (length s) <> None) by congruence. apply nth_error_Some in H. lia.
  - rewrite Nat.eqb_refl. reflexivity.
Qed.
Lemma char_at_last a c : char_at (a ++ [c]) (length a) = Ok c.
Proof. apply char_at_app. Qed.

Lemma count_nl_app a b : count_nl (a ++ b) = count_nl a + count_nl b.
Proof. apply count_occ_app. Qed.

(** outcome inversions *)
Lemma bind_ok {A B} (m : outcome A) (f : A -> outcome B) r :
  bind m f = Ok r -> exists a, m = Ok a /\ f a = Ok r.
Proof. destruct m; cbn; try discriminate. eauto. Qed.

Ltac len := repeat (progress (rewrite ?app_length; cbn [length])); lia.

Lemma skipn_skipn {A} (n m : nat) (l : list A) : skipn n (skipn m l) = skipn (n + m) l.
Proof.
  revert l; induction m as [|m IH]; intros l; [rewrite Nat.add_0_r; reflexivity|].
  rewrite <- plus_n_Sm. destruct l as [|x l]; cbn [skipn]; [apply skipn_nil|apply IH].
Qed.
