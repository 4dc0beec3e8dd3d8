(** Proofs about src/verilogPreproc/str_utils.cpp. *)
From Verif Require Import Base BaseFacts StrSpec StrUtilsModel.
From Coq Require Import ZifyBool ZifyNat ZifyN.

(** ** Trimming *)
Lemma rtrim_spec chars s : rtrimmed chars s (rtrim chars s).
Proof.
  unfold rtrimmed, rtrim. exists (skipn (last_not_of_succ chars s) s).
  split; [symmetry; apply firstn_skipn|].
  induction s as [|c s [IH1 IH2]]; cbn [last_not_of_succ].
  - split; [constructor|]. intros c [|? r] H; discriminate.
  - destruct (last_not_of_succ chars s) as [|n] eqn:E.
    + destruct (mem_c c chars) eqn:M.
      * cbn [skipn firstn]. split; [constructor; [apply mem_c_In; exact M|exact IH1]|].
        intros d [|? r] H; discriminate.
      * cbn [skipn firstn]. split; [exact IH1|].
        intros d [|x r] H; cbn in H; inversion H; subst.
        -- apply mem_c_nIn; exact M.
        -- destruct r; discriminate.
    + cbn [skipn firstn]. split; [exact IH1|].
      intros d [|x r] H; cbn in H.
      * inversion H as [[H1 H2]]. destruct s as [|y s]; [cbn in E; discriminate|].
        cbn in H2; discriminate.
      * inversion H as [[H1 H2]]. eapply IH2. exact H2.
Qed.

Lemma ltrim_spec chars s : exists a, s = a ++ ltrim chars s
  /\ Forall (fun c => In c chars) a /\ (forall c r, ltrim chars s = c :: r -> ~ In c chars).
Proof.
  unfold ltrim. induction s as [|c s (a & E & F & H)]; cbn [first_not_of].
  - exists []. repeat split; [constructor|discriminate].
  - destruct (mem_c c chars) eqn:M.
    + exists (c :: a). destruct (first_not_of chars s) as [n|]; cbn [option_map skipn].
      * split; [cbn; congruence|]. split; [constructor; [apply mem_c_In; exact M|exact F]|exact H].
      * split; [cbn; congruence|]. split; [constructor; [apply mem_c_In; exact M|exact F]|exact H].
    + exists []. cbn. repeat split; [constructor|]. intros d r H'; inversion H'; subst.
      apply mem_c_nIn; exact M.
Qed.

Lemma trim_spec chars s : trimmed chars s (trim chars s).
Proof.
  unfold trim. destruct (ltrim_spec chars s) as (a & E & Fa & Ha).
  destruct (rtrim_spec chars (ltrim chars s)) as (b & Eb & Fb & Hb).
  exists a, b. rewrite <- Eb. repeat split; try assumption.
  intros c r H. destruct (rtrim chars (ltrim chars s)) as [|x t]; [discriminate|].
  inversion H; subst. eapply Ha. cbn in Eb. rewrite Eb. reflexivity.
Qed.

Lemma all_in_prefix_unique chars (a a' t t' : str) :
  Forall (fun c => In c chars) a -> Forall (fun c => In c chars) a' ->
  (forall c r, t = c :: r -> ~ In c chars) -> (forall c r, t' = c :: r -> ~ In c chars) ->
  a ++ t = a' ++ t' -> t = t'.
Proof.
  revert a'. induction a as [|x a IH]; intros a' Fa Fa' Ht Ht' E.
  - destruct a' as [|y a']; [exact E|]. exfalso. cbn in E.
    inversion Fa'; subst. eapply Ht; eauto.
  - destruct a' as [|y a'].
    + exfalso. inversion Fa as [|x0 l0 Hx Hl]; subst. apply (Ht' x (a ++ t)); [symmetry; exact E|exact Hx].
    + inversion Fa; inversion Fa'; subst. inversion E. eapply IH; eauto.
Qed.

Lemma all_in_suffix_unique chars (b b' t t' : str) :
  Forall (fun c => In c chars) b -> Forall (fun c => In c chars) b' ->
  (forall c r, t = r ++ [c] -> ~ In c chars) -> (forall c r, t' = r ++ [c] -> ~ In c chars) ->
  t ++ b = t' ++ b' -> t = t'.
Proof.
  intros Fb Fb' Ht Ht' E. rewrite <- (rev_involutive t), <- (rev_involutive t'). f_equal.
  apply (all_in_prefix_unique chars (rev b) (rev b')).
  - apply Forall_rev; exact Fb.
  - apply Forall_rev; exact Fb'.
  - intros c r H. apply (Ht c (rev r)). apply (f_equal (@rev _)) in H. rewrite rev_involutive in H.
    cbn in H. exact H.
  - intros c r H. apply (Ht' c (rev r)). apply (f_equal (@rev _)) in H. rewrite rev_involutive in H.
    cbn in H. exact H.
  - rewrite <- !rev_app_distr. congruence.
Qed.

(** The result of trimming is determined by the specification. *)
Lemma trimmed_unique chars s t t' : trimmed chars s t -> trimmed chars s t' -> t = t'.
Proof.
  intros (a & b & E & Fa & Fb & H1 & H2) (a' & b' & E' & Fa' & Fb' & H1' & H2').
  assert (forall u, Forall (fun c => In c chars) u -> u = [] \/ exists c r, u = c :: r /\ In c chars) as Q.
  { intros [|c r] F; [left; reflexivity|right]. inversion F; subst. eauto. }
  destruct t as [|x t].
  - (* s is all in chars *)
    assert (Forall (fun c => In c chars) s) as Fs by (rewrite E; cbn; apply Forall_app; split; assumption).
    destruct t' as [|x' t']; [reflexivity|]. exfalso.
    rewrite E' in Fs. apply Forall_app in Fs as [_ Fs]. apply Forall_app in Fs as [Fs _].
    inversion Fs; subst. eapply H1'; eauto.
  - destruct t' as [|x' t'].
    + assert (Forall (fun c => In c chars) s) as Fs by (rewrite E'; cbn; apply Forall_app; split; assumption).
      exfalso. rewrite E in Fs. apply Forall_app in Fs as [_ Fs]. apply Forall_app in Fs as [Fs _].
      inversion Fs; subst. eapply H1; eauto.
    + assert ((x :: t) ++ b = (x' :: t') ++ b') as E2.
      { apply (all_in_prefix_unique chars a a'); try assumption.
        - intros c r H. inversion H; subst. eapply H1; eauto.
        - intros c r H. inversion H; subst. eapply H1'; eauto.
        - congruence. }
      exact (all_in_suffix_unique chars b b' _ _ Fb Fb' H2 H2' E2).
Qed.

(** ** Replacement *)
Lemma replace_loop_spec pat repl : pat <> [] -> forall fuel done rest,
  length rest < fuel ->
  exists t, replace_loop fuel (done ++ rest) pat repl (length done) = Ok (done ++ t)
            /\ replaced pat repl rest t.
Proof.
  intros Hp. induction fuel as [|fuel IH]; intros done rest Hf; [lia|].
  cbn [replace_loop]. rewrite find_from_app. destruct (find pat rest) as [i|] eqn:F; cbn [option_map].
  - apply find_Some in F as (a & b & E & Hl & Hmin). subst rest i.
    replace (length done + length a) with (length (done ++ a)) by (rewrite app_length; lia).
    rewrite (app_assoc done a). rewrite firstn_app_len.
    rewrite skipn_app_plus, skipn_app_len.
    replace ((done ++ a) ++ repl ++ b) with ((done ++ a ++ repl) ++ b)
      by (rewrite !app_assoc; reflexivity).
    replace (length (done ++ a) + length repl) with (length (done ++ a ++ repl))
      by (rewrite !app_length; lia).
    destruct (IH (done ++ a ++ repl) b) as (t & E & R).
    { rewrite !app_length in Hf. destruct pat as [|? ?]; [congruence|cbn in Hf; lia]. }
    exists (a ++ repl ++ t). split; [rewrite E; f_equal; rewrite !app_assoc; reflexivity|].
    constructor; [|exact R]. exact Hmin.
  - exists rest. split; [reflexivity|]. constructor. intros (a & b & E).
    rewrite find_None in F. exact (F a b E).
Qed.

Lemma replace_substring_spec s pat repl : pat <> [] ->
  exists t, replace_substring s pat repl = Ok t /\ replaced pat repl s t.
Proof.
  intros Hp. destruct (replace_loop_spec pat repl Hp (S (length s)) [] s) as (t & E & R); [lia|].
  exists t. split; [exact E|exact R].
Qed.

Lemma app_same_length_eq {A} (a a' b b' : list A) :
  a ++ b = a' ++ b' -> length a = length a' -> a = a' /\ b = b'.
Proof.
  revert a'. induction a as [|x a IH]; intros [|y a'] E L; try discriminate; [auto|].
  inversion E; subst. cbn in L. destruct (IH a' H1) as [-> ->]; [lia|auto].
Qed.

Lemma replaced_unique pat repl s t : replaced pat repl s t ->
  forall t', replaced pat repl s t' -> t = t'.
Proof.
  induction 1 as [s H|a s t L R IH]; intros t' R'.
  - inversion R' as [s0 H0 E1 E2|a s0 t0 L0 R0 E1 E2]; subst; [reflexivity|].
    exfalso. apply H. exists a, s0. reflexivity.
  - inversion R' as [s0 H0 E1 E2|a0 s0 t0 L0 R0 E1 E2]; subst.
    + exfalso. apply H0. exists a, s. reflexivity.
    + assert (length a = length a0) as La.
      { apply Nat.le_antisymm.
        - apply (L a0 s0). symmetry; exact E1.
        - apply (L0 a s). exact E1. }
      destruct (app_same_length_eq _ _ _ _ E1 (eq_sym La)) as [-> E3].
      apply app_inv_head in E3. subst. rewrite (IH t0 R0). reflexivity.
Qed.

(** With an empty pattern every amount of fuel is exhausted: the C++ loop does not terminate. *)
Lemma find_from_empty s pos : pos <= length s -> find_from [] s pos = Some pos.
Proof.
  intros H. unfold find_from. destruct (Nat.ltb_spec (length s) pos); [lia|].
  destruct (skipn pos s); cbn; f_equal; lia.
Qed.
Lemma replace_loop_diverges repl : forall fuel s pos, pos <= length s ->
  replace_loop fuel s [] repl pos = OutOfFuel.
Proof.
  induction fuel as [|fuel IH]; intros s pos H; [reflexivity|].
  cbn [replace_loop]. rewrite find_from_empty by exact H. apply IH.
  rewrite !app_length, firstn_length, skipn_length. cbn. lia.
Qed.

(** ** Macro quotes *)
Definition is_bs (p : option ascii) : bool := match p with Some c => ceqb c bs | None => false end.
Fixpoint lastof (prev : option ascii) (x : str) : option ascii :=
  match x with [] => prev | c :: x' => lastof (Some c) x' end.
Fixpoint esc (prev : option ascii) (x : str) : str :=
  match x with
  | [] => []
  | c :: x' => if ceqb c nl && negb (is_bs prev) then bs :: nl :: esc (Some nl) x'
               else c :: esc (Some c) x'
  end.

Lemma lastof_app prev a b : lastof prev (a ++ b) = lastof (lastof prev a) b.
Proof. revert prev; induction a as [|c a IH]; intros prev; [reflexivity|apply IH]. Qed.
Lemma esc_app prev a b : esc prev (a ++ b) = esc prev a ++ esc (lastof prev a) b.
Proof.
  revert prev; induction a as [|c a IH]; intros prev; [reflexivity|].
  cbn [esc app lastof]. destruct (ceqb c nl && negb (is_bs prev)) eqn:E; rewrite IH; [|reflexivity].
  apply andb_true_iff in E as [E _]. apply ceqb_eq in E. subst. reflexivity.
Qed.

Lemma unquote_cons2 prev inside c d s : unquote prev inside (c :: d :: s) =
  if ceqb c bt && ceqb d dq && negb (is_bs prev)
  then option_map (cons dq) (unquote (Some dq) (negb inside) s)
  else if inside && ceqb c nl && negb (is_bs prev)
  then option_map (fun r => bs :: nl :: r) (unquote (Some nl) inside (d :: s))
  else option_map (cons c) (unquote (Some c) inside (d :: s)).
Proof. reflexivity. Qed.

Lemma unquote_skip x : forall prev inside y,
  leftmost [bt; dq] x y ->
  unquote prev inside (x ++ bt :: dq :: y)
  = option_map (app (if inside then esc prev x else x))
               (unquote (lastof prev x) inside (bt :: dq :: y)).
Proof.
  induction x as [|c x IH]; intros prev inside y L.
  - destruct inside; cbn [app esc lastof]; destruct (unquote _ _ _); reflexivity.
  - assert (leftmost [bt; dq] x y) as L'.
    { intros a' b' E. specialize (L (c :: a') b'). cbn in L, E. rewrite E in L.
      specialize (L eq_refl). lia. }
    cbn [app lastof]. destruct (x ++ bt :: dq :: y) as [|d z] eqn:Ez; [destruct x; discriminate|].
    rewrite unquote_cons2. destruct (ceqb c bt && ceqb d dq) eqn:Ecd.
    + apply andb_true_iff in Ecd as [E1 E2]. apply ceqb_eq in E1, E2. subst.
      exfalso. specialize (L [] z). cbn in L. rewrite Ez in L. specialize (L eq_refl). lia.
    + cbn [andb].
      destruct inside; cbn [andb].
      * cbn [esc]. destruct (ceqb c nl && negb (is_bs prev)) eqn:En.
        -- apply andb_true_iff in En as [E1 _]. apply ceqb_eq in E1. subst.
           rewrite <- Ez, (IH _ true y L'). destruct (unquote (lastof (Some nl) x) true _); reflexivity.
        -- rewrite <- Ez, (IH _ true y L'). destruct (unquote (lastof (Some c) x) true _); reflexivity.
      * rewrite <- Ez, (IH _ false y L'). destruct (unquote (lastof (Some c) x) false _); reflexivity.
Qed.

Lemma unquote_none s : forall prev inside, find [bt; dq] s = None ->
  unquote prev inside s = if inside then None else Some s.
Proof.
  induction s as [|c s IH]; intros prev inside F; [destruct inside; reflexivity|].
  cbn [find] in F. destruct (is_prefix [bt; dq] (c :: s)) eqn:P; [discriminate|].
  destruct (find [bt; dq] s) as [|] eqn:F'; [discriminate|].
  destruct s as [|d s]; [reflexivity|]. rewrite unquote_cons2.
  assert (ceqb c bt && ceqb d dq = false) as ->.
  { destruct (ceqb c bt && ceqb d dq) eqn:E; [|reflexivity]. apply andb_true_iff in E as [E1 E2].
    apply ceqb_eq in E1, E2. subst. discriminate. }
  cbn [andb]. destruct inside; cbn [andb].
  - destruct (ceqb c nl && negb _); rewrite (IH _ true eq_refl); reflexivity.
  - rewrite (IH _ false eq_refl). reflexivity.
Qed.

Lemma lastof_last d c0 : exists c, lastof (Some c0) d = Some c.
Proof. revert c0; induction d as [|x d IH]; intros c0; [eexists; reflexivity|apply IH]. Qed.
Lemma lastof_snoc prev d c : lastof prev (d ++ [c]) = Some c.
Proof. rewrite lastof_app. reflexivity. Qed.

Lemma escape_nl_spec z : forall m d c fuel, lastof None d = Some c -> 2 * length m < fuel ->
  escape_nl_loop fuel (d ++ m ++ z) (length d) (length d + length m)
  = Ok (d ++ esc (Some c) m ++ z, length d + length (esc (Some c) m)).
Proof.
  induction m as [|x m IH]; intros d c fuel Hd Hf.
  - destruct fuel; [lia|]. cbn [escape_nl_loop]. rewrite (proj2 (Nat.ltb_ge _ _)) by (cbn; lia).
    reflexivity.
  - destruct fuel as [|fuel]; [lia|]. cbn [length] in Hf. cbn [escape_nl_loop length].
    rewrite (proj2 (Nat.ltb_lt _ _)) by lia.
    cbn [app]. rewrite char_at_app. cbn [bind].
    assert (exists d', d = d' ++ [c]) as (d' & Ed).
    { destruct (rev d) as [|y r] eqn:Er.
      - apply (f_equal (@rev _)) in Er. rewrite rev_involutive in Er. subst. discriminate.
      - apply (f_equal (@rev _)) in Er. rewrite rev_involutive in Er. cbn in Er. subst.
        rewrite lastof_snoc in Hd. inversion Hd; subst. eauto. }
    cbn [esc is_bs]. destruct (ceqb x nl) eqn:Ex.
    + apply ceqb_eq in Ex. subst x.
      assert (length d = S (length d')) as Ld by (subst d; rewrite app_length; cbn; lia).
      rewrite Ld at 1. cbv beta iota.
      assert (char_at (d ++ nl :: m ++ z) (length d') = Ok c) as ->.
      { subst d. rewrite <- app_assoc. cbn [app]. apply char_at_app. }
      cbn [bind andb]. destruct (ceqb c bs) eqn:Ec; cbn [negb].
      * specialize (IH (d ++ [nl]) nl fuel). rewrite lastof_snoc in IH.
        rewrite !app_length in IH. cbn [length] in IH. rewrite <- !app_assoc in IH. cbn [app] in IH.
        replace (length d + S (length m)) with (length d + 1 + length m) by lia.
        replace (S (length d)) with (length d + 1) by lia.
        rewrite IH by (auto; lia). f_equal. f_equal. cbn [length]. lia.
      * rewrite firstn_app_len, skipn_app_len. cbn [app].
        destruct fuel as [|fuel]; [lia|]. cbn [escape_nl_loop].
        rewrite (proj2 (Nat.ltb_lt _ _)) by lia.
        replace (d ++ bs :: nl :: m ++ z) with ((d ++ [bs]) ++ nl :: m ++ z)
          by (rewrite <- app_assoc; reflexivity).
        replace (S (length d)) with (length (d ++ [bs])) by (rewrite app_length; cbn; lia).
        rewrite char_at_app. cbn [bind]. rewrite ceqb_refl.
        rewrite app_length. cbn [length]. rewrite Nat.add_1_r. cbv beta iota.
        rewrite <- app_assoc. cbn [app]. rewrite char_at_app. cbn [bind]. rewrite ceqb_refl.
        specialize (IH (d ++ [bs; nl]) nl fuel).
        rewrite lastof_app in IH. cbn [lastof] in IH.
        rewrite !app_length in IH. cbn [length] in IH. rewrite <- !app_assoc in IH. cbn [app] in IH.
        replace (S (length d + S (length m))) with (length d + 2 + length m) by lia.
        replace (S (S (length d))) with (length d + 2) by lia.
        rewrite IH by (auto; lia). f_equal. f_equal. cbn [length]. lia.
    + cbn [andb]. specialize (IH (d ++ [x]) x fuel). rewrite lastof_snoc in IH.
      rewrite !app_length in IH. cbn [length] in IH. rewrite <- !app_assoc in IH. cbn [app] in IH.
      replace (length d + S (length m)) with (length d + 1 + length m) by lia.
      replace (S (length d)) with (length d + 1) by lia.
      rewrite IH by (auto; lia). f_equal. f_equal. cbn [length]. lia.
Qed.

Definition is_escaped_at (s : str) (p : nat) : outcome bool :=
  match p with 0 => Ok false | S j => c <- char_at s j ;; Ok (ceqb c bs) end.
Lemma is_escaped_at_app d z : is_escaped_at (d ++ z) (length d) = Ok (is_bs (lastof None d)).
Proof.
  destruct (rev d) as [|y r] eqn:Er.
  - apply (f_equal (@rev _)) in Er. rewrite rev_involutive in Er. subst. reflexivity.
  - apply (f_equal (@rev _)) in Er. rewrite rev_involutive in Er. cbn in Er. subst.
    rewrite lastof_snoc. rewrite app_length. cbn [length]. rewrite Nat.add_1_r.
    unfold is_escaped_at. rewrite <- app_assoc. cbn [app]. rewrite char_at_app. reflexivity.
Qed.

Lemma unescape_loop_S fuel s pos prev : unescape_loop (S fuel) s pos prev =
  match find_from [bt; dq] s pos with
  | None => Ok (s, prev)
  | Some p =>
      is_escaped <- is_escaped_at s p ;;
      if is_escaped : bool then unescape_loop fuel s (S p) prev
      else
        let s1 := firstn p s ++ skipn (S p) s in
        match prev with
        | None => unescape_loop fuel s1 (S p) (Some p)
        | Some q =>
            '(s2, p2) <- escape_nl_loop (S (2 * length s1)) s1 q p ;;
            unescape_loop fuel s2 (S p2) None
        end
  end.
Proof. reflexivity. Qed.

(** State of the loop: what has been consumed and whether a macro string is open. *)
Definition loop_ok (r : outcome (str * option nat)) (pre : str) (o : option str) : Prop :=
  match o with
  | Some t => r = Ok (pre ++ t, None)
  | None => exists s q, r = Ok (s, Some q)
  end.

Lemma loop_ok_app r pre x o : loop_ok r (pre ++ x) o -> loop_ok r pre (option_map (app x) o).
Proof. destruct o; cbn; [|auto]. intros ->. rewrite <- app_assoc. reflexivity. Qed.
Lemma option_map_app_app (a b : str) o :
  option_map (app a) (option_map (app b) o) = option_map (app (a ++ b)) o.
Proof. destruct o; cbn; [rewrite app_assoc|]; reflexivity. Qed.

Lemma unescape_loop_spec : forall fuel,
  (forall done rest, length rest < fuel ->
     loop_ok (unescape_loop fuel (done ++ rest) (length done) None) done
             (unquote (lastof None done) false rest))
  /\ (forall d0 mid rest, length rest < fuel ->
     loop_ok (unescape_loop fuel (d0 ++ (dq :: mid) ++ rest) (length d0 + S (length mid))
                            (Some (length d0)))
             (d0 ++ dq :: esc (Some dq) mid)
             (unquote (lastof (Some dq) mid) true rest)).
Proof.
  induction fuel as [|fuel [IH1 IH2]]; [split; intros; lia|]. split.
  - intros done rest Hf. rewrite unescape_loop_S. rewrite find_from_app.
    destruct (find [bt; dq] rest) as [i|] eqn:F; cbn [option_map].
    + apply find_Some in F as (x & y & E & Hl & Hmin). subst i.
      assert (leftmost [bt; dq] x y) as L by (intros a' b' E'; apply (Hmin a' b'); congruence).
      cbn [app] in E. rewrite E in *. rewrite (unquote_skip _ _ _ _ L).
      rewrite <- lastof_app. set (dx := done ++ x).
      replace (done ++ x ++ bt :: dq :: y) with (dx ++ bt :: dq :: y)
        by (unfold dx; rewrite <- app_assoc; reflexivity).
      replace (length done + length x) with (length dx) by (unfold dx; rewrite app_length; lia).
      rewrite is_escaped_at_app. cbn [bind].
      assert (length (dq :: y) < fuel) as Hf'.
      { rewrite app_length in Hf. cbn [length] in *. lia. }
      apply loop_ok_app. fold dx. destruct (is_bs (lastof None dx)) eqn:Eb.
      * specialize (IH1 (dx ++ [bt]) (dq :: y) Hf').
        rewrite lastof_snoc, app_length, <- app_assoc in IH1. cbn [app length] in IH1.
        rewrite Nat.add_1_r in IH1.
        assert (unquote (lastof None dx) false (bt :: dq :: y)
                = option_map (app [bt]) (unquote (Some bt) false (dq :: y))) as ->.
        { rewrite unquote_cons2, Eb. reflexivity. }
        apply loop_ok_app. exact IH1.
      * cbv zeta. rewrite firstn_app_len.
        rewrite <- (Nat.add_1_r (length dx)), skipn_app_plus. cbn [skipn].
        specialize (IH2 dx [] y). cbn [length app esc lastof] in IH2.
        assert (unquote (lastof None dx) false (bt :: dq :: y)
                = option_map (app [dq]) (unquote (Some dq) true y)) as ->.
        { rewrite unquote_cons2, Eb. reflexivity. }
        apply loop_ok_app. apply IH2. cbn in Hf'. lia.
    + rewrite (unquote_none _ _ _ F). reflexivity.
  - intros d0 mid rest Hf. rewrite unescape_loop_S.
    rewrite (app_assoc d0). set (done := d0 ++ dq :: mid).
    replace (length d0 + S (length mid)) with (length done) by (unfold done; rewrite app_length; reflexivity).
    assert (lastof None done = lastof (Some dq) mid) as Hlast
      by (unfold done; rewrite lastof_app; reflexivity).
    rewrite find_from_app.
    destruct (find [bt; dq] rest) as [i|] eqn:F; cbn [option_map].
    + apply find_Some in F as (x & y & E & Hl & Hmin). subst i.
      assert (leftmost [bt; dq] x y) as L by (intros a' b' E'; apply (Hmin a' b'); congruence).
      cbn [app] in E. rewrite E in *. rewrite (unquote_skip _ _ _ _ L).
      rewrite <- lastof_app. set (dx := done ++ x).
      replace (done ++ x ++ bt :: dq :: y) with (dx ++ bt :: dq :: y)
        by (unfold dx; rewrite <- app_assoc; reflexivity).
      replace (length done + length x) with (length dx) by (unfold dx; rewrite app_length; lia).
      rewrite is_escaped_at_app. cbn [bind].
      assert (lastof None dx = lastof (Some dq) (mid ++ x)) as Hlx
        by (unfold dx; rewrite lastof_app, Hlast, <- lastof_app; reflexivity).
      assert (length (dq :: y) < fuel) as Hf'.
      { rewrite app_length in Hf. cbn [length] in *. lia. }
      apply loop_ok_app.
      replace ((d0 ++ dq :: esc (Some dq) mid) ++ esc (lastof (Some dq) mid) x)
        with (d0 ++ dq :: esc (Some dq) (mid ++ x))
        by (rewrite esc_app, <- app_assoc; reflexivity).
      rewrite <- Hlx. destruct (is_bs (lastof None dx)) eqn:Eb.
      * specialize (IH2 d0 (mid ++ x ++ [bt]) (dq :: y) Hf').
        assert (lastof (Some dq) (mid ++ x ++ [bt]) = Some bt) as Hl2
          by (rewrite app_assoc; apply lastof_snoc).
        rewrite Hl2 in IH2.
        replace (d0 ++ (dq :: mid ++ x ++ [bt]) ++ dq :: y) with (dx ++ bt :: dq :: y) in IH2
          by (unfold dx, done; rewrite <- !app_assoc; cbn; rewrite <- !app_assoc; reflexivity).
        replace (length d0 + S (length (mid ++ x ++ [bt]))) with (S (length dx)) in IH2
          by (unfold dx, done; len).
        assert (unquote (lastof None dx) true (bt :: dq :: y)
                = option_map (app [bt]) (unquote (Some bt) true (dq :: y))) as ->.
        { rewrite unquote_cons2, Eb. reflexivity. }
        apply loop_ok_app.
        replace (d0 ++ dq :: esc (Some dq) (mid ++ x ++ [bt])) with
          ((d0 ++ dq :: esc (Some dq) (mid ++ x)) ++ [bt]) in IH2
          by (rewrite (app_assoc mid), (esc_app _ (mid ++ x)), <- (app_assoc d0); reflexivity).
        exact IH2.
      * cbv zeta. rewrite firstn_app_len.
        rewrite <- (Nat.add_1_r (length dx)), skipn_app_plus. cbn [skipn].
        assert (unquote (lastof None dx) true (bt :: dq :: y)
                = option_map (app [dq]) (unquote (Some dq) false y)) as ->.
        { rewrite unquote_cons2, Eb. reflexivity. }
        apply loop_ok_app.
        (* the escape loop starts at the opening quote *)
        set (m := mid ++ x).
        assert (dx = d0 ++ dq :: m) as Edx
          by (unfold dx, done, m; rewrite <- app_assoc; reflexivity).
        rewrite Edx.
        replace ((d0 ++ dq :: m) ++ dq :: y) with (d0 ++ dq :: m ++ dq :: y)
          by (rewrite <- app_assoc; reflexivity).
        replace (length (d0 ++ dq :: m)) with (length d0 + S (length m))
          by (rewrite app_length; reflexivity).
        remember (S (2 * length (d0 ++ dq :: m ++ dq :: y))) as fu eqn:Efu.
        assert (escape_nl_loop fu (d0 ++ dq :: m ++ dq :: y) (length d0) (length d0 + S (length m))
                = Ok (d0 ++ dq :: esc (Some dq) m ++ dq :: y, length d0 + S (length (esc (Some dq) m))))
          as ->.
        { destruct fu as [|fu]; [lia|]. cbn [escape_nl_loop].
          rewrite (proj2 (Nat.ltb_lt _ _)) by lia. rewrite char_at_app. cbn [bind].
          change (ceqb dq nl) with false. cbv iota.
          pose proof (escape_nl_spec (dq :: y) m (d0 ++ [dq]) dq fu) as X.
          rewrite lastof_snoc, !app_length in X. cbn [length] in X. rewrite <- !app_assoc in X.
          cbn [app] in X. replace (S (length d0)) with (length d0 + 1) by lia.
          replace (length d0 + S (length m)) with (length d0 + 1 + length m) by lia.
          rewrite X; [|reflexivity|].
          - f_equal. f_equal. lia.
          - rewrite app_length in Efu. cbn [length] in Efu. rewrite app_length in Efu. lia. }
        cbn [bind].
        specialize (IH1 (d0 ++ dq :: esc (Some dq) m ++ [dq]) y).
        assert (lastof None (d0 ++ dq :: esc (Some dq) m ++ [dq]) = Some dq) as Hl3
          by (rewrite app_comm_cons, app_assoc; apply lastof_snoc).
        rewrite Hl3 in IH1.
        replace ((d0 ++ dq :: esc (Some dq) m ++ [dq]) ++ y)
          with (d0 ++ dq :: esc (Some dq) m ++ dq :: y) in IH1
          by (rewrite <- !app_assoc; cbn; rewrite <- !app_assoc; reflexivity).
        replace (length (d0 ++ dq :: esc (Some dq) m ++ [dq]))
          with (S (length d0 + S (length (esc (Some dq) m)))) in IH1
          by (len).
        replace ((d0 ++ dq :: esc (Some dq) m) ++ [dq])
          with (d0 ++ dq :: esc (Some dq) m ++ [dq])
          by (rewrite <- !app_assoc; reflexivity).
        apply IH1. cbn in Hf'. lia.
    + rewrite (unquote_none _ _ _ F). cbn. eauto.
Qed.

Lemma unescape_spec s :
  unescape_string_dblquotes s =
  match unquote None false s with
  | Some t => Ok t
  | None => Throw (ParseException $"Unfinished `"" string")
  end.
Proof.
  unfold unescape_string_dblquotes.
  pose proof (proj1 (unescape_loop_spec (S (length s))) [] s (Nat.lt_succ_diag_r _)) as H.
  cbn [app length lastof] in H. destruct (unquote None false s) as [t|]; cbn [loop_ok] in H.
  - rewrite H. reflexivity.
  - destruct H as (s' & q & ->). reflexivity.
Qed.

Lemma ws_chars_spec c : In c ws_chars <-> c = sp \/ c = tab \/ c = nl \/ c = cr.
Proof. unfold ws_chars. cbn. intuition congruence. Qed.
Lemma replace_substring_total s pat repl : pat <> [] ->
  exists t, replace_substring s pat repl = Ok t /\ replaced pat repl s t
            /\ forall t', replaced pat repl s t' -> t' = t.
Proof.
  intros Hp. destruct (replace_substring_spec s pat repl Hp) as (t & E & R). exists t.
  split; [exact E|]. split; [exact R|]. intros t' R'. eapply replaced_unique; eassumption.
Qed.
Lemma replace_substring_absent s pat repl : pat <> [] -> ~ occurs pat s -> replace_substring s pat repl = Ok s.
Proof.
  intros Hp Ho. destruct (replace_substring_total s pat repl Hp) as (t & E & _ & U).
  rewrite E. f_equal. symmetry. apply U. constructor. exact Ho.
Qed.
