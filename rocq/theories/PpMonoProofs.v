(** More fuel never changes a result that did not run out of fuel. *)
From Verif Require Import Base BaseFacts OutBufferModel RegexModel PpLexerModel PpParserModel MacroDefModel
  StrUtilsModel PpModel PpFacts.

Definition below {A} (m m' : MM A) : Prop := forall st, fst (m st) = OutOfFuel \/ m st = m' st.
Lemma below_refl {A} (m : MM A) : below m m. Proof. intros st. right. reflexivity. Qed.
Lemma below_bind {A B} (m m' : MM A) (f f' : A -> MM B) :
  below m m' -> (forall a, below (f a) (f' a)) -> below (mbind m f) (mbind m' f').
Proof.
  intros H1 H2 st. unfold mbind. destruct (H1 st) as [E|E].
  - left. destruct (m st) as [[a|e|w|] s]; cbn [fst] in E; try discriminate. reflexivity.
  - rewrite <- E. destruct (m st) as [[a|e|w|] s]; try (right; reflexivity). apply H2.
Qed.

Section Mono.
  Variable l : lang.
  Variable fs : fsys.
  Section Lv.
    Variable rs rf rs' rf' : str -> outbuf -> MM outbuf.
    Hypothesis Hrs : forall i o, below (rs i o) (rs' i o).
    Hypothesis Hrf : forall i o, below (rf i o) (rf' i o).
    Variable src : str.
    Variable added : bool.

    Ltac bb := apply below_bind; [try apply below_refl|intros].
    Lemma below_call m out : below (call_text l rs src m out) (call_text l rs' src m out).
    Proof.
      unfold call_text. bb. bb. bb; [|apply below_refl].
      destruct (find [bt] a0); [|apply below_refl]. destruct (_ <=? _); [apply below_refl|].
      bb. bb. bb; [apply Hrs|]. apply below_refl.
    Qed.
    Lemma below_include tok arg out :
      below (visit_include l fs rs rf src added tok arg out) (visit_include l fs rs' rf' src added tok arg out).
    Proof.
      unfold visit_include. bb; [destruct arg; [apply below_refl|apply below_call]|].
      bb. bb. destruct a1; [|apply below_refl]. destruct (_ <? _); [apply below_refl|].
      bb. bb. bb; [apply Hrf|]. apply below_refl.
    Qed.
    Lemma below_visit :
      (forall ts out, below (visit_texts l fs rs rf src added ts out) (visit_texts l fs rs' rf' src added ts out)) /\
      (forall t out, below (visit_text l fs rs rf src added t out) (visit_text l fs rs' rf' src added t out)) /\
      (forall bs neg els els' out, (forall o, below (els o) (els' o)) ->
         below (visit_branches l fs rs rf src added neg bs els out) (visit_branches l fs rs' rf' src added neg bs els' out)) /\
      (forall e out, below (visit_else l fs rs rf src added e out) (visit_else l fs rs' rf' src added e out)).
    Proof.
      apply tree_mut; intros; cbn [visit_texts visit_text visit_branches visit_else]; try apply below_refl.
      - bb; auto.
      - auto.
      - unfold visit_call. bb; [apply below_call|]. apply below_refl.
      - apply below_include.
      - auto.
      - bb. cbv zeta. destruct (Bool.eqb _ _); [bb; auto|auto].
      - bb. auto.
    Qed.
    Lemma below_preproc input out :
      below (run_preproc l fs rs rf src added input out) (run_preproc l fs rs' rf' src added input out).
    Proof. unfold run_preproc. bb. destruct (negb _); [apply below_refl|apply below_visit]. Qed.
  End Lv.
  Lemma below_run : forall fuel,
    (forall i o, below (run_str fuel l fs i o) (run_str (S fuel) l fs i o)) /\
    (forall i o, below (run_file fuel l fs i o) (run_file (S fuel) l fs i o)).
  Proof.
    induction fuel as [|fuel (IHs & IHf)]; [split; intros i o st; left; reflexivity|].
    assert (forall src added i o, below (run_preproc l fs (run_str fuel l fs) (run_file fuel l fs) src added i o)
                           (run_preproc l fs (run_str (S fuel) l fs) (run_file (S fuel) l fs) src added i o)) as P
      by (intros; apply below_preproc; assumption).
    split; intros i o st.
    - rewrite (run_str_S fuel), (run_str_S (S fuel)). apply below_bind; [apply below_refl|intros; apply P].
    - rewrite (run_file_S fuel), (run_file_S (S fuel)). destruct (fs i); [|right; reflexivity].
      apply below_bind; [|intros; apply below_refl]. apply below_bind; [apply below_refl|intros; apply P].
  Qed.
  Lemma run_str_more n m i o st : fst (run_str n l fs i o st) <> OutOfFuel -> n <= m ->
    run_str m l fs i o st = run_str n l fs i o st.
  Proof.
    intros H Hle. induction Hle as [|m Hle IH]; [reflexivity|].
    destruct (proj1 (below_run m) i o st) as [E|E]; [rewrite IH in E; contradiction|congruence].
  Qed.
  Lemma run_file_more n m i o st : fst (run_file n l fs i o st) <> OutOfFuel -> n <= m ->
    run_file m l fs i o st = run_file n l fs i o st.
  Proof.
    intros H Hle. induction Hle as [|m Hle IH]; [reflexivity|].
    destruct (proj2 (below_run m) i o st) as [E|E]; [rewrite IH in E; contradiction|congruence].
  Qed.
End Mono.
