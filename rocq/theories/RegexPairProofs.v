(** Which characters can begin and end a match of a regular expression, and which can be neighbours in
    it; used to show that a lexer rule cannot match beyond a given place. *)
From Verif Require Import Base RegexModel RegexProofs.

Fixpoint nullb (r : re) : bool :=
  match r with Emp | Chr _ => false | Eps | Eof | Star _ => true | Seq a b => nullb a && nullb b | Alt a b => nullb a || nullb b end.
Fixpoint firstb (r : re) (c : ascii) : bool :=
  match r with
  | Emp | Eps | Eof => false
  | Chr k => cc_mem k c
  | Seq a b => firstb a c || (nullb a && firstb b c)
  | Alt a b => firstb a c || firstb b c
  | Star a => firstb a c
  end.
Fixpoint lastb (r : re) (c : ascii) : bool :=
  match r with
  | Emp | Eps | Eof => false
  | Chr k => cc_mem k c
  | Seq a b => lastb b c || (nullb b && lastb a c)
  | Alt a b => lastb a c || lastb b c
  | Star a => lastb a c
  end.
Fixpoint pairb (r : re) (c d : ascii) : bool :=
  match r with
  | Emp | Eps | Eof | Chr _ => false
  | Seq a b => pairb a c d || pairb b c d || (lastb a c && firstb b d)
  | Alt a b => pairb a c d || pairb b c d
  | Star a => pairb a c d || (lastb a c && firstb a d)
  end.

Record shape (r : re) (s : str) : Prop := {
  sh_null : s = [] -> nullb r = true;
  sh_first : forall c t, s = c :: t -> firstb r c = true;
  sh_last : forall c t, s = t ++ [c] -> lastb r c = true;
  sh_pair : forall a c d b, s = a ++ c :: d :: b -> pairb r c d = true }.

Lemma app_last {A} (x y t : list A) c : x ++ y = t ++ [c] -> (y = [] /\ x = t ++ [c]) \/ exists t', y = t' ++ [c] /\ t = x ++ t'.
Proof.
  intros E. destruct y as [|y0 y] using rev_ind; [left; rewrite app_nil_r in E; auto|]. right. rewrite app_assoc in E. apply app_inj_tail in E as [E ->]. exists y. split; [reflexivity|symmetry; exact E].
Qed.
Lemma app_pair {A} (x y a b : list A) c d : x ++ y = a ++ c :: d :: b ->
  (exists b', x = a ++ c :: d :: b') \/ (exists a', y = a' ++ c :: d :: b) \/ (x = a ++ [c] /\ y = d :: b).
Proof.
  intros E. destruct (app_eq_app _ _ _ _ E) as (l & [[-> E2]|[-> E2]]).
  - destruct l as [|l0 l]; [cbn in E2; right; left; exists []; symmetry; exact E2|]. injection E2 as <- E2.
    destruct l as [|l1 l]; [cbn in E2; right; right; split; [reflexivity|symmetry; exact E2]|]. injection E2 as <- E2. left. exists l. reflexivity.
  - right. left. exists l. exact E2.
Qed.
Lemma seq_shape a b x y : shape a x -> shape b y -> shape (Seq a b) (x ++ y).
Proof.
  intros [N1 F1 L1 P1] [N2 F2 L2 P2]. constructor; cbn [nullb firstb lastb pairb].
  - intros E. apply app_eq_nil in E as [-> ->]. rewrite N1, N2; reflexivity.
  - intros c t E. destruct x as [|x0 x]; [cbn in E; rewrite (N1 eq_refl), (F2 _ _ E); apply orb_true_r|]. injection E as -> _. rewrite (F1 _ _ eq_refl). reflexivity.
  - intros c t E. destruct (app_last _ _ _ _ E) as [[-> ->]|(t' & -> & ->)]; [rewrite (N2 eq_refl), (L1 _ _ eq_refl); apply orb_true_r|rewrite (L2 _ _ eq_refl); reflexivity].
  - intros u c d v E. destruct (app_pair _ _ _ _ _ _ E) as [(b' & ->)|[(a' & ->)|[-> ->]]].
    + rewrite (P1 _ _ _ _ eq_refl). reflexivity.
    + rewrite (P2 _ _ _ _ eq_refl), orb_true_r. reflexivity.
    + rewrite (L1 _ _ eq_refl), (F2 _ _ eq_refl), orb_true_r. reflexivity.
Qed.
Lemma M_shape r s rest : M r s rest -> shape r s.
Proof.
  induction 1.
  - constructor; cbn; intros; try reflexivity; try discriminate; destruct t + destruct a; discriminate.
  - constructor; cbn; intros; try reflexivity; try discriminate; destruct t + destruct a; discriminate.
  - constructor; cbn; intros; try discriminate.
    + injection H0 as <- _. exact H.
    + destruct t as [|? [|]]; [injection H0 as <-; exact H|discriminate|discriminate].
    + destruct a as [|? [|]]; discriminate.
  - apply seq_shape; assumption.
  - destruct IHM. constructor; cbn [nullb firstb lastb pairb]; intros; apply orb_true_iff; left; eauto.
  - destruct IHM. constructor; cbn [nullb firstb lastb pairb]; intros; apply orb_true_iff; right; eauto.
  - constructor; cbn; intros; try reflexivity; try discriminate; destruct t + destruct a0; discriminate.
  - destruct (seq_shape _ _ _ _ IHM1 IHM2) as [_ F L P]. cbn [nullb firstb lastb pairb] in F, L, P. constructor; cbn [nullb firstb lastb pairb].
    + reflexivity.
    + intros c t E. specialize (F _ _ E). apply orb_true_iff in F as [F|F]; [exact F|apply andb_true_iff in F; tauto].
    + intros c t E. specialize (L _ _ E). apply orb_true_iff in L as [L|L]; [exact L|apply andb_true_iff in L; tauto].
    + intros u c d v E. specialize (P _ _ _ _ E). destruct (pairb a c d), (lastb a c && firstb a d); try reflexivity; exact P.
Qed.

(** A match does not reach over a pair of neighbours that the expression does not allow. *)
Lemma match_stops r a c d b n : pairb r c d = false -> M r (firstn n (a ++ c :: d :: b)) (skipn n (a ++ c :: d :: b)) -> n <= S (length a).
Proof.
  intros P H. destruct (le_lt_dec n (S (length a))) as [L|L]; [exact L|exfalso].
  assert (E : firstn n (a ++ c :: d :: b) = a ++ c :: d :: firstn (n - S (S (length a))) b).
  { rewrite firstn_app, firstn_all2 by lia. f_equal. replace (n - length a) with (S (S (n - S (S (length a))))) by lia. reflexivity. }
  rewrite E in H. pose proof (sh_pair _ _ (M_shape _ _ _ H) _ _ _ _ eq_refl) as Q. congruence.
Qed.

(** All characters, to decide statements about them. *)
Definition chars : str := map ascii_of_nat (List.seq 0 256).
Lemma in_chars c : In c chars.
Proof. unfold chars. apply in_map_iff. exists (nat_of_ascii c). split; [apply ascii_nat_embedding|]. apply in_seq. pose proof (nat_ascii_bounded c). lia. Qed.
Lemma by_chars (P : ascii -> bool) : forallb P chars = true -> forall c, P c = true.
Proof. intros H c. rewrite forallb_forall in H. apply H, in_chars. Qed.
