(** The lexical elements of VhdlLexSpec.v one by one. *)
From Verif Require Import Base BaseFacts AstModel LitModel SvExprModel RegexModel RegexProofs RegexPairProofs PpLexProofs StrSpec PpSrcLexProofs VhdlExprModel VhdlSyntaxModel VhdlLexModel VhdlLexSpec VhdlLexProofs.

(** ** Characters *)
Lemma by_imp (P Q : ascii -> bool) : forallb (fun c => implb (P c) (Q c)) chars = true -> forall c, P c = true -> Q c = true.
Proof. intros H c HP. pose proof (by_chars _ H c) as G. cbn in G. rewrite HP in G. exact G. Qed.
Lemma digit_in c : digit c = true -> In c v_digits.
Proof. intros H. apply mem_c_In. revert c H. apply by_imp. vm_compute. reflexivity. Qed.
Lemma alnum_in c : alnum c = true -> In c (v_letters ++ v_digits).
Proof. intros H. apply mem_c_In. revert c H. apply by_imp. vm_compute. reflexivity. Qed.
Lemma letter_in c : letter c = true -> In c v_letters.
Proof. intros H. apply mem_c_In. revert c H. apply by_imp. vm_compute. reflexivity. Qed.
Lemma graphic_in c : graphic c = true -> c = dq \/ c = bs \/ In c graphic_chars.
Proof.
  intros H. assert (G : ceqb c dq || ceqb c bs || mem_c c graphic_chars = true) by (revert c H; apply by_imp; vm_compute; reflexivity).
  apply orb_true_iff in G as [G|G]; [apply orb_true_iff in G as [G|G]; apply ceqb_eq in G; auto|apply mem_c_In in G; auto].
Qed.
Lemma small_same c : small c = to_small c.
Proof. apply Ascii.eqb_eq. revert c. apply by_chars. vm_compute. reflexivity. Qed.
Lemma alnum_word c : alnum c = true -> in_word c = true.
Proof. intros H. unfold in_word. rewrite H. reflexivity. Qed.

(** ** Runs *)
Section Runs.
Context (P : ascii -> bool) (cs : str) (PC : forall c, P c = true -> In c cs).
Definition item : re := Seq (Opt UNDERSCOREv) (one cs).
Lemma item_one c rest : P c = true -> M item [c] rest.
Proof. intros H. change [c] with ([] ++ [c]). constructor; [apply M_AltR; constructor|apply M_one; eauto]. Qed.
Lemma item_under c rest : P c = true -> M item ["_"%char; c] rest.
Proof. intros H. change ["_"%char; c] with (["_"%char] ++ [c]). constructor; [apply M_AltL; apply M_one; eexists; split; [reflexivity|left; reflexivity]|apply M_one; eauto]. Qed.
Lemma run_star s : run P s -> forall rest, M (Star item) s rest /\ M (Star item) ("_"%char :: s) rest.
Proof.
  induction 1 as [c H|c s H _ IH|c s H _ IH]; intros rest.
  - split; [change [c] with ([c] ++ [])|change ["_"%char; c] with (["_"%char; c] ++ [])]; (apply M_StarS; [discriminate|(apply item_one || apply item_under); exact H|constructor]).
  - destruct (IH rest) as [A B]. split; [change (c :: s) with ([c] ++ s)|change ("_"%char :: c :: s) with (["_"%char; c] ++ s)]; (apply M_StarS; [discriminate|(apply item_one || apply item_under); exact H|exact A]).
  - destruct (IH rest) as [A B]. split; [change (c :: "_"%char :: s) with ([c] ++ ("_"%char :: s))|change ("_"%char :: c :: "_"%char :: s) with (["_"%char; c] ++ ("_"%char :: s))]; (apply M_StarS; [discriminate|(apply item_one || apply item_under); exact H|exact B]).
Qed.
Lemma run_tail c s : run P (c :: s) -> forall rest, M (Star item) s rest.
Proof.
  intros H rest. inversion H; subst; [constructor|apply run_star; assumption|apply (run_star s0); assumption].
Qed.
Lemma run_M s rest : run P s -> M (under (one cs)) s rest.
Proof.
  intros H. unfold under. destruct s as [|c s]; [inversion H|]. change (c :: s) with ([c] ++ s). constructor; [apply M_one; exists c; split; [reflexivity|apply PC; inversion H; assumption]|]. apply (run_tail c). exact H.
Qed.
Lemma run_last s : run P s -> exists t x, s = t ++ [x] /\ P x = true.
Proof.
  induction 1 as [c H|c s H _ (t & x & -> & Hx)|c s H _ (t & x & -> & Hx)].
  - exists [], c. auto.
  - exists (c :: t), x. auto.
  - exists (c :: "_"%char :: t), x. auto.
Qed.
Lemma run_hd s : run P s -> exists c t, s = c :: t /\ P c = true.
Proof. destruct 1; eauto. Qed.
Lemma run_all s : run P s -> Forall (fun c => P c = true \/ c = "_"%char) s.
Proof. induction 1; apply Forall_cons; auto. Qed.
End Runs.
Lemma integer_M i rest : integer i -> M INTEGERv i rest.
Proof. apply run_M, digit_in. Qed.
Lemma based_M i rest : run alnum i -> M BASED_INTEGER i rest.
Proof. apply run_M, alnum_in. Qed.
Lemma exponent_M e rest : exponent e -> M EXPONENT e rest.
Proof.
  destruct 1 as [e i He Hi|e g i He Hg Hi].
  - apply M_AltL. cbn [Seqs]. change (e :: i) with ([e] ++ [] ++ i). constructor; [apply M_one; eauto|]. constructor; [apply M_AltR; constructor|apply integer_M; exact Hi].
  - destruct Hg as [<-|[<-|[]]]; [apply M_AltL|apply M_AltR]; cbn [Seqs].
    + change (e :: "+"%char :: i) with ([e] ++ ["+"%char] ++ i). constructor; [apply M_one; eauto|]. constructor; [apply M_AltL, M_one; eexists; split; [reflexivity|left; reflexivity]|apply integer_M; exact Hi].
    + change (e :: "-"%char :: i) with ([e] ++ ["-"%char] ++ i). constructor; [apply M_one; eauto|]. constructor; [apply M_one; eexists; split; [reflexivity|left; reflexivity]|apply integer_M; exact Hi].
Qed.
Lemma exponent_last e : exponent e -> exists t x, e = t ++ [x] /\ digit x = true.
Proof. destruct 1 as [e i He Hi|e g i He Hg Hi]; destruct (run_last _ _ Hi) as (t & x & -> & Hx); [exists (e :: t), x|exists (e :: g :: t), x]; auto. Qed.
Lemma fraction_M (P : str -> Prop) r f : (forall i rest, P i -> M r i rest) -> fraction P f -> forall rest, M (Seq (one $".") r) f rest.
Proof. intros HP (i & -> & Hi) rest. change ("."%char :: i) with (["."%char] ++ i). constructor; [apply M_one; eexists; split; [reflexivity|left; reflexivity]|apply HP; exact Hi]. Qed.
Lemma opt_M (P : str -> Prop) r f : (forall i rest, P i -> M r i rest) -> optional P f -> forall rest, M (Opt r) f rest.
Proof. intros HP [->|H] rest; [apply M_AltR; constructor|apply M_AltL, HP, H]. Qed.

Lemma decimal_M i f e rest : integer i -> optional (fraction integer) f -> optional exponent e -> M DECIMAL_LITERAL (i ++ f ++ e) rest.
Proof.
  intros Hi Hf He. unfold DECIMAL_LITERAL. cbn [Seqs]. constructor; [apply integer_M; exact Hi|]. constructor; [|apply (opt_M exponent); [apply exponent_M|exact He]].
  apply (opt_M (fraction integer)); [|exact Hf]. intros j r0 Hj. apply (fraction_M integer); [apply integer_M|exact Hj].
Qed.
Lemma decimal_last i f e : integer i -> optional (fraction integer) f -> optional exponent e -> exists t x, i ++ f ++ e = t ++ [x] /\ digit x = true.
Proof.
  intros Hi Hf [->|He].
  - rewrite app_nil_r. destruct Hf as [->|(j & -> & Hj)].
    + rewrite app_nil_r. exact (run_last _ _ Hi).
    + destruct (run_last _ _ Hj) as (t & x & -> & Hx). exists (i ++ "."%char :: t), x. rewrite <- app_assoc. auto.
  - destruct (exponent_last _ He) as (t & x & -> & Hx). exists (i ++ f ++ t), x. rewrite <- !app_assoc. auto.
Qed.
Lemma basedlit_M i d f e rest : integer i -> run alnum d -> optional (fraction (run alnum)) f -> optional exponent e -> M BASED_LITERAL (i ++ "#"%char :: d ++ f ++ "#"%char :: e) rest.
Proof.
  intros Hi Hd Hf He. unfold BASED_LITERAL. cbn [Seqs]. constructor; [apply integer_M; exact Hi|]. apply (M_Seq _ _ ["#"%char]); [apply M_one; eexists; split; [reflexivity|left; reflexivity]|].
  constructor; [apply based_M; exact Hd|]. constructor; [apply (opt_M (fraction (run alnum))); [|exact Hf]; intros j r0 Hj; apply (fraction_M (run alnum)); [apply based_M|exact Hj]|].
  apply (M_Seq _ _ ["#"%char]); [apply M_one; eexists; split; [reflexivity|left; reflexivity]|]. apply (opt_M exponent); [apply exponent_M|exact He].
Qed.
Definition num_end (x : ascii) : bool := digit x || ceqb x "#".
Lemma based_last i d f e : optional exponent e -> exists t x, i ++ "#"%char :: d ++ f ++ "#"%char :: e = t ++ [x] /\ num_end x = true.
Proof.
  intros [->|He].
  - exists (i ++ "#"%char :: d ++ f), "#"%char. rewrite <- app_assoc. cbn [app]. rewrite <- app_assoc. auto.
  - destruct (exponent_last _ He) as (t & x & -> & Hx). exists (i ++ "#"%char :: d ++ f ++ "#"%char :: t), x. split; [|unfold num_end; rewrite Hx; reflexivity].
    repeat (rewrite <- app_assoc; cbn [app]). reflexivity.
Qed.

(** ** Bit strings *)
Lemma M_ci k : forall t rest, M (ci k) t rest <-> Forall2 (fun x c => x = c \/ x = to_capital c) t k.
Proof.
  induction k as [|c k IH]; intros t rest; cbn [ci fold_right].
  - rewrite M_Eps_iff. split; [intros ->; constructor|intros H; inversion H; reflexivity].
  - fold (ci k). rewrite M_Seq_iff. split.
    + intros (x & y & -> & H1 & H2). apply M_one in H1 as (d & -> & [<-|[<-|[]]]); constructor; auto; apply (IH y rest); exact H2.
    + intros H. inversion H as [|x c' t' k' H1 H2 E1 E2]; subst. exists [x], t'. split; [reflexivity|]. split; [apply M_one; exists x; split; [reflexivity|destruct H1 as [->| ->]; cbn; auto]|apply IH; exact H2].
Qed.
Lemma cap_small c x : small_letter c = true -> (x = c \/ x = to_capital c) <-> small x = c.
Proof.
  intros H. split.
  - intros [->| ->]; apply Ascii.eqb_eq; revert c H; apply by_imp; vm_compute; reflexivity.
  - intros <-. assert (G : Ascii.eqb x (small x) || Ascii.eqb x (to_capital (small x)) = true).
    { clear H. revert x. apply by_chars. vm_compute. reflexivity. }
    apply orb_true_iff in G as [G|G]; apply Ascii.eqb_eq in G; auto.
Qed.
Lemma M_ci_small k t rest : forallb small_letter k = true -> M (ci k) t rest <-> map small t = k.
Proof.
  intros H. rewrite M_ci. revert t. induction k as [|c k IH]; intros t.
  - split; [intros F; inversion F; reflexivity|intros E; destruct t; [constructor|discriminate]].
  - cbn [forallb] in H. apply andb_true_iff in H as [H1 H2]. split.
    + intros F. inversion F as [|x c' t' k' F1 F2 E1 E2]; subst. cbn [map]. f_equal; [apply cap_small; assumption|apply IH; assumption].
    + intros E. destruct t as [|x t]; [discriminate|]. cbn [map] in E. injection E as E1 E2. constructor; [apply cap_small; assumption|apply IH; assumption].
Qed.
Lemma base_M b rest : M BASE_SPECIFIER b rest <-> In (map small b) bases.
Proof.
  unfold BASE_SPECIFIER, bases. cbn [Alts]. rewrite !M_Alt_iff. rewrite !M_ci_small by reflexivity. cbn [In]. split.
  - intros H. repeat (destruct H as [H|H]); rewrite H; auto 12.
  - intros H. repeat (destruct H as [H|H]; [rewrite <- H; auto 12|]). contradiction.
Qed.
Lemma base_word b : In (map small b) bases -> Forall (fun c => in_word c = true) b /\ exists c b', b = c :: b' /\ letter c = true.
Proof.
  assert (L : forall x, small_letter (small x) = true -> letter x = true) by (apply (by_imp (fun x => small_letter (small x)) letter); vm_compute; reflexivity).
  assert (W : forall x, letter x = true -> in_word x = true) by (intros x Hx; apply alnum_word; unfold alnum; rewrite Hx; reflexivity).
  assert (S : forall s, forallb small_letter (map small s) = true -> Forall (fun x => letter x = true) s).
  { induction s as [|x s IH]; intros H; [constructor|]. cbn [map forallb] in H. apply andb_true_iff in H as [H1 H2]. constructor; [apply L; exact H1|apply IH; exact H2]. }
  intros H. assert (A : forallb small_letter (map small b) = true /\ map small b <> []).
  { unfold bases in H. cbn [In] in H. repeat (destruct H as [<-|H]; [split; [reflexivity|discriminate]|]). contradiction. }
  destruct A as [A N]. apply S in A. split; [eapply Forall_impl; [|exact A]; intros x Hx; apply W; exact Hx|].
  destruct b as [|c b]; [destruct N; reflexivity|]. exists c, b. split; [reflexivity|]. exact (Forall_inv A).
Qed.
(** the form of a match of an integer *)
Lemma M_under_all cs t rest : M (under (one cs)) t rest -> t <> [] /\ Forall (fun c => In c cs \/ c = "_"%char) t.
Proof.
  unfold under. intros H. apply M_Seq_iff in H as (x & y & -> & H1 & H2). apply M_one in H1 as (c & -> & Hc). split; [discriminate|]. constructor; [auto|].
  revert y rest H2. apply (M_Star_ind _ (fun y _ => Forall (fun c => In c cs \/ c = "_"%char) y)); [constructor|]. intros x y rest _ H _ IH. apply Forall_app. split; [|exact IH].
  apply M_Seq_iff in H as (u & v & -> & Hu & Hv). apply M_one in Hv as (d & -> & Hd). apply Forall_app. split; [|apply Forall_cons; [auto|constructor]].
  apply M_Alt_iff in Hu as [Hu|Hu]; [apply M_one in Hu as (d' & -> & [<-|[]]); apply Forall_cons; [auto|constructor]|apply M_Eps_iff in Hu as ->; constructor].
Qed.
Lemma bits_shape t rest : M BIT_STRING_LITERAL t rest -> exists i b c, t = (i ++ b) ++ dq :: c ++ [dq] /\ (i = [] \/ exists x i', i = x :: i' /\ digit x = true) /\ Forall (fun c => in_word c = true) (i ++ b) /\ In (map small b) bases /\ Forall (fun c => In c graphic_chars) c.
Proof.
  unfold BIT_STRING_LITERAL. cbn [Seqs]. intros H. apply M_Seq_iff in H as (i & y & -> & Hi & H). apply M_Seq_iff in H as (b & y2 & -> & Hb & H). apply M_Seq_iff in H as (q & y3 & -> & Hq & H).
  apply M_one in Hq as (q' & -> & [<-|[]]). apply M_Seq_iff in H as (c & q & -> & Hc & Hq). apply M_one in Hq as (q' & -> & [<-|[]]). apply base_M in Hb.
  exists i, b, c. split; [rewrite <- app_assoc; reflexivity|]. split; [|split; [|split; [exact Hb|]]].
  - apply M_Alt_iff in Hi as [Hi|Hi]; [right|left; apply M_Eps_iff in Hi; exact Hi]. unfold INTEGERv, under in Hi. apply M_Seq_iff in Hi as (u & v & -> & Hu & _). apply M_one in Hu as (x & -> & Hx).
    exists x, v. split; [reflexivity|]. assert (D : forallb digit v_digits = true) by reflexivity. rewrite forallb_forall in D. apply D. exact Hx.
  - apply Forall_app. split; [|apply base_word; exact Hb]. apply M_Alt_iff in Hi as [Hi|Hi]; [|apply M_Eps_iff in Hi as ->; constructor]. apply M_under_all in Hi as [_ Hi]. eapply Forall_impl; [|exact Hi].
    intros x [Hx|Hx]; [|rewrite Hx; reflexivity]. assert (D : forallb in_word v_digits = true) by reflexivity. rewrite forallb_forall in D. apply D. exact Hx.
  - apply M_Alt_iff in Hc as [Hc|Hc]; [|apply M_Eps_iff in Hc as ->; constructor]. apply M_Seq_iff in Hc as (u & v & -> & Hu & Hv). apply M_one in Hu as (x & -> & Hx). constructor; [exact Hx|].
    refine (M_Star_ind _ (fun y _ => Forall (fun c => In c graphic_chars) y) _ _ _ _ Hv); [intros; constructor|]. clear.
    intros x y rest _ H _ IH. apply Forall_app. split; [|exact IH]. apply M_Seq_iff in H as (u & v & -> & Hu & Hv). apply M_one in Hv as (d & -> & Hd). apply Forall_app. split; [|apply Forall_cons; [exact Hd|constructor]].
    apply M_Alt_iff in Hu as [Hu|Hu]; [apply M_one in Hu as (d' & -> & [<-|[]]); apply Forall_cons; [apply mem_c_In; reflexivity|constructor]|apply M_Eps_iff in Hu as ->; constructor].
Qed.
