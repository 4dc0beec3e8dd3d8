From Verif Require Import Base BaseFacts AstModel OpModel OpSpec StmModel SvExprModel SvExprProofs SvInstProofs SvDeclProofs PyModel PySpec PyProofs.

Ltac hsplit H := repeat match type of H with (_ && _ = true) => let X := fresh "X" in apply andb_prop in H as [H X] end.
Lemma exprs_ok l : forallb sendable l = true -> exists ps, mapM py_expr l = Ok ps /\ Forall2 shows ps l.
Proof. apply (mapM_shows py_expr sendable). apply Forall_forall. intros x _. apply expr_shown. Qed.
Definition py_branch (p : expr * stm) : outcome pyval := match p with (c, b) => x <- py_expr c ;; y <- py_stm b ;; Ok (PTuple [x; y]) end.
Lemma branches_ok l : Forall (fun p => sendable_stm (snd p) = true -> exists q, py_stm (snd p) = Ok q /\ says q (snd p)) l ->
  forallb (fun p => match p with (e, b) => sendable e && sendable_stm b end) l = true -> exists ps, mapM py_branch l = Ok ps /\ Forall2 branch ps l.
Proof.
  intros F. apply mapM_shows. eapply Forall_impl; [|exact F]. intros [e b] IH H. cbn [snd] in IH. hsplit H.
  destruct (expr_shown e H) as (x & Hx & Sx), (IH X) as (y & Hy & Sy). exists (PTuple [x; y]). unfold py_branch. rewrite Hx. cbn [bind]. rewrite Hy. cbn [bind].
  split; [reflexivity|]. econstructor; [reflexivity|exact Sx|exact Sy].
Qed.
Lemma says_not_none s p : says p s -> not_none s = true -> p <> PNone.
Proof.
  intros H N E. subst p. inversion H; subst; try discriminate.
  - match goal with S : shows PNone _ |- _ => inversion S; subst; try discriminate end.
  - match goal with S : defines PNone _ |- _ => destruct S as [S _]; discriminate end.
Qed.
Lemma sendable_not_null s m : sendable_stm s = true -> not_null s m = m.
Proof. destruct s; try reflexivity. discriminate. Qed.
Ltac fields := repeat first [apply Forall_nil | apply Forall_cons; [cbn; reflexivity|]].
Ltac hd HK := apply HK; fields.
Ltac notin := cbn [In hdr_fields]; intros N; repeat (destruct N as [N|N]); try discriminate; try contradiction.
Theorem stm_said s : sendable_stm s = true -> exists p, py_stm s = Ok p /\ says p s.
Proof.
  induction s as [h|h e|h d sr td ed bl|h c t l f IHt IHl IHf|h u k e l f IHl IHf|h c b IHb|h b c IHb|h i c st b IHi IHs IHb|h l c b IHl IHb|h n b IHb|h j l IHl|h se t b IHb|h l|h e|h|h|d|] using stm_ind';
    cbn [sendable_stm py_stm]; intros H; fold py_branch.
  - destruct (hdr_ok h H) as (k & E & HK & NK). rewrite E. cbn [bind]. eexists. split; [reflexivity|]. constructor; [reflexivity|]. apply (HK _ []). fields.
  - hsplit H. destruct (expr_shown e X) as (p & Hp & Sp). rewrite Hp. exists p. split; [reflexivity|].
    destruct h as [[|] [|] [|] [|]]; try discriminate. constructor. exact Sp.
  - hsplit H. destruct (expr_shown sr X1) as (x & Hx & Sx), (expr_shown d X2) as (y & Hy & Sy), (hdr_ok h H) as (k & E & HK & NK).
    rewrite Hx, Hy. cbn [decref_null bind].
    assert (T : exists v, match td with Some e => decref_null (py_expr e) | None => Ok PNone end = Ok v /\ maybe v td).
    { destruct td as [e|]; [|exists PNone; split; reflexivity]. destruct (value_ok e X0) as (v & Hv & Sv). rewrite Hv. exists v. split; [reflexivity|exact Sv]. }
    destruct T as (v & Hv & Sv). rewrite Hv. cbn [bind].
    assert (D : exists w, match ed with Some (a :: l) => r <- mapM py_expr (a :: l) ;; Ok [("event_delay" ~> PList r)] | _ => Ok [] end = Ok w
      /\ match ed with None => w = [] | Some l => l <> [] /\ exists ps, w = [("event_delay" ~> PList ps)] /\ Forall2 shows ps l end).
    { destruct ed as [[|a l]|]; [discriminate| |exists []; split; reflexivity]. destruct (exprs_ok (a :: l) X) as (ps & Hp & Fp). rewrite Hp. cbn [bind].
      eexists. split; [reflexivity|]. split; [discriminate|]. exists ps. split; [reflexivity|exact Fp]. }
    destruct D as (w & Hw & Sw). rewrite Hw. cbn [bind]. rewrite E. cbn [bind]. eexists. split; [reflexivity|].
    assert (W : w = [] /\ ed = None \/ exists l ps, ed = Some l /\ l <> [] /\ w = [("event_delay" ~> PList ps)] /\ Forall2 shows ps l).
    { destruct ed as [l|]; [right; destruct Sw as (N & ps & -> & F); exists l, ps; auto|left; auto]. }
    constructor; try reflexivity; try exact Sx; try exact Sy; try exact Sv.
    + rewrite (app_assoc _ _ (_ ++ k)), (app_assoc _ _ k). apply HK. destruct W as [[-> ->]|(l & ps & -> & _ & -> & _)]; fields.
    + destruct W as [[-> ->]|(l & ps & -> & N & -> & F)]; [|split; [exact N|exists ps; split; [reflexivity|exact F]]].
      cbn [app]. rewrite attr_obj. cbn [assoc String.eqb Ascii.eqb Bool.eqb]. rewrite NK; [reflexivity|notin].
    + unfold flag. destruct W as [[-> ->]|(l & ps & -> & N & -> & F)]; reflexivity.
  - hsplit H. destruct (expr_shown c X2) as (x & Hx & Sx), (IHt X1) as (y & Hy & Sy), (branches_ok l IHl X0) as (ps & Hp & Fp), (hdr_ok h H) as (k & E & HK & NK).
    rewrite Hx. cbn [bind]. rewrite Hy. cbn [bind]. fold py_branch. change (mapM _ l) with (mapM py_branch l). rewrite Hp. cbn [bind].
    destruct f as [b|].
    + hsplit X. destruct (IHf b eq_refl X) as (v & Hv & Sv). rewrite Hv. cbn [bind]. rewrite E. cbn [bind]. eexists. split; [reflexivity|].
      eapply sy_if; try exact eq_refl; try eassumption.
      * rewrite (app_assoc _ _ k). hd HK.
      * constructor; [exact Sv|]. eapply says_not_none; eassumption.
    + cbn [bind]. rewrite E. cbn [bind]. eexists. split; [reflexivity|]. eapply sy_if; try exact eq_refl; try eassumption.
      * cbn [app]. hd (HK "HdlStmIf"%string [("cond" ~> x); ("if_true" ~> y); ("elifs" ~> PList ps)]).
      * rewrite attr_obj. cbn [app assoc String.eqb Ascii.eqb Bool.eqb]. rewrite NK by notin. constructor.
  - hsplit H. destruct (expr_shown e X1) as (x & Hx & Sx), (branches_ok l IHl X0) as (ps & Hp & Fp), (hdr_ok h H) as (q & E & HK & NK).
    rewrite Hx. cbn [bind]. change (mapM _ l) with (mapM py_branch l). rewrite Hp. cbn [bind].
    destruct f as [b|].
    + hsplit X. destruct (IHf b eq_refl X) as (v & Hv & Sv). rewrite Hv. cbn [bind]. rewrite E. cbn [bind]. eexists. split; [reflexivity|].
      eapply sy_case with (ps := ps); try (destruct u; exact eq_refl); try (destruct u; exact Sx); try exact Fp.
      * rewrite !app_assoc. apply HK. destruct u; fields.
      * destruct u; try reflexivity. rewrite attr_obj. cbn [app py_uniq assoc String.eqb Ascii.eqb Bool.eqb]. rewrite NK by notin. reflexivity.
      * assert (A : attr (PObj "HdlStmCase" (py_uniq u ++ [("type" ~> py_case_type k); ("switch_on" ~> x); ("cases" ~> PList ps)] ++ [("default" ~> v)] ++ q)) "default" = v) by (destruct u; reflexivity).
        rewrite A. constructor; [exact Sv|]. eapply says_not_none; eassumption.
    + cbn [bind]. rewrite E. cbn [bind]. eexists. split; [reflexivity|].
      eapply sy_case with (ps := ps); try (destruct u; exact eq_refl); try (destruct u; exact Sx); try exact Fp.
      * rewrite !app_assoc. apply HK. destruct u; fields.
      * destruct u; try reflexivity. rewrite attr_obj. cbn [app py_uniq assoc String.eqb Ascii.eqb Bool.eqb]. rewrite NK by notin. reflexivity.
      * assert (A : attr (PObj "HdlStmCase" (py_uniq u ++ [("type" ~> py_case_type k); ("switch_on" ~> x); ("cases" ~> PList ps)] ++ [] ++ q)) "default" = PNone).
        { rewrite attr_obj. destruct u; cbn [app py_uniq assoc String.eqb Ascii.eqb Bool.eqb]; rewrite NK by notin; reflexivity. }
        rewrite A. constructor.
  - hsplit H. destruct (expr_shown c X0) as (x & Hx & Sx), (IHb X) as (y & Hy & Sy), (hdr_ok h H) as (k & E & HK & NK). rewrite Hx. cbn [bind].
    rewrite sendable_not_null by exact X. rewrite Hy. cbn [bind]. rewrite E. cbn [bind]. eexists. split; [reflexivity|]. constructor; try reflexivity; try assumption. hd HK.
  - discriminate.
  - hsplit H. destruct (IHi X2) as (v & Hv & Sv), (expr_shown c X1) as (x & Hx & Sx), (IHs X0) as (w & Hw & Sw), (IHb X) as (y & Hy & Sy), (hdr_ok h H) as (k & E & HK & NK).
    rewrite !sendable_not_null by assumption. rewrite Hv. cbn [bind]. rewrite Hx. cbn [bind]. rewrite Hw. cbn [bind]. rewrite Hy. cbn [bind]. rewrite E. cbn [bind].
    eexists. split; [reflexivity|]. constructor; try reflexivity; try assumption. hd HK.
  - hsplit H. destruct (mapM_shows py_stm sendable_stm says l IHl X1) as (ps & Hp & Fp), (expr_shown c X0) as (x & Hx & Sx), (IHb X) as (y & Hy & Sy), (hdr_ok h H) as (k & E & HK & NK).
    rewrite Hp. cbn [bind]. rewrite Hx. cbn [bind]. rewrite Hy. cbn [bind]. rewrite E. cbn [bind]. eexists. split; [reflexivity|]. econstructor; try exact eq_refl; try eassumption. hd HK.
  - hsplit H. destruct (expr_shown n X0) as (x & Hx & Sx), (IHb X) as (y & Hy & Sy), (hdr_ok h H) as (k & E & HK & NK). rewrite Hx. cbn [bind]. rewrite Hy. cbn [bind]. rewrite E. cbn [bind].
    eexists. split; [reflexivity|]. constructor; try reflexivity; try assumption. hd HK.
  - hsplit H. destruct (mapM_shows py_stm sendable_stm says l IHl X) as (ps & Hp & Fp), (hdr_ok h H) as (k & E & HK & NK). rewrite Hp. cbn [bind]. rewrite E. cbn [bind].
    eexists. split; [reflexivity|]. eapply sy_block; try reflexivity; try exact Fp. hd HK.
  - hsplit H. destruct (IHb X) as (y & Hy & Sy), (hdr_ok h H) as (k & E & HK & NK). rewrite sendable_not_null by exact X.
    destruct se as [l|]; cbn [opt_all] in X0.
    + destruct (exprs_ok l X0) as (ps & Hp & Fp). rewrite Hp. cbn [bind]. rewrite Hy. cbn [bind]. rewrite E. cbn [bind]. eexists. split; [reflexivity|].
      constructor; try (destruct t; exact eq_refl); try (destruct t; exact Sy).
      * rewrite !app_assoc. apply HK. destruct t; fields.
      * exists ps. split; [destruct t; reflexivity|exact Fp].
      * destruct t; try reflexivity. rewrite attr_obj. cbn [app py_trigger assoc String.eqb Ascii.eqb Bool.eqb]. rewrite NK by notin. reflexivity.
    + cbn [bind]. rewrite Hy. cbn [bind]. rewrite E. cbn [bind]. eexists. split; [reflexivity|].
      constructor; try (destruct t; exact eq_refl); try (destruct t; exact Sy).
      * cbn [app]. change (("body" ~> y) :: k) with ([("body" ~> y)] ++ k). rewrite !app_assoc. apply HK. destruct t; fields.
      * rewrite attr_obj. destruct t; cbn [app py_trigger assoc String.eqb Ascii.eqb Bool.eqb]; rewrite NK by notin; reflexivity.
      * destruct t; try reflexivity. rewrite attr_obj. cbn [app py_trigger assoc String.eqb Ascii.eqb Bool.eqb]. rewrite NK by notin. reflexivity.
  - hsplit H. destruct (exprs_ok l X) as (ps & Hp & Fp), (hdr_ok h H) as (k & E & HK & NK). rewrite Hp. cbn [bind]. rewrite E. cbn [bind]. eexists. split; [reflexivity|].
    constructor; [reflexivity|hd HK|]. exists ps. split; [reflexivity|exact Fp].
  - hsplit H. destruct (hdr_ok h H) as (k & E & HK & NK). destruct e as [e|]; cbn [opt_all py_opt] in *.
    + destruct (value_ok e X) as (x & Hx & Sx). rewrite Hx. cbn [bind]. rewrite E. cbn [bind]. eexists. split; [reflexivity|]. constructor; [reflexivity|hd HK|exact Sx].
    + cbn [bind]. rewrite E. cbn [bind]. eexists. split; [reflexivity|]. constructor; [reflexivity|apply (HK _ []); fields|].
      cbn [maybe app]. rewrite attr_obj. rewrite NK by notin. reflexivity.
  - destruct (hdr_ok h H) as (k & E & HK & NK). rewrite E. cbn [bind]. eexists. split; [reflexivity|]. constructor; [reflexivity|]. apply (HK _ []). fields.
  - destruct (hdr_ok h H) as (k & E & HK & NK). rewrite E. cbn [bind]. eexists. split; [reflexivity|]. constructor; [reflexivity|]. apply (HK _ []). fields.
  - destruct (def_ok d H) as (p & Hp & Sp). exists p. split; [exact Hp|constructor; exact Sp].
  - discriminate.
Qed.

(** ** One object, one statement *)
Lemma shows_cls p e : shows p e -> In (cls p) [None; Some "HdlValueId"; Some "HdlValueInt"; Some "HdlExprNotImplemented"; Some "HdlOp"]%string.
Proof. intros H. inversion H; subst; repeat match goal with C : cls _ = _ |- _ => rewrite C end; cbn [cls In]; tauto. Qed.
Ltac not_value := match goal with S : shows ?p _ |- _ => pose proof (shows_cls _ _ S) as N; repeat match goal with C : cls p = _ |- _ => rewrite C in N end;
  cbn [In] in N; exfalso; repeat (destruct N as [N|N]); try discriminate; contradiction end.
Lemma branch_det l1 : Forall (fun q => forall p s2, says p (snd q) -> says p s2 -> snd q = s2) l1 -> forall ps l2, Forall2 branch ps l1 -> Forall2 branch ps l2 -> l1 = l2.
Proof.
  intros F. apply Forall2_det. eapply Forall_impl; [|exact F]. intros [e s] IH p [e2 s2] H1 H2. inversion H1; subst. inversion H2; subst. match goal with E : PTuple _ = PTuple _ |- _ => injection E as -> -> end.
  cbn [snd] in IH. f_equal; [eapply shows_det; eassumption|eapply IH; eassumption].
Qed.
Lemma says_opt_det f : (forall b, f = Some b -> forall p s2, says p b -> says p s2 -> b = s2) -> forall p g, says_opt p f -> says_opt p g -> f = g.
Proof. intros IH p g H1 H2. inversion H1; subst; inversion H2; subst; try reflexivity; try contradiction. f_equal. eapply IH; [reflexivity|eassumption|eassumption]. Qed.
Lemma sequence_shows_det o a b : sequence shows o a -> sequence shows o b -> a = b.
Proof. apply sequence_det. intros p x y. apply shows_det. Qed.
Ltac clash := exfalso; repeat match goal with D : defines _ _ |- _ => destruct D as [D _] end; congruence.
Theorem says_det s1 : forall p s2, says p s1 -> says p s2 -> s1 = s2.
Proof.
  induction s1 as [h|h e|h d sr td ed bl|h c t l f IHt IHl IHf|h u k e l f IHl IHf|h c b IHb|h b c IHb|h i c st b IHi IHs IHb|h l c b IHl IHb|h n b IHb|h j l IHl|h se t b IHb|h l|h e|h|h|d|] using stm_ind';
    intros p s2 H1 H2; inversion H1; subst; clear H1; inversion H2; subst; clear H2; try solve [clash]; try solve [not_value];
    try match goal with D : defines _ _ |- _ => let C := fresh in pose proof D as [C _]; solve [not_value] end;
    repeat match goal with A : attr ?p ?f = PList _, B : attr ?p ?f = PList _ |- _ => rewrite A in B; injection B as <- end; f_equal;
    try (eapply header_det; eassumption); try (eapply shows_det; eassumption); try (eapply maybe_det; eassumption); try (eapply sequence_shows_det; eassumption);
    try (eapply branch_det; eassumption); try (eapply says_opt_det; eassumption); try (eapply defines_det; eassumption);
    try match goal with IH : forall p s2, says p ?b -> _ |- ?b = _ => eapply IH; eassumption end; try (unfold flag in *; congruence); try (eapply Forall2_det; eassumption).
  - destruct ed as [l|], ed0 as [l0|]; try reflexivity.
    + f_equal. eapply sequence_shows_det; [apply H13|apply H5].
    + destruct H13 as (_ & ps & E & _). congruence.
    + destruct H5 as (_ & ps & E & _). congruence.
  - destruct u, u0; try reflexivity; cbn [uniq_name member] in *; congruence.
  - destruct k, k0; try reflexivity; cbn [case_name] in *; congruence.
  - destruct j, j0; try reflexivity; cbn [join_name] in *; congruence.
  - destruct se as [l|], se0 as [l0|]; try reflexivity.
    + f_equal. eapply sequence_shows_det; eassumption.
    + match goal with Q : sequence _ _ _ |- _ => destruct Q as (ps & E & _) end. congruence.
    + match goal with Q : sequence _ _ _ |- _ => destruct Q as (ps & E & _) end. congruence.
  - destruct t, t0; try reflexivity; cbn [trigger_name member] in *; congruence.
Qed.
