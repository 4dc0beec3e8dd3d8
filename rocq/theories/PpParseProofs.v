(** Facts about the parser model: it never runs out of fuel, what it leaves is a suffix of its
    input, and the tokens in the tree are tokens of the input. *)
From Verif Require Import Base BaseFacts RegexModel PpLexerModel PpLexProofs LexSafeProofs PpParserModel.

Ltac triv := first [exact I|reflexivity].

Definition suffix (r ts : list token) : Prop := exists pre, ts = pre ++ r.
Lemma suffix_refl ts : suffix ts ts.
Proof. exists []; reflexivity. Qed.
Lemma suffix_trans a b c : suffix a b -> suffix b c -> suffix a c.
Proof. intros (p & ->) (q & ->). exists (q ++ p). apply app_assoc. Qed.
Lemma suffix_cons t r ts : suffix r ts -> suffix r (t :: ts).
Proof. intros (p & ->). exists (t :: p). reflexivity. Qed.
Lemma suffix_len r ts : suffix r ts -> length r <= length ts.
Proof. intros (p & ->). rewrite app_length. lia. Qed.
Lemma suffix_Forall (P : token -> Prop) r ts : suffix r ts -> Forall P ts -> Forall P r.
Proof. intros (p & ->) H. apply Forall_app in H. apply H. Qed.
Lemma suffix_tail t r : suffix r (t :: r). Proof. exists [t]; reflexivity. Qed.

Lemma next_suffix ts t r : next ts = Some (t, r) -> exists pre, ts = pre ++ t :: r
  /\ Forall (fun x => is_default x = false) pre /\ is_default t = true.
Proof.
  induction ts as [|x ts IH]; cbn [next]; [discriminate|].
  destruct (is_default x) eqn:E; intros H.
  - inversion H; subst. exists []. auto.
  - destruct (IH H) as (pre & -> & F & D). exists (x :: pre). auto.
Qed.
Lemma next_lt ts t r : next ts = Some (t, r) -> length r < length ts.
Proof. intros H. apply next_suffix in H as (pre & -> & _). rewrite app_length. cbn. lia. Qed.
Lemma next_suf ts t r : next ts = Some (t, r) -> suffix r ts.
Proof. intros H. apply next_suffix in H as (pre & -> & _). exists (pre ++ [t]). rewrite <- app_assoc. reflexivity. Qed.
Lemma next_In ts t r : next ts = Some (t, r) -> In t ts.
Proof. intros H. apply next_suffix in H as (pre & -> & _). apply in_or_app. right. left. reflexivity. Qed.
Lemma next_None_all ts : next ts = None -> Forall (fun x => is_default x = false) ts.
Proof.
  induction ts as [|x ts IH]; cbn [next]; [constructor|]. destruct (is_default x) eqn:E; [discriminate|]. auto.
Qed.

(** A parser step: no fuel exhaustion; on success a property of the value and a suffix left. *)
Definition res {A} (ts : list token) (Q : A -> Prop) (m : outcome (A * list token)) : Prop :=
  match m with
  | Ok (a, r) => Q a /\ suffix r ts
  | Throw e => e = syntax_error
  | _ => False
  end.
(** the same, at least one token consumed *)
Definition res1 {A} (ts : list token) (Q : A -> Prop) (m : outcome (A * list token)) : Prop :=
  match m with
  | Ok (a, r) => Q a /\ suffix r ts /\ length r < length ts
  | Throw e => e = syntax_error
  | _ => False
  end.
Lemma res1_res {A} ts Q (m : outcome (A * list token)) : res1 ts Q m -> res ts Q m.
Proof. destruct m as [[a r]|e|w|]; cbn; tauto. Qed.
Lemma res_bind {A B} ts (Q : A -> Prop) (R : B -> Prop) m (f : A * list token -> outcome (B * list token)) :
  res ts Q m -> (forall a r, Q a -> suffix r ts -> res ts R (f (a, r))) -> res ts R (bind m f).
Proof. destruct m as [[a r]|e|w|]; cbn; try tauto. intros (H1 & H2) H. apply H; assumption. Qed.
Lemma res1_bind {A B} ts (Q : A -> Prop) (R : B -> Prop) m (f : A * list token -> outcome (B * list token)) :
  res1 ts Q m -> (forall a r, Q a -> suffix r ts -> length r < length ts -> res1 ts R (f (a, r))) ->
  res1 ts R (bind m f).
Proof. destruct m as [[a r]|e|w|]; cbn; try tauto. intros (H1 & H2 & H3) H. apply H; assumption. Qed.
Lemma res_weaken {A} ts ts' (Q : A -> Prop) m : suffix ts ts' -> res ts Q m -> res ts' Q m.
Proof. destruct m as [[a r]|e|w|]; cbn; try tauto. intros S (H1 & H2). split; [exact H1|]. eapply suffix_trans; eassumption. Qed.
Lemma res_lt {A} ts ts' (Q : A -> Prop) m : suffix ts ts' -> length ts < length ts' -> res ts Q m -> res1 ts' Q m.
Proof.
  destruct m as [[a r]|e|w|]; cbn; try tauto. intros S L (H1 & H2). split; [exact H1|].
  split; [eapply suffix_trans; eassumption|]. apply suffix_len in H2. lia.
Qed.
Lemma res_imp {A} ts (Q Q' : A -> Prop) m : (forall a, Q a -> Q' a) -> res ts Q m -> res ts Q' m.
Proof. destruct m as [[a r]|e|w|]; cbn; try tauto. intros H (H1 & H2). auto. Qed.

Section Tokens.
  Variable P : token -> Prop.

  Lemma expect_res ty ts : Forall P ts -> res1 ts P (expect ty ts).
  Proof.
    intros HF. unfold expect. destruct (next ts) as [[t r]|] eqn:E; [|triv].
    destruct (ttype_eqb (tk_type t) ty); [|triv]. cbn.
    split; [|split; [eapply next_suf; eassumption|eapply next_lt; eassumption]].
    rewrite Forall_forall in HF. apply HF. eapply next_In; eassumption.
  Qed.

  Lemma more_codes_spec : forall ts pend acc a r, more_codes ts pend acc = (a, r) ->
    exists mid, pend ++ ts = mid ++ r /\ a = acc ++ mid.
  Proof.
    induction ts as [|t ts IH]; intros pend acc a r; cbn [more_codes].
    - intros H; inversion H; subst. exists []. rewrite !app_nil_r. auto.
    - destruct (is_default t).
      + destruct (ttype_eqb (tk_type t) T_CODE).
        * intros H. apply IH in H as (mid & E & ->). cbn in E. subst.
          exists (pend ++ [t] ++ mid). rewrite <- !app_assoc. auto.
        * intros H; inversion H; subst. exists []. rewrite app_nil_r. auto.
      + intros H. apply IH in H as (mid & E & ->). exists mid. rewrite <- E, <- app_assoc. auto.
  Qed.
  Lemma opt_codes_spec ts v r : opt_codes ts = (v, r) ->
    suffix r ts /\ match v with
                   | Some c => exists pre, ts = pre ++ c ++ r /\ Forall (fun x => is_default x = false) pre
                   | None => r = ts end.
  Proof.
    unfold opt_codes. destruct (next ts) as [[t r0]|] eqn:E.
    - destruct (ttype_eqb (tk_type t) T_CODE).
      + destruct (more_codes r0 [] [t]) as [acc rest] eqn:EM. intros H; inversion H; subst.
        apply more_codes_spec in EM as (mid & E1 & ->). cbn [app] in E1. subst r0.
        apply next_suffix in E as (pre & -> & Hp & _). split.
        * exists (pre ++ t :: mid). rewrite <- app_assoc. reflexivity.
        * exists pre. split; [reflexivity|exact Hp].
      + intros H; inversion H; subst. split; [apply suffix_refl|reflexivity].
    - intros H; inversion H; subst. split; [apply suffix_refl|reflexivity].
  Qed.
  Lemma opt_codes_P ts v r : opt_codes ts = (v, r) -> Forall P ts ->
    suffix r ts /\ match v with Some c => Forall P c | None => True end.
  Proof.
    intros H HF. apply opt_codes_spec in H as (S & H). split; [exact S|].
    destruct v as [c|]; [|triv]. destruct H as (pre & -> & _).
    apply Forall_app in HF as [_ HF]. apply Forall_app in HF. apply HF.
  Qed.
  Lemma skip_ws_suffix ts : suffix (skip_ws ts) ts.
  Proof.
    induction ts as [|t ts IH]; cbn [skip_ws]; [apply suffix_refl|].
    destruct (is_default t); [destruct (ttype_eqb (tk_type t) T_WS)|];
      first [apply suffix_refl|apply suffix_cons; exact IH].
  Qed.

  Definition param_P (p : dparam) : Prop := Forall P (dp_def p).
  Lemma parse_param_res l ts : Forall P ts -> res1 ts param_P (parse_param l ts).
  Proof.
    intros HF. unfold parse_param. eapply res1_bind; [apply (expect_res T_ID ts HF)|].
    intros id r Hid S L. destruct (lang_ge l SV2009 && peek_is T_EQUAL r).
    - assert (Forall P r) as Fr by (eapply suffix_Forall; eassumption).
      pose proof (expect_res T_EQUAL r Fr) as H. destruct (expect T_EQUAL r) as [[e r1]|e|w|]; cbn in *; try exact H.
      destruct H as (_ & S1 & L1). destruct (opt_codes r1) as [d r2] eqn:E.
      apply opt_codes_P in E as (S2 & Hd); [|eapply suffix_Forall; eassumption]. cbn.
      split; [unfold param_P; cbn; destruct d; [exact Hd|constructor]|].
      split; [eapply suffix_trans; [exact S2|]; eapply suffix_trans; eassumption|].
      apply suffix_len in S2. lia.
    - cbn. split; [constructor|]. split; [exact S|exact L].
  Qed.
  Lemma parse_params_res l : forall fuel ts, Forall P ts -> length ts < fuel ->
    res1 ts (Forall param_P) (parse_params fuel l ts).
  Proof.
    induction fuel as [|fuel IH]; intros ts HF L; [lia|]. cbn [parse_params].
    eapply res1_bind; [apply parse_param_res; exact HF|]. intros p r Hp S Lr.
    destruct (peek_is T_COMMA r).
    - assert (Forall P r) as Fr by (eapply suffix_Forall; eassumption).
      pose proof (expect_res T_COMMA r Fr) as H. destruct (expect T_COMMA r) as [[e r1]|e|w|]; cbn [bind] in *; try exact H.
      cbn in H. destruct H as (_ & S1 & L1).
      specialize (IH r1 ltac:(eapply suffix_Forall; eassumption) ltac:(lia)).
      destruct (parse_params fuel l r1) as [[ps r2]|e2|w2|]; cbn in *; try exact IH.
      destruct IH as (F & S2 & L2). split; [constructor; assumption|]. split; [|lia].
      eapply suffix_trans; [exact S2|]. eapply suffix_trans; eassumption.
    - cbn. auto.
  Qed.

  (** The predicate on the tokens of a tree. *)
  Definition def_P (d : ddef) : Prop :=
    P (dd_tok d) /\ match dd_args d with Some ps => Forall param_P ps | None => True end
    /\ match dd_repl d with Some c => Forall P c | None => True end.
  Definition child_P (c : child) : Prop := match c with CValue ts => Forall P ts | _ => True end.
  Definition call_P (m : mcall) : Prop := P (mc_tok m) /\ Forall child_P (mc_children m).
  Fixpoint texts_P (ts : texts) : Prop :=
    match ts with TNil => True | TCons t ts' => text_P t /\ texts_P ts' end
  with text_P (t : text) : Prop :=
    match t with
    | TTok t => P t
    | TDefine d => def_P d
    | TCond _ bs e => branches_P bs /\ else_P e
    | TCall m => call_P m
    | TInclude t a => P t /\ match a with inl _ => True | inr m => call_P m end
    | _ => True
    end
  with branches_P (bs : branches) : Prop :=
    match bs with BNil => True | BCons _ _ g bs' => texts_P g /\ branches_P bs' end
  with else_P (e : else_part) : Prop :=
    match e with ENone => True | ESome _ g => texts_P g end.

  Lemma parse_define_res l tok ts : P tok -> Forall P ts -> res ts text_P (parse_define l tok ts).
  Proof.
    intros Ht HF. unfold parse_define. eapply res_bind; [apply res1_res, (expect_res T_ID ts HF)|].
    intros id r0 Hid S0. assert (Forall P r0) as F0 by (eapply suffix_Forall; eassumption).
    eapply (res_bind ts (fun a => match a with Some ps => Forall param_P ps | None => True end)).
    - eapply res_weaken; [exact S0|]. destruct (peek_is T_LP r0).
      2:{ cbn. split; [triv|apply suffix_refl]. }
      eapply res_bind; [apply res1_res, (expect_res T_LP r0 F0)|]. intros lp a _ Sa.
      assert (Forall P a) as Fa by (eapply suffix_Forall; eassumption).
      eapply res_weaken; [exact Sa|]. destruct (peek_is T_RP a).
      + eapply res_bind; [apply res1_res, (expect_res T_RP a Fa)|]. intros rp b _ Sb. cbn. auto.
      + eapply res_bind; [apply res1_res, (parse_params_res l (S (length a)) a Fa); lia|].
        intros ps b Hps Sb. assert (Forall P b) as Fb by (eapply suffix_Forall; eassumption).
        eapply res_weaken; [exact Sb|].
        eapply res_bind; [apply res1_res, (expect_res T_RP b Fb)|]. intros rp c _ Sc. cbn. auto.
    - intros args r1 Hargs S1. destruct (opt_codes (skip_ws r1)) as [repl r2] eqn:E.
      assert (Forall P (skip_ws r1)) as F1.
      { eapply suffix_Forall; [apply skip_ws_suffix|]. eapply suffix_Forall; eassumption. }
      apply opt_codes_P in E as (S2 & Hr); [|exact F1].
      assert (suffix r2 ts) as S3.
      { eapply suffix_trans; [exact S2|]. eapply suffix_trans; [apply skip_ws_suffix|exact S1]. }
      assert (text_P (TDefine (mkDef tok (tk_text id) args repl))) as HT.
      { cbn [text_P def_P dd_tok dd_args dd_repl]. split; [exact Ht|]. split; [exact Hargs|exact Hr]. }
      destruct (next r2) as [[t r3]|] eqn:En.
      + destruct (_ || _); [|triv]. split; [exact HT|]. eapply suffix_trans; [eapply next_suf; eassumption|exact S3].
      + split; [exact HT|exact S3].
  Qed.

  Lemma parse_args_res : forall fuel ts, Forall P ts -> length ts < fuel ->
    res ts (Forall child_P) (parse_args fuel ts).
  Proof.
    induction fuel as [|fuel IH]; intros ts HF L; [lia|]. cbn [parse_args].
    destruct (opt_codes ts) as [v r] eqn:E. apply opt_codes_P in E as (S & Hv); [|exact HF].
    assert (Forall child_P match v with Some c => [CValue c] | None => [] end) as Hpre
      by (destruct v; repeat constructor; exact Hv).
    destruct (next r) as [[t r1]|] eqn:En; [|triv].
    assert (suffix r1 ts) as S1 by (eapply suffix_trans; [eapply next_suf; eassumption|exact S]).
    destruct (ttype_eqb (tk_type t) T_COMMA).
    - specialize (IH r1 ltac:(eapply suffix_Forall; eassumption)).
      apply next_lt in En. apply suffix_len in S as Ls. specialize (IH ltac:(lia)).
      destruct (parse_args fuel r1) as [[cs r2]|e|w|]; cbn in *; try exact IH.
      destruct IH as (Hc & S2). split; [|eapply suffix_trans; eassumption].
      apply Forall_app. split; [exact Hpre|]. constructor; [triv|exact Hc].
    - destruct (ttype_eqb (tk_type t) T_RP); [|triv]. cbn. split; [|exact S1].
      apply Forall_app. split; [exact Hpre|]. repeat constructor.
  Qed.
  Lemma parse_call_res tok ts : P tok -> Forall P ts -> res ts call_P (parse_call tok ts).
  Proof.
    intros Ht HF. unfold parse_call. destruct (ttype_eqb (tk_type tok) T_CALL_NO_ARGS).
    - cbn. split; [split; [exact Ht|constructor]|apply suffix_refl].
    - eapply res_bind; [apply (parse_args_res (S (length ts)) ts HF); lia|].
      intros cs r Hc S. cbn. split; [split; assumption|exact S].
  Qed.

  Definition pragma_value (rec : list token -> outcome (list token)) (ts : list token) :=
    match next ts with
    | None => perr
    | Some (t, r) =>
        match tk_type t with
        | T_NUM | T_STR | T_ID => Ok r
        | T_LP => r1 <- rec r ;; '(_, r2) <- expect T_RP r1 ;; Ok r2
        | _ => perr
        end
    end.
  Lemma pragma_S fuel ts : parse_pragma_exprs (S fuel) ts =
    (r <- (match next ts with
            | None => perr
            | Some (t, r) =>
                if ttype_eqb (tk_type t) T_ID then
                  if peek_is T_EQUAL r
                  then '(_, r1) <- expect T_EQUAL r ;; pragma_value (parse_pragma_exprs fuel) r1
                  else Ok r
                else pragma_value (parse_pragma_exprs fuel) ts
            end) ;;
      if peek_is T_COMMA r then '(_, r1) <- expect T_COMMA r ;; parse_pragma_exprs fuel r1
      else Ok r).
  Proof. reflexivity. Qed.
  Lemma pragma_res : forall fuel ts, Forall P ts -> length ts < fuel ->
    match parse_pragma_exprs fuel ts with Ok r => suffix r ts | Throw e => e = syntax_error | _ => False end.
  Proof.
    induction fuel as [|fuel IH]; intros ts HF L; [lia|]. rewrite pragma_S.
    set (value := pragma_value (parse_pragma_exprs fuel)).
    assert (forall ts0, Forall P ts0 -> length ts0 <= length ts ->
      match value ts0 with Ok r => suffix r ts0 /\ length r < length ts0 | Throw e => e = syntax_error | _ => False end) as HV.
    { intros ts0 F0 L0. unfold value, pragma_value. destruct (next ts0) as [[t r]|] eqn:E; [|triv].
      pose proof (next_lt _ _ _ E) as Hlt. pose proof (next_suf _ _ _ E) as Hs.
      destruct (tk_type t); try triv; try (split; assumption).
      specialize (IH r ltac:(eapply suffix_Forall; eassumption) ltac:(lia)).
      destruct (parse_pragma_exprs fuel r) as [r1|e|w|]; cbn [bind]; try exact IH.
      assert (Forall P r1) as F1.
      { eapply suffix_Forall; [exact IH|]. eapply suffix_Forall; eassumption. }
      pose proof (expect_res T_RP r1 F1) as HE. destruct (expect T_RP r1) as [[x r2]|e|w|]; cbn in *; try exact HE.
      destruct HE as (_ & S2 & L2). apply suffix_len in IH as L1. split; [|lia].
      eapply suffix_trans; [exact S2|]. eapply suffix_trans; eassumption. }
    assert (forall m : outcome (list token),
      match m with Ok r => suffix r ts /\ length r < length ts | Throw e => e = syntax_error | _ => False end ->
      match (r <- m ;; if peek_is T_COMMA r then '(_, r1) <- expect T_COMMA r ;; parse_pragma_exprs fuel r1 else Ok r)
      with Ok r => suffix r ts | Throw e => e = syntax_error | _ => False end) as HB.
    { intros [r|e|w|]; cbn [bind]; try tauto. intros (S & Lr). destruct (peek_is T_COMMA r); [|exact S].
      assert (Forall P r) as Fr by (eapply suffix_Forall; eassumption).
      pose proof (expect_res T_COMMA r Fr) as HE. destruct (expect T_COMMA r) as [[x r1]|e|w|]; cbn [bind] in *; try exact HE.
      cbn in HE. destruct HE as (_ & S1 & L1).
      specialize (IH r1 ltac:(eapply suffix_Forall; eassumption) ltac:(lia)).
      destruct (parse_pragma_exprs fuel r1); try exact IH.
      eapply suffix_trans; [exact IH|]. eapply suffix_trans; eassumption. }
    apply HB. destruct (next ts) as [[t r]|] eqn:E; [|triv].
    pose proof (next_lt _ _ _ E) as Hlt. pose proof (next_suf _ _ _ E) as Hs.
    destruct (ttype_eqb (tk_type t) T_ID); [|apply HV; [exact HF|lia]].
    destruct (peek_is T_EQUAL r); [|split; assumption].
    assert (Forall P r) as Fr by (eapply suffix_Forall; eassumption).
    pose proof (expect_res T_EQUAL r Fr) as HE. destruct (expect T_EQUAL r) as [[x r1]|e|w|]; cbn [bind] in *; try exact HE.
    cbn in HE. destruct HE as (_ & S1 & L1).
    specialize (HV r1 ltac:(eapply suffix_Forall; eassumption) ltac:(lia)).
    destruct (value r1); try exact HV. destruct HV as (S2 & L2). split; [|lia].
    eapply suffix_trans; [exact S2|]. eapply suffix_trans; eassumption.
  Qed.
  Lemma parse_pragma_res ts : Forall P ts ->
    match parse_pragma ts with Ok r => suffix r ts | Throw e => e = syntax_error | _ => False end.
  Proof.
    intros HF. unfold parse_pragma. pose proof (expect_res T_ID ts HF) as HE.
    destruct (expect T_ID ts) as [[x r]|e|w|]; cbn [bind] in *; try exact HE. cbn in HE. destruct HE as (_ & S & L).
    assert (match (match next r with
         | None => Ok r
         | Some (t, _) => if ttype_eqb (tk_type t) T_NEW_LINE then Ok r
                          else parse_pragma_exprs (Datatypes.S (length r)) r
         end) with Ok r1 => suffix r1 r | Throw e => e = syntax_error | _ => False end) as H.
    { destruct (next r) as [[t r0]|]; [|apply suffix_refl].
      destruct (ttype_eqb (tk_type t) T_NEW_LINE); [apply suffix_refl|].
      apply pragma_res; [eapply suffix_Forall; eassumption|lia]. }
    destruct (match next r with Some _ => _ | None => _ end) as [r1|e|w|]; cbn [bind]; try exact H.
    assert (suffix r1 ts) by (eapply suffix_trans; eassumption).
    destruct (next r1) as [[t r2]|] eqn:E; [|assumption].
    destruct (ttype_eqb (tk_type t) T_NEW_LINE); [|triv].
    eapply suffix_trans; [eapply next_suf; eassumption|assumption].
  Qed.
  Lemma parse_protected_res ts :
    match parse_protected ts with Ok r => suffix r ts | Throw e => e = syntax_error | _ => False end.
  Proof.
    induction ts as [|t ts IH]; cbn [parse_protected]; [triv|].
    assert (match parse_protected ts with Ok r => suffix r (t :: ts) | Throw e => e = syntax_error | _ => False end) as H.
    { destruct (parse_protected ts); try exact IH. apply suffix_cons; exact IH. }
    destruct (is_default t); [|exact H]. destruct (tk_type t); try triv; try exact H. apply suffix_tail.
  Qed.

  Lemma expect_step {A} ty ts (Q : A -> Prop) (f : token * list token -> outcome (A * list token)) :
    Forall P ts -> (forall t r, P t -> Forall P r -> suffix r ts -> res r Q (f (t, r))) ->
    res ts Q (bind (expect ty ts) f).
  Proof.
    intros HF H. eapply res_bind; [apply res1_res, (expect_res ty ts HF)|].
    intros t r Ht S. eapply res_weaken; [exact S|]. apply H; [exact Ht| |exact S]. eapply suffix_Forall; eassumption.
  Qed.

  Lemma parse_simple_res l t ts : P t -> Forall P ts -> res ts text_P (parse_simple l t ts).
  Proof.
    intros Ht HF. unfold parse_simple.
    assert (forall x, text_P x -> res ts text_P (Ok (x, ts))) as HO
      by (intros x Hx; split; [exact Hx|apply suffix_refl]).
    assert (forall (m : outcome (list token)) x, text_P x ->
      match m with Ok r => suffix r ts | Throw e => e = syntax_error | _ => False end ->
      res ts text_P (r <- m ;; Ok (x, r))) as HM.
    { intros [r|e|w|] x Hx; cbn; tauto. }
    destruct (tk_type t) eqn:Ety; try triv; try (apply HO; first [exact Ht|triv]).
    - (* include *)
      destruct (next ts) as [[u r]|] eqn:E; [|triv].
      assert (P u) as Hu by (rewrite Forall_forall in HF; apply HF; eapply next_In; eassumption).
      pose proof (next_suf _ _ _ E) as Hs. assert (Forall P r) as Fr by (eapply suffix_Forall; eassumption).
      destruct (tk_type u); try triv.
      + split; [split; [exact Ht|triv]|exact Hs].
      + destruct (lang_ge l SV2005); [|triv]. eapply res_weaken; [exact Hs|].
        eapply res_bind; [apply parse_call_res; assumption|].
        intros m r1 Hm S1. split; [split; assumption|exact S1].
      + destruct (lang_ge l SV2005); [|triv]. eapply res_weaken; [exact Hs|].
        eapply res_bind; [apply parse_call_res; assumption|].
        intros m r1 Hm S1. split; [split; assumption|exact S1].
    - apply parse_define_res; assumption.
    - (* undef *)
      apply expect_step; [exact HF|]. intros id r Hid Fr Sr.
      destruct (next r) as [[u r1]|] eqn:E; [|split; [triv|apply suffix_refl]].
      destruct (_ || _); [|triv]. split; [triv|eapply next_suf; eassumption].
    - destruct (lang_ge l VERILOG2005); [|triv]. apply expect_step; [exact HF|].
      intros x r _ Fr _. split; [triv|apply suffix_refl].
    - destruct (lang_ge l VERILOG2005); [|triv]. apply HO. triv.
    - destruct (lang_ge l VERILOG2005); [|triv].
      apply (HM (parse_pragma ts) (TIgnored T_PRAGMA) I). apply parse_pragma_res; exact HF.
    - destruct (lang_ge l SV2009); [|triv]. apply HO. triv.
    - apply expect_step; [exact HF|]. intros x r _ Fr _.
      apply expect_step; [exact Fr|]. intros y r' _ Fr' _.
      apply expect_step; [exact Fr'|]. intros z r'' _ Fr'' _. split; [triv|apply suffix_refl].
    - apply expect_step; [exact HF|]. intros x r _ Fr _. split; [triv|apply suffix_refl].
    - apply expect_step; [exact HF|]. intros x r _ Fr _.
      apply expect_step; [exact Fr|]. intros y r' _ Fr' _.
      apply expect_step; [exact Fr'|]. intros z r'' _ Fr'' _. split; [triv|apply suffix_refl].
    - apply (HM (parse_protected ts) (TIgnored T_PROTECTED) I). apply parse_protected_res.
    - eapply res_bind; [apply parse_call_res; assumption|]. intros m r Hm S. split; [exact Hm|exact S].
    - eapply res_bind; [apply parse_call_res; assumption|]. intros m r Hm S. split; [exact Hm|exact S].
  Qed.

  Lemma expect_step1 {A} ty ts (Q : A -> Prop) (f : token * list token -> outcome (A * list token)) :
    Forall P ts -> (forall t r, P t -> Forall P r -> length r < length ts -> res r Q (f (t, r))) ->
    res ts Q (bind (expect ty ts) f).
  Proof.
    intros HF H. pose proof (expect_res ty ts HF) as HE. destruct (expect ty ts) as [[t r]|e|w|]; cbn [bind]; try exact HE.
    cbn in HE. destruct HE as (Ht & S & L). eapply res_weaken; [exact S|]. apply H; [exact Ht| |exact L].
    eapply suffix_Forall; eassumption.
  Qed.

  Lemma parse_texts_res l : forall fuel,
    (forall ts, Forall P ts -> length ts < fuel -> res ts texts_P (parse_texts fuel l ts)) /\
    (forall ts, Forall P ts -> length ts < fuel ->
       res ts (fun x => branches_P (fst x) /\ else_P (snd x)) (parse_cond fuel l ts)).
  Proof.
    induction fuel as [|fuel (IH1 & IH2)]; [split; intros; lia|]. split.
    - intros ts HF L. cbn [parse_texts]. destruct (next ts) as [[t r]|] eqn:E.
      2:{ split; [triv|]. exists ts. symmetry. apply app_nil_r. }
      destruct (starts_text t) eqn:Est; [|split; [triv|apply suffix_refl]].
      pose proof (next_lt _ _ _ E) as Hlt. pose proof (next_suf _ _ _ E) as Hs.
      assert (P t) as Ht by (rewrite Forall_forall in HF; apply HF; eapply next_In; eassumption).
      assert (Forall P r) as Fr by (eapply suffix_Forall; eassumption).
      eapply res_weaken; [exact Hs|].
      eapply (res_bind r text_P).
      + assert (res r text_P ('(bs, e, r1) <- parse_cond fuel l r;;
                   Ok (TCond (ttype_eqb (tk_type t) T_IFNDEF) bs e, r1))) as HC.
        { eapply res_bind; [apply IH2; [exact Fr|lia]|]. intros [bs e] r1 (Hb & He) S1. cbn in *. auto. }
        destruct (tk_type t) eqn:Ety; try exact HC; apply parse_simple_res; assumption.
      + intros x r1 Hx S1. eapply res_weaken; [exact S1|].
        assert (Forall P r1) as F1 by (eapply suffix_Forall; eassumption). apply suffix_len in S1.
        eapply res_bind; [apply IH1; [exact F1|lia]|].
        intros xs r2 Hxs S2. split; [split; assumption|exact S2].
    - intros ts HF L. cbn [parse_cond]. apply expect_step1; [exact HF|].
      intros id r0 Hid F0 L0.
      eapply res_bind; [apply IH1; [exact F0|lia]|]. intros g r1 Hg S1.
      assert (Forall P r1) as F1 by (eapply suffix_Forall; eassumption).
      destruct (next r1) as [[t r2]|] eqn:E; [|triv].
      pose proof (next_lt _ _ _ E) as Hlt. pose proof (next_suf _ _ _ E) as Hs.
      assert (Forall P r2) as F2 by (eapply suffix_Forall; eassumption).
      pose proof (suffix_len _ _ S1) as Ls.
      assert (suffix r2 r0) as S2 by (eapply suffix_trans; eassumption).
      destruct (tk_type t); try triv; (eapply res_weaken; [exact S2|]).
      + eapply res_bind; [apply IH2; [exact F2|lia]|]. intros [bs e] r3 (Hb & He) S3. cbn in *. auto.
      + eapply res_bind; [apply IH1; [exact F2|lia]|]. intros eg r3 Heg S3.
        assert (Forall P r3) as F3 by (eapply suffix_Forall; eassumption).
        eapply res_weaken; [exact S3|]. apply expect_step; [exact F3|].
        intros x r4 _ _ _. cbn. split; [auto|apply suffix_refl].
      + cbn. split; [auto|apply suffix_refl].
  Qed.

  Lemma parse_file_res l ts : Forall P ts ->
    match parse_file l ts with Ok x => texts_P x | Throw e => e = syntax_error | _ => False end.
  Proof.
    intros HF. unfold parse_file.
    pose proof (proj1 (parse_texts_res l (S (S (2 * length ts)))) ts HF ltac:(lia)) as H.
    destruct (parse_texts _ l ts) as [[x r]|e|w|]; cbn [bind]; try exact H. cbn in H.
    destruct (next r); [triv|apply H].
  Qed.
End Tokens.

(** Tokens that leave the lexer: hidden ones are never empty. *)
Definition hidden_nonempty (t : token) : Prop := tk_chan t <> CH_DEFAULT -> tk_text t <> [].
Lemma rule_act_hidden r st s st' t ch x : s <> [] -> rule_act r st s = Ok (st', Emit t ch x) ->
  ch <> CH_DEFAULT -> x <> [].
Proof.
  intros Hs H Hc. destruct r; cbn [rule_act] in H;
    repeat match type of H with
           | (if ?b then _ else _) = _ => destruct b
           | bind ?m _ = _ => let E := fresh in destruct m eqn:E; cbn [bind] in H
           end; try discriminate; inversion H; subst; try exact Hs; try congruence.
Qed.
Lemma lex_loop_hidden : forall fuel st s line col ts, lex_loop fuel st s line col = Ok ts ->
  Forall hidden_nonempty ts.
Proof.
  induction fuel as [|fuel IH]; intros st s line col ts; [destruct s; [|discriminate]; intros H; inversion H; constructor|].
  destruct s as [|c s]; [intros H; inversion H; constructor|]. rewrite lex_loop_S.
  destruct (best_rule (mode_rules (lx_mode st)) (c :: s) None) as [[r [|n]]|]; try discriminate.
  intros H. apply bind_ok in H as ([st' e] & EA & H). destruct (advance _ line col) as [l' c'].
  apply bind_ok in H as (rest & EL & H). apply IH in EL. destruct e as [|t ch x]; inversion H; subst; [exact EL|].
  constructor; [|exact EL]. intros Hc. cbn in *. eapply rule_act_hidden; [|exact EA|exact Hc]. discriminate.
Qed.

Lemma pp_parse_res (P : token -> Prop) l s : (forall ts, lex s = Ok ts -> Forall P ts) ->
  match pp_parse l s with
  | Ok x => texts_P P x
  | Throw e => e = syntax_error
  | UB w => lex s = UB w
  | OutOfFuel => False
  end.
Proof.
  intros HP. unfold pp_parse. pose proof (lex_safe s) as HL. destruct (lex s) as [ts|e|w|] eqn:E; cbn [bind]; try exact HL; try reflexivity.
  pose proof (parse_file_res P l ts (HP ts eq_refl)) as H.
  destruct (parse_file l ts); try exact H; contradiction.
Qed.
