From Verif Require Import Base BaseFacts AstModel OpModel OpSpec StmModel SvExprModel SvExprProofs SvInstProofs SvDeclProofs PyModel PySpec PyProofs PyStmProofs PyObjModel PyObjSpec.
From Verif Require Import SvDeclModel VhdlDeclModel.
Import PySpec PyObjModel PyObjSpec.

(** ** Looking attributes up *)
Ltac looks := rewrite ?attr_obj, ?assoc_app; repeat (match goal with
  | N : forall f, f <> _ -> assoc f ?k = None |- context [assoc ?g ?k] => rewrite (N g) by discriminate
  | N : forall f, ~ In f _ -> assoc f ?k = None |- context [assoc ?g ?k] => rewrite (N g) by notin
  end); cbn [assoc String.eqb Ascii.eqb Bool.eqb dflt].
Lemma merge_none (o : option pyval) : match o with Some v => Some v | None => None end = o. Proof. destruct o; reflexivity. Qed.

Definition nhdr_fields : list string := ["name"; "doc"]%string.
Lemma nhdr_ok h : sendable_nhdr h = true -> exists k a, py_nhdr h = Ok k /\ py_attrs (n_attrs h) = Ok a
  /\ (forall c l, Forall (fun f => assoc f l = None) ["name"; "doc"; "hdlAttributes"]%string -> named (PObj c (k ++ l ++ a)) h)
  /\ (forall f, ~ In f nhdr_fields -> assoc f k = None) /\ (forall f, f <> "hdlAttributes"%string -> assoc f a = None).
Proof.
  intros H. unfold sendable_nhdr in H. hsplit H. unfold py_nhdr.
  destruct (name_ok _ H) as (k1 & E1 & D1 & N1), (doc_ok _ X0) as (k2 & E2 & D2 & N2), (attrs_ok _ X) as (k3 & E3 & D3 & N3).
  rewrite E1, E2. cbn [bind]. exists (k1 ++ k2), k3. split; [reflexivity|]. split; [exact E3|]. split; [|split; [|exact N3]].
  - intros c l F. inversion F as [|? ? A1 F']; subst. inversion F' as [|? ? A2 F'']; subst. inversion F'' as [|? ? A3 F3]; subst.
    unfold named. looks. rewrite A1, A2, A3, !merge_none. repeat split; try assumption.
  - intros f Hf. cbn [nhdr_fields In] in Hf. rewrite assoc_app, N1 by (intros ->; tauto). apply N2. intros ->; tauto.
Qed.
Lemma defs_ok l : forallb sendable_def l = true -> exists ps, mapM py_iddef l = Ok ps /\ Forall2 defines ps l.
Proof. apply (mapM_shows py_iddef sendable_def). apply Forall_forall. intros x _. apply def_ok. Qed.
Lemma member_ok m : sendable_member m = true -> exists p, py_member m = Ok p /\ a_member p m.
Proof.
  destruct m as [n v]. unfold sendable_member, py_member, a_member. cbn [fst snd]. intros H. hsplit H.
  assert (A : exists x, match n with Some s => py_str s | None => Ok PNone end = Ok x /\ maybe_name x n).
  { destruct n as [s|]; [|exists PNone; split; reflexivity]. exists (PStr s). split; [apply py_str_ok, H|reflexivity]. }
  assert (B : exists y, match v with Some e => decref_null (py_expr e) | None => Ok PNone end = Ok y /\ maybe y v).
  { destruct v as [e|]; [|exists PNone; split; reflexivity]. destruct (value_ok e X) as (y & Hy & Sy). rewrite Hy. exists y. split; [reflexivity|exact Sy]. }
  destruct A as (x & -> & Sx), B as (y & Hy & Sy). cbn [bind]. rewrite Hy. cbn [bind]. eexists. split; [reflexivity|]. exists x, y. auto.
Qed.
Lemma units_ok l : forallb sendable_unit l = true -> exists ps, mapM py_member (map some_name l) = Ok ps /\ Forall2 a_unit ps l.
Proof.
  induction l as [|m l IH]; cbn [forallb map]; intros H; [exists []; split; [reflexivity|constructor]|]. hsplit H.
  destruct (IH X) as (ps & Hp & Fp). assert (M : sendable_member (some_name m) = true) by exact H. destruct (member_ok _ M) as (p & E & Q).
  change (mapM py_member (some_name m :: map some_name l)) with (y <- py_member (some_name m) ;; r <- mapM py_member (map some_name l) ;; Ok (y :: r)).
  rewrite E. cbn [bind]. rewrite Hp. cbn [bind]. eexists. split; [reflexivity|]. constructor; [exact Q|exact Fp].
Qed.
Lemma tval_ok v : sendable_tval v = true -> exists p, py_tval v = Ok p /\ type_value p v.
Proof.
  destruct v as [e|l|r l|l]; cbn [sendable_tval py_tval type_value]; intros H; [discriminate| | |].
  - destruct (mapM_shows py_member sendable_member a_member l) as (ps & Hp & Fp); [apply Forall_forall; intros x _; apply member_ok|exact H|].
    rewrite Hp. cbn [bind]. eexists. split; [reflexivity|]. split; [reflexivity|]. exists ps. split; [reflexivity|exact Fp].
  - hsplit H. destruct (expr_shown r H) as (x & Hx & Sx), (units_ok l X) as (ps & Hp & Fp). rewrite Hx. cbn [bind]. rewrite Hp. cbn [bind].
    eexists. split; [reflexivity|]. split; [reflexivity|]. split; [exact Sx|]. exists ps. split; [reflexivity|exact Fp].
  - destruct (defs_ok l H) as (ps & Hp & Fp). rewrite Hp. cbn [bind]. eexists. split; [reflexivity|]. split; [reflexivity|]. split; [reflexivity|]. exists ps. split; [reflexivity|exact Fp].
Qed.
Lemma typedef_ok d v : sendable_def d = true -> d_value d = None -> sendable_tval v = true -> exists p, py_typedef d v = Ok p /\ defines_type p d v.
Proof.
  intros H V0 HV. unfold sendable_def in H. do 5 (let X := fresh "X" in apply andb_prop in H as [H X]). unfold py_typedef.
  destruct (name_ok _ H) as (k1 & E1 & D1 & N1), (doc_ok _ X3) as (k2 & E2 & D2 & N2), (attrs_ok _ X) as (k3 & E3 & D3 & N3).
  assert (T : exists k, match d_type d with ENull => Ok [] | e => x <- py_expr e ;; Ok [("type" ~> x)] end = Ok k
     /\ maybe (dflt (assoc "type" k)) (match d_type d with ENull => None | e => Some e end) /\ forall f, f <> "type"%string -> assoc f k = None).
  { assert (G : forall e, sendable_value e = true -> exists k, (x <- py_expr e ;; Ok [("type" ~> x)]) = Ok k /\ maybe (dflt (assoc "type" k)) (Some e) /\ forall f, f <> "type"%string -> assoc f k = None).
    { intros e He. destruct (value_ok e He) as (p & Hp & Sp). rewrite Hp. cbn [bind]. eexists. split; [reflexivity|]. split; [exact Sp|].
      intros f Hf. cbn [assoc]. destruct (String.eqb_spec f "type"); [contradiction|reflexivity]. }
    destruct (d_type d); try (apply G; exact X2). exists []. split; [reflexivity|]. split; reflexivity. }
  destruct T as (k4 & E4 & D4 & N4), (tval_ok v HV) as (tv & E5 & D5).
  assert (R : py_dir (d_dir d) = Ok (PEnum "HdlDirection" (dir_name (d_dir d))) /\ d_dir d <> DIR_UNKNOWN) by (destruct (d_dir d); try discriminate; (split; [reflexivity|discriminate])).
  destruct R as [R1 R2]. rewrite E1, E2. cbn [bind]. rewrite E4. cbn [bind]. rewrite E5. cbn [bind]. rewrite R1. cbn [bind]. rewrite E3. cbn [bind].
  eexists. split; [reflexivity|]. unfold defines_type. looks. rewrite !merge_none. repeat split; try assumption; reflexivity.
Qed.

(** ** Objects *)
Lemma tells_not_none o p : tells p o -> obj_not_none o = true -> p <> PNone.
Proof.
  intros H N E. subst p. inversion H; subst; try discriminate.
  - match goal with S : defines PNone _ |- _ => destruct S as [S _]; discriminate end.
  - match goal with S : defines_type PNone _ _ |- _ => destruct S as [S _]; discriminate end.
  - eapply says_not_none; [eassumption|exact N|reflexivity].
Qed.
Lemma sendable_obj_not_null o m : sendable_obj o = true -> obj_not_null o m = m.
Proof. destruct o; try reflexivity. discriminate. Qed.
Definition py_obranch (p : expr * obj) : outcome pyval := match p with (c, b) => x <- py_expr c ;; y <- py_obj b ;; Ok (PTuple [x; y]) end.
Lemma obranches_ok l : Forall (fun p => sendable_obj (snd p) = true -> exists q, py_obj (snd p) = Ok q /\ tells q (snd p)) l ->
  forallb (fun p => match p with (e, b) => sendable e && sendable_obj b end) l = true -> exists ps, mapM py_obranch l = Ok ps /\ Forall2 tells_branch ps l.
Proof.
  intros F. apply mapM_shows. eapply Forall_impl; [|exact F]. intros [e b] IH H. cbn [snd] in IH. hsplit H.
  destruct (expr_shown e H) as (x & Hx & Sx), (IH X) as (y & Hy & Sy). exists (PTuple [x; y]). unfold py_obranch. rewrite Hx. cbn [bind]. rewrite Hy. cbn [bind].
  split; [reflexivity|]. econstructor; [reflexivity|exact Sx|exact Sy].
Qed.
(** An optional part that becomes an attribute. *)
Lemma part_ok n (f : option obj) : (forall b, f = Some b -> sendable_obj b = true -> exists p, py_obj b = Ok p /\ tells p b) ->
  match f with Some b => sendable_obj b && obj_not_none b | None => true end = true ->
  exists k, match f with Some b => v <- py_obj b ;; Ok [(n, v)] | None => Ok [] end = Ok k /\ tells_opt (dflt (assoc n k)) f /\ forall g, g <> n -> assoc g k = None.
Proof.
  intros IH H. destruct f as [b|]; [|exists []; split; [reflexivity|split; [constructor|reflexivity]]]. hsplit H.
  destruct (IH b eq_refl H) as (p & Hp & Sp). rewrite Hp. cbn [bind]. eexists. split; [reflexivity|]. cbn [assoc]. rewrite String.eqb_refl. split.
  - constructor; [exact Sp|]. eapply tells_not_none; eassumption.
  - intros g Hg. destruct (String.eqb_spec g n); [contradiction|reflexivity].
Qed.
Lemma opt_expr_ok n e : opt_all sendable_value e = true ->
  exists k, py_opt py_expr n e = Ok k /\ maybe (dflt (assoc n k)) e /\ forall g, g <> n -> assoc g k = None.
Proof.
  intros H. destruct e as [e|]; cbn [py_opt opt_all] in *; [|exists []; split; [reflexivity|split; reflexivity]].
  destruct (value_ok e H) as (p & Hp & Sp). rewrite Hp. cbn [bind]. eexists. split; [reflexivity|]. cbn [assoc]. rewrite String.eqb_refl. split; [exact Sp|].
  intros g Hg. destruct (String.eqb_spec g n); [contradiction|reflexivity].
Qed.
Lemma uniq_ok u : dflt (assoc "uniq_constrain" (py_uniq u)) = member "HdlStmCaseUniqConstrain" (uniq_name u) /\ forall g, g <> "uniq_constrain"%string -> assoc g (py_uniq u) = None.
Proof. split; [destruct u; reflexivity|]. intros g Hg. destruct u; cbn [py_uniq assoc]; try reflexivity; (destruct (String.eqb_spec g "uniq_constrain"); [contradiction|reflexivity]). Qed.
Lemma trigger_ok t : dflt (assoc "trigger_constrain" (py_trigger t)) = member "HdlStmProcessTriggerConstrain" (trigger_name t) /\ forall g, g <> "trigger_constrain"%string -> assoc g (py_trigger t) = None.
Proof. split; [destruct t; reflexivity|]. intros g Hg. destruct t; cbn [py_trigger assoc]; try reflexivity; (destruct (String.eqb_spec g "trigger_constrain"); [contradiction|reflexivity]). Qed.
Lemma sens_ok se : opt_all (forallb sendable) se = true -> exists k, py_sens se = Ok k
  /\ match se with None => dflt (assoc "sensitivity" k) = PNone | Some l => sequence shows (dflt (assoc "sensitivity" k)) l end
  /\ forall g, g <> "sensitivity"%string -> assoc g k = None.
Proof.
  intros H. destruct se as [l|]; cbn [py_sens opt_all] in *; [|exists []; split; [reflexivity|split; reflexivity]].
  destruct (exprs_ok l H) as (ps & Hp & Fp). rewrite Hp. cbn [bind]. eexists. split; [reflexivity|]. split; [exists ps; split; [reflexivity|exact Fp]|].
  intros g Hg. cbn [assoc]. destruct (String.eqb_spec g "sensitivity"); [contradiction|reflexivity].
Qed.
Lemma params_ok ps : opt_all (forallb sendable_def) ps = true ->
  exists k, match ps with Some l => r <- mapM py_iddef l ;; Ok [("params" ~> PList r)] | None => Ok [] end = Ok k
  /\ match ps with Some l => sequence defines (dflt (assoc "params" k)) l | None => dflt (assoc "params" k) = PNone end
  /\ forall g, g <> "params"%string -> assoc g k = None.
Proof.
  intros H. destruct ps as [l|]; cbn [opt_all] in *; [|exists []; split; [reflexivity|split; reflexivity]].
  destruct (defs_ok l H) as (qs & Hp & Fp). rewrite Hp. cbn [bind]. eexists. split; [reflexivity|]. split; [exists qs; split; [reflexivity|exact Fp]|].
  intros g Hg. cbn [assoc]. destruct (String.eqb_spec g "params"); [contradiction|reflexivity].
Qed.
Ltac nones := repeat first [apply Forall_nil | apply Forall_cons; [looks; reflexivity|]].

Theorem obj_told o : sendable_obj o = true -> exists p, py_obj o = Ok p /\ tells p o.
Proof.
  induction o as [d|d v|h f ps ret body IH|h gs ps l IH|h m d l IHd IH|h b l IH|c d a|h|h l|h se t b IH|h j l IH|h c t l f IHt IHl IHf|h u k e l f IHl IHf
    |h i c st b IHi IHs IHb|h l c b IHl IHb|h c b IH|h n b IH|s|] using obj_ind'; cbn [sendable_obj py_obj]; intros H.
  - destruct (def_ok d H) as (p & Hp & Sp). exists p. split; [exact Hp|constructor; exact Sp].
  - hsplit H. destruct (d_value d) as [?|] eqn:V; [discriminate|]. destruct (typedef_ok d v H V X) as (p & Hp & Sp). exists p. split; [exact Hp|constructor; exact Sp].
  - hsplit H. destruct (nhdr_ok h H) as (k & a & E1 & E2 & HN & N1 & N2), (params_ok ps X1) as (kp & Ep & Dp & Np), (opt_expr_ok "return_t" ret X0) as (kr & Er & Dr & Nr),
      (mapM_shows py_obj sendable_obj tells body IH X) as (qs & Eb & Fb).
    rewrite E1. cbn [bind]. rewrite Ep. cbn [bind]. rewrite Er. cbn [bind]. rewrite Eb. cbn [bind]. rewrite E2. cbn [bind]. eexists. split; [reflexivity|].
    eapply te_func with (qs := qs); try exact Fb.
    + reflexivity.
    + rewrite !(app_assoc (py_flags f)), !(app_assoc (_ ++ kp)), (app_assoc (_ ++ kr)). apply HN. unfold py_flags. nones.
    + unfold flagged, flag, py_flags. looks. repeat split.
    + unfold py_flags. looks. rewrite merge_none. exact Dp.
    + unfold py_flags. looks. rewrite merge_none. exact Dr.
    + unfold py_flags. looks. reflexivity.
  - hsplit H. destruct (nhdr_ok h H) as (k & a & E1 & E2 & HN & N1 & N2), (defs_ok gs X1) as (q1 & Eg & Fg), (defs_ok ps X0) as (q2 & Ep & Fp), (mapM_shows py_obj sendable_obj tells l IH X) as (qs & Eb & Fb).
    rewrite E1. cbn [bind]. rewrite Eg. cbn [bind]. rewrite Ep. cbn [bind]. rewrite Eb. cbn [bind]. rewrite E2. cbn [bind]. eexists. split; [reflexivity|].
    eapply te_dec with (qs := qs); try exact Fb.
    + reflexivity.
    + apply HN. nones.
    + looks. exists q1. split; [reflexivity|exact Fg].
    + looks. exists q2. split; [reflexivity|exact Fp].
    + looks. reflexivity.
  - hsplit H. destruct (nhdr_ok h H) as (k & a & E1 & E2 & HN & N1 & N2), (opt_expr_ok "module_name" m X1) as (km & Em & Dm & Nm), (part_ok "dec"%string d IHd X0) as (kd & Ed & Dd & Nd),
      (mapM_shows py_obj sendable_obj tells l IH X) as (qs & Eb & Fb).
    rewrite E1. cbn [bind]. rewrite Em. cbn [bind]. rewrite Ed. cbn [bind]. rewrite Eb. cbn [bind]. rewrite E2. cbn [bind]. eexists. split; [reflexivity|].
    eapply te_def with (qs := qs); try exact Fb.
    + reflexivity.
    + rewrite (app_assoc km), (app_assoc (km ++ kd)). apply HN. nones.
    + looks. rewrite merge_none. exact Dm.
    + looks. rewrite merge_none. exact Dd.
    + looks. reflexivity.
  - hsplit H. destruct (nhdr_ok h H) as (k & a & E1 & E2 & HN & N1 & N2), (mapM_shows py_obj sendable_obj tells l IH X) as (qs & Eb & Fb).
    rewrite E1. cbn [bind]. rewrite Eb. cbn [bind]. rewrite E2. cbn [bind]. eexists. split; [reflexivity|]. eapply te_space with (qs := qs); try exact Fb.
    + reflexivity.
    + apply HN. nones.
    + unfold flag. looks. reflexivity.
    + looks. reflexivity.
  - hsplit H. destruct d as [|? ?]; [|discriminate]. destruct c as [n m g q]. unfold py_inst. cbn [ci_name ci_module ci_generics ci_ports] in *.
    destruct (expr_shown n X3) as (x & Hx & Sx), (expr_shown m X2) as (y & Hy & Sy), (exprs_ok g X1) as (q1 & Eg & Fg), (exprs_ok q X0) as (q2 & Ep & Fp), (attrs_ok a X) as (k & Ek & Dk & Nk).
    rewrite Hx. cbn [bind]. rewrite Hy. cbn [bind]. rewrite Eg. cbn [bind]. rewrite Ep. cbn [bind]. rewrite Ek. cbn [bind]. eexists. split; [reflexivity|].
    constructor; try reflexivity; try assumption; [exists q1; split; [reflexivity|exact Fg]|exists q2; split; [reflexivity|exact Fp]].
  - destruct (nhdr_ok h H) as (k & a & E1 & E2 & HN & N1 & N2). unfold py_library. rewrite E1, E2. cbn [bind]. eexists. split; [reflexivity|]. constructor; [reflexivity|].
    apply (HN _ []). nones.
  - hsplit H. destruct (exprs_ok l X) as (ps & Hp & Fp), (hdr_ok h H) as (k & E & HK & NK). unfold py_import. rewrite Hp. cbn [bind]. rewrite E. cbn [bind]. eexists. split; [reflexivity|].
    constructor; [reflexivity| |].
    + apply (HK "HdlImport"%string [("path" ~> PList ps)]). fields.
    + exists ps. split; [reflexivity|exact Fp].
  - hsplit H. destruct (IH X) as (y & Hy & Sy), (hdr_ok h H) as (k & E & HK & NK), (sens_ok se X0) as (ks & Es & Ds & Ns), (trigger_ok t) as [Dt Nt].
    rewrite sendable_obj_not_null by exact X. rewrite Es. cbn [bind]. rewrite Hy. cbn [bind]. rewrite E. cbn [bind]. eexists. split; [reflexivity|]. constructor.
    + reflexivity.
    + rewrite !app_assoc. apply HK. nones.
    + looks. rewrite merge_none. exact Ds.
    + looks. rewrite merge_none. exact Dt.
    + looks. exact Sy.
  - hsplit H. destruct (mapM_shows py_obj sendable_obj tells l IH X) as (ps & Hp & Fp), (hdr_ok h H) as (k & E & HK & NK). rewrite Hp. cbn [bind]. rewrite E. cbn [bind].
    eexists. split; [reflexivity|]. eapply te_block with (ps := ps); try reflexivity; try exact Fp. apply HK. nones.
  - hsplit H. destruct (expr_shown c X2) as (x & Hx & Sx), (IHt X1) as (y & Hy & Sy), (obranches_ok l IHl X0) as (ps & Hp & Fp), (hdr_ok h H) as (k & E & HK & NK), (part_ok "if_false"%string f IHf X) as (kf & Ef & Df & Nf).
    rewrite Hx. cbn [bind]. rewrite Hy. cbn [bind]. change (mapM _ l) with (mapM py_obranch l). rewrite Hp. cbn [bind]. rewrite Ef. cbn [bind]. rewrite E. cbn [bind].
    eexists. split; [reflexivity|]. eapply te_if with (ps := ps); try exact Fp; try exact eq_refl; try (looks; assumption).
    + rewrite !app_assoc. apply HK. nones.
    + looks. rewrite merge_none. exact Df.
  - hsplit H. destruct (expr_shown e X1) as (x & Hx & Sx), (obranches_ok l IHl X0) as (ps & Hp & Fp), (hdr_ok h H) as (q & E & HK & NK), (part_ok "default"%string f IHf X) as (kf & Ef & Df & Nf), (uniq_ok u) as [Du Nu].
    rewrite Hx. cbn [bind]. change (mapM _ l) with (mapM py_obranch l). rewrite Hp. cbn [bind]. rewrite Ef. cbn [bind]. rewrite E. cbn [bind].
    eexists. split; [reflexivity|]. eapply te_case with (ps := ps); try exact Fp; try exact eq_refl; try (looks; first [assumption|reflexivity]).
    + rewrite !app_assoc. apply HK. nones.
    + looks. rewrite merge_none. exact Du.
    + looks. rewrite merge_none. exact Df.
  - hsplit H. destruct (IHi X2) as (v & Hv & Sv), (expr_shown c X1) as (x & Hx & Sx), (IHs X0) as (w & Hw & Sw), (IHb X) as (y & Hy & Sy), (hdr_ok h H) as (k & E & HK & NK).
    rewrite !sendable_obj_not_null by assumption. rewrite Hv. cbn [bind]. rewrite Hx. cbn [bind]. rewrite Hw. cbn [bind]. rewrite Hy. cbn [bind]. rewrite E. cbn [bind].
    eexists. split; [reflexivity|]. constructor; try reflexivity; try assumption. hd HK.
  - hsplit H. destruct (mapM_shows py_obj sendable_obj tells l IHl X1) as (ps & Hp & Fp), (expr_shown c X0) as (x & Hx & Sx), (IHb X) as (y & Hy & Sy), (hdr_ok h H) as (k & E & HK & NK).
    rewrite Hp. cbn [bind]. rewrite Hx. cbn [bind]. rewrite Hy. cbn [bind]. rewrite E. cbn [bind]. eexists. split; [reflexivity|]. eapply te_forin with (ps := ps); try exact eq_refl; try eassumption. hd HK.
  - hsplit H. destruct (expr_shown c X0) as (x & Hx & Sx), (IH X) as (y & Hy & Sy), (hdr_ok h H) as (k & E & HK & NK). rewrite Hx. cbn [bind].
    rewrite sendable_obj_not_null by exact X. rewrite Hy. cbn [bind]. rewrite E. cbn [bind]. eexists. split; [reflexivity|]. constructor; try reflexivity; try assumption. hd HK.
  - hsplit H. destruct (expr_shown n X0) as (x & Hx & Sx), (IH X) as (y & Hy & Sy), (hdr_ok h H) as (k & E & HK & NK). rewrite Hx. cbn [bind]. rewrite Hy. cbn [bind]. rewrite E. cbn [bind].
    eexists. split; [reflexivity|]. constructor; try reflexivity; try assumption. hd HK.
  - hsplit H. destruct (stm_said s X) as (p & Hp & Sp). exists p. split; [exact Hp|constructor; assumption].
  - discriminate.
Qed.
Theorem file_told l : forallb sendable_obj l = true -> exists p, py_context l = Ok p /\ tells_file p l.
Proof.
  intros H. destruct (mapM_shows py_obj sendable_obj tells l) as (ps & Hp & Fp); [apply Forall_forall; intros x _; apply obj_told|exact H|].
  unfold py_context. rewrite Hp. cbn [bind]. eexists. split; [reflexivity|]. split; [reflexivity|]. exists ps. split; [reflexivity|exact Fp].
Qed.

(** ** One Python object, one object *)
Lemma named_det p a b : named p a -> named p b -> a = b.
Proof.
  destruct a as [x1 x2 x3], b as [y1 y2 y3]. unfold named. cbn [n_name n_doc n_attrs]. intros (A1 & A2 & A3) (B1 & B2 & B3). f_equal; [eapply text_det; eassumption|eapply text_det; eassumption|eapply attributes_det; eassumption].
Qed.
Lemma flagged_det p a b : flagged p a -> flagged p b -> a = b.
Proof. destruct a, b. unfold flagged, flag. cbn. intros (A1 & A2 & A3 & A4 & A5 & A6) (B1 & B2 & B3 & B4 & B5 & B6). congruence. Qed.
Lemma a_member_det p a b : a_member p a -> a_member p b -> a = b.
Proof.
  destruct a as [n v], b as [n' v']. intros (x & y & E1 & A1 & A2) (x' & y' & E2 & B1 & B2). cbn [fst snd] in *. rewrite E1 in E2. injection E2 as <- <-. f_equal.
  - destruct n, n'; cbn [maybe_name] in *; congruence.
  - eapply maybe_det; eassumption.
Qed.
Lemma a_unit_det p a b : a_unit p a -> a_unit p b -> a = b.
Proof. destruct a as [n v], b as [n' v']. intros H1 H2. pose proof (a_member_det _ _ _ H1 H2) as E. cbn [fst snd] in E. congruence. Qed.
Lemma type_value_det p a b : type_value p a -> type_value p b -> a = b.
Proof.
  destruct a as [e|l|r l|l], b as [e'|l'|r' l'|l']; cbn [type_value]; intros H1 H2; try contradiction; try (destruct H1 as [H1 _]; destruct H2 as [H2 _]; congruence).
  - f_equal. eapply sequence_det; [apply a_member_det|apply H1|apply H2].
  - destruct H1 as (_ & A1 & A2), H2 as (_ & B1 & B2). f_equal; [eapply shows_det; eassumption|eapply sequence_det; [apply a_unit_det|exact A2|exact B2]].
  - f_equal. eapply sequence_det; [apply defines_det|apply H1|apply H2].
Qed.
Lemma defines_type_det p d v d' v' : defines_type p d v -> defines_type p d' v' -> d = d' /\ v = v'.
Proof.
  destruct d, d'. unfold defines_type, flag. cbn. intros (_ & A1 & A2 & A3 & A4 & A5 & A6 & A7 & A8 & A9 & A10 & A11 & A12 & A13) (_ & B1 & B2 & B3 & B4 & B5 & B6 & B7 & B8 & B9 & B10 & B11 & B12 & B13).
  split; [|eapply type_value_det; eassumption]. f_equal; try congruence.
  - eapply text_det; eassumption.
  - pose proof (maybe_det _ _ _ A3 B3) as E. destruct d_type, d_type0; congruence.
  - apply dir_name_inj. congruence.
  - eapply text_det; eassumption.
  - eapply attributes_det; eassumption.
Qed.
Lemma defines_not_type p d d' v : defines p d -> defines_type p d' v -> False.
Proof.
  unfold defines, defines_type. intros (_ & _ & _ & _ & A & _) (_ & _ & _ & _ & _ & B & _).
  destruct (d_value d) as [e|]; cbn [maybe] in A.
  - destruct A as [A _]. destruct v as [?|l|r l|l]; cbn [type_value] in B; try contradiction; destruct B as [B _]; inversion A; subst; try congruence;
      repeat match goal with E : _ = attr p "value" |- _ => rewrite <- E in B end; discriminate.
  - rewrite A in B. destruct v; cbn [type_value] in B; [contradiction|..]; destruct B as [B _]; discriminate.
Qed.
Lemma obranch_det l1 : Forall (fun q => forall p s2, tells p (snd q) -> tells p s2 -> snd q = s2) l1 -> forall ps l2, Forall2 tells_branch ps l1 -> Forall2 tells_branch ps l2 -> l1 = l2.
Proof.
  intros F. apply Forall2_det. eapply Forall_impl; [|exact F]. intros [e s] IH p [e2 s2] H1 H2. inversion H1; subst. inversion H2; subst. match goal with E : PTuple _ = PTuple _ |- _ => injection E as -> -> end.
  cbn [snd] in IH. f_equal; [eapply shows_det; eassumption|eapply IH; eassumption].
Qed.
Lemma tells_opt_det f : (forall b, f = Some b -> forall p s2, tells p b -> tells p s2 -> b = s2) -> forall p g, tells_opt p f -> tells_opt p g -> f = g.
Proof. intros IH p g H1 H2. inversion H1; subst; inversion H2; subst; try reflexivity; try contradiction. f_equal. eapply IH; [reflexivity|eassumption|eassumption]. Qed.
Lemma says_cls p s : leaf s = true -> says p s -> In (cls p) [None; Some "HdlValueId"; Some "HdlValueInt"; Some "HdlExprNotImplemented"; Some "HdlOp";
  Some "HdlStmNop"; Some "HdlStmAssign"; Some "HdlStmWait"; Some "HdlStmReturn"; Some "HdlStmBreak"; Some "HdlStmContinue"]%string.
Proof.
  intros L H. destruct s; try discriminate; inversion H; subst; repeat match goal with C : cls _ = _ |- _ => rewrite C end; try (cbn [In]; tauto).
  match goal with S : shows _ _ |- _ => pose proof (shows_cls _ _ S) as N end. cbn [In] in *. tauto.
Qed.
Ltac not_leaf := match goal with L : leaf ?s = true, S : says ?p ?s |- _ => pose proof (says_cls _ _ L S) as N;
  repeat match goal with D : defines _ _ |- _ => destruct D as [D _] | D : defines_type _ _ _ |- _ => destruct D as [D _] end;
  repeat match goal with C : cls p = _ |- _ => rewrite C in N end;
  cbn [In] in N; exfalso; repeat (destruct N as [N|N]); try discriminate; contradiction end.
Ltac oclash := exfalso; repeat match goal with D : defines _ _ |- _ => destruct D as [D _] | D : defines_type _ _ _ |- _ => destruct D as [D _] end; congruence.
Lemma sequence_defines_det o a b : sequence defines o a -> sequence defines o b -> a = b.
Proof. apply sequence_det. intros p x y. apply defines_det. Qed.
Theorem tells_det o1 : forall p o2, tells p o1 -> tells p o2 -> o1 = o2.
Proof.
  induction o1 as [d|d v|h f ps ret body IH|h gs ps l IH|h m d l IHd IH|h b l IH|c d a|h|h l|h se t b IH|h j l IH|h c t l f IHt IHl IHf|h u k e l f IHl IHf
    |h i c st b IHi IHs IHb|h l c b IHl IHb|h c b IH|h n b IH|s|] using obj_ind';
    intros p o2 H1 H2; inversion H1; subst; clear H1; inversion H2; subst; clear H2; try solve [exfalso; eapply defines_not_type; eassumption]; try solve [oclash]; try solve [not_leaf];
    repeat match goal with A : attr ?p ?f = PList _, B : attr ?p ?f = PList _ |- _ => rewrite A in B; injection B as <- end;
    try (match goal with A : defines_type _ _ _, B : defines_type _ _ _ |- _ => destruct (defines_type_det _ _ _ _ _ A B); congruence end); f_equal;
    try (eapply header_det; eassumption); try (eapply named_det; eassumption); try (eapply flagged_det; eassumption); try (eapply shows_det; eassumption); try (eapply maybe_det; eassumption);
    try (eapply sequence_shows_det; eassumption); try (eapply sequence_defines_det; eassumption); try (eapply attributes_det; eassumption);
    try (eapply obranch_det; eassumption); try (eapply tells_opt_det; eassumption); try (eapply defines_det; eassumption); try (eapply says_det; eassumption);
    try match goal with IH : forall p s2, tells p ?b -> _ |- ?b = _ => eapply IH; eassumption end; try (unfold flag in *; congruence); try (eapply Forall2_det; eassumption).
  - destruct ps as [x|], ps0 as [y|]; try reflexivity.
    + f_equal. eapply sequence_defines_det; eassumption.
    + match goal with Q : sequence _ _ _ |- _ => destruct Q as (qq & E & _) end. congruence.
    + match goal with Q : sequence _ _ _ |- _ => destruct Q as (qq & E & _) end. congruence.
  - f_equal; first [eapply shows_det; eassumption | eapply sequence_shows_det; eassumption].
  - destruct se as [x|], se0 as [y|]; try reflexivity.
    + f_equal. eapply sequence_shows_det; eassumption.
    + match goal with Q : sequence _ _ _ |- _ => destruct Q as (qq & E & _) end. congruence.
    + match goal with Q : sequence _ _ _ |- _ => destruct Q as (qq & E & _) end. congruence.
  - destruct t, t0; try reflexivity; cbn [trigger_name member] in *; congruence.
  - destruct j, j0; try reflexivity; cbn [join_name] in *; congruence.
  - destruct u, u0; try reflexivity; cbn [uniq_name member] in *; congruence.
  - destruct k, k0; try reflexivity; cbn [case_name] in *; congruence.
Qed.

(** ** Statements as objects *)
Lemma mapM_map {A B C} (f : B -> outcome C) (g : A -> B) (h : A -> outcome C) l : Forall (fun x => f (g x) = h x) l -> mapM f (map g l) = mapM h l.
Proof.
  induction 1 as [|x l E F IH]; [reflexivity|]. cbn [map]. change (mapM f (g x :: map g l)) with (y <- f (g x) ;; r <- mapM f (map g l) ;; Ok (y :: r)).
  change (mapM h (x :: l)) with (y <- h x ;; r <- mapM h l ;; Ok (y :: r)). rewrite E, IH. reflexivity.
Qed.
Lemma of_stm_null s m : obj_not_null (of_stm s) m = not_null s m. Proof. destruct s; reflexivity. Qed.
Lemma branches_same l : Forall (fun p => py_obj (of_stm (snd p)) = py_stm (snd p)) l ->
  mapM py_obranch (map (fun p : expr * stm => match p with (e, b) => (e, of_stm b) end) l) = mapM py_branch l.
Proof. intros F. apply mapM_map. eapply Forall_impl; [|exact F]. intros [e b] E. cbn [snd] in E. cbn [py_obranch py_branch]. rewrite E. reflexivity. Qed.
Theorem of_stm_same s : py_obj (of_stm s) = py_stm s.
Proof.
  induction s as [h|h e|h d sr td ed bl|h c t l f IHt IHl IHf|h u k e l f IHl IHf|h c b IHb|h b c IHb|h i c st b IHi IHs IHb|h l c b IHl IHb|h n b IHb|h j l IHl|h se t b IHb|h l|h e|h|h|d|] using stm_ind';
    try reflexivity; cbn [of_stm py_obj py_stm]; rewrite ?of_stm_null.
  - rewrite IHt. pose proof (branches_same l IHl) as E. change (mapM _ l) with (mapM py_branch l). change (mapM _ (map _ l)) with (mapM py_obranch (map (fun p : expr * stm => match p with (e, b) => (e, of_stm b) end) l)). rewrite E.
    destruct f as [b|]; [rewrite (IHf b eq_refl)|]; reflexivity.
  - pose proof (branches_same l IHl) as E. change (mapM _ l) with (mapM py_branch l). change (mapM _ (map _ l)) with (mapM py_obranch (map (fun p : expr * stm => match p with (e, b) => (e, of_stm b) end) l)). rewrite E.
    destruct f as [b|]; [rewrite (IHf b eq_refl)|]; reflexivity.
  - rewrite IHb. reflexivity.
  - rewrite IHi, IHs, IHb. reflexivity.
  - rewrite (mapM_map py_obj of_stm py_stm l IHl), IHb. reflexivity.
  - rewrite IHb. reflexivity.
  - rewrite (mapM_map py_obj of_stm py_stm l IHl). reflexivity.
  - rewrite IHb. reflexivity.
Qed.
