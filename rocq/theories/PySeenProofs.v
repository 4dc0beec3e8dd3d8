From Verif Require Import Base BaseFacts AstModel OpModel OpSpec StmModel SvExprModel SvExprProofs SvInstProofs SvDeclProofs PyModel PySpec PyProofs PyStmProofs PyObjModel PyObjSpec PyObjProofs PySeenSpec P_C29.
From Verif Require Import SvDeclModel VhdlDeclModel.
Import PySpec PyObjModel PyObjSpec PySeenSpec.

Lemma mapM_seen {A B} (f : A -> outcome pyval) (ok : A -> bool) (g : A -> B) (R : pyval -> B -> Prop) l :
  Forall (fun x => ok x = true -> exists p, f x = Ok p /\ R p (g x)) l -> forallb ok l = true -> exists ps, mapM f l = Ok ps /\ Forall2 R ps (map g l).
Proof.
  intros F. induction F as [|x l Hx F IH]; cbn [forallb map]; intros H; [exists []; split; [reflexivity|constructor]|].
  apply andb_prop in H as [H1 H2]. destruct (Hx H1) as (p & Hp & Rp), (IH H2) as (ps & Hps & Rps).
  exists (p :: ps). split; [|constructor; assumption].
  change (mapM f (x :: l)) with (y <- f x ;; r <- mapM f l ;; Ok (y :: r)). rewrite Hp. cbn [bind]. rewrite Hps. reflexivity.
Qed.
(** ** Values *)
Theorem expr_seen e : readable e = true -> exists p, py_expr e = Ok p /\ shows p (seen e).
Proof.
  induction e as [s|b v|t|s|l F|s| |o l F|] using expr_ind'; cbn [readable py_expr seen]; intros H.
  - apply andb_prop in H as [H1 H2]. destruct s as [|c s]; [discriminate|]. rewrite (py_str_ok _ H2). cbn [bind].
    eexists. split; [reflexivity|]. constructor; reflexivity.
  - unfold py_int.
    assert (W : width (if (0 <? b)%Z then PInt b else PNone) (if (0 <? b)%Z then b else -1)).
    { destruct (0 <? b)%Z eqn:E; constructor. apply Z.ltb_lt, E. }
    destruct v as [v|d base]; cbn [bind].
    + eexists. split; [reflexivity|]. apply sh_int; try reflexivity. exact W.
    + rewrite (py_str_ok _ H). cbn [bind]. eexists. split; [reflexivity|]. apply sh_digits; try reflexivity. exact W.
  - eexists. split; [reflexivity|constructor].
  - rewrite (py_str_ok _ H). eexists. split; [reflexivity|constructor].
  - destruct (mapM_seen py_expr readable seen shows l F H) as (ps & Hp & Fp). rewrite Hp. cbn [bind]. eexists. split; [reflexivity|constructor; exact Fp].
  - destruct s; (eexists; split; [reflexivity|]); try (apply sh_symbol; reflexivity); apply sh_null.
  - eexists. split; [reflexivity|apply sh_notimpl; reflexivity].
  - rewrite C29_names. cbn [bind]. destruct (mapM_seen py_expr readable seen shows l F H) as (ps & Hp & Fp). rewrite Hp. cbn [bind].
    eexists. split; [reflexivity|eapply sh_op; try reflexivity; exact Fp].
  - discriminate.
Qed.
Lemma exprs_seen l : forallb readable l = true -> exists ps, mapM py_expr l = Ok ps /\ Forall2 shows ps (map seen l).
Proof. apply (mapM_seen py_expr readable). apply Forall_forall. intros x _. apply expr_seen. Qed.
Lemma shown_none p e : shows p e -> told_apart e = false -> p = PNone.
Proof. intros S H. destruct e as [| | | | |[]| | |]; try discriminate. inversion S; subst; [reflexivity|discriminate]. Qed.
Lemma shown_some p e : shows p e -> told_apart e = true -> p <> PNone.
Proof. intros S H E. subst p. inversion S; subst; discriminate. Qed.
Lemma value_seen e : readable e = true -> exists p, py_expr e = Ok p /\ maybe p (seen_opt (Some e)).
Proof.
  intros H. destruct (expr_seen e H) as (p & Hp & Sp). exists p. split; [exact Hp|]. cbn [seen_opt]. destruct (told_apart (seen e)) eqn:T; cbn [maybe].
  - split; [exact Sp|eapply shown_some; eassumption].
  - eapply shown_none; eassumption.
Qed.
(** ** Headers and definitions *)
Lemma attr_seen a : sendable_text (fst a) && opt_all readable (snd a) = true -> exists p, py_attr a = Ok p /\ an_attribute p (fst a, seen_opt (snd a)).
Proof.
  destruct a as [n v]. cbn [fst snd]. intros H. apply andb_prop in H as [H1 H2]. unfold py_attr. cbn [fst snd]. rewrite (py_str_ok _ H1). cbn [bind].
  destruct v as [e|]; cbn [opt_all] in H2.
  - destruct (value_seen e H2) as (p & Hp & Sp). rewrite Hp. cbn [bind]. eexists. split; [reflexivity|]. exists p. split; [reflexivity|exact Sp].
  - cbn [bind]. eexists. split; [reflexivity|]. exists PNone. split; reflexivity.
Qed.
Lemma attrs_seen l : readable_attrs l = true -> exists k, py_attrs l = Ok k /\ attributes (dflt (assoc "hdlAttributes" k)) (seen_attrs l) /\ forall f, f <> "hdlAttributes"%string -> assoc f k = None.
Proof.
  intros H. unfold py_attrs. destruct l as [|a l]; [exists []; split; [reflexivity|split; reflexivity]|].
  destruct (mapM_seen py_attr (fun a => sendable_text (fst a) && opt_all readable (snd a)) (fun a => (fst a, seen_opt (snd a))) an_attribute (a :: l)) as (ps & Hp & Fp).
  - apply Forall_forall. intros x _. apply attr_seen.
  - exact H.
  - rewrite Hp. cbn [bind]. eexists. split; [reflexivity|]. split; [exists ps; split; [reflexivity|exact Fp]|].
    intros f Hf. cbn [assoc]. destruct (String.eqb_spec f "hdlAttributes"); [contradiction|reflexivity].
Qed.
Lemma hdr_seen h : readable_hdr h = true -> exists k, py_hdr h = Ok k
  /\ (forall c pre, Forall (fun f => assoc f pre = None) hdr_fields -> header (PObj c (pre ++ k)) (seen_hdr h))
  /\ (forall f, ~ In f hdr_fields -> assoc f k = None).
Proof.
  intros H. unfold readable_hdr in H. apply andb_prop in H as [H H3]. apply andb_prop in H as [H1 H2]. unfold py_hdr.
  destruct (doc_ok _ H1) as (k1 & E1 & D1 & N1), (texts_ok _ H2) as (ps & E2 & F2), (attrs_seen _ H3) as (k3 & E3 & D3 & N3).
  rewrite E1, E2, E3. cbn [bind]. eexists. split; [reflexivity|]. split.
  - intros c pre F. inversion F as [|? ? A1 F']; subst. inversion F' as [|? ? A2 F'']; subst. inversion F'' as [|? ? A3 F3]; subst. inversion F3 as [|? ? A4 _]; subst.
    unfold header. rewrite !attr_obj, !assoc_app, A1, A2, A3, A4. repeat split.
    + destruct (assoc "doc" k1) as [v|] eqn:E; [exact D1|]. cbn [assoc String.eqb Ascii.eqb Bool.eqb]. rewrite N3 by discriminate. exact D1.
    + rewrite (N1 "labels"%string) by discriminate. exists ps. split; [reflexivity|exact F2].
    + rewrite (N1 "in_preproc"%string) by discriminate. reflexivity.
    + rewrite (N1 "hdlAttributes"%string) by discriminate. exact D3.
  - intros f Hf. cbn [hdr_fields In] in Hf. rewrite !assoc_app. rewrite N1 by (intros ->; tauto). cbn [assoc].
    destruct (String.eqb_spec f "labels"); [subst; tauto|]. destruct (String.eqb_spec f "in_preproc"); [subst; tauto|]. apply N3. intros ->; tauto.
Qed.
Lemma type_seen d : readable_type (d_type d) = true ->
  exists k, match d_type d with ENull => Ok [] | e => x <- py_expr e ;; Ok [("type" ~> x)] end = Ok k
    /\ maybe (dflt (assoc "type" k)) (match seen_type (d_type d) with ENull => None | e => Some e end) /\ forall f, f <> "type"%string -> assoc f k = None.
Proof.
  assert (G : forall e, e <> ENull -> readable e = true -> exists k, (x <- py_expr e ;; Ok [("type" ~> x)]) = Ok k
    /\ maybe (dflt (assoc "type" k)) (match seen_type e with ENull => None | e => Some e end) /\ forall f, f <> "type"%string -> assoc f k = None).
  { intros t N R. destruct (value_seen t R) as (p & Hp & Sp). rewrite Hp. cbn [bind]. eexists. split; [reflexivity|]. split.
    - assert (E : match seen_type t with ENull => None | e => Some e end = seen_opt (Some t)).
      { unfold seen_type. cbn [seen_opt]. destruct (told_apart (seen t)) eqn:T; [|reflexivity]. destruct t as [| | | | |[]| | |]; try reflexivity; contradiction N; reflexivity. }
      rewrite E. exact Sp.
    - intros f Hf. cbn [assoc]. destruct (String.eqb_spec f "type"); [contradiction|reflexivity]. }
  destruct (d_type d); cbn [readable_type]; intros H; try (apply G; [discriminate|exact H]). exists []. split; [reflexivity|]. split; reflexivity.
Qed.
Lemma dir_seen d : known_dir d = true -> py_dir d = Ok (PEnum "HdlDirection" (dir_name d)) /\ d <> DIR_UNKNOWN.
Proof. destruct d; try discriminate; intros _; (split; [reflexivity|discriminate]). Qed.
Lemma def_seen d : readable_def d = true -> exists p, py_iddef d = Ok p /\ defines p (seen_def d).
Proof.
  unfold readable_def, readable_head. intros H. hsplit H. unfold py_iddef.
  destruct (name_ok _ H) as (k1 & E1 & D1 & N1), (doc_ok _ X3) as (k2 & E2 & D2 & N2), (attrs_seen _ X0) as (k3 & E3 & D3 & N3), (type_seen d X2) as (k4 & E4 & D4 & N4), (dir_seen _ X1) as [R1 R2].
  assert (V : exists k, match d_value d with None => Ok [] | Some e => x <- py_expr e ;; Ok [("value" ~> x)] end = Ok k
     /\ maybe (dflt (assoc "value" k)) (seen_opt (d_value d)) /\ forall f, f <> "value"%string -> assoc f k = None).
  { destruct (d_value d) as [e|]; [|exists []; split; [reflexivity|]; split; reflexivity].
    destruct (value_seen e X) as (p & Hp & Sp). rewrite Hp. cbn [bind]. eexists. split; [reflexivity|]. split; [exact Sp|].
    intros f Hf. cbn [assoc]. destruct (String.eqb_spec f "value"); [contradiction|reflexivity]. }
  destruct V as (k5 & E5 & D5 & N5).
  rewrite E1, E2. cbn [bind]. rewrite E4. cbn [bind]. rewrite E5. cbn [bind]. rewrite R1. cbn [bind]. rewrite E3. cbn [bind].
  eexists. split; [reflexivity|]. unfold defines, seen_def, with_value. cbn [d_name d_type d_value d_dir d_latched d_const d_static d_shared d_alias d_doc d_attrs].
  looks. rewrite !merge_none. repeat split; try assumption; reflexivity.
Qed.
Lemma defs_seen l : forallb readable_def l = true -> exists ps, mapM py_iddef l = Ok ps /\ Forall2 defines ps (map seen_def l).
Proof. apply (mapM_seen py_iddef readable_def). apply Forall_forall. intros x _. apply def_seen. Qed.
Lemma nhdr_seen h : readable_nhdr h = true -> exists k a, py_nhdr h = Ok k /\ py_attrs (n_attrs h) = Ok a
  /\ (forall c l, Forall (fun f => assoc f l = None) ["name"; "doc"; "hdlAttributes"]%string -> named (PObj c (k ++ l ++ a)) (seen_nhdr h))
  /\ (forall f, ~ In f nhdr_fields -> assoc f k = None) /\ (forall f, f <> "hdlAttributes"%string -> assoc f a = None).
Proof.
  intros H. unfold readable_nhdr in H. hsplit H. unfold py_nhdr.
  destruct (name_ok _ H) as (k1 & E1 & D1 & N1), (doc_ok _ X0) as (k2 & E2 & D2 & N2), (attrs_seen _ X) as (k3 & E3 & D3 & N3).
  rewrite E1, E2. cbn [bind]. exists (k1 ++ k2), k3. split; [reflexivity|]. split; [exact E3|]. split; [|split; [|exact N3]].
  - intros c l F. inversion F as [|? ? A1 F']; subst. inversion F' as [|? ? A2 F'']; subst. inversion F'' as [|? ? A3 F3]; subst.
    unfold named, seen_nhdr. cbn [n_name n_doc n_attrs]. looks. rewrite A1, A2, A3, !merge_none. repeat split; try assumption.
  - intros f Hf. cbn [nhdr_fields In] in Hf. rewrite assoc_app, N1 by (intros ->; tauto). apply N2. intros ->; tauto.
Qed.
Lemma member_seen m : readable_member m = true -> exists p, py_member m = Ok p /\ a_member p (fst m, seen_opt (snd m)).
Proof.
  destruct m as [n v]. unfold readable_member, py_member, a_member. cbn [fst snd]. intros H. hsplit H.
  assert (A : exists x, match n with Some s => py_str s | None => Ok PNone end = Ok x /\ maybe_name x n).
  { destruct n as [s|]; [|exists PNone; split; reflexivity]. exists (PStr s). split; [apply py_str_ok, H|reflexivity]. }
  assert (B : exists y, match v with Some e => decref_null (py_expr e) | None => Ok PNone end = Ok y /\ maybe y (seen_opt v)).
  { destruct v as [e|]; [|exists PNone; split; reflexivity]. destruct (value_seen e X) as (y & Hy & Sy). rewrite Hy. exists y. split; [reflexivity|exact Sy]. }
  destruct A as (x & -> & Sx), B as (y & Hy & Sy). cbn [bind]. rewrite Hy. cbn [bind]. eexists. split; [reflexivity|]. exists x, y. auto.
Qed.
Lemma units_seen l : forallb readable_unit l = true -> exists ps, mapM py_member (map some_name l) = Ok ps /\ Forall2 a_unit ps (map (fun m => (fst m, seen_opt (snd m))) l).
Proof.
  induction l as [|m l IH]; cbn [forallb map]; intros H; [exists []; split; [reflexivity|constructor]|]. hsplit H.
  destruct (IH X) as (ps & Hp & Fp). assert (M : readable_member (some_name m) = true) by exact H. destruct (member_seen _ M) as (p & E & Q).
  change (mapM py_member (some_name m :: map some_name l)) with (y <- py_member (some_name m) ;; r <- mapM py_member (map some_name l) ;; Ok (y :: r)).
  rewrite E. cbn [bind]. rewrite Hp. cbn [bind]. eexists. split; [reflexivity|]. constructor; [exact Q|exact Fp].
Qed.
Lemma tval_seen v : readable_tval v = true -> (forall e, v <> TV_expr e) -> exists p, py_tval v = Ok p /\ type_value p (seen_tval v).
Proof.
  destruct v as [e|l|r l|l]; cbn [readable_tval py_tval type_value seen_tval]; intros H N; [contradiction (N e); reflexivity| | |].
  - destruct (mapM_seen py_member readable_member (fun m => (fst m, seen_opt (snd m))) a_member l) as (ps & Hp & Fp); [apply Forall_forall; intros x _; apply member_seen|exact H|].
    rewrite Hp. cbn [bind]. eexists. split; [reflexivity|]. split; [reflexivity|]. exists ps. split; [reflexivity|exact Fp].
  - hsplit H. destruct (expr_seen r H) as (x & Hx & Sx), (units_seen l X) as (ps & Hp & Fp). rewrite Hx. cbn [bind]. rewrite Hp. cbn [bind].
    eexists. split; [reflexivity|]. split; [reflexivity|]. split; [exact Sx|]. exists ps. split; [reflexivity|exact Fp].
  - destruct (defs_seen l H) as (ps & Hp & Fp). rewrite Hp. cbn [bind]. eexists. split; [reflexivity|]. split; [reflexivity|]. split; [reflexivity|]. exists ps. split; [reflexivity|exact Fp].
Qed.
Lemma typedef_seen d v : readable_head d = true -> readable_tval v = true -> exists p, py_typedef d v = Ok p /\
  match v with TV_expr e => defines p (with_value d (seen_opt (Some e))) | _ => defines_type p (with_value d None) (seen_tval v) end.
Proof.
  unfold readable_head. intros H HV. hsplit H. unfold py_typedef.
  destruct (name_ok _ H) as (k1 & E1 & D1 & N1), (doc_ok _ X2) as (k2 & E2 & D2 & N2), (attrs_seen _ X) as (k3 & E3 & D3 & N3), (type_seen d X1) as (k4 & E4 & D4 & N4), (dir_seen _ X0) as [R1 R2].
  assert (V : exists x, py_tval v = Ok x /\ match v with TV_expr e => maybe x (seen_opt (Some e)) | _ => type_value x (seen_tval v) end).
  { destruct v; [apply value_seen; exact HV| | |]; (apply tval_seen; [exact HV|discriminate]). }
  destruct V as (tv & E5 & D5). rewrite E1, E2. cbn [bind]. rewrite E4. cbn [bind]. rewrite E5. cbn [bind]. rewrite R1. cbn [bind]. rewrite E3. cbn [bind].
  eexists. split; [reflexivity|]. destruct v; unfold defines, defines_type, with_value; cbn [d_name d_type d_value d_dir d_latched d_const d_static d_shared d_alias d_doc d_attrs];
    looks; rewrite !merge_none; repeat match goal with |- _ /\ _ => split end; try assumption; reflexivity.
Qed.

(** ** Statements *)
Lemma opt_expr_seen n e : opt_all readable e = true ->
  exists k, py_opt py_expr n e = Ok k /\ maybe (dflt (assoc n k)) (seen_opt e) /\ forall g, g <> n -> assoc g k = None.
Proof.
  intros H. destruct e as [e|]; cbn [py_opt opt_all] in *; [|exists []; split; [reflexivity|split; reflexivity]].
  destruct (value_seen e H) as (p & Hp & Sp). rewrite Hp. cbn [bind]. eexists. split; [reflexivity|]. cbn [assoc]. rewrite String.eqb_refl. split; [exact Sp|].
  intros g Hg. destruct (String.eqb_spec g n); [contradiction|reflexivity].
Qed.
Lemma leaf_seen s : readable_leaf s = true -> exists p, py_stm s = Ok p /\ says p (seen_leaf s).
Proof.
  destruct s; try discriminate; cbn [readable_leaf py_stm seen_leaf]; intros H.
  - destruct (hdr_seen h H) as (k & E & HK & NK). rewrite E. cbn [bind]. eexists. split; [reflexivity|]. constructor; [reflexivity|]. apply (HK _ []). fields.
  - destruct (expr_seen e H) as (p & Hp & Sp). rewrite Hp. exists p. split; [reflexivity|constructor; exact Sp].
  - hsplit H. rename dst into d, src into sr.
    destruct (expr_seen sr X1) as (x & Hx & Sx), (expr_seen d X2) as (y & Hy & Sy), (hdr_seen h H) as (k & E & HK & NK).
    rewrite Hx, Hy. cbn [decref_null bind]. rename time_delay into td, event_delay into ed, blocking into bl.
    assert (T : exists v, match td with Some e => decref_null (py_expr e) | None => Ok PNone end = Ok v /\ maybe v (seen_opt td)).
    { destruct td as [e|]; [|exists PNone; split; reflexivity]. destruct (value_seen e X0) as (v & Hv & Sv). rewrite Hv. exists v. split; [reflexivity|exact Sv]. }
    destruct T as (v & Hv & Sv). rewrite Hv. cbn [bind].
    set (ed' := match ed with Some (x :: l) => Some (map seen (x :: l)) | _ => None end).
    assert (W : exists w, match ed with Some (a :: l) => r <- mapM py_expr (a :: l) ;; Ok [("event_delay" ~> PList r)] | _ => Ok [] end = Ok w
      /\ (w = [] /\ ed' = None \/ exists l ps, ed' = Some l /\ l <> [] /\ w = [("event_delay" ~> PList ps)] /\ Forall2 shows ps l)).
    { unfold ed'. destruct ed as [[|a l]|]; [exists []; split; [reflexivity|left; auto]| |exists []; split; [reflexivity|left; auto]].
      destruct (exprs_seen (a :: l) X) as (ps & Hp & Fp). rewrite Hp. cbn [bind].
      eexists. split; [reflexivity|]. right. exists (map seen (a :: l)), ps. repeat split; [discriminate|exact Fp]. }
    destruct W as (w & Hw & W). rewrite Hw. cbn [bind]. rewrite E. cbn [bind]. eexists. split; [reflexivity|].
    constructor; try reflexivity; try exact Sx; try exact Sy; try exact Sv.
    + rewrite (app_assoc _ _ (_ ++ k)), (app_assoc _ _ k). apply HK. destruct W as [[-> _]|(l & ps & _ & _ & -> & _)]; fields.
    + destruct W as [[-> ->]|(l & ps & -> & N & -> & F)]; [|split; [exact N|exists ps; split; [reflexivity|exact F]]].
      cbn [app]. rewrite attr_obj. cbn [assoc String.eqb Ascii.eqb Bool.eqb]. rewrite NK; [reflexivity|notin].
    + unfold flag. destruct W as [[-> _]|(l & ps & _ & N & -> & F)]; reflexivity.
  - hsplit H. destruct (exprs_seen _ X) as (ps & Hp & Fp), (hdr_seen h H) as (k & E & HK & NK). rewrite Hp. cbn [bind]. rewrite E. cbn [bind]. eexists. split; [reflexivity|].
    constructor; [reflexivity|apply HK; fields|exists ps; split; [reflexivity|exact Fp]].
  - hsplit H. destruct (opt_expr_seen "val" _ X) as (kv & Ev & Dv & Nv), (hdr_seen h H) as (k & E & HK & NK). rewrite Ev. cbn [bind]. rewrite E. cbn [bind]. eexists. split; [reflexivity|].
    constructor; [reflexivity|apply HK; nones|looks; rewrite merge_none; exact Dv].
  - destruct (hdr_seen h H) as (k & E & HK & NK). rewrite E. cbn [bind]. eexists. split; [reflexivity|]. constructor; [reflexivity|]. apply (HK _ []). fields.
  - destruct (hdr_seen h H) as (k & E & HK & NK). rewrite E. cbn [bind]. eexists. split; [reflexivity|]. constructor; [reflexivity|]. apply (HK _ []). fields.
Qed.

(** ** Objects *)
Lemma seen_leaf_leaf s : readable_leaf s = true -> leaf (seen_leaf s) = true. Proof. destruct s; try discriminate; reflexivity. Qed.
Lemma tells_none o p : tells p o -> obj_not_none o = false -> p = PNone.
Proof.
  intros H N. destruct o as [| | | | | | | | | | | | | | | | |s|]; try discriminate. destruct s; try discriminate. destruct e as [| | | | |[]| | |]; try discriminate.
  inversion H; subst. match goal with S : says _ _ |- _ => inversion S; subst end. eapply shown_none; [eassumption|reflexivity].
Qed.
Lemma readable_not_null o m : readable_obj o = true -> obj_not_null o m = m.
Proof. destruct o; try reflexivity. discriminate. Qed.
Definition seen_branch (p : expr * obj) : expr * obj := match p with (e, b) => (seen e, seen_obj b) end.
Definition seen_part (x : option obj) : option obj := match x with Some b => let y := seen_obj b in if obj_not_none y then Some y else None | None => None end.
Lemma obranches_seen l : Forall (fun p => readable_obj (snd p) = true -> exists q, py_obj (snd p) = Ok q /\ tells q (seen_obj (snd p))) l ->
  forallb (fun p => match p with (e, b) => readable e && readable_obj b end) l = true -> exists ps, mapM py_obranch l = Ok ps /\ Forall2 tells_branch ps (map seen_branch l).
Proof.
  intros F. apply mapM_seen. eapply Forall_impl; [|exact F]. intros [e b] IH H. cbn [snd] in IH. hsplit H.
  destruct (expr_seen e H) as (x & Hx & Sx), (IH X) as (y & Hy & Sy). exists (PTuple [x; y]). unfold py_obranch. rewrite Hx. cbn [bind]. rewrite Hy. cbn [bind].
  split; [reflexivity|]. econstructor; [reflexivity|exact Sx|exact Sy].
Qed.
Lemma part_seen n (f : option obj) : (forall b, f = Some b -> readable_obj b = true -> exists p, py_obj b = Ok p /\ tells p (seen_obj b)) ->
  match f with Some b => readable_obj b | None => true end = true ->
  exists k, match f with Some b => v <- py_obj b ;; Ok [(n, v)] | None => Ok [] end = Ok k /\ tells_opt (dflt (assoc n k)) (seen_part f) /\ forall g, g <> n -> assoc g k = None.
Proof.
  intros IH H. destruct f as [b|]; [|exists []; split; [reflexivity|split; [constructor|reflexivity]]].
  destruct (IH b eq_refl H) as (p & Hp & Sp). rewrite Hp. cbn [bind]. eexists. split; [reflexivity|]. cbn [assoc]. rewrite String.eqb_refl. split.
  - cbn [dflt seen_part]. destruct (obj_not_none (seen_obj b)) eqn:N.
    + constructor; [exact Sp|]. eapply tells_not_none; eassumption.
    + rewrite (tells_none _ _ Sp N). constructor.
  - intros g Hg. destruct (String.eqb_spec g n); [contradiction|reflexivity].
Qed.
Lemma sens_seen se : opt_all (forallb readable) se = true -> exists k, py_sens se = Ok k
  /\ match option_map (map seen) se with None => dflt (assoc "sensitivity" k) = PNone | Some l => sequence shows (dflt (assoc "sensitivity" k)) l end
  /\ forall g, g <> "sensitivity"%string -> assoc g k = None.
Proof.
  intros H. destruct se as [l|]; cbn [py_sens opt_all option_map] in *; [|exists []; split; [reflexivity|split; reflexivity]].
  destruct (exprs_seen l H) as (ps & Hp & Fp). rewrite Hp. cbn [bind]. eexists. split; [reflexivity|]. split; [exists ps; split; [reflexivity|exact Fp]|].
  intros g Hg. cbn [assoc]. destruct (String.eqb_spec g "sensitivity"); [contradiction|reflexivity].
Qed.
Lemma params_seen ps : opt_all (forallb readable_def) ps = true ->
  exists k, match ps with Some l => r <- mapM py_iddef l ;; Ok [("params" ~> PList r)] | None => Ok [] end = Ok k
  /\ match option_map (map seen_def) ps with Some l => sequence defines (dflt (assoc "params" k)) l | None => dflt (assoc "params" k) = PNone end
  /\ forall g, g <> "params"%string -> assoc g k = None.
Proof.
  intros H. destruct ps as [l|]; cbn [opt_all option_map] in *; [|exists []; split; [reflexivity|split; reflexivity]].
  destruct (defs_seen l H) as (qs & Hp & Fp). rewrite Hp. cbn [bind]. eexists. split; [reflexivity|]. split; [exists qs; split; [reflexivity|exact Fp]|].
  intros g Hg. cbn [assoc]. destruct (String.eqb_spec g "params"); [contradiction|reflexivity].
Qed.

Theorem obj_seen o : readable_obj o = true -> exists p, py_obj o = Ok p /\ tells p (seen_obj o).
Proof.
  induction o as [d|d v|h f ps ret body IH|h gs ps l IH|h m d l IHd IH|h b l IH|c d a|h|h l|h se t b IH|h j l IH|h c t l f IHt IHl IHf|h u k e l f IHl IHf
    |h i c st b IHi IHs IHb|h l c b IHl IHb|h c b IH|h n b IH|s|] using obj_ind'; cbn [readable_obj py_obj seen_obj]; intros H.
  - destruct (def_seen d H) as (p & Hp & Sp). exists p. split; [exact Hp|constructor; exact Sp].
  - hsplit H. destruct (typedef_seen d v H X) as (p & Hp & Sp). exists p. split; [exact Hp|]. destruct v; constructor; exact Sp.
  - hsplit H. destruct (nhdr_seen h H) as (k & a & E1 & E2 & HN & N1 & N2), (params_seen ps X1) as (kp & Ep & Dp & Np), (opt_expr_seen "return_t" ret X0) as (kr & Er & Dr & Nr),
      (mapM_seen py_obj readable_obj seen_obj tells body IH X) as (qs & Eb & Fb).
    rewrite E1. cbn [bind]. rewrite Ep. cbn [bind]. rewrite Er. cbn [bind]. rewrite Eb. cbn [bind]. rewrite E2. cbn [bind]. eexists. split; [reflexivity|].
    eapply te_func with (qs := qs); try exact Fb.
    + reflexivity.
    + rewrite !(app_assoc (py_flags f)), !(app_assoc (_ ++ kp)), (app_assoc (_ ++ kr)). apply HN. unfold py_flags. nones.
    + unfold flagged, flag, py_flags. looks. repeat split.
    + unfold py_flags. looks. rewrite merge_none. exact Dp.
    + unfold py_flags. looks. rewrite merge_none. exact Dr.
    + unfold py_flags. looks. reflexivity.
  - hsplit H. destruct (nhdr_seen h H) as (k & a & E1 & E2 & HN & N1 & N2), (defs_seen gs X1) as (q1 & Eg & Fg), (defs_seen ps X0) as (q2 & Ep & Fp), (mapM_seen py_obj readable_obj seen_obj tells l IH X) as (qs & Eb & Fb).
    rewrite E1. cbn [bind]. rewrite Eg. cbn [bind]. rewrite Ep. cbn [bind]. rewrite Eb. cbn [bind]. rewrite E2. cbn [bind]. eexists. split; [reflexivity|].
    eapply te_dec with (qs := qs); try exact Fb.
    + reflexivity.
    + apply HN. nones.
    + looks. exists q1. split; [reflexivity|exact Fg].
    + looks. exists q2. split; [reflexivity|exact Fp].
    + looks. reflexivity.
  - hsplit H. destruct (nhdr_seen h H) as (k & a & E1 & E2 & HN & N1 & N2), (opt_expr_seen "module_name" m X1) as (km & Em & Dm & Nm), (part_seen "dec"%string d IHd X0) as (kd & Ed & Dd & Nd),
      (mapM_seen py_obj readable_obj seen_obj tells l IH X) as (qs & Eb & Fb).
    rewrite E1. cbn [bind]. rewrite Em. cbn [bind]. rewrite Ed. cbn [bind]. rewrite Eb. cbn [bind]. rewrite E2. cbn [bind]. eexists. split; [reflexivity|].
    eapply te_def with (qs := qs); try exact Fb.
    + reflexivity.
    + rewrite (app_assoc km), (app_assoc (km ++ kd)). apply HN. nones.
    + looks. rewrite merge_none. exact Dm.
    + looks. rewrite merge_none. exact Dd.
    + looks. reflexivity.
  - hsplit H. destruct (nhdr_seen h H) as (k & a & E1 & E2 & HN & N1 & N2), (mapM_seen py_obj readable_obj seen_obj tells l IH X) as (qs & Eb & Fb).
    rewrite E1. cbn [bind]. rewrite Eb. cbn [bind]. rewrite E2. cbn [bind]. eexists. split; [reflexivity|]. eapply te_space with (qs := qs); try exact Fb.
    + reflexivity.
    + apply HN. nones.
    + unfold flag. looks. reflexivity.
    + looks. reflexivity.
  - hsplit H. destruct c as [n m g q]. unfold py_inst. cbn [ci_name ci_module ci_generics ci_ports] in *.
    destruct (expr_seen n H) as (x & Hx & Sx), (expr_seen m X2) as (y & Hy & Sy), (exprs_seen g X1) as (q1 & Eg & Fg), (exprs_seen q X0) as (q2 & Ep & Fp), (attrs_seen a X) as (k & Ek & Dk & Nk).
    rewrite Hx. cbn [bind]. rewrite Hy. cbn [bind]. rewrite Eg. cbn [bind]. rewrite Ep. cbn [bind]. rewrite Ek. cbn [bind]. eexists. split; [reflexivity|].
    constructor; try reflexivity; try assumption; [exists q1; split; [reflexivity|exact Fg]|exists q2; split; [reflexivity|exact Fp]].
  - destruct (nhdr_seen h H) as (k & a & E1 & E2 & HN & N1 & N2). unfold py_library. rewrite E1, E2. cbn [bind]. eexists. split; [reflexivity|]. constructor; [reflexivity|].
    apply (HN _ []). nones.
  - hsplit H. destruct (exprs_seen l X) as (ps & Hp & Fp), (hdr_seen h H) as (k & E & HK & NK). unfold py_import. rewrite Hp. cbn [bind]. rewrite E. cbn [bind]. eexists. split; [reflexivity|].
    constructor; [reflexivity| |].
    + apply (HK "HdlImport"%string [("path" ~> PList ps)]). fields.
    + exists ps. split; [reflexivity|exact Fp].
  - hsplit H. destruct (IH X) as (y & Hy & Sy), (hdr_seen h H) as (k & E & HK & NK), (sens_seen se X0) as (ks & Es & Ds & Ns), (trigger_ok t) as [Dt Nt].
    rewrite readable_not_null by exact X. rewrite Es. cbn [bind]. rewrite Hy. cbn [bind]. rewrite E. cbn [bind]. eexists. split; [reflexivity|]. constructor.
    + reflexivity.
    + rewrite !app_assoc. apply HK. nones.
    + looks. rewrite merge_none. exact Ds.
    + looks. rewrite merge_none. exact Dt.
    + looks. exact Sy.
  - hsplit H. destruct (mapM_seen py_obj readable_obj seen_obj tells l IH X) as (ps & Hp & Fp), (hdr_seen h H) as (k & E & HK & NK). rewrite Hp. cbn [bind]. rewrite E. cbn [bind].
    eexists. split; [reflexivity|]. eapply te_block with (ps := ps); try reflexivity; try exact Fp. apply HK. nones.
  - hsplit H. destruct (expr_seen c X2) as (x & Hx & Sx), (IHt X1) as (y & Hy & Sy), (obranches_seen l IHl X0) as (ps & Hp & Fp), (hdr_seen h H) as (k & E & HK & NK), (part_seen "if_false"%string f IHf X) as (kf & Ef & Df & Nf).
    rewrite Hx. cbn [bind]. rewrite Hy. cbn [bind]. change (mapM _ l) with (mapM py_obranch l). rewrite Hp. cbn [bind]. rewrite Ef. cbn [bind]. rewrite E. cbn [bind].
    eexists. split; [reflexivity|]. eapply te_if with (ps := ps); try exact Fp; try exact eq_refl; try (looks; assumption).
    + rewrite !app_assoc. apply HK. nones.
    + looks. rewrite merge_none. exact Df.
  - hsplit H. destruct (expr_seen e X1) as (x & Hx & Sx), (obranches_seen l IHl X0) as (ps & Hp & Fp), (hdr_seen h H) as (q & E & HK & NK), (part_seen "default"%string f IHf X) as (kf & Ef & Df & Nf), (uniq_ok u) as [Du Nu].
    rewrite Hx. cbn [bind]. change (mapM _ l) with (mapM py_obranch l). rewrite Hp. cbn [bind]. rewrite Ef. cbn [bind]. rewrite E. cbn [bind].
    eexists. split; [reflexivity|]. eapply te_case with (ps := ps); try exact Fp; try exact eq_refl; try (looks; first [assumption|reflexivity]).
    + rewrite !app_assoc. apply HK. nones.
    + looks. rewrite merge_none. exact Du.
    + looks. rewrite merge_none. exact Df.
  - hsplit H. destruct (IHi X2) as (v & Hv & Sv), (expr_seen c X1) as (x & Hx & Sx), (IHs X0) as (w & Hw & Sw), (IHb X) as (y & Hy & Sy), (hdr_seen h H) as (k & E & HK & NK).
    rewrite !readable_not_null by assumption. rewrite Hv. cbn [bind]. rewrite Hx. cbn [bind]. rewrite Hw. cbn [bind]. rewrite Hy. cbn [bind]. rewrite E. cbn [bind].
    eexists. split; [reflexivity|]. constructor; try reflexivity; try assumption. hd HK.
  - hsplit H. destruct (mapM_seen py_obj readable_obj seen_obj tells l IHl X1) as (ps & Hp & Fp), (expr_seen c X0) as (x & Hx & Sx), (IHb X) as (y & Hy & Sy), (hdr_seen h H) as (k & E & HK & NK).
    rewrite Hp. cbn [bind]. rewrite Hx. cbn [bind]. rewrite Hy. cbn [bind]. rewrite E. cbn [bind]. eexists. split; [reflexivity|]. eapply te_forin with (ps := ps); try exact eq_refl; try eassumption. hd HK.
  - hsplit H. destruct (expr_seen c X0) as (x & Hx & Sx), (IH X) as (y & Hy & Sy), (hdr_seen h H) as (k & E & HK & NK). rewrite Hx. cbn [bind].
    rewrite readable_not_null by exact X. rewrite Hy. cbn [bind]. rewrite E. cbn [bind]. eexists. split; [reflexivity|]. constructor; try reflexivity; try assumption. hd HK.
  - hsplit H. destruct (expr_seen n X0) as (x & Hx & Sx), (IH X) as (y & Hy & Sy), (hdr_seen h H) as (k & E & HK & NK). rewrite Hx. cbn [bind]. rewrite Hy. cbn [bind]. rewrite E. cbn [bind].
    eexists. split; [reflexivity|]. constructor; try reflexivity; try assumption. hd HK.
  - destruct (leaf_seen s H) as (p & Hp & Sp). exists p. split; [exact Hp|constructor; [apply seen_leaf_leaf, H|exact Sp]].
  - discriminate.
Qed.
Theorem file_seen l : forallb readable_obj l = true -> exists p, py_context l = Ok p /\ tells_file p (map seen_obj l).
Proof.
  intros H. destruct (mapM_seen py_obj readable_obj seen_obj tells l) as (ps & Hp & Fp); [apply Forall_forall; intros x _; apply obj_seen|exact H|].
  unfold py_context. rewrite Hp. cbn [bind]. eexists. split; [reflexivity|]. split; [reflexivity|]. exists ps. split; [reflexivity|exact Fp].
Qed.
