From Verif Require Import Base BaseFacts AstModel OpModel OpSpec StmModel SvExprModel SvExprProofs SvInstProofs SvDeclProofs PyModel PySpec P_C29.

(** ** Building lists *)
Lemma mapM_shows {A} (f : A -> outcome pyval) (ok : A -> bool) (R : pyval -> A -> Prop) l :
  Forall (fun x => ok x = true -> exists p, f x = Ok p /\ R p x) l -> forallb ok l = true -> exists ps, mapM f l = Ok ps /\ Forall2 R ps l.
Proof.
  intros F. induction F as [|x l Hx F IH]; cbn [forallb]; intros H; [exists []; split; [reflexivity|constructor]|].
  apply andb_prop in H as [H1 H2]. destruct (Hx H1) as (p & Hp & Rp), (IH H2) as (ps & Hps & Rps).
  exists (p :: ps). split; [|constructor; assumption].
  change (mapM f (x :: l)) with (y <- f x ;; r <- mapM f l ;; Ok (y :: r)). rewrite Hp. cbn [bind]. rewrite Hps. reflexivity.
Qed.
Lemma Forall2_det {A} (R : pyval -> A -> Prop) l1 : Forall (fun x => forall p y, R p x -> R p y -> x = y) l1 ->
  forall ps l2, Forall2 R ps l1 -> Forall2 R ps l2 -> l1 = l2.
Proof.
  induction 1 as [|x l1 Hx F IH]; intros ps l2 H1 H2; inversion H1; subst; inversion H2; subst; [reflexivity|]. f_equal; [eapply Hx; eassumption|eapply IH; eassumption].
Qed.
Lemma assoc_app f l k : assoc f (l ++ k) = match assoc f l with Some v => Some v | None => assoc f k end.
Proof. induction l as [|[g v] l IH]; [reflexivity|]. cbn [app assoc]. destruct (String.eqb f g); [reflexivity|exact IH]. Qed.

(** ** Texts *)
Lemma c_string_id s : forallb (fun c => negb (ceqb c c0)) s = true -> c_string s = s.
Proof. induction s as [|c s IH]; cbn [forallb c_string]; intros H; [reflexivity|]. apply andb_prop in H as [H1 H2]. apply negb_true_iff in H1. rewrite H1, IH by exact H2. reflexivity. Qed.
Lemma py_str_ok s : sendable_text s = true -> py_str s = Ok (PStr s).
Proof. unfold sendable_text, py_str. intros H. apply andb_prop in H as [H1 H2]. rewrite (c_string_id s H2), H1. reflexivity. Qed.
Lemma texts_ok l : forallb sendable_text l = true -> exists ps, mapM py_str l = Ok ps /\ Forall2 is_text ps l.
Proof. apply (mapM_shows py_str sendable_text). apply Forall_forall. intros s _ H. exists (PStr s). split; [apply py_str_ok, H|reflexivity]. Qed.

(** ** Values *)
Theorem expr_shown e : sendable e = true -> exists p, py_expr e = Ok p /\ shows p e.
Proof.
  induction e as [s|b v|t|s|l F|s| |o l F|] using expr_ind'; cbn [sendable py_expr]; intros H.
  - apply andb_prop in H as [H1 H2]. destruct s as [|c s]; [discriminate|]. rewrite (py_str_ok _ H2). cbn [bind].
    eexists. split; [reflexivity|]. constructor; reflexivity.
  - unfold sendable_int in H. apply andb_prop in H as [Hb Hv]. unfold py_int.
    assert (W : width (if (0 <? b)%Z then PInt b else PNone) b).
    { destruct (0 <? b)%Z eqn:E; [constructor; apply Z.ltb_lt, E|]. cbn [orb] in Hb. apply Z.eqb_eq in Hb. subst b. constructor. }
    destruct v as [v|d base]; cbn [bind].
    + eexists. split; [reflexivity|]. apply sh_int; try reflexivity. exact W.
    + rewrite (py_str_ok _ Hv). cbn [bind]. eexists. split; [reflexivity|]. apply sh_digits; try reflexivity. exact W.
  - eexists. split; [reflexivity|constructor].
  - rewrite (py_str_ok _ H). eexists. split; [reflexivity|constructor].
  - destruct (mapM_shows py_expr sendable shows l F H) as (ps & Hp & Fp). rewrite Hp. cbn [bind]. eexists. split; [reflexivity|constructor; exact Fp].
  - destruct s; try discriminate; (eexists; split; [reflexivity|]); try (apply sh_symbol; reflexivity). apply sh_null.
  - eexists. split; [reflexivity|apply sh_notimpl; reflexivity].
  - rewrite C29_names. cbn [bind]. destruct (mapM_shows py_expr sendable shows l F H) as (ps & Hp & Fp). rewrite Hp. cbn [bind].
    eexists. split; [reflexivity|eapply sh_op; try reflexivity; exact Fp].
  - discriminate.
Qed.
Lemma op_name_inj o1 o2 : op_name o1 = op_name o2 -> o1 = o2.
Proof. intros H. apply C29_names_distinct. rewrite !C29_names, H. reflexivity. Qed.
Lemma width_det o a b : width o a -> width o b -> a = b.
Proof. intros H1 H2. inversion H1; subst; inversion H2; subst; congruence. Qed.
Lemma symbol_inj s1 s2 c : symbol_class s1 = Some c -> symbol_class s2 = Some c -> s1 = s2.
Proof. destruct s1, s2; cbn; intros; congruence. Qed.
Theorem shows_det e1 : forall p e2, shows p e1 -> shows p e2 -> e1 = e2.
Proof.
  induction e1 as [s|b v|t|s|l F|s| |o l F|] using expr_ind'; intros p e2 H1 H2; inversion H1; subst; clear H1;
    inversion H2; subst; clear H2; try reflexivity; try discriminate; try congruence; cbn [cls attr] in *; try discriminate; try congruence.
  - f_equal; [eapply width_det; eassumption|congruence].
  - f_equal; [eapply width_det; eassumption|congruence].
  - f_equal. eapply Forall2_det; eassumption.
  - f_equal. eapply symbol_inj; eassumption.
  - assert (o = o0) by (apply op_name_inj; congruence). assert (ps = ps0) by congruence. subst. f_equal. eapply Forall2_det; eassumption.
Qed.

(** ** Headers and definitions *)
Definition dflt (o : option pyval) : pyval := match o with Some v => v | None => PNone end.
Lemma attr_obj c l f : attr (PObj c l) f = dflt (assoc f l). Proof. reflexivity. Qed.
Lemma shows_value e p : sendable_value e = true -> shows p e -> p <> PNone.
Proof. intros H S E. subst p. inversion S; subst; discriminate. Qed.
Lemma value_ok e : sendable_value e = true -> exists p, py_expr e = Ok p /\ maybe p (Some e).
Proof.
  intros H. pose proof H as H'. unfold sendable_value in H. apply andb_prop in H as [H _]. destruct (expr_shown e H) as (p & Hp & Sp). exists p. split; [exact Hp|]. split; [exact Sp|].
  eapply shows_value; eassumption.
Qed.
Lemma attr_ok a : sendable_text (fst a) && opt_all sendable_value (snd a) = true -> exists p, py_attr a = Ok p /\ an_attribute p a.
Proof.
  destruct a as [n v]. cbn [fst snd]. intros H. apply andb_prop in H as [H1 H2]. unfold py_attr. cbn [fst snd]. rewrite (py_str_ok _ H1). cbn [bind].
  destruct v as [e|]; cbn [opt_all] in H2.
  - destruct (value_ok e H2) as (p & Hp & Sp). rewrite Hp. cbn [bind]. eexists. split; [reflexivity|]. exists p. split; [reflexivity|exact Sp].
  - cbn [bind]. eexists. split; [reflexivity|]. exists PNone. split; reflexivity.
Qed.
Lemma attrs_ok l : sendable_attrs l = true -> exists k, py_attrs l = Ok k /\ attributes (dflt (assoc "hdlAttributes" k)) l /\ forall f, f <> "hdlAttributes"%string -> assoc f k = None.
Proof.
  intros H. unfold py_attrs. destruct l as [|a l]; [exists []; split; [reflexivity|split; reflexivity]|].
  destruct (mapM_shows py_attr (fun a => sendable_text (fst a) && opt_all sendable_value (snd a)) an_attribute (a :: l)) as (ps & Hp & Fp).
  - apply Forall_forall. intros x _. apply attr_ok.
  - exact H.
  - rewrite Hp. cbn [bind]. eexists. split; [reflexivity|]. split; [exists ps; split; [reflexivity|exact Fp]|].
    intros f Hf. cbn [assoc]. destruct (String.eqb_spec f "hdlAttributes"); [contradiction|reflexivity].
Qed.
Lemma doc_ok d : sendable_text d = true -> exists k, py_doc d = Ok k /\ text (dflt (assoc "doc" k)) d /\ forall f, f <> "doc"%string -> assoc f k = None.
Proof.
  intros H. unfold py_doc. destruct d as [|c d]; [exists []; split; [reflexivity|split; reflexivity]|]. rewrite (py_str_ok _ H). cbn [bind].
  eexists. split; [reflexivity|]. split; [reflexivity|]. intros f Hf. cbn [assoc]. destruct (String.eqb_spec f "doc"); [contradiction|reflexivity].
Qed.
Lemma name_ok d : sendable_text d = true -> exists k, py_name d = Ok k /\ text (dflt (assoc "name" k)) d /\ forall f, f <> "name"%string -> assoc f k = None.
Proof.
  intros H. unfold py_name. destruct d as [|c d]; [exists []; split; [reflexivity|split; reflexivity]|]. rewrite (py_str_ok _ H). cbn [bind].
  eexists. split; [reflexivity|]. split; [reflexivity|]. intros f Hf. cbn [assoc]. destruct (String.eqb_spec f "name"); [contradiction|reflexivity].
Qed.
Definition hdr_fields : list string := ["doc"; "labels"; "in_preproc"; "hdlAttributes"]%string.
Lemma hdr_ok h : sendable_hdr h = true -> exists k, py_hdr h = Ok k
  /\ (forall c pre, Forall (fun f => assoc f pre = None) hdr_fields -> header (PObj c (pre ++ k)) h)
  /\ (forall f, ~ In f hdr_fields -> assoc f k = None).
Proof.
  intros H. unfold sendable_hdr in H. apply andb_prop in H as [H H3]. apply andb_prop in H as [H1 H2]. unfold py_hdr.
  destruct (doc_ok _ H1) as (k1 & E1 & D1 & N1), (texts_ok _ H2) as (ps & E2 & F2), (attrs_ok _ H3) as (k3 & E3 & D3 & N3).
  rewrite E1, E2, E3. cbn [bind]. eexists. split; [reflexivity|]. split.
  - intros c pre F. inversion F as [|? ? A1 F']; subst. inversion F' as [|? ? A2 F'']; subst. inversion F'' as [|? ? A3 F3]; subst. inversion F3 as [|? ? A4 _]; subst.
    unfold header. rewrite !attr_obj, !assoc_app, A1, A2, A3, A4. repeat split.
    + destruct (assoc "doc" k1) as [v|] eqn:E; [exact D1|]. cbn [assoc String.eqb Ascii.eqb Bool.eqb]. rewrite N3 by discriminate. exact D1.
    + rewrite (N1 "labels"%string) by discriminate. exists ps. split; [reflexivity|exact F2].
    + rewrite (N1 "in_preproc"%string) by discriminate. reflexivity.
    + rewrite (N1 "hdlAttributes"%string) by discriminate. exact D3.
  - intros f Hf. cbn [hdr_fields In] in Hf. rewrite !assoc_app. rewrite N1 by (intros ->; tauto). cbn [assoc].
    destruct (String.eqb_spec f "labels"); [subst; tauto|]. destruct (String.eqb_spec f "in_preproc"); [subst; tauto|]. apply N3. intros ->; tauto.
Qed.
Lemma text_det o a b : text o a -> text o b -> a = b.
Proof. destruct a, b; cbn [text]; intros; congruence. Qed.
Lemma maybe_det o a b : maybe o a -> maybe o b -> a = b.
Proof.
  destruct a as [a|], b as [b|]; cbn [maybe]; intros H1 H2; try reflexivity; try tauto. f_equal. eapply shows_det; [apply H1|apply H2].
Qed.
Lemma sequence_det {A} (R : pyval -> A -> Prop) o a b : (forall p x y, R p x -> R p y -> x = y) -> sequence R o a -> sequence R o b -> a = b.
Proof.
  intros D (ps & E1 & F1) (qs & E2 & F2). assert (ps = qs) by congruence. subst. eapply Forall2_det; [|exact F1|exact F2]. apply Forall_forall. intros x _ p y. apply D.
Qed.
Lemma an_attribute_det p a b : an_attribute p a -> an_attribute p b -> a = b.
Proof.
  destruct a as [n v], b as [m w]. intros (x & E1 & S1) (y & E2 & S2). cbn [fst snd] in *. assert (x = y) by congruence. assert (n = m) by congruence. subst. f_equal.
  eapply maybe_det; eassumption.
Qed.
Lemma attributes_det o a b : attributes o a -> attributes o b -> a = b.
Proof.
  destruct a as [|x a], b as [|y b]; cbn [attributes]; intros H1 H2; try reflexivity; [destruct H2 as (ps & E & _)|destruct H1 as (ps & E & _)|]; try congruence.
  eapply sequence_det; [apply an_attribute_det|exact H1|exact H2].
Qed.
Lemma is_text_det p a b : is_text p a -> is_text p b -> a = b. Proof. unfold is_text. congruence. Qed.
Lemma header_det p a b : header p a -> header p b -> a = b.
Proof.
  destruct a as [l1 d1 a1 p1], b as [l2 d2 a2 p2]. intros (A1 & A2 & A3 & A4) (B1 & B2 & B3 & B4). cbn [doc labels in_preproc attrs] in *. f_equal.
  - eapply sequence_det; [apply is_text_det|exact A2|exact B2].
  - eapply text_det; eassumption.
  - eapply attributes_det; eassumption.
  - unfold flag in *. congruence.
Qed.
Lemma def_ok d : sendable_def d = true -> exists p, py_iddef d = Ok p /\ defines p d.
Proof.
  intros H. unfold sendable_def in H. do 5 (let X := fresh "X" in apply andb_prop in H as [H X]). unfold py_iddef.
  destruct (name_ok _ H) as (k1 & E1 & D1 & N1), (doc_ok _ X3) as (k2 & E2 & D2 & N2), (attrs_ok _ X) as (k3 & E3 & D3 & N3).
  assert (T : exists k, match d_type d with ENull => Ok [] | e => x <- py_expr e ;; Ok [("type" ~> x)] end = Ok k
     /\ maybe (dflt (assoc "type" k)) (match d_type d with ENull => None | e => Some e end) /\ forall f, f <> "type"%string -> assoc f k = None).
  { assert (G : forall e, sendable_value e = true -> exists k, (x <- py_expr e ;; Ok [("type" ~> x)]) = Ok k /\ maybe (dflt (assoc "type" k)) (Some e) /\ forall f, f <> "type"%string -> assoc f k = None).
    { intros e He. destruct (value_ok e He) as (p & Hp & Sp). rewrite Hp. cbn [bind]. eexists. split; [reflexivity|]. split; [exact Sp|].
      intros f Hf. cbn [assoc]. destruct (String.eqb_spec f "type"); [contradiction|reflexivity]. }
    destruct (d_type d); try (apply G; exact X2). exists []. split; [reflexivity|]. split; reflexivity. }
  assert (V : exists k, match d_value d with None => Ok [] | Some e => x <- py_expr e ;; Ok [("value" ~> x)] end = Ok k
     /\ maybe (dflt (assoc "value" k)) (d_value d) /\ forall f, f <> "value"%string -> assoc f k = None).
  { destruct (d_value d) as [e|]; [|exists []; split; [reflexivity|]; split; reflexivity].
    destruct (value_ok e X1) as (p & Hp & Sp). rewrite Hp. cbn [bind]. eexists. split; [reflexivity|]. split; [exact Sp|].
    intros f Hf. cbn [assoc]. destruct (String.eqb_spec f "value"); [contradiction|reflexivity]. }
  destruct T as (k4 & E4 & D4 & N4), V as (k5 & E5 & D5 & N5).
  assert (R : py_dir (d_dir d) = Ok (PEnum "HdlDirection" (dir_name (d_dir d))) /\ d_dir d <> DIR_UNKNOWN) by (destruct (d_dir d); try discriminate; split; [reflexivity|discriminate | reflexivity|discriminate|reflexivity|discriminate|reflexivity|discriminate|reflexivity|discriminate|reflexivity|discriminate]).
  destruct R as [R1 R2]. rewrite E1, E2. cbn [bind]. rewrite E4. cbn [bind]. rewrite E5. cbn [bind]. rewrite R1. cbn [bind]. rewrite E3. cbn [bind].
  eexists. split; [reflexivity|]. unfold defines. rewrite !attr_obj, !assoc_app.
  rewrite (N1 "doc"%string), (N1 "type"%string), (N1 "value"%string), (N1 "is_latched"%string), (N1 "is_const"%string), (N1 "is_static"%string), (N1 "is_shared"%string), (N1 "is_alias"%string), (N1 "direction"%string), (N1 "hdlAttributes"%string) by discriminate.
  rewrite (N2 "name"%string), (N2 "type"%string), (N2 "value"%string), (N2 "is_latched"%string), (N2 "is_const"%string), (N2 "is_static"%string), (N2 "is_shared"%string), (N2 "is_alias"%string), (N2 "direction"%string), (N2 "hdlAttributes"%string) by discriminate.
  rewrite (N4 "name"%string), (N4 "doc"%string), (N4 "value"%string), (N4 "is_latched"%string), (N4 "is_const"%string), (N4 "is_static"%string), (N4 "is_shared"%string), (N4 "is_alias"%string), (N4 "direction"%string), (N4 "hdlAttributes"%string) by discriminate.
  rewrite (N5 "name"%string), (N5 "doc"%string), (N5 "type"%string), (N5 "is_latched"%string), (N5 "is_const"%string), (N5 "is_static"%string), (N5 "is_shared"%string), (N5 "is_alias"%string), (N5 "direction"%string), (N5 "hdlAttributes"%string) by discriminate.
  cbn [assoc String.eqb Ascii.eqb Bool.eqb]. rewrite (N3 "name"%string), (N3 "doc"%string), (N3 "type"%string), (N3 "value"%string) by discriminate.
  assert (Z : forall o : option pyval, match o with Some v => Some v | None => None end = o) by (intros [|]; reflexivity). rewrite !Z.
  repeat split; try assumption; reflexivity.
Qed.
Lemma dir_name_inj a b : dir_name a = dir_name b -> a = b. Proof. destruct a, b; cbn; congruence. Qed.
Lemma defines_det p a b : defines p a -> defines p b -> a = b.
Proof.
  destruct a, b. unfold defines, flag. cbn. intros (_ & A1 & A2 & A3 & A4 & A5 & A6 & A7 & A8 & A9 & A10 & A11 & A12) (_ & B1 & B2 & B3 & B4 & B5 & B6 & B7 & B8 & B9 & B10 & B11 & B12).
  f_equal; try congruence.
  - eapply text_det; eassumption.
  - pose proof (maybe_det _ _ _ A3 B3) as E. destruct d_type, d_type0; congruence.
  - eapply maybe_det; eassumption.
  - apply dir_name_inj. congruence.
  - eapply text_det; eassumption.
  - eapply attributes_det; eassumption.
Qed.
