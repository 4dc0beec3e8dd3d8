(** Verilog files in which every part has a meaning are converted. *)
From Verif Require Import Base BaseFacts AstModel LitModel SvExprModel SvExprSpec SvExprProofs StmModel SvStmModel SvStmSpec SvStmProofs SvProcProofs SvTypeModel SvDeclModel SvDeclSpec SvInstSpec SvInstProofs SvDeclProofs SvTfModel SvTfSpec SvGenModel SvGenSpec SvGenProofs SvModuleSpec SvModuleProofs SvTypeSpec SvTypeProofs SvFileModel SvFileSpec SvFileProofs SvWholeSpec.

Section Whole.
Context (A : algebra) (M : machine A) (n : nat) (Hn : n <> 0).
Lemma is_given {X : Type} (o : option X) : given o = true -> exists x, o = Some x. Proof. destruct o; [eauto|discriminate]. Qed.
Lemma mapM_total {X Y : Type} (f : X -> outcome Y) l : Forall (fun x => exists y, f x = Ok y) l -> exists r, mapM f l = Ok r.
Proof. induction 1 as [|x l (y & H) _ (r & IH)]; [exists []; reflexivity|]. exists (y :: r). cbn [mapM]. rewrite H. cbn [bind]. rewrite IH. reflexivity. Qed.
Lemma concatM_total {X Y : Type} (f : X -> outcome (list Y)) l : Forall (fun x => exists y, f x = Ok y) l -> exists r, concatM f l = Ok r.
Proof. induction 1 as [|x l (y & H) _ (r & IH)]; [exists []; reflexivity|]. exists (y ++ r). rewrite concat_cons, H, IH. reflexivity. Qed.
Lemma expr_total e : whole_expr A e = true -> exists x v, conv e = Ok x /\ meaning A x = Some v.
Proof. intros H. apply is_given in H as (v & H). destruct (conv_sim A e v H) as (x & Hx & Hm & _). eauto. Qed.
Lemma attr_total a : whole_attr A a = true -> exists x, conv_attr a = Ok x.
Proof.
  intros H. apply andb_prop in H as (H1 & H2). apply is_given in H1 as (s & H1). unfold conv_attr. rewrite (plain_ident _ _ H1). cbn [bind]. destruct (snd a) as [e|]; [|eauto]. destruct (expr_total e H2) as (x & _ & -> & _). cbn [bind]. eauto.
Qed.
Lemma attrs_total l : forallb (whole_attr A) l = true -> exists x, mapM conv_attr l = Ok x.
Proof. intros H. apply mapM_total, Forall_forall. intros a I. exact (attr_total a (proj1 (forallb_forall _ _) H a I)). Qed.
Lemma new_total {X : Type} (new : list X) l : forallb (whole_attr A) l = true -> exists x, new_attrs new l = Ok x.
Proof. intros H. destruct (attrs_total l H) as (x & E). unfold new_attrs. rewrite E. destruct new; cbn [in_destructor]; eauto. Qed.
Lemma omapM_length {X Y : Type} (f : X -> option Y) l : forall r, omapM f l = Some r -> List.length r = List.length l.
Proof. induction l as [|x l IH]; intros r H; [injection H as <-; reflexivity|]. cbn [omapM] in H. apply obind_inv in H as (y & _ & H). fold (omapM f) in H. apply obind_inv in H as (ys & Hy & H). injection H as <-. cbn [List.length]. rewrite (IH _ Hy). reflexivity. Qed.

(** ** Generate *)
Lemma leaf_total l : whole_leaf A M n l = true -> exists os, conv_gleaf l = Ok (os, []).
Proof. intros H. apply andb_prop in H as (Hk & H). apply is_given in H as (r & H). destruct (leaf_sim A M n Hn l r Hk H) as (os & _ & E & _). eauto. Qed.
Lemma one_map {X Y : Type} (c : X -> sobj) (h : Y -> litem A M) (f : X -> option Y) xs r i : omapM f xs = Some r -> map h r = [i] -> exists o, map c xs = [o].
Proof. intros H E. apply omapM_length in H. destruct r as [|y [|]]; try discriminate. destruct xs as [|x [|]]; try discriminate. exists (c x). reflexivity. Qed.
Lemma leaf_one l os : whole_leaf A M n l = true -> one_leaf A M n l = true -> conv_gleaf l = Ok (os, []) -> exists o, os = [o].
Proof.
  intros H H1 E. apply andb_prop in H as (Hk & H). apply is_given in H as (r & H). unfold one_leaf in H1. rewrite H in H1.
  assert (match l with GL_semi => True | _ => exists i, r = [i] end) as H2 by (destruct l; [..|exact I| | | | | | | | |]; destruct r as [|it [|]]; try discriminate; eauto). clear H1.
  destruct l as [i|g|b|b| |nd|d|f|l|l|s|k ds s|e|]; cbn [kept_leaf v_leaf conv_gleaf] in *; try discriminate; try (destruct H2 as (it & ->)).
  - apply and3 in Hk as (Hf & Hs & Hg). apply negb_true_iff in Hs. apply obind_inv in H as (is & His & H). injection H as H. destruct (inst_sim A (by_name A) i is) as (cs & Hc & Hm); [destruct (in_list i); discriminate|assumption..|].
    rewrite Hc in E. injection E as <-. exact (one_map _ _ _ _ _ _ Hm H).
  - apply obind_inv in H as (gs & Hg & H). injection H as H. destruct (gates_sim A g gs Hk Hg) as (os' & Ho & Hm). rewrite Ho in E. injection E as <-. exact (one_map _ _ _ _ _ _ Hm H).
  - apply obind_inv in H as (gs & Hg & H). injection H as H. destruct (local_sim A b gs Hk Hg) as (os' & Ho & Hm). rewrite Ho in E. injection E as <-. exact (one_map _ _ _ _ _ _ Hm H).
  - injection E as <-. eauto.
  - apply obind_inv in H as (gs & Hg & H). injection H as H. destruct (net_decl_sim A nd gs Hk Hg) as (os' & Ho & Hm). rewrite Ho in E. injection E as <-. exact (one_map _ _ _ _ _ _ Hm H).
  - apply obind_inv in H as (gs & Hg & H). injection H as H. destruct (data_sim A d gs Hk Hg) as (os' & Ho & Hm). rewrite Ho in E. injection E as <-. exact (one_map _ _ _ _ _ _ Hm H).
  - apply bind_inv in E as (x & _ & E). injection E as <-. eauto.
  - apply obind_inv in H as (gs & Hg & H). injection H as H. destruct (genvar_sim A l gs Hg) as (os' & Ho & Hm). rewrite Ho in E. injection E as <-. exact (one_map _ _ _ _ _ _ Hm H).
  - apply omapM_length in H. apply bind_inv in E as (x & Hx & E). injection E as <-. unfold conv_cont_assign in Hx. apply mapM_length in Hx. destruct x as [|y [|]]; cbn [List.length] in *; [lia| |lia]. exists (SO_stm y). reflexivity.
  - apply bind_inv in E as (x & _ & E). injection E as <-. eauto.
  - apply bind_inv in E as (x & _ & E). injection E as <-. eauto.
  - apply bind_inv in E as (x & _ & E). injection E as <-. eauto.
Qed.
Lemma block_total pre name end_ : given (block_name pre name end_) = true -> exists a b c, opt_ident pre = Ok a /\ opt_ident name = Ok b /\ opt_ident end_ = Ok c.
Proof.
  assert (forall i s, plain_id i = Some s -> opt_ident (Some i) = Ok [s]) as K by (intros i s H; unfold opt_ident; rewrite (plain_ident i s H); reflexivity).
  intros H. apply is_given in H as (nm & H). unfold block_name in H.
  destruct pre as [i|], name as [j|]; try discriminate.
  - apply obind_inv in H as (s & Hs & H). destruct end_ as [k|]; [apply obind_inv in H as (t & Ht & _); exists [s], [], [t]|exists [s], [], []]; repeat split; auto.
  - apply obind_inv in H as (s & Hs & H). destruct end_ as [k|]; [apply obind_inv in H as (t & Ht & _); exists [], [s], [t]|exists [], [s], []]; repeat split; auto.
  - destruct end_; [discriminate|]. exists [], [], []. repeat split.
Qed.
Lemma init_total i : given (plain_id (gi_name i)) = true -> whole_expr A (gi_value i) = true -> exists o, conv_ginit i = Ok o.
Proof.
  intros H1 H2. apply is_given in H1 as (s & H1). destruct (expr_total _ H2) as (x & v & Hx & Hm). unfold conv_ginit, visit_ident. rewrite Hx, (plain_ident _ _ H1). cbn [bind]. destruct (gi_genvar i); [eauto|].
  unfold mk_assign. destruct x; try discriminate; cbn [bind]; eauto.
Qed.
Lemma step_total s : whole_step A s = true -> exists o, conv_gstep s = Ok o.
Proof.
  destruct s as [i o e|p b i]; cbn [whole_step conv_gstep]; intros H; unfold visit_ident.
  - apply andb_prop in H as (H1 & H2). apply is_given in H1 as (s & H1). destruct (expr_total _ H2) as (x & v & Hx & _). rewrite (plain_ident _ _ H1), Hx. cbn [bind]. eauto.
  - apply is_given in H as (s & H1). rewrite (plain_ident _ _ H1). cbn [bind]. eauto.
Qed.
Definition quiet (r : list sobj) : Prop := match r with [SO_if h _ _ _ _] => in_preproc h = false | _ => True end.
Definition total (g : gitem) : Prop :=
  whole_gitem A M n g = true -> exists r, conv_gitem g = Ok r /\ (no_region_here g = true -> quiet r) /\ (one_item A M n g = true -> exists o, r = [o]).
Lemma list_total l : Forall total l -> forallb (whole_gitem A M n) l = true -> exists r, concatM conv_gitem l = Ok r.
Proof. intros F H. apply concatM_total. rewrite forallb_forall in H. rewrite Forall_forall in *. intros x I. destruct (F x I (H x I)) as (r & E & _). eauto. Qed.
Lemma alts_total l : Forall (fun a => total (snd a)) l -> labels_ok A l = true -> forallb (fun a => one_item A M n (snd a) && whole_gitem A M n (snd a)) l = true ->
  exists r, concatM (conv_alt conv_gitem) l = Ok r /\ forall d, (List.length (filter is_default l) + match d with Some _ => 1 | None => 0 end <= 1) -> exists q, split_alts r d = Ok q.
Proof.
  induction l as [|(ls, g) l IH]; intros F L W; [exists []; split; [reflexivity|]; intros d _; exists ([], d); reflexivity|].
  inversion F as [|? ? Fg Fl]; subst. cbn [labels_ok forallb fst snd] in *. apply andb_prop in L as (Lg & L). apply andb_prop in W as (Wg & W). apply andb_prop in Wg as (W1 & Wg).
  destruct (IH Fl L W) as (r & Hr & Hq). destruct (Fg Wg) as (rg & Hg & _ & Ho). destruct (Ho W1) as (o & ->). clear Ho IH.
  rewrite concat_cons. unfold conv_alt at 1. cbn [fst snd]. destruct ls as [|e0 ls0]; [rewrite Hg|].
  - cbn [bind the_one]. rewrite Hr. cbn [bind app]. exists ((None, o) :: r). split; [reflexivity|]. intros d Hd. cbn [filter is_default fst List.length] in Hd. cbn [split_alts]. destruct d as [x|]; [lia|]. apply Hq. lia.
  - remember (e0 :: ls0) as ls eqn:Els.
    assert (exists ys, mapM (fun e => x <- conv e ;; r <- conv_gitem g ;; o <- the_one r ;; Ok (match x with ENull => None | _ => Some x end, o)) ls = Ok ys) as (ys & Hys).
    { apply mapM_total, Forall_forall. intros e I. pose proof (proj1 (forallb_forall _ _) Lg e I) as He. destruct (expr_total e He) as (x & v & Hx & _). rewrite Hx, Hg. cbn [bind the_one]. eauto. }
    rewrite Hys, Hr. cbn [bind]. exists (ys ++ r). split; [reflexivity|]. intros d Hd. replace (filter is_default ((ls, g) :: l)) with (filter is_default l) in Hd by (rewrite Els; reflexivity).
    destruct (Hq d Hd) as (q & Eq). clear Els. pose proof (labels_conv A ls g ys Lg Hys) as F2. clear -F2 Eq. induction F2 as [|e y ls ys (x & v & o' & -> & _) F2 IH]; [exists q; exact Eq|]. destruct IH as (q' & Hq'). cbn [app split_alts]. rewrite Hq'. cbn [bind]. eauto.
Qed.
Theorem gitem_total g : total g.
Proof.
  induction g as [g K] using gitem_ind'. intros H. destruct g as [l|pre name end_ l|i c s b|d c t f|d sel l|l]; cbn [gi_kids whole_gitem conv_gitem] in *.
  - destruct (leaf_total l H) as (os & E). rewrite E. cbn [bind fst]. exists os. split; [reflexivity|]. split; [|intros H1; exact (leaf_one l os H H1 E)].
    intros _. pose proof (leaf_leaf l _ E) as L. cbn [fst] in L. unfold quiet. destruct os as [|[] [|]]; try exact I. discriminate L.
  - apply andb_prop in H as (H1 & H2). destruct (list_total l K H2) as (r & ->). destruct (block_total _ _ _ H1) as (a & b & c & -> & -> & ->). cbn [bind]. eexists. split; [reflexivity|]. split; [intros _; exact I|eauto].
  - apply andb_prop in H as (H & H6). apply andb_prop in H as (H & H5). apply andb_prop in H as (H & H4). apply andb_prop in H as (H & H3). apply andb_prop in H as (H1 & H2).
    destruct (init_total i H1 H2) as (o & ->). destruct (expr_total c H3) as (x & _ & -> & _). destruct (step_total s H4) as (y & ->). destruct (K H6) as (r & -> & _). cbn [bind]. eexists. split; [reflexivity|]. split; [intros _; exact I|eauto].
  - destruct K as (Kt & Kf). apply andb_prop in H as (H & H4). apply andb_prop in H as (H & H3). apply andb_prop in H as (H1 & H2). destruct (expr_total c H1) as (x & _ & -> & _). destruct (Kt H3) as (a & -> & _). cbn [bind].
    destruct f as [f|]; [|cbn [bind collapse]; eexists; split; [reflexivity|]; split; [intros _; reflexivity|eauto]].
    apply andb_prop in H4 as (H4 & H5). destruct (Kf H5) as (b & -> & Hq & _). specialize (Hq H4). cbn [bind]. unfold quiet in Hq.
    destruct b as [|o [|]]; cbn [pop_block collapse bind]; try (eexists; split; [reflexivity|]; split; [intros _; reflexivity|eauto]).
    destruct o; try (cbn [bind]; eexists; split; [reflexivity|]; split; [intros _; reflexivity|eauto]). cbn [in_preproc hdr_doc]. rewrite Hq. cbn [Bool.eqb bind]. eexists; split; [reflexivity|]; split; [intros _; reflexivity|eauto].
  - apply andb_prop in H as (H & H4). apply andb_prop in H as (H & H3). apply andb_prop in H as (H1 & H2). destruct (expr_total sel H1) as (x & _ & -> & _). destruct (alts_total l K H2 H4) as (r & -> & Hq). cbn [bind].
    apply Nat.leb_le in H3. destruct (Hq None) as (q & ->); [lia|]. cbn [bind]. eexists. split; [reflexivity|]. split; [intros _; exact I|eauto].
  - destruct (list_total l K H) as (r & ->). cbn [bind]. eexists. split; [reflexivity|]. split; discriminate.
Qed.

(** ** Ports *)
Definition open_port (P : list iddef) (s : str) : Prop := exists p, find_port s P = Some p /\ d_value p = None.
Lemma decls_total D : forall P, NoDup (map d_name D) -> Forall (open_port P) (map d_name D) -> exists P', foldM add_decl P D = Ok P' /\ forall s, ~ In s (map d_name D) -> find_port s P' = find_port s P.
Proof.
  induction D as [|d D IH]; intros P U F; [exists P; split; reflexivity|]. cbn [map] in U, F. inversion U as [|? ? Ud U']; subst. inversion F as [|? ? Fd F']; subst. destruct Fd as (p & Hp & Hv).
  rewrite foldM_cons. unfold add_decl at 1. rewrite Hp, Hv.
  destruct (update_some (d_name d) (fun p => merge_decl p d) P) as (P1 & E1 & _ & Ef); [reflexivity|congruence|]. rewrite E1. replace (match d_value d with Some _ | None => Ok P1 end) with (Ok P1) by (destruct (d_value d); reflexivity). cbn [bind].
  assert (forall s, s <> d_name d -> find_port s P1 = find_port s P) as Keep.
  { intros s Hs. rewrite Ef. destruct (seqb (d_name d) s) eqn:E; [apply seqb_eq in E; congruence|reflexivity]. }
  destruct (IH P1 U') as (P' & E' & Hk).
  { apply Forall_forall. intros s I. destruct (proj1 (Forall_forall _ _) F' s I) as (q & Hq & Hqv). exists q. split; [|exact Hqv]. rewrite Keep; [exact Hq|]. intros ->. contradiction. }
  exists P'. split; [destruct (d_value d); exact E'|]. intros s Hs. cbn [map In] in Hs. rewrite Hk by tauto. apply Keep. intros ->. tauto.
Qed.
Lemma mports_total doc at_ nd r : forallb (whole_attr A) at_ = true -> (if kept_nadecl nd then v_nadecl A nd else None) = Some r -> exists D, conv_mports doc at_ nd = Ok D /\ map d_name D = map (ob_name A) r.
Proof.
  intros Ha H. destruct (kept_nadecl nd) eqn:Hk; [|discriminate]. destruct (nadecl_sim A nd r Hk H) as (xs & Hx & Hm). unfold conv_mports. rewrite Hx. cbn [bind]. destruct (new_total xs at_ Ha) as (a & ->). cbn [bind]. eexists. split; [reflexivity|].
  rewrite (objects_names A false xs r Hm), map_map. destruct xs as [|x xs]; reflexivity.
Qed.
Lemma add_total doc P D : NoDup (map d_name D) -> Forall (open_port P) (map d_name D) -> exists P', add_decls doc P D = Ok P' /\ forall s, ~ In s (map d_name D) -> find_port s P' = find_port s P.
Proof.
  destruct D as [|d D]; intros U F; [exists P; split; reflexivity|]. cbn [add_decls]. set (d' := set_doc d _). apply (decls_total (d' :: D) P); [exact U|exact F].
Qed.
Lemma hports_total p : whole_header A p = true -> exists P, conv_hports p = Ok P.
Proof.
  destruct p as [| |l|l]; cbn [whole_header conv_hports]; intros H; [eauto..| |].
  - apply is_given in H as (names & H). apply concatM_total, Forall_forall. intros x I. destruct (omapM_in _ _ _ _ H I) as (s & Hs). destruct x as [(doc & p)|]; [|discriminate]. destruct p as [[[i [m|] [|r ds]]|ds]|i e]; try discriminate.
    cbn [header_name] in Hs. apply obind_inv in Hs as (t & Ht & _). destruct i as [x|x]; [|discriminate]. cbn. eauto.
  - apply andb_prop in H as (H & H4). apply andb_prop in H as (H & H3). apply andb_prop in H as (H1 & H2). apply is_given in H3 as (r & H3). destruct (header_sim A _ _ H1 H2 H3) as (xs & Hx & _). rewrite header_eq in Hx. apply bind_inv in Hx as (ps & -> & _). cbn [bind].
    destruct (mapM_total (fun x : str * list attr * ansi => mapM conv_attr (snd (fst x))) l) as (ats & ->); [|cbn [bind]; eauto]. apply Forall_forall. intros x I. apply attrs_total. exact (proj1 (forallb_forall _ _) H4 x I).
Qed.
Lemma nonansi_open l P names : conv_hports (HP_nonansi l) = Ok P -> omapM header_name l = Some names -> forall s, mem s names = true -> open_port P s.
Proof.
  intros H Hns s Hs. destruct (header_names l P names H Hns) as (E & F & _). destruct (find_port s P) as [p|] eqn:Ef.
  - exists p. split; [exact Ef|]. unfold find_port in Ef. apply find_some in Ef as (I & _). exact (proj1 (proj1 (Forall_forall _ _) F p I)).
  - apply find_none_names in Ef. rewrite E in Ef. unfold mem in Hs. congruence.
Qed.

(** ** Modules *)
Definition item_ok (whole : mdecl -> bool) (i : mditem mdecl) : bool :=
  match i with
  | MT_region l => forallb (whole_gitem A M n) l
  | MT_item _ at_ (GI_leaf (GL_param b)) => forallb (whole_attr A) at_ && given (body_params A i)
  | MT_item _ at_ g => forallb (whole_attr A) at_ && whole_gitem A M n g
  | MT_ports _ at_ _ => forallb (whole_attr A) at_
  | MT_module m => whole m
  | MT_skipped => true
  end.
Lemma whole_module_eq ext h p l : whole_module A M n (MD ext h p l) =
  (forallb (whole_attr A) (mh_attrs h) && given (v_plist A (mh_params h)) && whole_header A p
   && (if ext then true else forallb (item_ok (whole_module A M n)) l && match flat (body_ports A) l with Some ds => whole_ports A p ds | None => false end)).
Proof. reflexivity. Qed.
Definition mtotal (m : mdecl) : Prop := whole_module A M n m = true -> exists o, conv_mdecl m = Ok o.
Lemma top_total g : (forall b, g <> GI_leaf (GL_param b)) -> whole_gitem A M n g = true -> exists r, conv_top g = Ok r.
Proof.
  intros Hg H. destruct (gitem_total g H) as (r & E & _). destruct g; cbn [conv_top]; try (rewrite E; cbn [bind]; eauto; fail). cbn [conv_gitem] in E. apply bind_inv in E as (x & E & _). eauto.
Qed.
Lemma item_total i st r : match i with MT_module m => mtotal m | _ => True end -> item_ok (whole_module A M n) i = true -> body_ports A i = Some r ->
  NoDup (map (ob_name A) r) -> Forall (open_port (ms_ports st)) (map (ob_name A) r) ->
  exists st', run_mditem conv_mdecl st i = Ok st' /\ forall s, ~ In s (map (ob_name A) r) -> find_port s (ms_ports st') = find_port s (ms_ports st).
Proof.
  destruct i as [l|doc at_ g|doc at_ nd|m|]; cbn [item_ok run_mditem body_ports]; intros Km H Hr U F.
  - destruct (gitem_total (GI_region l) H) as (x & -> & _). cbn [bind]. eexists. split; [reflexivity|]. reflexivity.
  - assert (forallb (whole_attr A) at_ = true /\ exists x, conv_top g = Ok x) as (Ha & x & Hx).
    { destruct g as [[]| | | | |]; try (apply andb_prop in H as (Ha & H); split; [exact Ha|]; apply top_total; [discriminate|exact H]).
      apply andb_prop in H as (Ha & H). split; [exact Ha|]. apply is_given in H as (ps & H). cbn [body_params] in H. destruct (full_body b) eqn:Hf; [|discriminate]. unfold v_params in H. destruct (forallb kept_pone (body_ones false b)) eqn:Hk; [|discriminate].
      destruct (SvTypeProofs.body_sim A false b ps Hf Hk H) as (xs & Hx & _). cbn [conv_top conv_gleaf]. rewrite Hx. cbn [bind]. eauto. }
    rewrite Hx. cbn [bind]. destruct (new_total (snd x) at_ Ha) as (b & ->). destruct (new_total (fst x) at_ Ha) as (a & ->). cbn [bind]. eexists. split; [reflexivity|]. reflexivity.
  - destruct (mports_total doc at_ nd r H Hr) as (D & -> & En). cbn [bind]. rewrite <- En in *. destruct (add_total doc (ms_ports st) D U F) as (P' & -> & Hk). cbn [bind]. eexists. split; [reflexivity|]. exact Hk.
  - destruct (Km H) as (o & ->). cbn [bind]. eexists. split; [reflexivity|]. reflexivity.
  - exists st. split; reflexivity.
Qed.
Lemma NoDup_parts {X : Type} (a b : list X) : NoDup (a ++ b) -> NoDup a /\ NoDup b /\ forall x, In x b -> ~ In x a.
Proof.
  induction a as [|y a IH]; cbn [app]; intros H; [repeat split; [constructor|exact H|intros x _ []]|]. inversion H as [|? ? Hy H']; subst. destruct (IH H') as (U1 & U2 & U3). rewrite in_app_iff in Hy.
  split; [constructor; tauto|]. split; [exact U2|]. intros x I [<-|J]; [tauto|]. exact (U3 x I J).
Qed.
Lemma items_total l : Forall (fun i => match i with MT_module m => mtotal m | _ => True end) l -> forallb (item_ok (whole_module A M n)) l = true ->
  forall st ds, flat (body_ports A) l = Some ds -> NoDup (map (ob_name A) ds) -> Forall (open_port (ms_ports st)) (map (ob_name A) ds) -> exists st', foldM (run_mditem conv_mdecl) st l = Ok st'.
Proof.
  induction l as [|i l IH]; intros K H st ds Hd U F; [exists st; reflexivity|]. inversion K as [|? ? Ki Kl]; subst. cbn [forallb] in H. apply andb_prop in H as (Hi & H).
  rewrite flat_cons in Hd. apply obind_inv in Hd as (r & Hr & Hd). apply obind_inv in Hd as (rs & Hrs & Hd). injection Hd as <-. rewrite map_app in U, F. apply Forall_app in F as (F1 & F2).
  destruct (NoDup_parts _ _ U) as (U1 & U2 & U3). destruct (item_total i st r Ki Hi Hr U1 F1) as (st1 & E1 & Hk). rewrite foldM_cons, E1. cbn [bind]. apply (IH Kl H st1 rs Hrs U2).
  rewrite Forall_forall in *. intros s I. destruct (F2 s I) as (p & Hp & Hv). exists p. split; [|exact Hv]. rewrite Hk by exact (U3 s I). exact Hp.
Qed.
Lemma module_total ext h p l : Forall (fun i => match i with MT_module m => mtotal m | _ => True end) l -> mtotal (MD ext h p l).
Proof.
  intros K H. rewrite whole_module_eq in H. apply andb_prop in H as (H & H4). apply andb_prop in H as (H & H3). apply andb_prop in H as (H1 & H2). cbn [conv_mdecl]. unfold conv_header.
  destruct (attrs_total _ H1) as (a & ->). cbn [bind].
  assert (exists g, match mh_params h with Some p => conv_plist p | None => Ok [] end = Ok g) as (g & ->).
  { apply is_given in H2 as (r & H2). destruct (mh_params h) as [q|]; [|eauto]. cbn [v_plist] in H2. destruct (tailed q) eqn:Ht; [discriminate|]. destruct (full_params q) eqn:Hf; [|discriminate]. cbn [orb negb] in H2. unfold v_params in H2.
    destruct (forallb kept_pone (list_ones q)) eqn:Hk; [|discriminate]. destruct (plist_sim A q r Ht Hf Hk H2) as (xs & Hx & _). eauto. }
  cbn [bind]. destruct (hports_total p H3) as (P & HP). rewrite HP. cbn [bind fst snd]. destruct ext; [eauto|]. apply andb_prop in H4 as (H4 & H5). destruct (flat (body_ports A) l) as [ds|] eqn:Hd; [|discriminate].
  destruct (items_total l K H4 (mk_mstate g P []) ds Hd) as (st & ->).
  - destruct p as [| |hl|hl]; cbn [whole_ports] in H5; try (destruct ds; [constructor|discriminate]). destruct (omapM header_name hl) as [names|]; [|discriminate]. apply andb_prop in H5 as (H5 & _). apply distinct_nodup. exact H5.
  - cbn [ms_ports]. destruct p as [| |hl|hl]; cbn [whole_ports] in H5; try (destruct ds; [constructor|discriminate]). destruct (omapM header_name hl) as [names|] eqn:Hns; [|discriminate]. apply andb_prop in H5 as (_ & H5).
    apply Forall_forall. intros s I. apply (nonansi_open hl P names HP Hns). apply in_map_iff in I as (o & <- & I). exact (proj1 (forallb_forall _ _) H5 o I).
  - cbn [bind]. destruct (consume (ms_ports st) (ms_objs st)). eauto.
Qed.
Theorem mdecl_total : forall m, mtotal m.
Proof. fix IH 1. intros [ext h p l]. apply module_total. induction l as [|i l IHl]; constructor; [|exact IHl]. destruct i; try exact I. apply IH. Qed.
Theorem file_total f : whole_file A M n f = true -> exists objs, conv_source f = Ok objs.
Proof.
  intros H. apply concatM_total, Forall_forall. intros d I. pose proof (proj1 (forallb_forall _ _) H d I) as Hd. destruct d as [m|]; [|eauto]. destruct (mdecl_total m Hd) as (o & ->). cbn [bind]. eauto.
Qed.
End Whole.
