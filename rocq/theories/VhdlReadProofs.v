(** Reading back what the converter makes of a VHDL file. *)
From Verif Require Import Base BaseFacts AstModel StmModel LitModel SvExprModel SvExprSpec SvStmModel SvTypeModel SvDeclModel SvDeclProofs VhdlExprModel VhdlExprProofs VhdlStmModel VhdlStmSpec VhdlDeclModel VhdlDeclSpec VhdlDeclProofs VhdlDecl2Proofs VhdlElabProofs VhdlHierProofs
  PyModel PyObjModel PyTreeModel SvReadSpec SvReadProofs VhdlReadSpec VhdlPyProofs VhdlPyProofs2 VhdlPyProofs3.

(** ** Types: no expression is the symbol T or T_SUBTYPE *)
Definition unkind (e : expr) : bool := match type_symb e with Some _ => false | None => true end.
Fixpoint ordinary (e : expr) : bool := match e with EArr l => forallb ordinary l | _ => unkind e end.
Lemma ordinary_unkind e : ordinary e = true -> unkind e = true. Proof. destruct e; auto. Qed.
Lemma lit_o l x : conv_nlit l = Ok x -> ordinary x = true.
Proof.
  destruct l; cbn [conv_nlit]; intros H; [injection H as <-; reflexivity| |].
  - unfold visit_vhdl_string in H. repeat binv H. injection H as <-. reflexivity.
  - unfold visit_character in H. repeat binv H. injection H as <-. reflexivity.
Qed.
Lemma num_o (b : bool) t x : (if b then visit_based_literal t else visit_decimal t) = Ok x -> ordinary x = true.
Proof.
  destruct b; [unfold visit_based_literal; destruct (find _ t); [|discriminate]; intros H; repeat binv H; injection H as <-; reflexivity|].
  unfold visit_decimal. destruct (existsb _ t); intros H; [injection H as <-; reflexivity|]. binv H. injection H as <-. reflexivity.
Qed.
Lemma bits_o t x : visit_bit_string t = Ok x -> ordinary x = true.
Proof.
  unfold visit_bit_string. destruct (find [dq] t) as [[|k]|]; try discriminate. intros H. binv H.
  destruct (if ceqb x0 "b" then _ else _) as [radix ratio]. repeat binv H. cbn zeta in H. destruct (length _ <? _); [discriminate|]. repeat (binv H). repeat match type of H with (if ?c then _ else _) = _ => destruct c end; try discriminate; injection H as <-; reflexivity.
Qed.
Lemma unwrap_o x : ordinary x = true -> ordinary (unwrap1 x) = true.
Proof. destruct x as [| | | |[|a [|b l]]| | | |]; auto. cbn [unwrap1 ordinary forallb]. rewrite andb_true_r. auto. Qed.
Lemma mapM_o {X} (f : X -> outcome expr) l r : Forall (fun x => forall y, f x = Ok y -> ordinary y = true) l -> mapM f l = Ok r -> forallb ordinary r = true.
Proof. intros F H. apply forallb_forall, Forall_forall. exact (VhdlPyProofs2.mapM_all (fun y => ordinary y = true) f l r F H). Qed.
Lemma finish_o l : forallb ordinary l = true -> ordinary (finish_aggregate l) = true.
Proof.
  intros H. destruct l as [|x [|y l]]; [exact H| |].
  - assert (G : ordinary x = true) by (cbn [forallb] in H; apply andb_prop in H as [H _]; exact H).
    assert (finish_aggregate [x] = x \/ finish_aggregate [x] = EArr [x]) as [-> | ->]; [|exact G|exact H].
    destruct x as [| | | | | | |o l|]; try (left; reflexivity). destruct o; try (left; reflexivity). right. reflexivity.
  - destruct x as [| | | | | | |o m|]; try exact H. destruct o; exact H.
Qed.
Definition od (e : hexpr) : Prop := forall x, hconv e = Ok x -> ordinary x = true.
Lemma aggregate_o l x : Forall (h_el od) l -> conv_aggregate hconv l = Ok x -> ordinary x = true.
Proof.
  intros K H. unfold conv_aggregate in H. binv H. injection H as <-. apply finish_o. refine (mapM_o _ l _ _ Hx). eapply Forall_impl; [|exact K]. intros p (_ & P) y Hy. unfold conv_element in Hy. binv Hy.
  destruct (fst p); [injection Hy as <-; auto|]. binv Hy. destruct x1; [discriminate|]. injection Hy as <-. reflexivity.
Qed.
Lemma op2_o o a b : ordinary (op2 o a b) = true. Proof. reflexivity. Qed.
Lemma constraints_o l t x : ordinary t = true -> conv_array_constraints hconv t l = Ok x -> ordinary x = true.
Proof.
  revert t. induction l as [|c l IH]; intros t T H; cbn [conv_array_constraints] in H; [injection H as <-; exact T|]. binv H. refine (IH _ _ H). destruct c; cbn [conv_array_constraint] in Hx; [binv Hx|]; injection Hx as <-; reflexivity.
Qed.
Lemma hconv_o e : od e.
Proof.
  apply hexpr_ind'. clear e. intros e K x H. destruct e; cbn [hkids] in K; cbn [hconv] in H.
  - eapply lit_o; eassumption.
  - repeat binv H. injection H as <-. reflexivity.
  - repeat binv H. injection H as <-. reflexivity.
  - repeat binv H. injection H as <-. reflexivity.
  - repeat binv H. injection H as <-. reflexivity.
  - repeat binv H. injection H as <-. reflexivity.
  - injection H as <-. reflexivity.
  - binv H. binv H. injection H as <-. destruct x0; [reflexivity|]. eapply num_o; eassumption.
  - eapply bits_o; eassumption.
  - injection H as <-. reflexivity.
  - repeat binv H. injection H as <-. reflexivity.
  - eapply aggregate_o; eassumption.
  - repeat binv H. injection H as <-. reflexivity.
  - repeat binv H. injection H as <-. reflexivity.
  - repeat binv H. injection H as <-. reflexivity.
  - repeat binv H. injection H as <-. reflexivity.
  - repeat binv H. injection H as <-. reflexivity.
  - repeat binv H. injection H as <-. apply unwrap_o. auto.
  - repeat binv H. injection H as <-. reflexivity.
  - repeat binv H. injection H as <-. reflexivity.
  - repeat binv H. injection H as <-. reflexivity.
  - destruct K as (_ & Kt & _). binv H. binv H. binv H. injection H as <-. destruct x0; [reflexivity|]. match type of Hx1 with match ?c with Some _ => _ | None => _ end = _ => destruct c as [c|] end; [|injection Hx1 as <-; auto].
    destruct c; cbn [conv_constr] in Hx1; binv Hx1; injection Hx1 as <-; [reflexivity|]. match goal with |- ordinary (if ?b then _ else _) = true => destruct b end; [reflexivity|]. eapply constraints_o; [|eassumption]. auto.
Qed.
Lemma type_u e x : hconv e = Ok x -> unkind x = true. Proof. intros H. apply ordinary_unkind. exact (hconv_o e x H). Qed.
Lemma clone_u x y : clone_e x = Ok y -> unkind x = true -> unkind y = true.
Proof. destruct x; cbn [clone_e]; intros H U; try discriminate; try (injection H as <-; exact U); binv H; injection H as <-; reflexivity. Qed.
(** ** The objects that are read back *)
Definition executed (s : stm) : bool :=
  match s with SDef _ | SProcess _ _ _ _ => false | SIf h _ _ _ _ | SCase h _ _ _ _ _ | SBlock h _ _ | SForIn h _ _ _ => negb (in_preproc h) | _ => true end.
Definition def_u (d : iddef) : bool := unkind (d_type d).
Fixpoint proper (o : hobj) : bool :=
  match o with
  | O_id d => def_u d
  | O_type _ t _ => negb (unkind (ESym t))
  | O_func _ _ _ _ _ _ l | O_module_dec _ _ _ l | O_module_def _ _ l | O_space _ _ l | O_process _ _ l => forallb proper l
  | O_inst _ | O_import _ | O_library _ => true
  | O_block h l => in_preproc h && forallb proper l
  | O_for h _ _ b => in_preproc h && proper b
  | O_if h _ t l f => in_preproc h && proper t && forallb (fun p => proper (snd p)) l && match f with Some b => proper b | None => true end
  | O_case h _ l d => in_preproc h && forallb (fun p => proper (snd p)) l && match d with Some b => proper b | None => true end
  | O_stm s => executed s
  end.
Lemma executed_back s : executed s = true -> read_hobj (of_stm s) = Some (O_stm s).
Proof.
  intros X. pose proof (stm_back s) as E. destruct s as [h|h e|h d sr td ed bl|h c t l f|h u k e l f|h c b|h b c|h i c st b|h l c b|h n b|h j l|h se t b|h l|h e|h|h|d|]; try discriminate X; try reflexivity; cbn [of_stm executed] in *; try apply negb_true_iff in X; unfold read_hobj; fold read_hobj.
  - rewrite X, E. reflexivity.
  - rewrite X, E. reflexivity.
  - rewrite E. reflexivity.
  - rewrite E. reflexivity.
  - rewrite X, E. destruct (map of_stm l) as [|q [|? ?]]; try reflexivity; destruct q as [| | | | | | | | | | | | | | | | |s|]; try reflexivity; destruct s; reflexivity.
  - rewrite E. reflexivity.
  - rewrite X, E. destruct j; reflexivity.
Qed.
Lemma symb_back t : negb (unkind (ESym t)) = true -> type_symb (ESym t) = Some t.
Proof. destruct t; try discriminate; reflexivity. Qed.
Lemma obj_back o : proper o = true -> read_hobj (of_hobj o) = Some o.
Proof.
  induction o as [o IH] using hobj_ind'. destruct o; cbn [proper]; intros H; cbn [ob_kids ob_opt] in IH.
  - cbn [of_hobj read_hobj]. unfold def_u, unkind in H. destruct (type_symb (d_type d)); [discriminate|reflexivity].
  - apply symb_back in H. destruct v as [[e|l|r l|l]|]; cbn [of_hobj read_hobj]; change (d_type (new_iddef n (ESym t) ?v DIR_INTERNAL false)) with (ESym t);
      unfold new_iddef; cbn [d_type d_name d_value]; rewrite H; reflexivity.
  - cbn [of_hobj read_hobj]. rewrite (omapM_back read_hobj of_hobj _ (all_in _ _ _ IH H)). reflexivity.
  - cbn [of_hobj read_hobj]. rewrite (omapM_back read_hobj of_hobj _ (all_in _ _ _ IH H)). reflexivity.
  - cbn [of_hobj read_hobj]. rewrite (omapM_back read_hobj of_hobj _ (all_in _ _ _ IH H)). reflexivity.
  - cbn [of_hobj read_hobj]. rewrite (omapM_back read_hobj of_hobj _ (all_in _ _ _ IH H)). reflexivity.
  - reflexivity.
  - reflexivity.
  - reflexivity.
  - cbn [of_hobj read_hobj]. rewrite (omapM_back read_hobj of_hobj _ (all_in _ _ _ IH H)). reflexivity.
  - apply andb_prop in H as [Hp H]. cbn [of_hobj read_hobj]. rewrite Hp, (omapM_back read_hobj of_hobj _ (all_in _ _ _ IH H)). reflexivity.
  - apply andb_prop in H as [Hp H]. cbn [of_hobj read_hobj]. rewrite Hp, (IH H). reflexivity.
  - destruct IH as (It & Il & If). apply andb_prop in H as [H Hf]. apply andb_prop in H as [H Hl]. apply andb_prop in H as [Hp Ht]. cbn [of_hobj read_hobj]. rewrite Hp, (It Ht), (pairs_back read_hobj of_hobj _ (all_in _ _ _ Il Hl)). cbn [obind].
    destruct f as [x|]; [rewrite (If Hf)|]; reflexivity.
  - destruct IH as (Il & If). apply andb_prop in H as [H Hf]. apply andb_prop in H as [Hp Hl]. cbn [of_hobj read_hobj]. rewrite Hp, (pairs_back read_hobj of_hobj _ (all_in _ _ _ Il Hl)). cbn [obind].
    destruct dflt as [x|]; [rewrite (If Hf)|]; reflexivity.
  - exact (executed_back s H).
Qed.
(** ** What is converted is read back *)
Definition pr (o : hobj) : Prop := proper o = true.
Lemma prs l : Forall pr l -> forallb proper l = true. Proof. intros F. apply forallb_forall, Forall_forall. exact F. Qed.
Lemma extract_u ns t v l : extract ns t v = Ok l -> Forall (fun d => def_u d = true) l.
Proof.
  unfold extract. intros H. binv H. binv H. destruct ns as [|n ns]; [injection H as <-; constructor|]. binv H. injection H as <-. pose proof (type_u t x Hx) as U. constructor; [exact U|].
  refine (VhdlPyProofs2.mapM_all _ _ ns _ _ Hx1). apply Forall_forall. intros m _ y Hy. binv Hy. binv Hy. injection Hy as <-. exact (clone_u x _ Hx2 U).
Qed.
Lemma ids_p (g : iddef -> iddef) l : (forall d, def_u (g d) = def_u d) -> Forall (fun d => def_u d = true) l -> Forall pr (map (fun d => O_id (g d)) l).
Proof. intros G F. apply Forall_map. eapply Forall_impl; [|exact F]. intros d D. unfold pr. cbn [proper]. rewrite G. exact D. Qed.
Lemma subprog_p body s objs o : Forall pr objs -> conv_subprog body s objs = Ok o -> pr o.
Proof. intros F H. destruct s; cbn [conv_subprog] in H; repeat binv H; injection H as <-; apply prs, F. Qed.
Lemma hitem_e f i o : conv_hitem f i = Ok o -> executed o = true.
Proof.
  assert (A : forall d s b x, mk_assign hdr0 d s None None b = Ok x -> executed x = true) by (intros d s b x; unfold mk_assign; destruct d, s; intros E; try discriminate E; injection E as <-; reflexivity).
  destruct i; cbn [conv_hitem]; intros H; repeat binv H; try (injection H as <-; reflexivity); try (eapply A; exact H).
  - unfold conv_jump in H. binv H. injection H as <-. reflexivity.
  - unfold conv_jump in H. binv H. injection H as <-. reflexivity.
  - match type of H with match ?e with Some _ => _ | None => _ end = _ => destruct e end; [binv H|]; injection H as <-; reflexivity.
Qed.
Lemma label_e l s : executed s = true -> executed (set_hdr (push_label l) s) = true. Proof. destruct s; auto. Qed.
Lemma hstm_e s o : conv_hstm s = Ok o -> executed o = true.
Proof.
  destruct s as [l i]. cbn [conv_hstm]. intros H. binv H. apply hitem_e in Hx. destruct l as [l|]; [|injection H as <-; exact Hx]. destruct x; try discriminate H; injection H as <-; exact (label_e l _ Hx).
Qed.
Lemma hstms_p l r : mapM conv_hstm l = Ok r -> Forall pr (map O_stm r).
Proof. intros H. apply Forall_map. refine (VhdlPyProofs2.mapM_all _ _ l _ _ H). apply Forall_forall. intros s _ o. apply hstm_e. Qed.
Lemma use_p l r : mapM conv_use l = Ok r -> Forall pr r.
Proof. intros H. refine (VhdlPyProofs2.mapM_all _ _ l _ _ H). apply Forall_forall. intros e _ y Hy. unfold conv_use in Hy. binv Hy. injection Hy as <-. reflexivity. Qed.
Lemma concat_p {X} (f : X -> outcome (list hobj)) l r : Forall (fun x => forall r, f x = Ok r -> Forall pr r) l -> concatM f l = Ok r -> Forall pr r.
Proof. intros F H. exact (concat_all pr f l F r H). Qed.
Lemma one_p o : pr o -> Forall pr [o]. Proof. intros H. apply Forall_cons; [exact H|apply Forall_nil]. Qed.
Lemma decl_p ho d : forall r, conv_decl ho d = Ok r -> Forall pr r.
Proof.
  induction d as [d K] using decl_ind'. intros r H. destruct d; cbn [d_kids conv_decl] in K, H.
  - binv H. injection H as <-. apply (ids_p set_const); [reflexivity|]. eapply extract_u; eassumption.
  - binv H. injection H as <-. apply (ids_p (fun d => d)); [reflexivity|]. eapply extract_u; eassumption.
  - binv H. injection H as <-. apply (ids_p (fun d => set_shared shared (set_latched d))); [reflexivity|]. eapply extract_u; eassumption.
  - destruct t as [t|]; [binv H|]; injection H as <-; apply one_p; reflexivity.
  - binv H. injection H as <-. apply one_p. reflexivity.
  - binv H. binv H. injection H as <-. apply one_p. unfold pr. cbn [proper]. destruct t as [t|]; [exact (type_u t x Hx)|injection Hx as <-; reflexivity].
  - binv H. injection H as <-. apply one_p. exact (subprog_p _ _ _ _ (Forall_nil _) Hx).
  - binv H. binv H. binv H. binv H. injection H as <-. apply one_p. refine (subprog_p _ _ _ _ _ Hx2). apply Forall_app. split; [exact (concat_p _ _ _ K Hx0)|exact (hstms_p _ _ Hx1)].
  - binv H. injection H as <-. apply one_p, prs. destruct ho; [injection Hx as <-; apply Forall_nil|exact (concat_p _ _ _ K Hx)].
  - binv H. injection H as <-. apply one_p, prs. destruct ho; [injection Hx as <-; apply Forall_nil|exact (concat_p _ _ _ K Hx)].
  - binv H. injection H as <-. apply one_p. unfold conv_component in Hx. repeat binv Hx. injection Hx as <-. reflexivity.
  - eapply use_p; eassumption.
  - injection H as <-. apply Forall_nil.
Qed.
Lemma decls_p ho l r : conv_decls ho l = Ok r -> Forall pr r.
Proof. apply concat_p, Forall_forall. intros d _. apply decl_p. Qed.
Lemma conc_e c o : conv_conc c = Ok o -> executed o = true.
Proof.
  assert (A : forall d s b x, mk_assign hdr0 d s None None b = Ok x -> executed x = true) by (intros d s b x; unfold mk_assign; destruct d, s; intros E; try discriminate E; injection E as <-; reflexivity).
  destruct c; cbn [conv_conc]; intros H; repeat binv H; try (eapply A; exact H). unfold conv_select in H. repeat binv H. injection H as <-. reflexivity.
Qed.
Lemma csimple_p ho s o : conv_csimple ho s = Ok o -> pr o.
Proof.
  destruct s; cbn [conv_csimple]; intros H.
  - binv H. binv H. binv H. injection H as <-. apply prs, Forall_app. split; [eapply decls_p; eassumption|eapply hstms_p; eassumption].
  - binv H. injection H as <-. reflexivity.
  - binv H. injection H as <-. exact (hstm_e _ _ Hx).
  - binv H. injection H as <-. exact (conc_e _ _ Hx).
Qed.
Lemma label_p l o : pr o -> pr (label_obj l o).
Proof. destruct o; intros H; try exact H. exact (label_e l s H). Qed.
Definition cstm_pd (ho : bool) (s : cstm) : Prop := forall r, conv_cstm ho s = Ok r -> Forall pr r.
Lemma block_p l : Forall pr l -> pr (O_block (gen_hdr []) l). Proof. intros F. exact (prs _ F). Qed.
Lemma gbody_p ho b o : g_all (cstm_pd ho) b -> conv_gbody ho (conv_cstm ho) b = Ok o -> pr o.
Proof.
  destruct b as [bg ds ss]. cbn [g_all conv_gbody]. intros K H. binv H. binv H. injection H as <-.
  assert (F : Forall pr (x ++ x0)) by (apply Forall_app; split; [eapply decls_p; eassumption|exact (concat_p _ _ _ K Hx0)]).
  destruct ds; [|apply block_p, F]. destruct bg; [apply block_p, F|]. destruct F as [|a l A F]; [apply block_p, Forall_nil|]. destruct F as [|b l B F]; [exact A|]. apply block_p. auto.
Qed.
Lemma pairs_p {X} (f : X -> outcome (expr * hobj)) l r : Forall (fun x => forall y, f x = Ok y -> pr (snd y)) l -> mapM f l = Ok r -> forallb (fun p => proper (snd p)) r = true.
Proof. intros F H. apply forallb_forall, Forall_forall. exact (VhdlPyProofs2.mapM_all (fun p => pr (snd p)) f l r F H). Qed.
Theorem cstm_p ho s : cstm_pd ho s.
Proof.
  induction s as [s K] using cstm_ind'. intros r H. destruct s; cbn [c_kids conv_cstm] in K, H.
  - binv H. binv H. injection H as <-. refine (one_p _ (label_p l (O_block _ _) _)). apply block_p, Forall_app. split; [eapply decls_p; eassumption|exact (concat_p _ _ _ K Hx0)].
  - binv H. injection H as <-. apply one_p. unfold conv_vinst in Hx. repeat binv Hx. injection Hx as <-. reflexivity.
  - binv H. binv H. injection H as <-. apply one_p. unfold pr. cbn [proper label_obj push_label gen_hdr in_preproc andb]. exact (gbody_p ho _ _ K Hx0).
  - destruct K as (Kb & Kl & Ke). binv H. binv H. binv H. binv H. cbn zeta in H. injection H as <-. apply one_p. unfold pr. cbn [proper label_obj push_label gen_hdr in_preproc]. rewrite (gbody_p ho _ _ Kb Hx0).
    assert (E : forallb (fun p => proper (snd p)) x1 = true). { refine (pairs_p _ elifs x1 _ Hx1). eapply Forall_impl; [|exact Kl]. intros p Kp y Hy. binv Hy. binv Hy. injection Hy as <-. refine (gbody_p ho _ _ Kp _); eassumption. } rewrite E.
    destruct else_ as [p|]; [|injection Hx2 as <-; reflexivity]. binv Hx2. injection Hx2 as <-. exact (gbody_p ho _ _ Ke Hx3).
  - binv H. binv H. injection H as <-. apply one_p. unfold pr. cbn [proper label_obj push_label gen_hdr in_preproc andb]. rewrite andb_true_r. apply forallb_forall, Forall_forall. refine (concat_all (fun p => pr (snd p)) _ alts _ _ Hx0). eapply Forall_impl; [|exact K].
    intros p Kp y Hy. unfold conv_galt in Hy. binv Hy. refine (VhdlPyProofs2.mapM_all _ _ x1 _ _ Hy). apply Forall_forall. intros c _ z Hz. binv Hz. injection Hz as <-. refine (gbody_p ho _ _ Kp _); eassumption.
  - binv H. injection H as <-. apply one_p. apply csimple_p in Hx. destruct l; [apply label_p|]; exact Hx.
Qed.
Lemma lunit_p ho u r : conv_lunit ho u = Ok r -> Forall pr r.
Proof.
  intros H. destruct u; cbn [conv_lunit] in H; try (injection H as <-; apply Forall_nil).
  - repeat binv H. injection H as <-. apply one_p, prs. destruct ho; [injection Hx1 as <-; apply Forall_nil|]. eapply decls_p; eassumption.
  - repeat binv H. injection H as <-. apply one_p, prs, Forall_app. split; [destruct ho; [injection Hx0 as <-; apply Forall_nil|]; eapply decls_p; eassumption|]. refine (concat_p _ _ _ _ Hx1). apply Forall_forall. intros s _. apply cstm_p.
  - eapply decl_p; exact H.
  - eapply decl_p; exact H.
Qed.
Lemma citem_p c r : conv_citem c = Ok r -> Forall pr r.
Proof. intros H. destruct c; cbn [conv_citem] in H; [|eapply use_p; eassumption|injection H as <-; apply Forall_nil]. injection H as <-. apply Forall_map, Forall_forall. intros n _. reflexivity. Qed.
Theorem file_back ho l r : conv_file ho l = Ok r -> omapM read_hobj (map of_hobj r) = Some r.
Proof.
  intros H. apply omapM_back. assert (F : Forall pr r); [|eapply Forall_impl; [|exact F]; exact obj_back].
  refine (concat_p _ l _ _ H). apply Forall_forall. intros u _ y Hy. unfold conv_dunit in Hy. repeat binv Hy. injection Hy as <-. apply Forall_app. split; [|eapply lunit_p; eassumption].
  refine (concat_p _ _ _ _ Hx). apply Forall_forall. intros c _ z. apply citem_p.
Qed.
