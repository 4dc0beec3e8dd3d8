From Verif Require Import Base BaseFacts AstModel StmModel LitModel SvExprModel SvExprProofs SvStmModel SvTypeModel SvDeclModel SvInstProofs SvDeclProofs
  VhdlExprModel VhdlExprProofs VhdlStmModel VhdlStmProofs VhdlDeclModel VhdlDeclProofs VhdlDecl2Proofs VhdlElabProofs VhdlHierProofs PySpec Utf8Proofs PyObjModel PyObjSpec PyTreeModel PySeenSpec VhdlTextSpec VhdlPyProofs VhdlPyProofs2.

(** ** Definitions *)
Definition dr (d : iddef) : Prop := readable_def d = true.
Lemma type_r e : readable e = true -> readable_type e = true. Proof. destruct e; auto. Qed.
Lemma new_r n t v d l : printable (W_name n) -> readable_type t = true -> opt_all readable v = true -> known_dir d = true -> dr (new_iddef n t v d l).
Proof.
  intros [_ N] T V D. unfold dr, readable_def, readable_head. cbn [d_name d_doc d_type d_dir d_attrs d_value new_iddef readable_attrs forallb]. rewrite N, D, V.
  replace (readable_type (d_type (new_iddef n t v d l))) with (readable_type t) by reflexivity. rewrite T. reflexivity.
Qed.
Lemma clone_r x y : readable x = true -> clone_e x = Ok y -> readable y = true.
Proof.
  revert y. induction x as [s|b v|t|s|l IH|s| |o l IH|] using expr_ind'; intros y R H; cbn [clone_e] in H; try (injection H as <-; exact R); try discriminate.
  - apply bind_inv in H as (r & Hr & H). injection H as <-. change (forallb readable r = true). cbn [readable] in R. apply forallb_all in R. refine (mapM_readable clone_e l r _ Hr). eapply Forall_both; [exact IH|exact R|]. auto.
  - apply bind_inv in H as (r & Hr & H). injection H as <-. change (forallb readable r = true). cbn [readable] in R. apply forallb_all in R. refine (mapM_readable clone_e l r _ Hr). eapply Forall_both; [exact IH|exact R|]. auto.
Qed.
Lemma names_r (ns : list str) : printables (map W_name ns) -> Forall (fun n => printable (W_name n)) ns. Proof. intros H. exact (proj1 (Forall_map W_name printable ns) H). Qed.
Lemma value_r v e : printables (opt_words words v) -> match v with Some v => x <- hconv v ;; Ok (Some x) | None => Ok None end = Ok e -> opt_all readable e = true.
Proof. destruct v; cbn [opt_words]; intros W H; [|injection H as <-; reflexivity]. binv H. injection H as <-. cbn [opt_all]. via hconv_r. Qed.
Lemma extract_r ns t v r : printables (map W_name ns ++ words t ++ opt_words words v) -> extract ns t v = Ok r -> Forall dr r.
Proof.
  intros W H. apply Forall_app in W as [W1 W]. apply Forall_app in W as [W2 W3]. apply names_r in W1. unfold extract in H. binv H. binv H.
  assert (T : readable x = true) by via hconv_r. assert (V : opt_all readable x0 = true) by (eapply value_r; [exact W3|exact Hx0]). clear Hx Hx0 W2 W3.
  destruct W1 as [|n ns N W1]; [injection H as <-; constructor|]. binv H. injection H as <-. constructor; [apply new_r; auto using type_r|].
  refine (mapM_all dr _ ns _ _ Hx). eapply Forall_impl; [|exact W1]. intros m M y Hy. binv Hy. binv Hy. injection Hy as <-. apply new_r; [exact M|apply type_r; eapply clone_r; eassumption| |reflexivity].
  destruct x0; [|injection Hx1 as <-; reflexivity]. binv Hx1. injection Hx1 as <-. cbn [opt_all] in *. eapply clone_r; eassumption.
Qed.
Lemma const_r d : dr d -> dr (set_const d). Proof. intros H. exact H. Qed.
Lemma latched_r d : dr d -> dr (set_latched d). Proof. intros H. exact H. Qed.
Lemma shared_r b d : dr d -> dr (set_shared b d). Proof. intros H. exact H. Qed.
Lemma alias_r d : dr d -> dr (set_alias d). Proof. intros H. exact H. Qed.
Lemma mode_r m d : dr d -> dr (set_dir (conv_mode m) d).
Proof.
  unfold dr, readable_def, readable_head. intros H. change (d_name (set_dir (conv_mode m) d)) with (d_name d). change (d_doc (set_dir (conv_mode m) d)) with (d_doc d). change (d_type (set_dir (conv_mode m) d)) with (d_type d).
  change (d_attrs (set_dir (conv_mode m) d)) with (d_attrs d). change (d_value (set_dir (conv_mode m) d)) with (d_value d). change (d_dir (set_dir (conv_mode m) d)) with (conv_mode m).
  replace (known_dir (conv_mode m)) with true by (destruct m as [[]|]; reflexivity). repeat match goal with H : _ && _ = true |- _ => apply andb_prop in H as [H ?] end. band; auto.
Qed.
Lemma map_r (g : iddef -> iddef) l : (forall d, dr d -> dr (g d)) -> Forall dr l -> Forall dr (map g l).
Proof. intros G H. apply Forall_map. eapply Forall_impl; [|exact H]. exact G. Qed.
Lemma iface_r i r : printables (iface_words i) -> conv_iface i = Ok r -> Forall dr r.
Proof.
  destruct i; cbn [iface_words conv_iface]; intros W H; try (injection H as <-; constructor); binv H; injection H as <-; apply map_r; try (eapply extract_r; eassumption);
    intros d D; auto using const_r, latched_r, mode_r.
Qed.
Lemma concat_all {X Y} (P : Y -> Prop) (f : X -> outcome (list Y)) l : Forall (fun x => forall r, f x = Ok r -> Forall P r) l -> forall r, concatM f l = Ok r -> Forall P r.
Proof.
  intros H. induction H as [|x l Hx H IH]; intros r E; [injection E as <-; constructor|]. apply concatM_inv in E as (a & b & Ea & Eb & ->). apply Forall_app. auto.
Qed.
Lemma ifaces_r l r : printables (flat_map iface_words l) -> conv_ifaces l = Ok r -> Forall dr r.
Proof. intros W. apply Forall_flat_map in W. apply concat_all. eapply Forall_impl; [|exact W]. intros i Wi y. apply iface_r, Wi. Qed.
Lemma clause_r ho c r : printables (params_words c) -> conv_clause ho c = Ok r -> Forall dr r.
Proof. unfold conv_clause. destruct ho; [intros _ H; injection H as <-; constructor|]. destruct c; [apply ifaces_r|intros _ H; injection H as <-; constructor]. Qed.
(** ** Types *)
Lemma number_r (based : bool) t v : plain_text t = true -> (if based then visit_based_literal t else visit_decimal t) = Ok v -> readable v = true.
Proof. intros P H. destruct based; [eapply based_readable|eapply decimal_readable]; eassumption. Qed.
Lemma physical_r p x : printables (physical_words p) -> conv_physical p = Ok x -> readable x = true.
Proof.
  unfold physical_words, conv_physical. intros W H. apply Forall_app in W as [W1 W2]. binv H. assert (readable x0 = true) by via hconv_r. destruct (fst p) as [(based, t)|]; [|injection H as <-; assumption].
  binv H. injection H as <-. apply Forall_cons_iff in W1 as [W1 _]. cbn [snd] in W1. apply readable_op2; [|assumption]. eapply number_r; [exact W1|exact Hx0].
Qed.
Lemma elit_r e m : printables (elit_words e) -> conv_elit e = Ok m -> readable_member m = true.
Proof.
  destruct e; cbn [elit_words conv_elit]; intros W H; [injection H as <-|binv H; injection H as <-]; unfold readable_member; cbn [fst snd opt_all].
  - apply Forall_cons_iff in W as [[_ W] _]. rewrite W. reflexivity.
  - eapply nlit_readable; [|exact Hx]. exact W.
Qed.
Lemma tdef_r t v : printables (tdef_words t) -> conv_tdef t = Ok v -> readable_tval v = true.
Proof.
  destruct t; cbn [tdef_words conv_tdef]; intros W H; try (injection H as <-; reflexivity).
  - binv H. injection H as <-. cbn [readable_tval]. apply forallb_all. apply Forall_flat_map in W. refine (mapM_all _ _ l _ _ Hx). eapply Forall_impl; [|exact W]. intros e We y. apply elit_r, We.
  - binv H. injection H as <-. cbn [readable_tval]. apply readable_op1. via range_r.
  - binv H. injection H as <-. cbn [readable_tval]. apply readable_op1. via range_r.
  - apply Forall_app in W as [W1 W]. apply Forall_cons_iff in W as [W2 W]. repeat binv H. injection H as <-. cbn [readable_tval forallb]. band.
    + apply readable_op1. via range_r.
    + unfold readable_unit. cbn [fst snd opt_all]. destruct W2 as [_ ->]. reflexivity.
    + apply forallb_all. apply Forall_flat_map in W. refine (mapM_all _ _ l _ _ Hx0). eapply Forall_impl; [|exact W]. intros u Wu y Hy. apply Forall_cons_iff in Wu as [[_ U] Wu]. binv Hy. injection Hy as <-. unfold readable_unit. cbn [fst snd opt_all].
      rewrite U, (physical_r _ _ Wu Hx1). reflexivity.
  - apply Forall_app in W as [W1 W2]. repeat binv H. injection H as <-. cbn [readable_tval]. apply readable_op. cbn [forallb]. band; [via hconv_r|]. apply Forall_flat_map in W1. refine (mapM_readable _ marks _ _ Hx0).
    eapply Forall_impl; [|exact W1]. intros e We y Hy. binv Hy. injection Hy as <-. apply readable_op2; [via hconv_r|reflexivity].
  - apply Forall_app in W as [W1 W2]. repeat binv H. injection H as <-. cbn [readable_tval]. eapply (constraint_rd x (Some l)); [via hconv_r| |exact W1|exact Hx0]. cbn [h_orl]. apply all_Forall, rng_all.
  - binv H. injection H as <-. cbn [readable_tval]. apply forallb_all. apply Forall_flat_map in W. refine (concat_all dr _ l _ _ Hx). eapply Forall_impl; [|exact W]. intros p Wp y Hy. eapply extract_r; [|exact Hy]. cbn [opt_words].
    rewrite app_nil_r. exact Wp.
Qed.
(** ** Declarations *)
Definition hr (o : hobj) : Prop := readable_obj (of_hobj o) = true.
Lemma objs_r l : Forall hr l -> forallb readable_obj (map of_hobj l) = true. Proof. intros H. apply forallb_map_of. exact H. Qed.
Lemma id_r d : dr d -> hr (O_id d). Proof. intros H. exact H. Qed.
Lemma head_new n t v d l : readable_head (new_iddef n t v d l) = sendable_text n && readable_type t && known_dir d.
Proof. unfold readable_head. cbn [d_name d_doc d_dir d_attrs new_iddef readable_attrs forallb]. change (d_type (new_iddef n t v d l)) with t. change (sendable_text []) with true. rewrite !andb_true_r. reflexivity. Qed.
Lemma type_obj_r n t v : printable (W_name n) -> match v with Some v => readable_tval v | None => true end = true -> hr (O_type n t v).
Proof.
  intros N V. unfold hr. destruct v as [[e|l|r l|l]|]; cbn [of_hobj]; try (cbn [readable_obj]; rewrite head_new; destruct N as [_ N]; rewrite N; exact V); apply new_r; auto.
Qed.
Lemma plain_r n : printable (W_name n) -> readable_nhdr (plain n) = true.
Proof. intros [_ N]. unfold readable_nhdr, plain. cbn [n_name n_doc n_attrs readable_attrs forallb]. rewrite N. reflexivity. Qed.
Lemma stm_objs_r l : Forall sr l -> Forall hr (map O_stm l). Proof. intros H. apply Forall_map. exact H. Qed.
Lemma params_r body ps r : printables (params_words ps) -> conv_params body ps = Ok r -> opt_all (forallb readable_def) r = true.
Proof.
  destruct ps; cbn [conv_params]; intros W H; [|injection H as <-; destruct body; reflexivity]. binv H. injection H as <-. cbn [opt_all]. apply forallb_all. eapply ifaces_r; eassumption.
Qed.
Lemma subprog_r body s objs o : printables (subprog_words s) -> Forall hr objs -> conv_subprog body s objs = Ok o -> hr o.
Proof.
  intros W F H. destruct s; cbn [subprog_words conv_subprog] in W, H; apply Forall_cons_iff in W as [W0 W].
  - binv H. injection H as <-. unfold hr. cbn [of_hobj readable_obj opt_all]. band; [apply plain_r, W0|eapply params_r; eassumption|reflexivity|apply objs_r, F].
  - apply Forall_app in W as [W1 W2]. repeat binv H. injection H as <-. unfold hr. cbn [of_hobj readable_obj opt_all]. band; [apply plain_r, W0|eapply params_r; eassumption|via hconv_r|apply objs_r, F].
Qed.
Lemma defs_r l : Forall dr l -> forallb readable_def l = true. Proof. intros H. apply forallb_all. exact H. Qed.
Lemma flatten_r x : readable x = true -> Forall (fun y => readable y = true) (flatten x).
Proof.
  induction x as [s|b v|t|s|l IH|s| |o l IH|] using expr_ind'; intros R; try (constructor; [exact R|constructor]).
  destruct o; try (constructor; [exact R|constructor]). cbn [flatten readable] in *. apply Forall_flat_map. apply forallb_all in R. eapply Forall_both; [exact IH|exact R|]. auto.
Qed.
Lemma use_r l r : printables (flat_map words l) -> mapM conv_use l = Ok r -> Forall hr r.
Proof.
  intros W H. apply Forall_flat_map in W. refine (mapM_all hr _ l _ _ H). eapply Forall_impl; [|exact W]. intros e We y Hy. unfold conv_use in Hy. binv Hy. injection Hy as <-. unfold hr. cbn [of_hobj readable_obj].
  band; [reflexivity|]. apply forallb_all, flatten_r. via hconv_r.
Qed.
Lemma map_id_r (g : iddef -> iddef) l : (forall d, dr d -> dr (g d)) -> Forall dr l -> Forall hr (map (fun d => O_id (g d)) l).
Proof. intros G H. apply Forall_map. eapply Forall_impl; [|exact H]. exact G. Qed.
Definition decl_rd (ho : bool) (d : decl) : Prop := forall r, printables (decl_words d) -> conv_decl ho d = Ok r -> Forall hr r.
Lemma decls_rd ho l r : Forall (decl_rd ho) l -> printables (flat_map decl_words l) -> concatM (conv_decl ho) l = Ok r -> Forall hr r.
Proof. intros K W. apply Forall_flat_map in W. apply concat_all. eapply Forall_both; [exact K|exact W|]. intros d Kd Wd y. apply Kd, Wd. Qed.
Theorem decl_r ho d : decl_rd ho d.
Proof.
  induction d as [d K] using decl_ind'. intros r W H. destruct d; cbn [d_kids decl_words conv_decl] in K, W, H.
  - binv H. injection H as <-. apply map_id_r; [exact const_r|]. eapply extract_r; eassumption.
  - binv H. injection H as <-. apply (map_id_r (fun d => d)); [auto|]. eapply extract_r; eassumption.
  - binv H. injection H as <-. apply (map_id_r (fun d => set_shared shared (set_latched d))); [intros d D; apply shared_r, latched_r, D|]. eapply extract_r; eassumption.
  - apply Forall_cons_iff in W as [W0 W]. destruct t as [t|]; [binv H|]; injection H as <-; (constructor; [|constructor]); apply type_obj_r; try exact W0; [|reflexivity]. eapply tdef_r; eassumption.
  - apply Forall_cons_iff in W as [W0 W]. binv H. injection H as <-. constructor; [|constructor]. apply type_obj_r; [exact W0|]. cbn [readable_tval]. via hconv_r.
  - apply Forall_cons_iff in W as [W0 W]. apply Forall_app in W as [W1 W2]. binv H. binv H. injection H as <-. constructor; [|constructor]. apply id_r, alias_r, new_r; [exact W0| |cbn [opt_all]; via hconv_r|reflexivity].
    destruct t; [|injection Hx as <-; reflexivity]. apply type_r. cbn [opt_words] in W1. via hconv_r.
  - binv H. injection H as <-. constructor; [|constructor]. eapply subprog_r; [exact W|constructor|exact Hx].
  - apply Forall_app in W as [W1 W]. apply Forall_app in W as [W2 W3]. binv H. binv H. binv H. binv H. injection H as <-. constructor; [|constructor]. eapply subprog_r; [exact W1| |exact Hx2]. apply Forall_app.
    split; [eapply decls_rd; eassumption|]. apply stm_objs_r. eapply stms_r; eassumption.
  - apply Forall_cons_iff in W as [W0 W]. binv H. injection H as <-. constructor; [|constructor]. unfold hr. cbn [of_hobj readable_obj]. band; [apply plain_r, W0|]. apply objs_r. destruct ho; [injection Hx as <-; constructor|]. eapply decls_rd; eassumption.
  - apply Forall_cons_iff in W as [W0 W]. binv H. injection H as <-. constructor; [|constructor]. unfold hr. cbn [of_hobj readable_obj]. band; [apply plain_r, W0|]. apply objs_r. destruct ho; [injection Hx as <-; constructor|]. eapply decls_rd; eassumption.
  - apply Forall_cons_iff in W as [W0 W]. apply Forall_app in W as [W1 W2]. binv H. injection H as <-. constructor; [|constructor]. unfold conv_component in Hx. repeat binv Hx. injection Hx as <-. unfold hr. cbn [of_hobj readable_obj map forallb].
    band; [apply plain_r, W0|apply defs_r; via clause_r|apply defs_r; via clause_r|reflexivity].
  - eapply use_r; eassumption.
  - injection H as <-. constructor.
Qed.
Lemma decls_r ho l r : printables (flat_map decl_words l) -> conv_decls ho l = Ok r -> Forall hr r.
Proof. apply decls_rd. apply all_Forall. intros d. apply decl_r. Qed.
(** ** Concurrent statements *)
Lemma conc_r c o : printables (conc_words c) -> conv_conc c = Ok o -> sr o.
Proof.
  destruct c; cbn [conc_words conv_conc]; intros W H; apply Forall_app in W as [W1 W2].
  - repeat binv H. eapply assign_r; [| |exact H]; [via hconv_r|via wave_r].
  - repeat binv H. eapply assign_r; [| |exact H]; [via hconv_r|via condwave_r].
  - apply Forall_app in W2 as [W2 W3]. binv H. binv H. unfold conv_select in H. binv H. binv H. injection H as <-.
    destruct (selwaves_r (List.concat x1) x0 false [] None false x2) as (A & B); [|via hconv_r|constructor|exact I|exact Hx2|].
    + apply Forall_concat. apply Forall_flat_map in W3. refine (mapM_all _ _ l _ _ Hx1). eapply Forall_impl; [|exact W3]. intros p Wp y Hy. apply Forall_app in Wp as [Wa Wb]. repeat binv Hy. injection Hy as <-.
      assert (C : forallb readable x3 = true) by via choices_r. assert (D : forallb readable x4 = true) by (refine (mapM_readable _ (snd p) _ _ Hx4); apply all_Forall; intros _ z Hz; via wave_r).
      clear - C D. revert x4 D. induction x3 as [|a l IH]; intros m D; [constructor|]. destruct m as [|b m]; [constructor|]. cbn [forallb] in C, D. apply andb_prop in C as [? C]. apply andb_prop in D as [? D]. cbn [combine]. constructor; auto.
    + unfold sr. cbn [of_stm readable_obj]. band; [reflexivity|via hconv_r|apply branches_r, A|apply opt_sr_of, B].
Qed.
Lemma csimple_r ho s o : printables (csimple_words s) -> conv_csimple ho s = Ok o -> hr o.
Proof.
  destruct s; cbn [csimple_words conv_csimple]; intros W H.
  - apply Forall_app in W as [W1 W]. apply Forall_app in W as [W2 W3]. binv H. binv H. binv H. injection H as <-. unfold hr. cbn [of_hobj readable_obj]. band; try reflexivity.
    + destruct sens; try (injection Hx as <-; reflexivity). binv Hx. injection Hx as <-. cbn [opt_all sens_words] in *. eapply hconvs_r; eassumption.
    + apply objs_r. apply Forall_app. split; [eapply decls_r; eassumption|]. apply stm_objs_r. eapply stms_r; eassumption.
  - binv H. injection H as <-. unfold hr. change (readable x = true). eapply procedure_r; eassumption.
  - binv H. injection H as <-. change (sr x). eapply hstm_r; [|exact Hx]. cbn [stm_words item_words label_words opt_words app]. exact W.
  - binv H. injection H as <-. change (sr x). eapply conc_r; eassumption.
Qed.
Lemma label_obj_r l o : printable (W_name l) -> hr o -> hr (label_obj l o).
Proof.
  intros L H. destruct o; try exact H; try (apply (set_label_r l s L H));
    unfold hr in *; cbn [label_obj of_hobj readable_obj] in *; repeat match goal with H : _ && _ = true |- _ => apply andb_prop in H as [H ?] end; band; auto using push_label_r.
Qed.
Definition cstm_rd (ho : bool) (s : cstm) : Prop := forall r, printables (cstm_words s) -> conv_cstm ho s = Ok r -> Forall hr r.
Lemma cstms_rd ho l r : Forall (cstm_rd ho) l -> printables (flat_map cstm_words l) -> concatM (conv_cstm ho) l = Ok r -> Forall hr r.
Proof. intros K W. apply Forall_flat_map in W. apply concat_all. eapply Forall_both; [exact K|exact W|]. intros d Kd Wd y. apply Kd, Wd. Qed.
Lemma gen_hdr_r l : forallb sendable_text l = true -> readable_hdr (gen_hdr l) = true.
Proof. intros H. unfold readable_hdr, gen_hdr. cbn [doc labels attrs readable_attrs forallb]. rewrite H. reflexivity. Qed.
Lemma block_r h l : readable_hdr h = true -> Forall hr l -> hr (O_block h l).
Proof. intros H F. unfold hr. cbn [of_hobj readable_obj]. rewrite H. apply objs_r, F. Qed.
Lemma gbody_r ho b o : g_all (cstm_rd ho) b -> printables (gbody_words cstm_words b) -> conv_gbody ho (conv_cstm ho) b = Ok o -> hr o.
Proof.
  destruct b as [bg ds ss]. cbn [g_all gbody_words conv_gbody]. intros K W H. apply Forall_app in W as [W1 W2]. binv H. binv H. injection H as <-.
  assert (F : Forall hr (x ++ x0)) by (apply Forall_app; split; [eapply decls_r; eassumption|eapply cstms_rd; eassumption]).
  destruct ds; [|apply block_r; [reflexivity|exact F]]. destruct bg; [apply block_r; [reflexivity|exact F]|]. destruct F as [|a l A F]; [apply block_r; [reflexivity|constructor]|]. destruct F as [|b l B F]; [exact A|].
  apply block_r; [reflexivity|]. auto.
Qed.
Definition cbr (p : expr * hobj) : Prop := readable (fst p) = true /\ hr (snd p).
Lemma cbranches_r l : Forall cbr l -> forallb (fun p : expr * obj => match p with (e, b) => readable e && readable_obj b end) (map (fun p : expr * hobj => match p with (e, b) => (e, of_hobj b) end) l) = true.
Proof. intros H. apply forallb_map_of. eapply Forall_impl; [|exact H]. intros (e, b) (R & S). cbn [fst snd] in *. rewrite R. exact S. Qed.
Lemma opt_list_r l : printables (label_words l) -> Forall (fun s => sendable_text s = true) (opt_list l).
Proof. destruct l; intros W; [|constructor]. apply Forall_cons_iff in W as [[_ W] _]. constructor; [exact W|constructor]. Qed.
Lemma firstn_all' {X} (P : X -> Prop) n l : Forall P l -> Forall P (firstn n l).
Proof. intros H. revert n. induction H as [|x l Hx H IH]; intros [|n]; cbn [firstn]; constructor; auto. Qed.
Lemma name_id_r l : printable (W_name l) -> readable (EId l) = true. Proof. apply name_readable. Qed.
Theorem cstm_r ho s : cstm_rd ho s.
Proof.
  induction s as [s K] using cstm_ind'. intros r W H. destruct s; cbn [c_kids cstm_words conv_cstm] in K, W, H.
  - apply Forall_cons_iff in W as [W0 W]. apply Forall_app in W as [W1 W2]. repeat binv H. injection H as <-. constructor; [|constructor]. refine (label_obj_r l (O_block _ _) W0 _). apply block_r; [reflexivity|].
    apply Forall_app. split; [eapply decls_r; eassumption|eapply cstms_rd; eassumption].
  - apply Forall_cons_iff in W as [W0 W]. apply Forall_app in W as [W1 W]. apply Forall_app in W as [W2 W3]. binv H. injection H as <-. constructor; [|constructor]. unfold conv_vinst in Hx. repeat binv Hx. injection Hx as <-.
    unfold hr. cbn [of_hobj readable_obj ci_name ci_module ci_generics ci_ports]. band.
    + apply name_readable, W0.
    + unfold conv_iunit in Hx0. destruct u; cbn [iunit_words] in W1; via hconv_r.
    + destruct gm; [eapply assocs_r; eassumption|injection Hx1 as <-; reflexivity].
    + destruct pm; [eapply assocs_r; eassumption|injection Hx2 as <-; reflexivity].
    + reflexivity.
  - apply Forall_cons_iff in W as [W0 W]. apply Forall_cons_iff in W as [W1 W]. apply Forall_app in W as [W2 W]. apply Forall_app in W as [W3 W4]. repeat binv H. injection H as <-. constructor; [|constructor]. refine (label_obj_r l (O_for _ _ _ _) W0 _).
    unfold hr. cbn [of_hobj readable_obj forallb]. band; try reflexivity.
    + apply gen_hdr_r, forallb_all, opt_list_r, W4.
    + change (readable (EId i) = true). apply name_readable, W1.
    + via range_r.
    + eapply gbody_r; [..|eassumption]; assumption.
  - destruct K as (Kb & Kl & Ke). apply Forall_cons_iff in W as [W0 W]. apply Forall_app in W as [W1 W]. apply Forall_app in W as [W2 W]. apply Forall_app in W as [W3 W]. apply Forall_app in W as [W4 W]. apply Forall_app in W as [W5 W6].
    binv H. binv H. binv H. binv H. cbn zeta in H. injection H as <-. constructor; [|constructor]. refine (label_obj_r l (O_if _ _ _ _ _) W0 _). apply Forall_flat_map in W4. unfold hr. cbn [of_hobj readable_obj]. band.
    + apply gen_hdr_r, forallb_all. refine (firstn_all' _ 1 _ _). unfold if_labels. repeat (apply Forall_app; split).
      * apply opt_list_r, W1.
      * apply Forall_flat_map, Forall_map. eapply Forall_impl; [|exact W4]. intros p Wp. apply Forall_app in Wp as [Wp _]. apply opt_list_r, Wp.
      * destruct else_; cbn [option_map opt_words] in *; [|constructor]. apply Forall_app in W5 as [W5 _]. apply opt_list_r, W5.
      * apply opt_list_r, W6.
    + via hconv_r.
    + eapply gbody_r; [..|eassumption]; assumption.
    + apply cbranches_r. refine (mapM_all cbr _ elifs _ _ Hx1). eapply Forall_both; [exact Kl|exact W4|]. intros p Kp Wp y Hy. apply Forall_app in Wp as [_ Wp]. apply Forall_app in Wp as [Wa Wb]. repeat binv Hy. injection Hy as <-.
      split; [via hconv_r|eapply gbody_r; [..|eassumption]; assumption].
    + destruct else_; [|injection Hx2 as <-; reflexivity]. binv Hx2. injection Hx2 as <-. cbn [opt_words o_all] in *. apply Forall_app in W5 as [_ W5]. eapply gbody_r; [..|eassumption]; assumption.
  - apply Forall_cons_iff in W as [W0 W]. apply Forall_app in W as [W1 W2]. repeat binv H. injection H as <-. constructor; [|constructor]. refine (label_obj_r l (O_case _ _ _ _) W0 _). unfold hr. cbn [of_hobj readable_obj]. band; [reflexivity|via hconv_r| |reflexivity].
    apply cbranches_r. apply Forall_flat_map in W2. refine (concat_all cbr _ alts _ _ Hx0). eapply Forall_both; [exact K|exact W2|]. intros p Kp Wp y Hy. apply Forall_app in Wp as [Wa Wb]. unfold conv_galt in Hy. binv Hy.
    assert (C : forallb readable x1 = true) by via choices_r. apply forallb_all in C. refine (mapM_all cbr _ x1 _ _ Hy). eapply Forall_impl; [|exact C]. intros c Rc z Hz. binv Hz. injection Hz as <-. split; [exact Rc|]. eapply gbody_r; [..|eassumption]; assumption.
  - apply Forall_app in W as [W1 W2]. binv H. injection H as <-. constructor; [|constructor]. assert (hr x) by (eapply csimple_r; eassumption). destruct l as [l|]; [|assumption]. apply Forall_cons_iff in W1 as [W1 _]. apply label_obj_r; assumption.
Qed.
(** ** Design units *)
Lemma lunit_r ho u r : printables (lunit_words u) -> conv_lunit ho u = Ok r -> Forall hr r.
Proof.
  intros W H. destruct u; cbn [lunit_words conv_lunit] in W, H; try (injection H as <-; constructor).
  - apply Forall_cons_iff in W as [W0 W]. apply Forall_app in W as [W1 W]. apply Forall_app in W as [W2 W3]. repeat binv H. injection H as <-. constructor; [|constructor]. unfold hr. cbn [of_hobj readable_obj].
    band; [apply plain_r, W0|apply defs_r; eapply clause_r; [exact W1|exact Hx]|apply defs_r; eapply clause_r; [exact W2|exact Hx0]|]. apply objs_r. destruct ho; [injection Hx1 as <-; constructor|]. eapply decls_r; eassumption.
  - apply Forall_cons_iff in W as [W0 W]. apply Forall_app in W as [W1 W]. apply Forall_app in W as [W2 W3]. repeat binv H. injection H as <-. constructor; [|constructor]. unfold hr. cbn [of_hobj readable_obj opt_all].
    band; [apply plain_r, W0|via hconv_r|reflexivity|]. apply objs_r. apply Forall_app. split; [destruct ho; [injection Hx0 as <-; constructor|]; eapply decls_r; eassumption|]. eapply cstms_rd; [|exact W3|exact Hx1]. apply all_Forall. intros s. apply cstm_r.
  - eapply decl_r; [|exact H]. exact W.
  - eapply decl_r; [|exact H]. exact W.
Qed.
Lemma citem_r c r : printables (citem_words c) -> conv_citem c = Ok r -> Forall hr r.
Proof.
  intros W H. destruct c; cbn [citem_words conv_citem] in W, H; [|eapply use_r; eassumption|injection H as <-; constructor]. injection H as <-. apply names_r in W. apply Forall_map. eapply Forall_impl; [|exact W].
  intros n N. exact (plain_r n N).
Qed.
Theorem vhdl_readable ho l r : printables (file_words l) -> conv_file ho l = Ok r -> forallb readable_obj (map of_hobj r) = true.
Proof.
  intros W H. apply objs_r. apply Forall_flat_map in W. refine (concat_all hr _ l _ _ H). eapply Forall_impl; [|exact W]. intros u Wu y Hy. unfold dunit_words in Wu. apply Forall_app in Wu as [W1 W2]. unfold conv_dunit in Hy. repeat binv Hy.
  injection Hy as <-. apply Forall_app. split; [|eapply lunit_r; eassumption]. apply Forall_flat_map in W1. refine (concat_all hr _ (fst u) _ _ Hx). eapply Forall_impl; [|exact W1]. intros c Wc z. apply citem_r, Wc.
Qed.
