(** The choice of ANTLR between two trees does not change the texts in the tree. *)
From Verif Require Import Base AstModel StmModel SvExprModel VhdlExprModel VhdlExprProofs VhdlStmModel VhdlStmProofs VhdlDeclModel VhdlElabProofs VhdlHierProofs VhdlTextSpec VhdlSyntaxModel VhdlNormProofs VhdlStmSyntaxModel VhdlUnitSyntaxModel.

Lemma flat_same {X Y Z : Type} (f : Y -> list Z) (g : X -> list Z) (h : X -> Y) l : Forall (fun x => f (h x) = g x) l -> flat_map f (map h l) = flat_map g l.
Proof. induction 1 as [|x l H _ IH]; [reflexivity|]. cbn [map flat_map]. rewrite H, IH. reflexivity. Qed.
Lemma flat_all {X Y Z : Type} (f : Y -> list Z) (g : X -> list Z) (h : X -> Y) l : (forall x, f (h x) = g x) -> flat_map f (map h l) = flat_map g l.
Proof. intros H. apply flat_same, Forall_forall. auto. Qed.
Lemma opt_same {X Y : Type} (f : Y -> list word) (g : X -> list word) (h : X -> Y) o : (forall x, f (h x) = g x) -> opt_words f (option_map h o) = opt_words g o.
Proof. destruct o; cbn; auto. Qed.

Definition wsame (e : hexpr) : Prop := words (norm e) = words e.
Definition wparts (e : hexpr) : Prop := match e with HApply n [Assoc None (Act (D_expr false x))] => wsame n /\ wsame x | HApply n _ => wsame n | _ => True end.
Definition wgood (e : hexpr) : Prop := wsame e /\ wparts e.
Lemma actual_same e : wgood e -> actual_words words (n_actual e) = words e.
Proof.
  intros [W P]. destruct e; try exact W. destruct l as [|[[f|] [[[] x| ]|c d]] [|]]; try exact W; cbn [n_actual actual_words desig_words words flat_map assoc_words opt_words app].
  destruct P as [Pn Px]. rewrite Pn, Px, app_nil_r. reflexivity.
Qed.
Lemma assoc_same a : h_as wgood a -> assoc_words words (n_assoc a) = assoc_words words a.
Proof.
  destruct a as [fp ac]. intros [F C].
  assert (E : opt_words (formal_words words) (n_formal fp) = opt_words (formal_words words) fp).
  { destruct fp as [[n m]|]; [|reflexivity]. destruct F as [[Fn _] _]. cbn [n_formal opt_words formal_words fst snd]. unfold formal_words. cbn [fst snd]. rewrite Fn. reflexivity. }
  destruct ac as [[[] e| ]|c d]; cbn [n_assoc assoc_words]; rewrite E; try reflexivity. rewrite (actual_same e C). reflexivity.
Qed.
Lemma range_same r : h_rng wgood r -> range_words words (n_range r) = range_words words r.
Proof.
  destruct r as [e|a d b]; cbn [h_rng n_range range_words].
  - intros [H _]. destruct (VhdlSyntaxModel.is_name e); [|exact H]. cbn [words opt_words app]. rewrite app_nil_r. exact H.
  - intros [[H1 _] [H2 _]]. rewrite H1, H2. reflexivity.
Qed.
Lemma elem_same p : h_el wgood p -> element_words words (n_elem p) = element_words words p.
Proof.
  destruct p as [cs e]. intros [C [H _]]. unfold element_words, n_elem. cbn [fst snd] in *. rewrite H. f_equal. apply flat_same. revert C. apply Forall_impl. intros [|r] G; [reflexivity|]. exact (range_same r G).
Qed.
Theorem words_good e : wgood e.
Proof.
  induction e as [e K] using hexpr_ind'.
  destruct e; cbn [hkids] in K; (split; [unfold wsame|try exact Logic.I]); try reflexivity;
    repeat match goal with H : wgood _ /\ _ |- _ => destruct H | H : _ /\ _ /\ _ |- _ => destruct H end; repeat match goal with H : wgood _ |- _ => destruct H as [H _] end; unfold wsame in *;
    try (cbn [norm words]; rewrite ?K, ?H, ?H0, ?H1; reflexivity).
  - rewrite norm_apply. cbn [words]. rewrite H. f_equal. apply flat_same. revert H0. apply Forall_impl. exact assoc_same.
  - cbn [wparts]. unfold wsame. destruct l as [|[[f|] [[[] x| ]|c d]] [|]]; try exact H. destruct (Forall_inv H0) as [_ Kx]. split; [exact H|exact (proj1 Kx)].
  - cbn [norm words]. destruct unit_ as [u|]; [|reflexivity]. destruct K as [K _]. cbn [option_map opt_words]. rewrite K. reflexivity.
  - rewrite norm_agg. cbn [words]. apply flat_same. revert K. apply Forall_impl. exact elem_same.
  - rewrite norm_qual. cbn [words]. rewrite H. f_equal. apply flat_same. revert H0. apply Forall_impl. exact elem_same.
Qed.
Lemma words_norm e : words (norm e) = words e. Proof. exact (proj1 (words_good e)). Qed.
Lemma owords_norm o : opt_words words (option_map norm o) = opt_words words o. Proof. apply opt_same, words_norm. Qed.
Lemma lwords_norm l : flat_map words (map norm l) = flat_map words l. Proof. apply flat_all, words_norm. Qed.
Lemma range_norm_w r : range_words words (norm_range r) = range_words words r.
Proof. destruct r as [e|a d b]; cbn [norm_range range_words]; [|rewrite !words_norm; reflexivity]. destruct (VhdlSyntaxModel.is_name e); cbn [words opt_words app]; rewrite ?app_nil_r; apply words_norm. Qed.
Lemma choices_norm_w l : flat_map (choice_words words) (map norm_choice l) = flat_map (choice_words words) l.
Proof. apply flat_all. intros [|r]; [reflexivity|]. exact (range_norm_w r). Qed.
Lemma wave_norm_w w : wave_words (norm_wave w) = wave_words w.
Proof. destruct w as [p l|]; [|reflexivity]. cbn [norm_wave wave_words flat_map]. unfold norm_welem at 1. cbn [fst]. rewrite words_norm. f_equal. apply flat_all. intros x. cbn [norm_welem fst]. apply words_norm. Qed.
Lemma condwave_norm_w w : condwave_words (norm_condwave w) = condwave_words w.
Proof.
  destruct w as [p l e]. cbn [norm_condwave condwave_words flat_map norm_cw fst snd]. rewrite wave_norm_w, words_norm, (opt_same wave_words wave_words norm_wave e wave_norm_w). rewrite (flat_all (fun q => wave_words (fst q) ++ words (snd q)) (fun q => wave_words (fst q) ++ words (snd q)) norm_cw l); [reflexivity|]. intros x. cbn [norm_cw fst snd]. rewrite wave_norm_w, words_norm. reflexivity.
Qed.
Lemma stm_norm_w s : stm_words (norm_stm s) = stm_words s.
Proof.
  revert s. apply hstm_ind'. intros lb i K. cbn [norm_stm stm_words]. f_equal.
  assert (B : forall l, Forall (fun s => stm_words (norm_stm s) = stm_words s) l -> flat_map stm_words (map norm_stm l) = flat_map stm_words l) by (intros l F; apply flat_same; exact F).
  destruct i; cbn [norm_item item_words hk_item] in *; rewrite ?lwords_norm, ?owords_norm, ?words_norm, ?wave_norm_w, ?condwave_norm_w, ?range_norm_w; try reflexivity.
  - destruct K as (K1 & K2 & K3). rewrite (B b K1). do 2 f_equal. f_equal.
    + apply flat_same. revert K2. apply Forall_impl. intros p G. cbn [fst snd]. rewrite words_norm, (B _ G). reflexivity.
    + f_equal. destruct else_ as [e|]; [|reflexivity]. exact (B e K3).
  - f_equal. f_equal. apply flat_same. revert K. apply Forall_impl. intros p G. cbn [fst snd]. rewrite choices_norm_w, (B _ G). reflexivity.
  - rewrite (B b K). reflexivity.
  - rewrite (B b K). reflexivity.
  - rewrite (B b K). reflexivity.
Qed.
Lemma stms_norm_w l : flat_map stm_words (map norm_stm l) = flat_map stm_words l. Proof. apply flat_all, stm_norm_w. Qed.
Lemma conc_norm_w c : conc_words (norm_conc c) = conc_words c.
Proof.
  destruct c as [t w|t w|q e t l]; cbn [norm_conc conc_words]; rewrite ?words_norm, ?wave_norm_w, ?condwave_norm_w; try reflexivity. do 2 f_equal. apply flat_all. intros x. unfold selwave_words, norm_selwave. cbn [fst snd]. rewrite wave_norm_w, choices_norm_w. reflexivity.
Qed.
Lemma rrange_norm_w r : range_words words (norm_rrange r) = range_words words r. Proof. destruct r; cbn [norm_rrange range_words]; rewrite !words_norm; reflexivity. Qed.
Lemma sub_norm_w t : words (norm_sub t) = words t.
Proof.
  destruct t; try apply words_norm. cbn [norm_sub words]. rewrite words_norm. f_equal; [destruct ri as [[f|]|]; cbn [opt_words res_words]; rewrite ?words_norm; reflexivity|f_equal]. destruct c as [[r|l b]|]; cbn [opt_words constr_words]; rewrite ?rrange_norm_w; reflexivity.
Qed.
Lemma drange_norm_w r : range_words words (norm_drange r) = range_words words r.
Proof. destruct r as [e|a d b]; [|apply range_norm_w]. destruct e; try apply range_norm_w. apply sub_norm_w. Qed.
Lemma iface_norm_w i : iface_words (norm_iface i) = iface_words i. Proof. destruct i; cbn [norm_iface iface_words]; rewrite ?sub_norm_w, ?owords_norm; reflexivity. Qed.
Lemma clause_norm_w c : params_words (norm_clause c) = params_words c. Proof. unfold params_words, norm_clause. apply opt_same. intros l. apply flat_all, iface_norm_w. Qed.
Lemma spec_norm_w s : subprog_words (norm_spec s) = subprog_words s. Proof. destruct s; cbn [norm_spec subprog_words]; rewrite clause_norm_w, ?words_norm; reflexivity. Qed.
Lemma tdef_norm_w t : tdef_words (norm_tdef t) = tdef_words t.
Proof.
  destruct t; cbn [norm_tdef tdef_words]; rewrite ?rrange_norm_w, ?lwords_norm, ?sub_norm_w; try reflexivity.
  - f_equal. apply flat_all, drange_norm_w.
  - apply flat_all. intros x. cbn [fst snd]. rewrite sub_norm_w. reflexivity.
Qed.
Lemma decl_norm_w d : decl_words (norm_decl d) = decl_words d.
Proof.
  induction d as [d K] using decl_ind'.
  assert (B : forall l, Forall (fun d => decl_words (norm_decl d) = decl_words d) l -> flat_map decl_words (map norm_decl l) = flat_map decl_words l) by (intros l F; apply flat_same; exact F).
  destruct d; cbn [d_kids norm_decl decl_words cp_name cp_generics cp_ports] in *; rewrite ?sub_norm_w, ?owords_norm, ?words_norm, ?spec_norm_w, ?stms_norm_w, ?clause_norm_w, ?lwords_norm, ?(B _ K); try reflexivity.
  - f_equal. apply opt_same, tdef_norm_w.
  - rewrite (opt_same words words norm_sub t sub_norm_w). reflexivity.
Qed.
Lemma decls_norm_w l : flat_map decl_words (map norm_decl l) = flat_map decl_words l. Proof. apply flat_all, decl_norm_w. Qed.
Lemma nassoc_norm_w a : assoc_words words (norm_assoc a) = assoc_words words a.
Proof. unfold norm_assoc. rewrite norm_apply. cbn [map]. apply assoc_same. destruct a as [fp ac]. split; [apply b_fp, words_good|apply b_ac, words_good]. Qed.
Lemma map_norm_w m : map_words (option_map (map norm_assoc) m) = map_words m. Proof. unfold map_words. apply opt_same. intros l. apply flat_all, nassoc_norm_w. Qed.
Lemma csimple_norm_w s : csimple_words (norm_csimple s) = csimple_words s.
Proof.
  destruct s as [se ds ss e|n|c r s|c]; cbn [norm_csimple csimple_words]; rewrite ?decls_norm_w, ?stms_norm_w, ?words_norm, ?owords_norm, ?conc_norm_w; try reflexivity. f_equal. destruct se as [| |l]; try reflexivity. exact (lwords_norm l).
Qed.
Lemma cstm_norm_w s : cstm_words (norm_cstm s) = cstm_words s.
Proof.
  induction s as [s K] using cstm_ind'.
  assert (B : forall l, Forall (fun d => cstm_words (norm_cstm d) = cstm_words d) l -> flat_map cstm_words (map norm_cstm l) = flat_map cstm_words l) by (intros l F; apply flat_same; exact F).
  assert (G : forall b, g_all (fun d => cstm_words (norm_cstm d) = cstm_words d) b -> gbody_words cstm_words (norm_gbody norm_cstm b) = gbody_words cstm_words b).
  { intros [k ds ss] F. cbn [g_all norm_gbody gbody_words] in *. rewrite decls_norm_w, (B ss F). reflexivity. }
  destruct s as [l gd ge po ds ss en|l u gm pm|l i rg b en|l a c b elifs el en|l sel alts en|l po s]; cbn [c_kids norm_cstm cstm_words] in *.
  - rewrite decls_norm_w, (B ss K). reflexivity.
  - rewrite !map_norm_w. do 2 f_equal. destruct u; cbn [norm_iunit iunit_words]; apply words_norm.
  - rewrite drange_norm_w, (G b K). reflexivity.
  - destruct K as (K1 & K2 & K3). rewrite words_norm, (G b K1). do 4 f_equal. f_equal.
    + apply flat_same. revert K2. apply Forall_impl. intros p H. cbn [fst snd]. rewrite words_norm, (G _ H). reflexivity.
    + f_equal. destruct el as [p|]; [|reflexivity]. cbn [option_map opt_words o_all fst snd] in *. rewrite (G _ K3). reflexivity.
  - rewrite words_norm. do 2 f_equal. apply flat_same. revert K. apply Forall_impl. intros p H. cbn [fst snd]. rewrite choices_norm_w, (G _ H). reflexivity.
  - rewrite csimple_norm_w. reflexivity.
Qed.
Theorem file_norm_w l : file_words (map norm_dunit l) = file_words l.
Proof.
  unfold file_words. apply flat_all. intros [cs u]. unfold dunit_words, norm_dunit. cbn [fst snd]. f_equal.
  - apply flat_all. intros [l0|l0|l0]; cbn [norm_citem citem_words]; try reflexivity. apply lwords_norm.
  - destruct u as [n g p ds ss|n of_ ds ss|n g ds|n ds|n|n|n]; cbn [norm_lunit lunit_words]; rewrite ?clause_norm_w, ?decls_norm_w, ?words_norm; try reflexivity. do 3 f_equal. apply flat_all, cstm_norm_w.
Qed.
