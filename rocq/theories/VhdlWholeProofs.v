(** Files in which every part has a meaning are converted, and so is the tree that ANTLR chooses for them. *)
From Verif Require Import Base BaseFacts AstModel StmModel LitModel SvExprModel SvExprSpec SvDeclModel VhdlExprModel VhdlExprSpec VhdlExprProofs VhdlStmModel VhdlStmSpec VhdlStmProofs VhdlDeclModel VhdlDeclSpec VhdlDeclProofs VhdlDecl2Proofs VhdlElabProofs VhdlFileSpec VhdlFileProofs VhdlWholeSpec.
From Verif Require Import VhdlSyntaxModel VhdlNormProofs VhdlStmSyntaxModel VhdlStmNormProofs VhdlUnitSyntaxModel VhdlUnitNormProofs.

Section Whole.
Context (A : halgebra) (M : hmachine A) (fuel : nat).
Notation hv := (hvmeaning A).
Lemma is_defined {X : Type} (o : option X) : defined o = true -> exists x, o = Some x. Proof. destruct o; [eauto|discriminate]. Qed.
Lemma mapM_total {X Y : Type} (f : X -> outcome Y) l : Forall (fun x => exists y, f x = Ok y) l -> exists r, mapM f l = Ok r.
Proof. induction 1 as [|x l (y & H) _ (r & IH)]; [exists []; reflexivity|]. exists (y :: r). cbn [mapM]. rewrite H. cbn [bind]. rewrite IH. reflexivity. Qed.
Lemma concatM_total {X Y : Type} (f : X -> outcome (list Y)) l : Forall (fun x => exists y, f x = Ok y) l -> exists r, concatM f l = Ok r.
Proof. induction 1 as [|x l (y & H) _ (r & IH)]; [exists []; reflexivity|]. exists (y ++ r). apply concatM_cons; assumption. Qed.
Lemma range_total r : defined (hv_range A hv r) = true -> exists x, conv_range hconv r = Ok x.
Proof.
  intros H. apply is_defined in H as (v & H). destruct (range_sim A r v) as (a & Ha & _); [|exact H|eauto]. destruct r as [e|e1 d e2]; cbn [h_rng]; [apply hconv_sim|split; apply hconv_sim].
Qed.
Lemma expr_total e : defined (hv e) = true -> exists x, hconv e = Ok x.
Proof. intros H. apply is_defined in H as (v & H). destruct (hv_ok A e v H) as (a & Ha & _). eauto. Qed.
Lemma choice_total c : whole_choice A c = true -> exists x, conv_choice hconv c = Ok x.
Proof. destruct c as [|r]; cbn [whole_choice conv_choice]; intros H; [eauto|exact (range_total r H)]. Qed.
Lemma decls_total ds : defined (s_decls A M fuel ds) = true -> exists r, conv_decls false ds = Ok r.
Proof. intros H. apply is_defined in H as (v & H). destruct (decls_all A M fuel ds v H) as (r & Hr & _). eauto. Qed.
Definition ok_cstm (s : cstm) : Prop := whole_cstm A M fuel s = true -> exists r, conv_cstm false s = Ok r.
Lemma stms_total ss : Forall ok_cstm ss -> forallb (whole_cstm A M fuel) ss = true -> exists r, concatM (conv_cstm false) ss = Ok r.
Proof. intros F H. apply concatM_total. rewrite forallb_forall in H. rewrite Forall_forall in *. intros x I. exact (F x I (H x I)). Qed.
Lemma body_total b : g_all ok_cstm b -> whole_body A M fuel (whole_cstm A M fuel) b = true -> exists o, conv_gbody false (conv_cstm false) b = Ok o.
Proof.
  destruct b as [k ds ss]. cbn [g_all whole_body conv_gbody]. intros F H. apply andb_prop in H as [H1 H2]. destruct (decls_total ds H1) as (r & ->). destruct (stms_total ss F H2) as (s & ->). cbn [bind]. eauto.
Qed.
Theorem cstm_total s : ok_cstm s.
Proof.
  induction s as [s K] using cstm_ind'. intros H. destruct s as [l gd ge po ds ss en|l u gm pm|l i rg b en|l a c b elifs el en|l sel alts en|l po s]; cbn [c_kids whole_cstm conv_cstm] in *.
  - apply andb_prop in H as [H1 H2]. destruct (decls_total ds H1) as (r & ->). destruct (stms_total ss K H2) as (s & ->). cbn [bind]. eauto.
  - apply is_defined in H as (v & H). destruct (vinst_sim A l u gm pm v H) as (o & -> & _). cbn [bind]. eauto.
  - apply andb_prop in H as [H1 H2]. destruct (range_total rg H1) as (x & ->). destruct (body_total b K H2) as (o & ->). cbn [bind]. eauto.
  - destruct K as (K1 & K2 & K3). apply andb_prop in H as [H H4]. apply andb_prop in H as [H H3]. apply andb_prop in H as [H1 H2]. destruct (expr_total c H1) as (x & ->). destruct (body_total b K1 H2) as (t & ->). cbn [bind].
    destruct (mapM_total (fun p : option str * hexpr * gbody cstm => y <- hconv (snd (fst p)) ;; o <- conv_gbody false (conv_cstm false) (snd p) ;; Ok (y, o)) elifs) as (es & ->).
    { rewrite forallb_forall in H3. rewrite Forall_forall in *. intros p I. specialize (H3 p I). apply andb_prop in H3 as [E1 E2]. destruct (expr_total _ E1) as (y & ->). destruct (body_total _ (K2 p I) E2) as (o & ->). cbn [bind]. eauto. }
    cbn [bind]. destruct el as [(a', b')|]; cbn [o_all snd bind] in *; [destruct (body_total b' K3 H4) as (o & ->)|]; cbn [bind]; eauto.
  - apply andb_prop in H as [H1 H2]. destruct (expr_total sel H1) as (x & ->). cbn [bind]. destruct (concatM_total (conv_galt false (conv_cstm false)) alts) as (r & ->); [|cbn [bind]; eauto].
    rewrite forallb_forall in H2. rewrite Forall_forall in *. intros p I. specialize (H2 p I). apply andb_prop in H2 as [E1 E2]. unfold conv_galt. destruct (mapM_total (conv_choice hconv) (snd (fst p))) as (cs & ->).
    { rewrite forallb_forall in E1. rewrite Forall_forall. intros c J. exact (choice_total c (E1 c J)). }
    cbn [bind]. destruct (body_total _ (K p I) E2) as (o & ->). cbn [bind]. apply mapM_total. rewrite Forall_forall. intros c _. eauto.
  - apply is_defined in H as (v & H). destruct (simple_ok A M fuel l s v H) as (o & x & -> & _). cbn [bind]. eauto.
Qed.
Lemma lunit_total u : whole_lunit A M fuel u = true -> exists r, conv_lunit false u = Ok r.
Proof.
  destruct u as [n g p ds ss|n of_ ds ss|n g ds|n ds|n|n|n]; cbn [whole_lunit]; intros H; try discriminate H.
  - destruct ss; [|discriminate H]. apply andb_prop in H as [H1 H2]. apply is_defined in H1 as (i & H1). unfold s_unit_interface in H1. destruct (keyworded_clause g) eqn:Kw; [|discriminate H1].
    destruct (entity_sim A n g p ds [] i Kw H1 (decls_total ds H2)) as (o & Ho & _). eauto.
  - apply andb_prop in H as [H H3]. apply andb_prop in H as [H1 H2]. cbn [conv_lunit]. destruct (expr_total _ H1) as (e & ->). destruct (decls_total ds H2) as (r & ->). cbn [bind].
    destruct (stms_total ss) as (b & ->); [apply Forall_forall; intros; apply cstm_total|exact H3|]. cbn [bind]. eauto.
  - destruct g; [discriminate H|]. cbn [conv_lunit conv_decl]. destruct (decls_total ds H) as (r & Hr). unfold conv_decls in Hr. rewrite Hr. cbn [bind]. eauto.
  - cbn [conv_lunit conv_decl]. destruct (decls_total ds H) as (r & Hr). unfold conv_decls in Hr. rewrite Hr. cbn [bind]. eauto.
Qed.
Lemma citem_total c : whole_citem c = true -> exists r, conv_citem c = Ok r.
Proof. destruct c as [l|l|l]; cbn [whole_citem conv_citem]; intros H; [eauto| |discriminate H]. apply is_defined in H as (r & H). destruct (uses_ok l r H) as (os & Ho & _). eauto. Qed.
Theorem file_total l : whole_file A M fuel l = true -> exists r, conv_file false l = Ok r.
Proof.
  intros H. apply concatM_total. unfold whole_file in H. rewrite forallb_forall in H. rewrite Forall_forall. intros u I. specialize (H u I). unfold whole_dunit in H. apply andb_prop in H as [H1 H2]. unfold conv_dunit.
  destruct (concatM_total conv_citem (fst u)) as (c & ->). { rewrite forallb_forall in H1. rewrite Forall_forall. intros c J. exact (citem_total c (H1 c J)). }
  destruct (lunit_total _ H2) as (o & ->). cbn [bind]. eauto.
Qed.

(** ** The tree that ANTLR chooses *)
Lemma forallb_map {X Y : Type} (f : Y -> bool) (g : X -> Y) l : forallb f (map g l) = forallb (fun x => f (g x)) l. Proof. induction l as [|x l IH]; [reflexivity|]. cbn [map forallb]. rewrite IH. reflexivity. Qed.
Lemma forallb_same {X : Type} (f g : X -> bool) l : Forall (fun x => f x = g x) l -> forallb f l = forallb g l. Proof. induction 1 as [|x l H _ IH]; [reflexivity|]. cbn [forallb]. rewrite H, IH. reflexivity. Qed.
Definition kept_cstm (s : cstm) : Prop := whole_cstm A M fuel (norm_cstm s) = whole_cstm A M fuel s.
Lemma stms_whole ss : Forall kept_cstm ss -> forallb (whole_cstm A M fuel) (map norm_cstm ss) = forallb (whole_cstm A M fuel) ss.
Proof. intros F. rewrite forallb_map. exact (forallb_same _ _ ss F). Qed.
Lemma body_whole b : g_all kept_cstm b -> whole_body A M fuel (whole_cstm A M fuel) (norm_gbody norm_cstm b) = whole_body A M fuel (whole_cstm A M fuel) b.
Proof. destruct b as [k ds ss]. cbn [g_all norm_gbody whole_body]. intros F. rewrite decls_kept, (stms_whole ss F). reflexivity. Qed.
Theorem cstm_whole s : kept_cstm s.
Proof.
  induction s as [s K] using cstm_ind'. unfold kept_cstm. destruct s as [l gd ge po ds ss en|l u gm pm|l i rg b en|l a c b elifs el en|l sel alts en|l po s]; cbn [c_kids whole_cstm norm_cstm] in *.
  - rewrite decls_kept, (stms_whole ss K). reflexivity.
  - rewrite vinst_kept. reflexivity.
  - rewrite drange_kept, (body_whole b K). reflexivity.
  - destruct K as (K1 & K2 & K3). rewrite norm_meaning, (body_whole b K1), forallb_map. f_equal; [f_equal|].
    + apply forallb_same. revert K2. apply Forall_impl. intros p G. cbn [fst snd]. rewrite norm_meaning, (body_whole _ G). reflexivity.
    + destruct el as [(a', b')|]; cbn [option_map snd o_all] in *; [exact (body_whole b' K3)|reflexivity].
  - rewrite norm_meaning, forallb_map. f_equal. apply forallb_same. revert K. apply Forall_impl. intros p G. cbn [fst snd]. rewrite (body_whole _ G), forallb_map. f_equal. apply forallb_same, Forall_forall. intros x _.
    destruct x as [|r]; [reflexivity|]. cbn [norm_choice whole_choice]. rewrite range_kept. reflexivity.
  - rewrite simple_kept. reflexivity.
Qed.
Theorem file_whole l : whole_file A M fuel (map norm_dunit l) = whole_file A M fuel l.
Proof.
  unfold whole_file. rewrite forallb_map. apply forallb_same, Forall_forall. intros [cs u] _. unfold whole_dunit, norm_dunit. cbn [fst snd]. f_equal.
  - rewrite forallb_map. apply forallb_same, Forall_forall. intros c _. destruct c as [l0|l0|l0]; cbn [norm_citem whole_citem]; [reflexivity| |reflexivity]. rewrite paths_kept. reflexivity.
  - destruct u as [n g p ds ss|n of_ ds ss|n g ds|n ds|n|n|n]; cbn [norm_lunit whole_lunit]; try reflexivity.
    + destruct ss; [|reflexivity]. cbn [map]. rewrite interface_kept, decls_kept. reflexivity.
    + rewrite norm_meaning, decls_kept, stms_whole; [reflexivity|]. apply Forall_forall. intros s _. apply cstm_whole.
    + destruct g; cbn [norm_clause option_map]; [reflexivity|]. rewrite decls_kept. reflexivity.
    + rewrite decls_kept. reflexivity.
Qed.
Theorem normal_total l : whole_file A M fuel l = true -> exists r, conv_file false (map norm_dunit l) = Ok r.
Proof. intros H. apply file_total. rewrite file_whole. exact H. Qed.
End Whole.
