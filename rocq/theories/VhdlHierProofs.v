From Verif Require Import Base BaseFacts AstModel StmModel LitModel SvExprModel SvExprSpec SvExprProofs SvTypeModel SvDeclModel SvInstProofs SvDeclProofs VhdlExprModel VhdlExprSpec VhdlExprProofs VhdlStmModel VhdlDeclModel VhdlDeclSpec VhdlDeclProofs VhdlDecl2Proofs VhdlElabProofs.

(** ** Induction over declarations and objects *)
Section DeclInd.
Context (P : decl -> Prop).
Definition d_kids (d : decl) : Prop := match d with DC_body _ ds _ | DC_package _ _ ds | DC_package_body _ ds => Forall P ds | _ => True end.
Context (H : forall d, d_kids d -> P d).
Fixpoint decl_ind' (d : decl) : P d :=
  H d (match d return d_kids d with DC_body _ ds _ | DC_package _ _ ds | DC_package_body _ ds => Forall_fix P decl_ind' ds | _ => I end).
End DeclInd.
Section ObjInd.
Context (P : hobj -> Prop).
Definition ob_opt (o : option hobj) : Prop := match o with Some o => P o | None => True end.
Definition ob_kids (o : hobj) : Prop :=
  match o with
  | O_func _ _ _ _ _ _ l | O_module_dec _ _ _ l | O_module_def _ _ l | O_space _ _ l | O_process _ _ l | O_block _ l => Forall P l
  | O_for _ _ _ b => P b
  | O_if _ _ t l f => P t /\ Forall (fun p => P (snd p)) l /\ ob_opt f
  | O_case _ _ l d => Forall (fun p => P (snd p)) l /\ ob_opt d
  | _ => True
  end.
Context (H : forall o, ob_kids o -> P o).
Fixpoint hobj_ind' (o : hobj) : P o :=
  let g := Forall_fix P hobj_ind' in
  let h := Forall_fix (fun p : expr * hobj => P (snd p)) (fun p => match p return P (snd p) with (_, o) => hobj_ind' o end) in
  let k (o : option hobj) : ob_opt o := match o with Some o => hobj_ind' o | None => I end in
  H o (match o return ob_kids o with
       | O_func _ _ _ _ _ _ l | O_module_dec _ _ _ l | O_module_def _ _ l | O_space _ _ l | O_process _ _ l | O_block _ l => g l
       | O_for _ _ _ b => hobj_ind' b
       | O_if _ _ t l f => conj (hobj_ind' t) (conj (h l) (k f))
       | O_case _ _ l d => conj (h l) (k d)
       | _ => I
       end).
End ObjInd.

(** ** Conversion of the hierarchy only *)
Lemma concatM_thin {X} (f g : X -> outcome (list hobj)) l : Forall (fun x => forall r, f x = Ok r -> g x = Ok (map thin r)) l ->
  forall r, concatM f l = Ok r -> concatM g l = Ok (map thin r).
Proof.
  intros F. induction F as [|x l Hx F IH]; intros r H; [injection H as <-; reflexivity|]. apply concatM_inv in H as (a & b & Ha & Hb & ->).
  rewrite map_app. apply concatM_cons; auto.
Qed.
Lemma concatM_thin' {X} (f g : X -> outcome (list hobj)) l : (forall x r, f x = Ok r -> g x = Ok (map thin r)) -> forall r, concatM f l = Ok r -> concatM g l = Ok (map thin r).
Proof. intros F. apply concatM_thin. apply Forall_forall. auto. Qed.
Lemma subprog_thin b s objs o : conv_subprog b s objs = Ok o -> conv_subprog b s (map thin objs) = Ok (thin o).
Proof.
  destruct s as [d ps|pu d ps ret]; cbn [conv_subprog]; intros H.
  - binv H. injection H as <-. rewrite Hx. reflexivity.
  - binv H. binv H. injection H as <-. rewrite Hx. cbn [bind]. rewrite Hx0. reflexivity.
Qed.
Lemma map_stm l : map thin (map O_stm l) = map O_stm l. Proof. rewrite map_map. reflexivity. Qed.
Theorem decl_thin d : forall r, conv_decl false d = Ok r -> conv_decl true d = Ok (map thin r).
Proof.
  induction d as [d K] using decl_ind'. intros r H. destruct d as [ns t v|ns t k v|sh ns t v|n [t|]|n t|d t n s|s|s ds ss|n g ds|n ds|c|l|]; cbn [conv_decl d_kids] in *.
  - binv H. injection H as <-. rewrite Hx. cbn [bind]. rewrite map_map. reflexivity.
  - binv H. injection H as <-. rewrite Hx. cbn [bind]. rewrite map_map. reflexivity.
  - binv H. injection H as <-. rewrite Hx. cbn [bind]. rewrite map_map. reflexivity.
  - binv H. injection H as <-. rewrite Hx. reflexivity.
  - injection H as <-. reflexivity.
  - binv H. injection H as <-. rewrite Hx. reflexivity.
  - binv H. binv H. injection H as <-. rewrite Hx. cbn [bind]. rewrite Hx0. reflexivity.
  - binv H. injection H as <-. rewrite (subprog_thin false s [] x Hx : conv_subprog false s [] = _). reflexivity.
  - binv H. binv H. binv H. binv H. injection H as <-. rewrite Hx. cbn [bind]. rewrite (concatM_thin _ (conv_decl true) ds K _ Hx0). cbn [bind]. rewrite Hx1. cbn [bind].
    pose proof (subprog_thin true s _ _ Hx2) as E. rewrite map_app, map_stm in E. rewrite E. reflexivity.
  - binv H. injection H as <-. reflexivity.
  - binv H. injection H as <-. reflexivity.
  - binv H. injection H as <-. unfold conv_component in Hx. repeat binv Hx. injection Hx as <-. reflexivity.
  - rewrite H. f_equal. revert r H. induction l as [|n l IH]; intros r H; [injection H as <-; reflexivity|].
    change (mapM conv_use (n :: l)) with (x <- conv_use n ;; y <- mapM conv_use l ;; Ok (x :: y)) in H. binv H. binv H. injection H as <-.
    unfold conv_use in Hx. binv Hx. injection Hx as <-. cbn [map thin]. f_equal. apply IH. exact Hx0.
  - injection H as <-. reflexivity.
Qed.
Lemma decls_thin ds r : conv_decls false ds = Ok r -> conv_decls true ds = Ok (map thin r).
Proof. exact (concatM_thin' _ _ ds decl_thin r). Qed.
Lemma label_thin l o : thin (label_obj l o) = label_obj l (thin o). Proof. destruct o; reflexivity. Qed.
Definition thins (s : cstm) : Prop := forall r, conv_cstm false s = Ok r -> conv_cstm true s = Ok (map thin r).
Lemma gbody_thin b o : g_all thins b -> conv_gbody false (conv_cstm false) b = Ok o -> conv_gbody true (conv_cstm true) b = Ok (thin o).
Proof.
  destruct b as [bg ds ss]. cbn [g_all conv_gbody]. intros F H. binv H. binv H. injection H as <-.
  rewrite (decls_thin _ _ Hx). cbn [bind]. rewrite (concatM_thin _ (conv_cstm true) ss F _ Hx0). cbn [bind]. rewrite <- map_app.
  destruct ds; [|reflexivity]. destruct bg; [reflexivity|]. destruct (x ++ x0) as [|y [|z l]]; reflexivity.
Qed.
Lemma csimple_thin s o : conv_csimple false s = Ok o -> conv_csimple true s = Ok (thin o).
Proof.
  destruct s as [se ds ss e|n|c r s|c]; cbn [conv_csimple]; intros H.
  - binv H. binv H. binv H. injection H as <-. rewrite Hx. cbn [bind]. rewrite (decls_thin _ _ Hx0). cbn [bind]. rewrite Hx1. cbn [bind thin]. rewrite map_app, map_stm. reflexivity.
  - binv H. injection H as <-. rewrite Hx. reflexivity.
  - binv H. injection H as <-. rewrite Hx. reflexivity.
  - binv H. injection H as <-. rewrite Hx. reflexivity.
Qed.
Theorem cstm_thin s : thins s.
Proof.
  induction s as [s K] using cstm_ind'. intros r H. destruct s as [l gd ge po ds ss en|l u gm pm|l i rg b en|l a c b elifs el en|l sel alts en|l po s]; cbn [c_kids conv_cstm] in *.
  - binv H. binv H. injection H as <-. rewrite (decls_thin _ _ Hx). cbn [bind]. rewrite (concatM_thin _ (conv_cstm true) ss K _ Hx0). cbn [bind map]. cbn [label_obj thin]. rewrite map_app. reflexivity.
  - binv H. injection H as <-. rewrite Hx. cbn [bind map]. unfold conv_vinst in Hx. repeat binv Hx. injection Hx as <-. reflexivity.
  - binv H. binv H. injection H as <-. rewrite Hx. cbn [bind]. rewrite (gbody_thin _ _ K Hx0). reflexivity.
  - destruct K as (Kb & Ke & Kl). binv H. binv H. binv H. binv H. injection H as <-. rewrite Hx. cbn [bind]. rewrite (gbody_thin _ _ Kb Hx0). cbn [bind].
    assert (mapM (fun p : option str * hexpr * gbody cstm => y <- hconv (snd (fst p)) ;; o <- conv_gbody true (conv_cstm true) (snd p) ;; Ok (y, o)) elifs = Ok (map (fun p : expr * hobj => (fst p, thin (snd p))) x1)) as ->.
    { clear - Ke Hx1. revert x1 Hx1. induction Ke as [|[[lb c] b] es Kb Ke IH]; intros x1 H; [injection H as <-; reflexivity|].
      change (bind (bind (hconv c) (fun y => bind (conv_gbody false (conv_cstm false) b) (fun o => Ok (y, o)))) (fun y => r <- mapM (fun p : option str * hexpr * gbody cstm => y <- hconv (snd (fst p)) ;; o <- conv_gbody false (conv_cstm false) (snd p) ;; Ok (y, o)) es ;; Ok (y :: r)) = Ok x1) in H.
      binv H. binv H. injection H as <-. binv Hx. binv Hx. injection Hx as <-.
      change (bind (bind (hconv c) (fun y => bind (conv_gbody true (conv_cstm true) b) (fun o => Ok (y, o)))) (fun y => r <- mapM (fun p : option str * hexpr * gbody cstm => y <- hconv (snd (fst p)) ;; o <- conv_gbody true (conv_cstm true) (snd p) ;; Ok (y, o)) es ;; Ok (y :: r)) = Ok (map (fun p : expr * hobj => (fst p, thin (snd p))) ((x1, x2) :: x0))).
      rewrite Hx1. cbn [bind]. rewrite (gbody_thin b _ Kb Hx2). cbn [bind]. rewrite (IH _ Hx0). reflexivity. }
    cbn [bind]. destruct el as [[lb b']|].
    + binv Hx2. injection Hx2 as <-. cbn [snd o_all] in *. rewrite (gbody_thin _ _ Kl Hx3). reflexivity.
    + injection Hx2 as <-. reflexivity.
  - binv H. binv H. injection H as <-. rewrite Hx. cbn [bind].
    assert (concatM (conv_galt true (conv_cstm true)) alts = Ok (map (fun p : expr * hobj => (fst p, thin (snd p))) x0)) as ->; [|reflexivity].
    clear - K Hx0. revert x0 Hx0. induction K as [|[[lb cs] b] es Kb Ke IH]; intros x0 H; [injection H as <-; reflexivity|]. apply concatM_inv in H as (a1 & a2 & H1 & H2 & ->).
    rewrite map_app. apply concatM_cons; [|apply IH; exact H2]. unfold conv_galt in *. cbn [fst snd] in *. binv H1. rewrite Hx. cbn [bind]. clear Hx.
    revert a1 H1. induction x as [|c x IHx]; intros a1 H1; [injection H1 as <-; reflexivity|].
    change (bind (bind (conv_gbody false (conv_cstm false) b) (fun b => Ok (c, b))) (fun z => r <- mapM (fun c => b <- conv_gbody false (conv_cstm false) b ;; Ok (c, b)) x ;; Ok (z :: r)) = Ok a1) in H1.
    binv H1. binv H1. injection H1 as <-. binv Hx. injection Hx as <-.
    change (bind (bind (conv_gbody true (conv_cstm true) b) (fun b => Ok (c, b))) (fun z => r <- mapM (fun c => b <- conv_gbody true (conv_cstm true) b ;; Ok (c, b)) x ;; Ok (z :: r)) = Ok (map (fun p : expr * hobj => (fst p, thin (snd p))) ((c, x2) :: x1))).
    rewrite (IHx _ Hx0), (gbody_thin b _ Kb Hx1). reflexivity.
  - binv H. injection H as <-. rewrite (csimple_thin _ _ Hx). cbn [bind map]. destruct l; [rewrite label_thin|]; reflexivity.
Qed.
Lemma thin_statement o : is_statement (thin o) = is_statement o. Proof. destruct o; reflexivity. Qed.
Lemma decl_no_stm ho d r : conv_decl ho d = Ok r -> forallb (fun o => negb (is_statement o)) r = true.
Proof.
  destruct d as [ns t v|ns t k v|sh ns t v|n [t|]|n t|d t n s|s|s ds ss|n g ds|n ds|c|l|]; cbn [conv_decl]; intros H.
  - binv H. injection H as <-. clear. induction x; auto.
  - binv H. injection H as <-. clear. induction x; auto.
  - binv H. injection H as <-. clear. induction x; auto.
  - binv H. injection H as <-. reflexivity.
  - injection H as <-. reflexivity.
  - binv H. injection H as <-. reflexivity.
  - binv H. binv H. injection H as <-. reflexivity.
  - binv H. injection H as <-. destruct s; cbn [conv_subprog] in Hx; repeat binv Hx; injection Hx as <-; reflexivity.
  - binv H. binv H. binv H. binv H. injection H as <-. destruct s; cbn [conv_subprog] in Hx2; repeat binv Hx2; injection Hx2 as <-; reflexivity.
  - binv H. injection H as <-. reflexivity.
  - binv H. injection H as <-. reflexivity.
  - binv H. injection H as <-. unfold conv_component in Hx. repeat binv Hx. injection Hx as <-. reflexivity.
  - revert r H. induction l as [|n l IH]; intros r H; [injection H as <-; reflexivity|].
    change (mapM conv_use (n :: l)) with (x <- conv_use n ;; y <- mapM conv_use l ;; Ok (x :: y)) in H. binv H. binv H. injection H as <-.
    unfold conv_use in Hx. binv Hx. injection Hx as <-. cbn [forallb is_statement negb andb]. apply IH. exact Hx0.
  - injection H as <-. reflexivity.
Qed.
Lemma decls_no_stm ho l r : conv_decls ho l = Ok r -> filter is_statement r = [].
Proof.
  revert r. induction l as [|d l IH]; intros r H; [injection H as <-; reflexivity|]. apply concatM_inv in H as (a & b & Ha & Hb & ->).
  rewrite filter_app, (IH _ Hb), app_nil_r. pose proof (decl_no_stm _ _ _ Ha) as E. clear - E. induction a as [|o a IH]; [reflexivity|]. cbn [forallb filter] in *. destruct (is_statement o); [discriminate|auto].
Qed.
Lemma label_statement l o : is_statement (label_obj l o) = is_statement o. Proof. destruct o; reflexivity. Qed.
Lemma cstm_stm ho s r : conv_cstm ho s = Ok r -> forallb is_statement r = true.
Proof.
  destruct s as [l gd ge po ds ss en|l u gm pm|l i rg b en|l a c b elifs el en|l sel alts en|l po s]; cbn [conv_cstm]; intros H.
  - binv H. binv H. injection H as <-. reflexivity.
  - binv H. injection H as <-. unfold conv_vinst in Hx. repeat binv Hx. injection Hx as <-. reflexivity.
  - binv H. binv H. injection H as <-. reflexivity.
  - binv H. binv H. binv H. binv H. injection H as <-. reflexivity.
  - binv H. binv H. injection H as <-. reflexivity.
  - binv H. injection H as <-. cbn [forallb]. rewrite andb_true_r.
    assert (is_statement x = true) as E by (destruct s; cbn [conv_csimple] in Hx; repeat binv Hx; injection Hx as <-; reflexivity).
    destruct l; [rewrite label_statement|]; exact E.
Qed.
Lemma filter_thin l : filter is_statement (map thin l) = map thin (filter is_statement l).
Proof. induction l as [|o l IH]; [reflexivity|]. cbn [map filter]. rewrite thin_statement, IH. destruct (is_statement o); reflexivity. Qed.
Lemma cstms_stm ho l r : concatM (conv_cstm ho) l = Ok r -> filter is_statement r = r.
Proof.
  revert r. induction l as [|s l IH]; intros r H; [injection H as <-; reflexivity|]. apply concatM_inv in H as (a & b & Ha & Hb & ->).
  rewrite filter_app, (IH _ Hb). f_equal. pose proof (cstm_stm _ _ _ Ha) as E. clear - E. induction a as [|o a IH]; [reflexivity|]. cbn [forallb filter] in *. destruct (is_statement o); [f_equal; auto|discriminate].
Qed.
Theorem lunit_thin u r : conv_lunit false u = Ok r -> conv_lunit true u = Ok (map thin r).
Proof.
  destruct u as [n g p ds ss|n e ds ss|n g ds|n ds| | |]; cbn [conv_lunit]; intros H.
  - binv H. binv H. binv H. injection H as <-. reflexivity.
  - binv H. binv H. binv H. injection H as <-. rewrite Hx. cbn [bind]. rewrite (concatM_thin' _ (conv_cstm true) ss cstm_thin _ Hx1). cbn [bind map thin app].
    rewrite filter_thin, filter_app, (decls_no_stm _ _ _ Hx0), (cstms_stm _ _ _ Hx1). reflexivity.
  - apply (decl_thin (DC_package n g ds)). exact H.
  - apply (decl_thin (DC_package_body n ds)). exact H.
  - injection H as <-. reflexivity.
  - injection H as <-. reflexivity.
  - injection H as <-. reflexivity.
Qed.
Lemma uses_thin l r : mapM conv_use l = Ok r -> map thin r = r.
Proof.
  revert r. induction l as [|n l IH]; intros r H; [injection H as <-; reflexivity|].
  change (mapM conv_use (n :: l)) with (x <- conv_use n ;; y <- mapM conv_use l ;; Ok (x :: y)) in H. binv H. binv H. injection H as <-.
  unfold conv_use in Hx. binv Hx. injection Hx as <-. cbn [map thin]. f_equal. apply IH. exact Hx0.
Qed.
Lemma citem_thin c r : conv_citem c = Ok r -> map thin r = r.
Proof.
  destruct c as [l|l|l]; cbn [conv_citem]; intros H.
  - injection H as <-. rewrite map_map. reflexivity.
  - exact (uses_thin l r H).
  - injection H as <-. reflexivity.
Qed.
Theorem file_thin l r : conv_file false l = Ok r -> conv_file true l = Ok (map thin r).
Proof.
  apply concatM_thin'. intros (cs & u) s H. unfold conv_dunit in *. cbn [fst snd] in *. binv H. binv H. injection H as <-. rewrite Hx. cbn [bind]. rewrite (lunit_thin _ _ Hx0). cbn [bind].
  rewrite map_app. do 2 f_equal. symmetry. clear - Hx. revert x Hx. induction cs as [|c cs IH]; intros x H; [injection H as <-; reflexivity|]. apply concatM_inv in H as (a & b & Ha & Hb & ->).
  rewrite map_app, (citem_thin _ _ Ha), (IH _ Hb). reflexivity.
Qed.
Lemma head_thin o : head_of (thin o) = head_of o. Proof. destruct o; reflexivity. Qed.
Lemma flat_thin {X Y} (f : X -> list Y) (g : X -> X) l : Forall (fun x => f (g x) = f x) l -> flat_map f (map g l) = flat_map f l.
Proof. intros F. induction F as [|x l H F IH]; [reflexivity|]. cbn. rewrite H, IH. reflexivity. Qed.
Theorem inst_thin o : forall q, instances q (thin o) = instances q o.
Proof.
  induction o as [o K] using hobj_ind'. intros q. destruct o; cbn [ob_kids thin instances] in *; try reflexivity.
  - apply flat_thin. apply Forall_forall. intros x Hx. rewrite Forall_forall in K. apply K. exact Hx.
  - apply K.
  - destruct K as (K1 & K2 & K3). rewrite K1. f_equal. f_equal.
    + rewrite flat_map_concat_map, map_map, <- flat_map_concat_map. cbn [snd]. clear - K2. induction K2 as [|p l Hp K2 IH]; [reflexivity|]. cbn. rewrite Hp, IH. reflexivity.
    + destruct f; [apply K3|reflexivity].
  - destruct K as (K1 & K2). f_equal.
    + rewrite flat_map_concat_map, map_map, <- flat_map_concat_map. cbn [snd]. clear - K1. induction K1 as [|p l Hp K2 IH]; [reflexivity|]. cbn. rewrite Hp, IH. reflexivity.
    + destruct dflt; [apply K2|reflexivity].
Qed.
Theorem unit_thin o : unit_instances (thin o) = unit_instances o.
Proof.
  destruct o; try reflexivity. cbn [thin unit_instances]. rewrite filter_thin. induction objs as [|o l IH]; [reflexivity|]. cbn [filter flat_map].
  destruct (is_statement o) eqn:E; cbn [map flat_map]; rewrite IH; [rewrite inst_thin; reflexivity|]. destruct o; try discriminate; reflexivity.
Qed.
(** What is removed. *)
Definition removed (o : hobj) : Prop :=
  match o with O_module_dec _ g p x => g = [] /\ p = [] /\ x = [] | O_space _ _ x => x = [] | O_module_def _ _ x => forallb is_statement x = true | _ => True end.
Lemma use_removed n o : conv_use n = Ok o -> removed o.
Proof. unfold conv_use. intros H. binv H. injection H as <-. exact I. Qed.
Lemma citem_removed c r : conv_citem c = Ok r -> Forall removed r.
Proof.
  destruct c as [l|l|l]; cbn [conv_citem]; intros H.
  - injection H as <-. apply Forall_forall. intros o Ho. apply in_map_iff in Ho as (x & <- & _). exact I.
  - apply mapM_ok_in in H. induction H as [|x y l r Hxy H IH]; constructor; [exact (use_removed _ _ Hxy)|exact IH].
  - injection H as <-. constructor.
Qed.
Lemma lunit_removed u r : conv_lunit true u = Ok r -> Forall removed r.
Proof.
  destruct u as [n g p ds ss|n e ds ss|n g ds|n ds| | |]; cbn [conv_lunit conv_decl conv_clause bind]; intros H; try (injection H as <-; repeat constructor).
  - binv H. binv H. injection H as <-. constructor; [|constructor]. cbn [removed app].
    revert x0 Hx0. induction ss as [|s ss IH]; intros r H; [injection H as <-; reflexivity|]. apply concatM_inv in H as (a & b & Ha & Hb & ->).
    rewrite forallb_app, (cstm_stm _ _ _ Ha). apply IH. exact Hb.
Qed.
Lemma concatM_Forall {X Y} (f : X -> outcome (list Y)) (P : Y -> Prop) l : (forall x r, f x = Ok r -> Forall P r) -> forall r, concatM f l = Ok r -> Forall P r.
Proof. intros F. induction l as [|x l IH]; intros r H; [injection H as <-; constructor|]. apply concatM_inv in H as (a & b & Ha & Hb & ->). apply Forall_app. eauto. Qed.
Theorem file_removed l r : conv_file true l = Ok r -> forall o, In o r -> removed o.
Proof.
  intros H. apply Forall_forall. revert r H. apply concatM_Forall. intros (cs & u) r H. unfold conv_dunit in H. cbn [fst snd] in H. binv H. binv H. injection H as <-.
  apply Forall_app. split; [exact (concatM_Forall _ _ cs citem_removed _ Hx)|exact (lunit_removed _ _ Hx0)].
Qed.
