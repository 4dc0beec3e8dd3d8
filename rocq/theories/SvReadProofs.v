(** Reading back what the converter makes of a Verilog file. *)
From Verif Require Import Base BaseFacts AstModel StmModel SvExprModel SvExprSpec SvStmModel SvStmSpec SvDeclModel SvTfModel SvGenModel SvGenSpec SvFileModel SvFileSpec SvFileProofs PyModel PyObjModel SvReadSpec ConvertPySvModel.
From Verif Require Import LitModel SvGenProofs SvInstProofs SvProcProofs SvDeclProofs SvModSyntaxModel SvModSyntaxSpec SvWholeSpec SvPyProofs2.
From Verif Require PyTreeModel VhdlDecl2Proofs.

Lemma omapM_map {X Y Z} (f : Y -> option Z) (g : X -> Y) (h : X -> Z) l : Forall (fun x => f (g x) = Some (h x)) l -> omapM f (map g l) = Some (map h l).
Proof. induction 1 as [|x l E _ IH]; [reflexivity|]. cbn [map omapM]. rewrite E. cbn [obind]. fold (omapM f). rewrite IH. reflexivity. Qed.
Lemma omapM_back {X Y} (f : Y -> option X) (g : X -> Y) l : Forall (fun x => f (g x) = Some x) l -> omapM f (map g l) = Some l.
Proof. intros F. rewrite (omapM_map f g (fun x => x)), map_id; [reflexivity|exact F]. Qed.
Lemma pairs_back {X Y} (f : Y -> option X) (g : X -> Y) (l : list (expr * X)) : Forall (fun p => f (g (snd p)) = Some (snd p)) l ->
  omapM (fun p => match p with (e, b) => r <~ f b ;; Some (e, r) end) (map (fun p => match p with (e, b) => (e, g b) end) l) = Some l.
Proof. intros F. apply omapM_back. eapply Forall_impl; [|exact F]. intros (e & x) E. cbn [snd] in E. rewrite E. reflexivity. Qed.
(** Every statement is read back. *)
Lemma stm_back s : read_stm (of_stm s) = Some s.
Proof.
  induction s as [h|h e|h d sr td ed bl|h c t l f IHt IHl IHf|h u k e l f IHl IHf|h c b IHb|h b c IHb|h i c st b IHi IHs IHb|h l c b IHl IHb|h n b IHb|h j l IHl|h se t b IHb|h l|h e|h|h|d|] using stm_ind'; cbn [of_stm read_stm]; try reflexivity.
  - rewrite IHt, (pairs_back _ _ _ IHl). cbn [obind]. destruct f as [x|]; [rewrite (IHf x eq_refl)|]; reflexivity.
  - rewrite (pairs_back _ _ _ IHl). cbn [obind]. destruct f as [x|]; [rewrite (IHf x eq_refl)|]; reflexivity.
  - rewrite IHb. reflexivity.
  - rewrite IHi, IHs, IHb. reflexivity.
  - rewrite (omapM_back _ _ _ IHl), IHb. reflexivity.
  - rewrite IHb. reflexivity.
  - rewrite (omapM_back _ _ _ IHl). reflexivity.
  - rewrite IHb. reflexivity.
Qed.
(** What a module has as items *)
Definition lone (s : stm) : bool := match s with SProcess _ _ _ _ | SNop _ | SExpr _ _ | SAssign _ _ _ _ _ _ => true | _ => false end.
Definition simple (o : sobj) : bool := match o with SO_id _ => true | SO_stm s => lone s | _ => false end.
Fixpoint shape (o : sobj) : bool :=
  match o with
  | SO_id _ | SO_inst _ | SO_func _ => true
  | SO_stm s => lone s
  | SO_block _ l => forallb shape l
  | SO_for _ i _ _ b => forallb simple i && shape b
  | SO_if _ _ t l f => shape t && forallb (fun p => shape (snd p)) l && match f with Some b => shape b | None => true end
  | SO_case _ _ l d => forallb (fun p => shape (snd p)) l && match d with Some b => shape b | None => true end
  end.
Lemma lone_back s : lone s = true -> read_item (of_stm s) = Some (SO_stm s).
Proof. intros L. pose proof (stm_back s) as E. destruct s; try discriminate L; try reflexivity. cbn [of_stm] in *. unfold read_item. rewrite E. reflexivity. Qed.
Lemma simple_back o : simple o = true -> read_item (PyTreeModel.of_sobj o) = Some o.
Proof. destruct o; intros H; try discriminate H; [reflexivity|]. apply lone_back. exact H. Qed.
Lemma all_in {X} (p : X -> bool) (P : X -> Prop) l : Forall (fun x => p x = true -> P x) l -> forallb p l = true -> Forall P l.
Proof. induction 1 as [|x l Hx _ IH]; intros H; constructor; cbn [forallb] in H; apply andb_prop in H as [H1 H2]; auto. Qed.
Lemma item_back o : shape o = true -> read_item (PyTreeModel.of_sobj o) = Some o.
Proof.
  induction o as [o IH] using sobj_ind'. destruct o as [d|c|f|s|h l|h i c st b|h c t l f|h e l d]; cbn [shape]; intros H; cbn [so_kids] in IH.
  - reflexivity.
  - reflexivity.
  - cbn [PyTreeModel.of_sobj read_item]. rewrite (omapM_back read_stm of_stm); [destruct f; reflexivity|]. apply Forall_forall. intros s _. apply stm_back.
  - exact (lone_back s H).
  - cbn [PyTreeModel.of_sobj read_item]. rewrite (omapM_back read_item PyTreeModel.of_sobj); [reflexivity|]. exact (all_in _ _ _ IH H).
  - apply andb_prop in H as [Hi Hb]. cbn [PyTreeModel.of_sobj read_item]. rewrite (omapM_back read_item PyTreeModel.of_sobj), stm_back, (IH Hb); [reflexivity|]. apply (all_in simple); [|exact Hi]. apply Forall_forall. intros x _. exact (simple_back x).
  - destruct IH as (It & Il & If). apply andb_prop in H as [H Hf]. apply andb_prop in H as [Ht Hl]. cbn [PyTreeModel.of_sobj read_item]. rewrite (It Ht), (pairs_back read_item PyTreeModel.of_sobj l (all_in _ _ _ Il Hl)). cbn [obind]. destruct f as [x|]; [rewrite (If Hf)|]; reflexivity.
  - destruct IH as (Il & If). apply andb_prop in H as [Hl Hf]. cbn [PyTreeModel.of_sobj read_item]. rewrite (pairs_back read_item PyTreeModel.of_sobj l (all_in _ _ _ Il Hl)). cbn [obind]. destruct d as [x|]; [rewrite (If Hf)|]; reflexivity.
Qed.
(** ** The shape of what is converted *)
Ltac binv H := lazymatch type of H with bind _ _ = _ => let x := fresh "x" in let Hx := fresh "Hx" in apply SvDeclProofs.bind_inv in H as (x & Hx & H) end.
Lemma mapM_all {X Y} (f : X -> outcome Y) (p : Y -> bool) l r : (forall x y, f x = Ok y -> p y = true) -> mapM f l = Ok r -> forallb p r = true.
Proof. intros H E. apply SvInstProofs.mapM_ok_in in E. induction E as [|x y l r E _ IH]; [reflexivity|]. cbn [forallb]. rewrite (H _ _ E). exact IH. Qed.
Lemma all_map {X Y} (f : X -> Y) (p : Y -> bool) l : (forall x, p (f x) = true) -> forallb p (map f l) = true.
Proof. intros H. induction l as [|x l IH]; [reflexivity|]. cbn [map forallb]. rewrite H. exact IH. Qed.
Lemma always_lone k d s o : supported k s = true -> conv_always k d s = Ok o -> lone o = true.
Proof.
  intros K H. unfold conv_always in H. binv H. destruct k; cbn [supported] in K; try (injection H as <-; destruct x; reflexivity).
  injection H as <-. destruct s as [|lb at_ dc [] ]; try discriminate K. apply timed_process in Hx as (h0 & se0 & b0 & ->). reflexivity.
Qed.
Lemma assign_lone l r : conv_cont_assign l = Ok r -> forallb lone r = true.
Proof.
  apply mapM_all. intros ((d & s) & t) y H. cbn beta in H. binv H. unfold conv_var_assign in Hx. repeat match type of Hx with bind _ _ = _ => binv Hx end. unfold mk_assign in Hx. destruct x0; try discriminate Hx; destruct x1; try discriminate Hx; injection Hx as <-; injection H as <-; reflexivity.
Qed.
Section Shape.
Context (A : algebra) (M : machine A) (n : nat).
Lemma leaf_shape l r : whole_leaf A M n l = true -> conv_gleaf l = Ok r -> forallb shape (fst r) = true.
Proof.
  intros W H. unfold whole_leaf in W. apply andb_prop in W as [K _]. destruct l; cbn [conv_gleaf kept_leaf] in *; try discriminate K; try (binv H); injection H as <-; cbn [fst]; try (apply all_map; reflexivity); try reflexivity.
  - apply all_map. intros []; reflexivity.
  - apply assign_lone in Hx. clear - Hx. induction x as [|s x IH]; [reflexivity|]. cbn [map forallb shape] in *. apply andb_prop in Hx as [H1 H2]. rewrite H1. exact (IH H2).
  - unfold conv_initial in Hx. binv Hx. injection Hx as <-. destruct x0; reflexivity.
  - cbn [forallb shape]. rewrite (always_lone _ _ _ _ K Hx). reflexivity.
Qed.
Lemma pop_shape l : forallb shape l = true -> shape (pop_block l) = true.
Proof. destruct l as [|a [|b l]]; intros H; [reflexivity| |exact H]. cbn [forallb] in H. apply andb_prop in H as [H _]. exact H. Qed.
Lemma collapse_shape o o' : shape o = true -> collapse o = Ok o' -> shape o' = true.
Proof.
  intros S H. destruct o as [d|c|f|s|h l|h i c st b|h c t l [[| | | | | |h2 c2 t2 l2 f2|]|]|h e l d]; cbn [collapse] in H; try (injection H as <-; exact S).
  destruct (Bool.eqb (in_preproc h) (in_preproc h2)); [|discriminate H]. injection H as <-. cbn [shape] in *. apply andb_prop in S as [S F]. apply andb_prop in S as [S L]. apply andb_prop in F as [F F2]. apply andb_prop in F as [F L2].
  rewrite S, forallb_app, L. cbn [forallb snd]. rewrite F, L2, F2. reflexivity.
Qed.
Lemma mark_shape b o : shape (mark b o) = shape o.
Proof. destruct o as [| | |s| | | |]; try reflexivity. cbn [mark shape]. destruct s; reflexivity. Qed.
Lemma concat_shape (f : gitem -> outcome (list sobj)) l : Forall (fun g => whole_gitem A M n g = true -> forall r, f g = Ok r -> forallb shape r = true) l -> forallb (whole_gitem A M n) l = true ->
  forall r, concatM f l = Ok r -> forallb shape r = true.
Proof.
  induction 1 as [|g l Hg _ IH]; intros W r H; [injection H as <-; reflexivity|]. cbn [forallb] in W. apply andb_prop in W as [Wg W]. apply VhdlDecl2Proofs.concatM_inv in H as (a & b & Ha & Hb & ->). rewrite forallb_app, (Hg Wg _ Ha). exact (IH W _ Hb).
Qed.
Definition alt_shape (p : option expr * sobj) : bool := shape (snd p).
Lemma one_shape l o : forallb shape l = true -> the_one l = Ok o -> shape o = true.
Proof. destruct l as [|a [|b l]]; intros S H; try discriminate H. injection H as <-. cbn [forallb] in S. apply andb_prop in S as [S _]. exact S. Qed.
Lemma alts_shape (l : list (list vexpr * gitem)) : Forall (fun a => whole_gitem A M n (snd a) = true -> forall r, conv_gitem (snd a) = Ok r -> forallb shape r = true) l ->
  forallb (fun a => one_item A M n (snd a) && whole_gitem A M n (snd a)) l = true -> forall r, concatM (conv_alt conv_gitem) l = Ok r -> forallb alt_shape r = true.
Proof.
  induction 1 as [|a l Ha _ IH]; intros W r H; [injection H as <-; reflexivity|]. cbn [forallb] in W. apply andb_prop in W as [Wa W]. apply andb_prop in Wa as [_ Wa]. apply VhdlDecl2Proofs.concatM_inv in H as (x & y & Hx & Hy & ->). rewrite forallb_app, (IH W _ Hy), andb_true_r.
  unfold conv_alt in Hx. destruct (fst a) as [|e ls].
  - binv Hx. binv Hx. injection Hx as <-. cbn [forallb alt_shape snd]. unfold alt_shape. cbn [snd]. rewrite (one_shape _ _ (Ha Wa _ Hx0) Hx1). reflexivity.
  - revert Hx. apply mapM_all. intros e' q H. binv H. binv H. binv H. injection H as <-. exact (one_shape _ _ (Ha Wa _ Hx0) Hx1).
Qed.
Lemma split_shape l : forallb alt_shape l = true -> forall d q, match d with Some o => shape o | None => true end = true -> split_alts l d = Ok q ->
  forallb (fun p => shape (snd p)) (fst q) = true /\ match snd q with Some o => shape o | None => true end = true.
Proof.
  induction l as [|([e|] & s) l IH]; intros S d q D H; cbn [split_alts] in H.
  - injection H as <-. split; [reflexivity|exact D].
  - cbn [forallb] in S. apply andb_prop in S as [Ss S]. binv H. injection H as <-. destruct (IH S _ _ D Hx) as [P Q]. cbn [fst snd forallb]. unfold alt_shape in Ss. cbn [snd] in Ss. rewrite Ss, P. split; [reflexivity|exact Q].
  - cbn [forallb] in S. apply andb_prop in S as [Ss S]. destruct d; [discriminate H|]. exact (IH S (Some s) q Ss H).
Qed.
Lemma gitem_shape g : whole_gitem A M n g = true -> forall r, conv_gitem g = Ok r -> forallb shape r = true.
Proof.
  induction g as [g IH] using SvGenProofs.gitem_ind'. destruct g as [l|pre name end_ l|i c s b|d c t e|d sel l|l]; cbn [whole_gitem gi_kids conv_gitem] in *; intros W r H.
  - binv H. injection H as <-. exact (leaf_shape _ _ W Hx).
  - apply andb_prop in W as [_ W]. binv H. binv H. binv H. binv H. injection H as <-. cbn [forallb shape]. rewrite (concat_shape _ _ IH W _ Hx). reflexivity.
  - apply andb_prop in W as [_ W]. binv H. binv H. binv H. binv H. injection H as <-. cbn [forallb shape]. rewrite (pop_shape _ (IH W _ Hx2)). unfold conv_ginit in Hx. binv Hx. destruct (gi_genvar i); [binv Hx; injection Hx as <-; reflexivity|]. binv Hx. binv Hx. injection Hx as <-.
    unfold mk_assign in Hx5. destruct x4, x3; try discriminate Hx5; injection Hx5 as <-; reflexivity.
  - destruct IH as [It Ie]. apply andb_prop in W as [W We]. apply andb_prop in W as [_ Wt]. binv H. binv H. binv H. binv H. injection H as <-. cbn [forallb]. rewrite andb_true_r. refine (collapse_shape _ _ _ Hx2). cbn [shape forallb]. rewrite (pop_shape _ (It Wt _ Hx0)).
    destruct e as [e|]; [|injection Hx1 as <-; reflexivity]. apply andb_prop in We as [_ We]. binv Hx1. injection Hx1 as <-. rewrite (pop_shape _ (Ie We _ Hx3)). reflexivity.
  - apply andb_prop in W as [_ W]. binv H. binv H. binv H. injection H as <-. destruct (split_shape _ (alts_shape _ IH W _ Hx0) None _ eq_refl Hx1) as [P Q]. cbn [forallb shape]. rewrite P, Q. reflexivity.
  - binv H. injection H as <-. pose proof (concat_shape _ _ IH W _ Hx) as S. clear - S. induction x as [|o x IH]; [reflexivity|]. cbn [map forallb] in *. rewrite mark_shape. apply andb_prop in S as [S1 S2]. rewrite S1. exact (IH S2).
Qed.
(** ** Modules *)
Definition back (o : fobj) : Prop := read_obj (of_fobj o) = Some o.
Definition mback (o : mobj fobj) : Prop := back (of_mobj o).
Lemma sobj_back o : shape o = true -> mback (SvFileModel.of_sobj o).
Proof.
  intros S. pose proof (item_back o S) as B. unfold mback, back. destruct o as [d|c|f|s| | | |]; try reflexivity; cbn [SvFileModel.of_sobj of_mobj of_fobj]; rewrite dress_nil;
    try (unfold read_obj; cbn [PyTreeModel.of_sobj] in *; rewrite B; reflexivity).
  cbn [shape] in S. unfold read_obj. cbn [PyTreeModel.of_sobj] in *. destruct s; try discriminate S; cbn [of_stm] in *; rewrite B; reflexivity.
Qed.
Lemma sobjs_back l : forallb shape l = true -> Forall mback (map SvFileModel.of_sobj l).
Proof. intros S. apply Forall_map. rewrite Forall_forall. intros x I. rewrite forallb_forall in S. exact (sobj_back x (S x I)). Qed.
Lemma consume_back l : Forall mback l -> forall ports, Forall mback (snd (consume ports l)).
Proof.
  induction 1 as [|o l O F IH]; intros ports; [constructor|]. destruct o as [v|x]; cbn [consume].
  - destruct (update_port (d_name v) (fun p => merge_var p v) ports) as [q|]; [apply IH|]. specialize (IH ports). destruct (consume ports l). constructor; assumption.
  - specialize (IH ports). destruct (consume ports l). constructor; assumption.
Qed.
Lemma dec_back m : read_dec (of_mdec m) = Some m. Proof. destruct m. reflexivity. Qed.
Definition item_ok (i : mditem mdecl) : bool :=
  match i with
  | MT_region l => forallb (whole_gitem A M n) l
  | MT_item _ at_ (GI_leaf (GL_param b)) => forallb (whole_attr A) at_ && SvWholeSpec.given (body_params A i)
  | MT_item _ at_ g => forallb (whole_attr A) at_ && whole_gitem A M n g
  | MT_ports _ at_ _ => forallb (whole_attr A) at_
  | MT_module m => whole_module A M n m
  | MT_skipped => true
  end.
Theorem modules_back :
  (forall m ts, w_module true m ts -> whole_module A M n m = true -> forall o, conv_mdecl m = Ok o -> back o) /\
  (forall l ts, w_items true l ts -> forallb item_ok l = true -> forall st st', Forall mback (ms_objs st) -> foldM (run_mditem conv_mdecl) st l = Ok st' -> Forall mback (ms_objs st')).
Proof.
  apply (w_module_mutind true (fun m ts _ => whole_module A M n m = true -> forall o, conv_mdecl m = Ok o -> back o)
    (fun l ts _ => forallb item_ok l = true -> forall st st', Forall mback (ms_objs st) -> foldM (run_mditem conv_mdecl) st l = Ok st' -> Forall mback (ms_objs st'))).
  - intros h p l nm hs ts Wh Wl IH _ W o H. cbn [whole_module] in W. apply andb_prop in W as [_ W]. apply andb_prop in W as [W _]. change (forallb item_ok l = true) in W. cbn [conv_mdecl] in H. binv H. binv H. binv H.
    pose proof (IH W (mk_mstate (snd x) x0 []) x1 (Forall_nil _) Hx1) as F. pose proof (consume_back _ F (ms_ports x1)) as C. destruct (consume (ms_ports x1) (ms_objs x1)) as [ports objs]. cbn [snd] in C. injection H as <-. unfold back. cbn [of_fobj read_obj]. rewrite dec_back. cbn [obind].
    rewrite (omapM_back read_obj of_fobj); [|apply Forall_map; exact C]. cbn [obind md_name]. rewrite seqb_refl. reflexivity.
  - intros h p hs Wh _ W o H. cbn [conv_mdecl] in H. binv H. binv H. injection H as <-. unfold back. cbn [of_fobj read_obj of_mdec]. reflexivity.
  - intros _ st st' F H. injection H as <-. exact F.
  - intros i l ts ts' Wi Wl IH W st st' F H. cbn [forallb] in W. apply andb_prop in W as [Wh W]. cbn [foldM] in H. binv H. refine (IH W _ _ _ H). destruct Wi as [l' ts W0|g ts G W0]; cbn [run_mditem] in Hx.
    + binv Hx. injection Hx as <-. cbn [ms_objs]. apply Forall_app. split; [exact F|]. apply sobjs_back. exact (gitem_shape (GI_region l') Wh _ Hx0).
    + binv Hx. rewrite !news_nil in Hx. cbn [bind] in Hx. rewrite mores_nil, adds_nil, docs_nil in Hx. injection Hx as <-. cbn [ms_objs]. apply Forall_app. split; [exact F|]. apply sobjs_back.
      destruct g as [lf| | | | |]; cbn [conv_top] in Hx0; try (binv Hx0; injection Hx0 as <-; cbn [fst]; cbn [item_ok forallb andb] in Wh; refine (gitem_shape _ Wh _ _); cbn [conv_gitem]; assumption).
      destruct lf; cbn [item_ok forallb andb] in Wh; try (exact (leaf_shape _ _ Wh Hx0)). cbn [conv_gleaf] in Hx0. binv Hx0. injection Hx0 as <-. reflexivity.
  - intros nd l ts ts' Wn Wl IH W st st' F H. cbn [forallb] in W. apply andb_prop in W as [_ W]. cbn [foldM] in H. binv H. refine (IH W _ _ _ H). cbn [run_mditem] in Hx. binv Hx. binv Hx. injection Hx as <-. exact F.
  - intros m l ts ts' Wm IHm Wl IH W st st' F H. cbn [forallb] in W. apply andb_prop in W as [Wh W]. cbn [foldM] in H. binv H. refine (IH W _ _ _ H). cbn [run_mditem] in Hx. binv Hx. injection Hx as <-. cbn [ms_objs]. apply Forall_app. split; [exact F|]. constructor; [|constructor]. exact (IHm Wh _ Hx0).
Qed.
Theorem file_back l ts r : w_file true l ts -> whole_file A M n l = true -> conv_source l = Ok r -> omapM read_obj (map of_fobj r) = Some r.
Proof.
  intros W K H. apply omapM_back. revert K r H. induction W as [|m l ts ts' Wm W IH]; intros K r H; [injection H as <-; constructor|]. cbn [whole_file forallb] in K. apply andb_prop in K as [Km K].
  change (bind (bind (conv_mdecl m) (fun o => Ok [o])) (fun a => bind (conv_source l) (fun r => Ok (a ++ r))) = Ok r) in H. binv H. binv H. binv Hx. injection Hx as <-. injection H as <-. constructor; [exact (proj1 modules_back _ _ Wm Km _ Hx1)|]. apply IH; assumption.
Qed.
End Shape.
