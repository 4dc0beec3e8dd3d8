From Verif Require Import Base BaseFacts AstModel OpModel OpSpec StmModel SvExprModel SvExprProofs SvInstProofs SvDeclProofs PyModel PySpec PyProofs PyStmProofs PyObjModel PyObjSpec PyObjProofs.
From Verif Require Import SvDeclModel VhdlDeclModel.
Import PySpec PyObjModel PyObjSpec.

Lemma mapM_same {A B} (f : A -> outcome B) (g : A -> A) l : (forall x, f (g x) = f x) -> mapM f (map g l) = mapM f l.
Proof. intros H. apply mapM_map. apply Forall_forall. intros x _. apply H. Qed.
Theorem expr_open e : py_expr (no_open e) = py_expr e.
Proof.
  induction e as [s|b v|t|s|l F|s| |o l F|] using expr_ind'; try reflexivity; cbn [no_open py_expr].
  - rewrite (mapM_map py_expr no_open py_expr l F). reflexivity.
  - destruct s; reflexivity.
  - rewrite (mapM_map py_expr no_open py_expr l F). reflexivity.
Qed.
Lemma exprs_open l : mapM py_expr (map no_open l) = mapM py_expr l. Proof. apply mapM_same, expr_open. Qed.
Lemma attr_open a : py_attr (fst a, opt_no_open (snd a)) = py_attr a.
Proof. destruct a as [n [e|]]; unfold py_attr; cbn [fst snd opt_no_open option_map]; rewrite ?expr_open; reflexivity. Qed.
Lemma attrs_open l : py_attrs (attrs_no_open l) = py_attrs l.
Proof. destruct l as [|a l]; [reflexivity|]. unfold py_attrs. change (attrs_no_open (a :: l)) with ((fst a, opt_no_open (snd a)) :: attrs_no_open l).
  change ((fst a, opt_no_open (snd a)) :: attrs_no_open l) with (map (fun a => (fst a, opt_no_open (snd a))) (a :: l)). rewrite (mapM_same py_attr _ (a :: l) attr_open). reflexivity. Qed.
Lemma hdr_open h : py_hdr (hdr_no_open h) = py_hdr h.
Proof. unfold py_hdr, hdr_no_open. cbn [doc labels attrs in_preproc]. rewrite attrs_open. reflexivity. Qed.
Lemma type_open d : match d_type (def_no_open d) with ENull => Ok [] | e => x <- py_expr e ;; Ok [("type" ~> x)] end = match d_type d with ENull => Ok [] | e => x <- py_expr e ;; Ok [("type" ~> x)] end.
Proof.
  destruct d as [n e v di la co st sh al dc at_]. unfold def_no_open. cbn [d_type]. pose proof (expr_open e) as E. destruct e as [ | | | |l|s| |o l|]; try reflexivity; cbn [no_open] in *; [rewrite E; reflexivity|destruct s; reflexivity|rewrite E; reflexivity].
Qed.
Lemma value_open v : match opt_no_open v with None => Ok [] | Some e => x <- py_expr e ;; Ok [("value" ~> x)] end = match v with None => Ok [] | Some e => x <- py_expr e ;; Ok [("value" ~> x)] end.
Proof. destruct v as [e|]; cbn [opt_no_open option_map]; rewrite ?expr_open; reflexivity. Qed.
Lemma def_open d : py_iddef (def_no_open d) = py_iddef d.
Proof.
  unfold py_iddef. rewrite type_open. unfold def_no_open. cbn [d_name d_value d_dir d_latched d_const d_static d_shared d_alias d_doc d_attrs]. rewrite value_open, attrs_open. reflexivity.
Qed.
Lemma defs_open l : mapM py_iddef (map def_no_open l) = mapM py_iddef l. Proof. apply mapM_same, def_open. Qed.
Lemma opt_open n e : py_opt py_expr n (opt_no_open e) = py_opt py_expr n e.
Proof. destruct e as [e|]; cbn [opt_no_open option_map py_opt]; rewrite ?expr_open; reflexivity. Qed.
Lemma sbranches_open l : Forall (fun p => py_stm (stm_no_open (snd p)) = py_stm (snd p)) l ->
  mapM py_branch (map (fun p : expr * stm => match p with (e, b) => (no_open e, stm_no_open b) end) l) = mapM py_branch l.
Proof. intros F. apply mapM_map. eapply Forall_impl; [|exact F]. intros [e b] E. cbn [snd] in E. cbn [py_branch]. rewrite expr_open, E. reflexivity. Qed.
Lemma not_null_open s m : not_null (stm_no_open s) m = not_null s m. Proof. destruct s; reflexivity. Qed.
Theorem stm_open s : py_stm (stm_no_open s) = py_stm s.
Proof.
  induction s as [h|h e|h d sr td ed bl|h c t l f IHt IHl IHf|h u k e l f IHl IHf|h c b IHb|h b c IHb|h i c st b IHi IHs IHb|h l c b IHl IHb|h n b IHb|h j l IHl|h se t b IHb|h l|h e|h|h|d|] using stm_ind';
    cbn [stm_no_open py_stm]; rewrite ?expr_open, ?hdr_open, ?not_null_open; try reflexivity.
  - destruct td as [td|]; cbn [opt_no_open option_map]; rewrite ?expr_open; destruct ed as [[|a ed]|]; cbn [option_map map]; try reflexivity;
      (change (no_open a :: map no_open ed) with (map no_open (a :: ed)); rewrite exprs_open; reflexivity).
  - rewrite IHt. pose proof (sbranches_open l IHl) as E. change (mapM _ l) with (mapM py_branch l).
    change (mapM _ (map _ l)) with (mapM py_branch (map (fun p : expr * stm => match p with (e, b) => (no_open e, stm_no_open b) end) l)). rewrite E.
    destruct f as [b|]; [rewrite (IHf b eq_refl)|]; reflexivity.
  - pose proof (sbranches_open l IHl) as E. change (mapM _ l) with (mapM py_branch l).
    change (mapM _ (map _ l)) with (mapM py_branch (map (fun p : expr * stm => match p with (e, b) => (no_open e, stm_no_open b) end) l)). rewrite E.
    destruct f as [b|]; [rewrite (IHf b eq_refl)|]; reflexivity.
  - rewrite IHb. reflexivity.
  - rewrite IHi, IHs, IHb. reflexivity.
  - rewrite (mapM_map py_stm stm_no_open py_stm l IHl), IHb. reflexivity.
  - rewrite IHb. reflexivity.
  - rewrite (mapM_map py_stm stm_no_open py_stm l IHl). reflexivity.
  - rewrite IHb. destruct se as [se|]; cbn [option_map]; rewrite ?exprs_open; reflexivity.
  - rewrite exprs_open. reflexivity.
  - rewrite opt_open. reflexivity.
  - apply def_open.
Qed.
Lemma member_open m : py_member (fst m, opt_no_open (snd m)) = py_member m.
Proof. destruct m as [n [e|]]; unfold py_member; cbn [fst snd opt_no_open option_map]; rewrite ?expr_open; reflexivity. Qed.
Lemma tval_open v : py_tval (tval_no_open v) = py_tval v.
Proof.
  destruct v as [e|l|r l|l]; cbn [tval_no_open py_tval]; rewrite ?expr_open, ?defs_open; try reflexivity.
  - rewrite (mapM_same py_member (fun m => (fst m, opt_no_open (snd m))) l member_open). reflexivity.
  - assert (E : mapM py_member (map some_name (attrs_no_open l)) = mapM py_member (map some_name l)).
    { unfold attrs_no_open. rewrite map_map. change (fun x => some_name (fst x, opt_no_open (snd x))) with (fun x => (fun m => (fst m, opt_no_open (snd m))) (some_name x)).
      rewrite <- (map_map some_name (fun m => (fst m, opt_no_open (snd m)))). apply mapM_same, member_open. }
    rewrite E. reflexivity.
Qed.
Lemma obranches_open l : Forall (fun p => py_obj (obj_no_open (snd p)) = py_obj (snd p)) l ->
  mapM py_obranch (map (fun p : expr * obj => match p with (e, b) => (no_open e, obj_no_open b) end) l) = mapM py_obranch l.
Proof. intros F. apply mapM_map. eapply Forall_impl; [|exact F]. intros [e b] E. cbn [snd] in E. cbn [py_obranch]. rewrite expr_open, E. reflexivity. Qed.
Lemma obj_null_open o m : obj_not_null (obj_no_open o) m = obj_not_null o m. Proof. destruct o; reflexivity. Qed.
Lemma sens_open se : py_sens (option_map (map no_open) se) = py_sens se.
Proof. destruct se as [l|]; cbn [option_map py_sens]; rewrite ?exprs_open; reflexivity. Qed.
Theorem obj_open o : py_obj (obj_no_open o) = py_obj o.
Proof.
  induction o as [d|d v|h f ps ret body IH|h gs ps l IH|h m d l IHd IH|h b l IH|c d a|h|h l|h se t b IH|h j l IH|h c t l f IHt IHl IHf|h u k e l f IHl IHf
    |h i c st b IHi IHs IHb|h l c b IHl IHb|h c b IH|h n b IH|s|] using obj_ind'; cbn [obj_no_open py_obj];
    rewrite ?expr_open, ?hdr_open, ?obj_null_open, ?sens_open, ?opt_open, ?defs_open, ?exprs_open; try reflexivity; try (cbn [nhdr_no_open n_attrs]; rewrite attrs_open; change (py_nhdr (nhdr_no_open h)) with (py_nhdr h)).
  - apply def_open.
  - unfold py_typedef. rewrite type_open. unfold def_no_open. cbn [d_name d_value d_dir d_latched d_const d_static d_shared d_alias d_doc d_attrs]. rewrite tval_open, attrs_open. reflexivity.
  - rewrite (mapM_map py_obj obj_no_open py_obj body IH). destruct ps as [ps|]; cbn [option_map]; rewrite ?defs_open; reflexivity.
  - rewrite (mapM_map py_obj obj_no_open py_obj l IH). reflexivity.
  - rewrite (mapM_map py_obj obj_no_open py_obj l IH). destruct d as [d|]; [rewrite (IHd d eq_refl)|]; reflexivity.
  - rewrite (mapM_map py_obj obj_no_open py_obj l IH). reflexivity.
  - unfold py_inst, inst_no_open. cbn [ci_name ci_module ci_generics ci_ports]. rewrite !expr_open, !exprs_open, attrs_open. reflexivity.
  - unfold py_library. cbn [nhdr_no_open n_attrs]. rewrite attrs_open. reflexivity.
  - unfold py_import. rewrite exprs_open, hdr_open. reflexivity.
  - rewrite IH. reflexivity.
  - rewrite (mapM_map py_obj obj_no_open py_obj l IH). reflexivity.
  - rewrite IHt. pose proof (obranches_open l IHl) as E. change (mapM _ l) with (mapM py_obranch l).
    change (mapM _ (map _ l)) with (mapM py_obranch (map (fun p : expr * obj => match p with (e, b) => (no_open e, obj_no_open b) end) l)). rewrite E.
    destruct f as [b|]; [rewrite (IHf b eq_refl)|]; reflexivity.
  - pose proof (obranches_open l IHl) as E. change (mapM _ l) with (mapM py_obranch l).
    change (mapM _ (map _ l)) with (mapM py_obranch (map (fun p : expr * obj => match p with (e, b) => (no_open e, obj_no_open b) end) l)). rewrite E.
    destruct f as [b|]; [rewrite (IHf b eq_refl)|]; reflexivity.
  - rewrite IHi, IHs, IHb. reflexivity.
  - rewrite (mapM_map py_obj obj_no_open py_obj l IHl), IHb. reflexivity.
  - rewrite IH. reflexivity.
  - rewrite IH. reflexivity.
  - apply stm_open.
Qed.
Theorem file_open l : py_context (map obj_no_open l) = py_context l.
Proof. unfold py_context. rewrite (mapM_same py_obj obj_no_open l obj_open). reflexivity. Qed.
