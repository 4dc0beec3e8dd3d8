From Verif Require Import Base BaseFacts AstModel StmModel LitModel SvExprModel SvExprProofs SvStmModel SvTypeModel SvDeclModel SvInstProofs SvDeclProofs
  VhdlExprModel VhdlExprProofs VhdlStmModel VhdlStmProofs VhdlDeclModel VhdlDeclProofs PySpec Utf8Proofs PyObjModel PyObjSpec PyTreeModel PySeenSpec VhdlTextSpec VhdlPyProofs.

Ltac via L := eapply L; [..|eassumption]; assumption.
Ltac band := repeat match goal with |- _ && _ = true => apply andb_true_intro; split end.
Lemma hconv_r e x : printables (words e) -> hconv e = Ok x -> readable x = true. Proof. apply hconv_rd. Qed.
Lemma rng_all r : h_rng rd r. Proof. destruct r; cbn [h_rng]; [|split]; apply hconv_rd. Qed.
Lemma ch_all c : h_ch rd c. Proof. destruct c; cbn [h_ch]; [exact I|apply rng_all]. Qed.
Lemma ds_all d : h_ds rd d. Proof. destruct d; cbn [h_ds]; [apply hconv_rd|exact I]. Qed.
Lemma as_all a : h_as rd a.
Proof.
  destruct a as [fp ac]. split.
  - destruct fp as [(n, m)|]; cbn [h_fp]; [|exact I]. split; [apply hconv_rd|]. destruct m; cbn [o_kid snd]; [apply hconv_rd|exact I].
  - destruct ac; cbn [h_ac]; [|split; [apply hconv_rd|]]; apply ds_all.
Qed.
Lemma all_Forall {X} (P : X -> Prop) l : (forall x, P x) -> Forall P l. Proof. intros H. apply Forall_forall. auto. Qed.
Lemma range_r r x : printables (range_words words r) -> conv_range hconv r = Ok x -> readable x = true. Proof. apply range_rd, rng_all. Qed.
Lemma choices_r l r : printables (flat_map (choice_words words) l) -> mapM (conv_choice hconv) l = Ok r -> forallb readable r = true.
Proof. apply choices_rd, all_Forall, ch_all. Qed.
Lemma assocs_r l r : printables (flat_map (assoc_words words) l) -> mapM (conv_assoc hconv) l = Ok r -> forallb readable r = true.
Proof. apply assocs_rd, all_Forall, as_all. Qed.
Lemma hconvs_r l r : printables (flat_map words l) -> mapM hconv l = Ok r -> forallb readable r = true.
Proof. intros W. apply Forall_flat_map in W. apply mapM_readable. eapply Forall_impl; [|exact W]. intros e We y. apply hconv_r, We. Qed.
Lemma opt_conv_r o r : printables (opt_words words o) -> opt_conv o = Ok r -> forallb readable r = true.
Proof. destruct o; cbn [opt_words opt_conv]; intros W H; [|injection H as <-; reflexivity]. binv H. injection H as <-. cbn [forallb]. rewrite (hconv_r _ _ W Hx). reflexivity. Qed.
Lemma label_ok l : printables (label_words l) -> forallb sendable_text (match l with Some x => [x] | None => [] end) = true.
Proof. destruct l; cbn; intros W; [|reflexivity]. winv W. destruct W0 as [_ ->]. reflexivity. Qed.
Lemma end_hdr_r l : printables (label_words l) -> readable_hdr (end_hdr l) = true.
Proof. intros W. unfold readable_hdr, end_hdr. cbn [doc labels attrs readable_attrs forallb]. rewrite (label_ok l W). reflexivity. Qed.
Lemma hdr0_r : readable_hdr hdr0 = true. Proof. reflexivity. Qed.
Lemma push_label_r l h : printable (W_name l) -> readable_hdr h = true -> readable_hdr (push_label l h) = true.
Proof.
  intros [_ Hl] H. unfold readable_hdr, push_label in *. cbn [doc labels attrs forallb]. rewrite Hl. exact H.
Qed.
(** ** Waveforms *)
Lemma wave_r w x : printables (wave_words w) -> conv_wave w = Ok x -> readable x = true.
Proof.
  destruct w as [p l|]; cbn [wave_words conv_wave]; intros W H; [|injection H as <-; reflexivity]. cbn [flat_map] in W. apply Forall_app in W as [W1 W2]. repeat binv H. injection H as <-.
  assert (R : readable x0 = true) by (via hconv_r).
  assert (Rs : forallb readable x1 = true). { apply Forall_flat_map in W2. refine (mapM_readable conv_welem l _ _ Hx0). eapply Forall_impl; [|exact W2]. intros q Wq y. apply hconv_r, Wq. }
  clear - R Rs. revert x0 R. induction x1 as [|y l IH]; intros a R; [exact R|]. cbn [forallb] in Rs. apply andb_prop in Rs as [R1 R2]. cbn [fold_left]. apply IH; [exact R2|]. apply readable_op2; assumption.
Qed.
Lemma condwave_r c x : printables (condwave_words c) -> conv_condwave c = Ok x -> readable x = true.
Proof.
  destruct c as [p l e]. cbn [condwave_words conv_condwave]. intros W H. apply Forall_app in W as [W We]. binv H. injection H as <-.
  assert (G : forall l r, printables (flat_map (fun q => wave_words (fst q) ++ words (snd q)) l) -> conv_condwaves l e = Ok r -> opt_all readable r = true).
  { clear - We. induction l as [|(w, c) l IH]; intros r W H.
    - cbn [conv_condwaves] in H. destruct e; [binv H; injection H as <-; cbn [opt_all]; via wave_r|injection H as <-; reflexivity].
    - cbn [flat_map fst snd] in W. apply Forall_app in W as [W1 W2]. apply Forall_app in W1 as [W0 W1]. cbn [conv_condwaves] in H. binv H. binv H. binv H. injection H as <-. specialize (IH _ W2 Hx).
      cbn [opt_all]. unfold ternary. apply readable_op. cbn [forallb]. rewrite (hconv_r _ _ W1 Hx1), (wave_r _ _ W0 Hx0). destruct x; cbn [opt_l forallb opt_all] in *; [rewrite IH|]; reflexivity. }
  specialize (G (p :: l) _ W Hx). destruct x0; [exact G|]. destruct p. cbn [conv_condwaves] in Hx. repeat binv Hx. discriminate.
Qed.
(** ** Statements *)
Definition sr (s : stm) : Prop := readable_obj (of_stm s) = true.
Lemma leaf_assign h d s t e b : readable_leaf (SAssign h d s t e b) = readable_hdr h && readable d && readable s && opt_all readable t && opt_all (forallb readable) e.
Proof. reflexivity. Qed.
Lemma assign_r d s b o : readable d = true -> readable s = true -> mk_assign hdr0 d s None None b = Ok o -> sr o.
Proof.
  intros D S H. unfold mk_assign in H. assert (o = SAssign hdr0 d s None None b) as ->.
  { destruct d; try discriminate; destruct s; try discriminate; injection H as <-; reflexivity. }
  unfold sr. change (readable_leaf (SAssign hdr0 d s None None b) = true). rewrite leaf_assign, D, S. reflexivity.
Qed.
Lemma call_stm_r f l : length $f <> 0 -> sendable_text $f = true -> forallb readable l = true -> sr (call_stm hdr0 f l).
Proof. intros N T H. unfold sr, call_stm. change (readable (call_op CALL (EId $f) l) = true). apply readable_call; [|exact H]. apply name_readable. split; [|exact T]. destruct $f; [cbn in N; congruence|discriminate]. Qed.
Lemma procedure_r n x : printables (words n) -> conv_procedure_call n = Ok x -> readable x = true.
Proof.
  intros W H. unfold conv_procedure_call in H. binv H. injection H as <-. pose proof (hconv_r _ _ W Hx) as R. clear Hx W.
  destruct x0 as [| | | | | | |o l|]; try exact R; try (apply readable_call; [exact R|reflexivity]). destruct o; try exact R; apply readable_call; try exact R; reflexivity.
Qed.
Lemma mapM_all {X Y} (P : Y -> Prop) (f : X -> outcome Y) l r : Forall (fun x => forall y, f x = Ok y -> P y) l -> mapM f l = Ok r -> Forall P r.
Proof. intros H E. apply mapM_ok_in in E. revert H. induction E as [|x y l r Hxy E IH]; intros H; [constructor|]. inversion H; subst. constructor; auto. Qed.
Lemma forallb_all {X} (f : X -> bool) l : forallb f l = true <-> Forall (fun x => f x = true) l.
Proof. rewrite forallb_forall, Forall_forall. reflexivity. Qed.
Lemma forallb_map_of {X Y} (f : Y -> bool) (g : X -> Y) l : Forall (fun x => f (g x) = true) l -> forallb f (map g l) = true.
Proof. intros H. apply forallb_all. apply Forall_map. exact H. Qed.
Definition csr (s : hstm) : Prop := forall o, printables (stm_words s) -> conv_hstm s = Ok o -> sr o.
Lemma seq_r l o : Forall csr l -> printables (flat_map stm_words l) -> conv_seq conv_hstm l = Ok o -> sr o.
Proof.
  intros K W H. unfold conv_seq in H. binv H. injection H as <-. apply Forall_flat_map in W. unfold sr. cbn [of_stm readable_obj]. band; [reflexivity|]. apply forallb_map_of. refine (mapM_all sr _ l _ _ Hx).
  eapply Forall_both; [exact K|exact W|]. intros s Hs Ws y Hy. binv Hy. assert (x0 = y) as -> by (destruct x0; try discriminate; injection Hy as <-; reflexivity). apply Hs; assumption.
Qed.
Definition br (p : expr * stm) : Prop := readable (fst p) = true /\ sr (snd p).
Lemma branches_r l : Forall br l -> forallb (fun p : expr * obj => match p with (e, b) => readable e && readable_obj b end) (map (fun p : expr * stm => match p with (e, b) => (e, of_stm b) end) l) = true.
Proof. intros H. apply forallb_map_of. eapply Forall_impl; [|exact H]. intros (e, b) (R & S). cbn [fst snd] in *. rewrite R. exact S. Qed.
Definition opt_sr (o : option stm) : Prop := match o with Some s => sr s | None => True end.
Lemma opt_sr_of o : opt_sr o -> match match o with Some b => Some (of_stm b) | None => None end with Some b => readable_obj b | None => true end = true.
Proof. destruct o; cbn; auto. Qed.
Lemma combine_br cs bs : forallb readable cs = true -> Forall sr bs -> Forall br (combine cs bs).
Proof.
  intros H F. apply forallb_all in H. revert bs F. induction H as [|c cs Hc H IH]; intros bs F; [constructor|]. destruct F as [|b bs Hb F]; [constructor|]. cbn [combine]. constructor; [split; assumption|auto].
Qed.
Lemma split_r l d q : Forall br l -> opt_sr d -> split_choices l d = Ok q -> Forall br (fst q) /\ opt_sr (snd q).
Proof.
  intros H. revert d q. induction H as [|(c, s) l Hc H IH]; intros d q D E; cbn [split_choices] in E; [injection E as <-; split; [constructor|exact D]|].
  destruct (is_others c).
  - destruct d; [discriminate|]. eapply IH; [|exact E]. apply Hc.
  - binv E. injection E as <-. destruct (IH _ _ D Hx) as (A & B). split; [constructor; assumption|exact B].
Qed.
Lemma alt_r p r : Forall csr (snd p) -> printables (flat_map (choice_words words) (fst p) ++ flat_map stm_words (snd p)) -> conv_alt conv_hstm p = Ok r -> Forall br r.
Proof.
  intros K W H. apply Forall_app in W as [W1 W2]. unfold conv_alt in H. repeat binv H. injection H as <-. apply combine_br; [via choices_r|].
  refine (mapM_all sr _ (fst p) _ _ Hx0). apply all_Forall. intros _ y Hy. via seq_r.
Qed.
Lemma alts_r l r : Forall (fun p => Forall csr (snd p)) l -> printables (flat_map (fun p : list (hchoice hexpr) * list hstm => flat_map (choice_words words) (fst p) ++ flat_map stm_words (snd p)) l) ->
  mapM (conv_alt conv_hstm) l = Ok r -> Forall br (List.concat r).
Proof.
  intros K W H. apply Forall_flat_map in W. apply Forall_concat. refine (mapM_all (Forall br) _ l _ _ H). eapply Forall_both; [exact K|exact W|]. intros p Kp Wp y. apply alt_r; assumption.
Qed.
Lemma item_r i o : hk_item csr i -> printables (item_words stm_words i) -> conv_hitem conv_hstm i = Ok o -> sr o.
Proof.
  intros K W H. destruct i; cbn [hk_item item_words conv_hitem] in K, W, H.
  - apply Forall_app in W as [W1 W]. apply Forall_app in W as [W2 W3]. binv H. binv H. binv H. injection H as <-. unfold sr. change (readable_leaf (SWait hdr0 (x ++ x0 ++ x1)) = true). cbn [readable_leaf].
    rewrite !forallb_app, (hconvs_r _ _ W1 Hx), (opt_conv_r _ _ W3 Hx1). cbn [andb]. rewrite andb_true_r. destruct until; cbn [opt_words] in *; [|injection Hx0 as <-; reflexivity].
    binv Hx0. injection Hx0 as <-. cbn [forallb]. rewrite readable_op1; [reflexivity|]. via hconv_r.
  - apply Forall_app in W as [W1 W]. apply Forall_app in W as [W2 W3]. repeat binv H. injection H as <-. apply call_stm_r; [cbv; congruence|reflexivity|]. cbn [forallb]. rewrite forallb_app, (hconv_r _ _ W1 Hx), (opt_conv_r _ _ W2 Hx0), (opt_conv_r _ _ W3 Hx1). reflexivity.
  - apply Forall_app in W as [W1 W2]. repeat binv H. injection H as <-. apply call_stm_r; [cbv; congruence|reflexivity|]. cbn [forallb]. rewrite (hconv_r _ _ W1 Hx), (opt_conv_r _ _ W2 Hx0). reflexivity.
  - apply Forall_app in W as [W1 W2]. binv H. binv H. eapply assign_r; [| |exact H]; [via hconv_r|via wave_r].
  - apply Forall_app in W as [W1 W2]. binv H. binv H. eapply assign_r; [| |exact H]; via hconv_r.
  - binv H. eapply assign_r; [| |exact H]; [via hconv_r|reflexivity].
  - apply Forall_app in W as [W1 W2]. binv H. binv H. eapply assign_r; [| |exact H]; [via hconv_r|via condwave_r].
  - binv H. eapply assign_r; [| |exact H]; [via hconv_r|reflexivity].
  - winv W. destruct W0.
  - apply Forall_app in W as [W1 W2]. binv H. binv H. eapply assign_r; [| |exact H]; via hconv_r.
  - binv H. eapply assign_r; [| |exact H]; [via hconv_r|reflexivity].
  - binv H. eapply assign_r; [| |exact H]; [via hconv_r|reflexivity].
  - binv H. injection H as <-. unfold sr. change (readable x = true). eapply procedure_r; eassumption.
  - destruct K as (Kb & Kl & Ke). apply Forall_app in W as [W1 W]. apply Forall_app in W as [W2 W]. apply Forall_app in W as [W3 W]. apply Forall_app in W as [W4 W5].
    binv H. binv H. binv H. binv H. injection H as <-. unfold sr. cbn [of_stm readable_obj]. band.
    + apply end_hdr_r, W5.
    + via hconv_r.
    + via seq_r.
    + apply branches_r. apply Forall_flat_map in W3. refine (mapM_all br _ elifs _ _ Hx1). eapply Forall_both; [exact Kl|exact W3|]. intros p Kp Wp y Hy. apply Forall_app in Wp as [Wa Wb].
      repeat binv Hy. injection Hy as <-. split; [via hconv_r|via seq_r].
    + apply opt_sr_of. destruct else_; cbn [opt_words hk_else] in *; [|injection Hx2 as <-; exact I]. binv Hx2. injection Hx2 as <-. cbn [opt_sr]. via seq_r.
  - apply Forall_app in W as [W1 W]. apply Forall_app in W as [W2 W3]. binv H. binv H. binv H. injection H as <-. destruct (split_r _ None _ (alts_r _ _ K W2 Hx0) I Hx1) as (A & B).
    unfold sr. cbn [of_stm readable_obj]. band; [apply end_hdr_r, W3|via hconv_r|apply branches_r, A|apply opt_sr_of, B].
  - apply Forall_app in W as [W1 W]. apply Forall_app in W as [W2 W3]. binv H. binv H. injection H as <-. unfold sr. cbn [of_stm readable_obj]. band; [apply end_hdr_r, W3|via hconv_r|via seq_r].
  - apply Forall_cons_iff in W as [W0 W]. apply Forall_app in W as [W1 W]. apply Forall_app in W as [W2 W3]. binv H. binv H. injection H as <-. unfold sr. cbn [of_stm readable_obj map forallb]. band; try reflexivity.
    + apply end_hdr_r, W3.
    + change (readable (EId i) = true). apply name_readable, W0.
    + via range_r.
    + via seq_r.
  - apply Forall_app in W as [W1 W2]. binv H. injection H as <-. unfold sr. cbn [of_stm readable_obj]. band; [apply end_hdr_r, W2|reflexivity|via seq_r].
  - apply Forall_app in W as [W1 W2]. unfold conv_jump in H. binv H. injection H as <-. apply call_stm_r; [cbv; congruence|reflexivity|]. cbn [forallb]. rewrite (opt_conv_r _ _ W2 Hx). destruct l; [|reflexivity]. apply Forall_cons_iff in W1 as [W0 _]. rewrite (name_readable _ W0). reflexivity.
  - apply Forall_app in W as [W1 W2]. unfold conv_jump in H. binv H. injection H as <-. apply call_stm_r; [cbv; congruence|reflexivity|]. cbn [forallb]. rewrite (opt_conv_r _ _ W2 Hx). destruct l; [|reflexivity]. apply Forall_cons_iff in W1 as [W0 _]. rewrite (name_readable _ W0). reflexivity.
  - destruct e; cbn [opt_words] in W; [binv H; injection H as <-|injection H as <-; reflexivity]. unfold sr. change (readable_leaf (SReturn hdr0 (Some x)) = true). cbn [readable_leaf opt_all]. rewrite (hconv_r _ _ W Hx). reflexivity.
  - injection H as <-. reflexivity.
Qed.
Lemma hdr_readable s : sr s -> match s with SExpr _ _ | SDef _ => True | _ => readable_hdr (get_hdr s) = true end.
Proof.
  unfold sr. destruct s; cbn [of_stm readable_obj readable_leaf get_hdr]; intros H; try exact I; repeat match goal with H : _ && _ = true |- _ => apply andb_prop in H as [H _] end; try exact H; discriminate.
Qed.
Lemma set_label_r l s : printable (W_name l) -> sr s -> sr (set_hdr (push_label l) s).
Proof.
  intros L H. pose proof (hdr_readable s H) as R. unfold sr in *. destruct s; try exact H; cbn [get_hdr] in R; cbn [set_hdr of_stm readable_obj readable_leaf] in *;
    apply (push_label_r l) in R; try exact L; rewrite ?R; repeat match goal with H : _ && _ = true |- _ => apply andb_prop in H as [H ?] end; band; auto; discriminate.
Qed.
Theorem hstm_r s : csr s.
Proof.
  apply hstm_ind'. clear s. intros lb i K o W H. cbn [stm_words] in W. apply Forall_app in W as [W1 W2]. cbn [conv_hstm] in H. binv H.
  assert (R : sr x) by (eapply item_r; eassumption). destruct lb as [l|]; [|injection H as <-; exact R]. apply Forall_cons_iff in W1 as [W0 _].
  assert (o = set_hdr (push_label l) x) as -> by (destruct x; try discriminate; injection H as <-; reflexivity). apply set_label_r; assumption.
Qed.
Lemma stms_r l r : printables (flat_map stm_words l) -> mapM conv_hstm l = Ok r -> Forall sr r.
Proof. intros W H. apply Forall_flat_map in W. refine (mapM_all sr _ l _ _ H). eapply Forall_impl; [|exact W]. intros s Ws y. apply hstm_r, Ws. Qed.
Lemma selwaves_r l : forall t moved cases d b q, Forall (fun p => readable (fst p) = true /\ readable (snd p) = true) l -> readable t = true -> Forall br cases -> opt_sr d ->
  conv_selwaves l t moved cases d b = Ok q -> Forall br (fst q) /\ opt_sr (snd q).
Proof.
  induction l as [|(c, w) l IH]; intros t moved cases d b q F T C D H; cbn [conv_selwaves] in H; [injection H as <-; split; assumption|].
  apply Forall_cons_iff in F as [[R1 R2] F]. cbn [fst snd] in R1, R2. binv H.
  assert (sr x) as X by (destruct cases; [destruct moved; [discriminate|]|]; eapply assign_r; [| |exact Hx| | |exact Hx]; assumption).
  destruct (is_others c); eapply IH; try exact H; auto. apply Forall_app. split; [exact C|]. constructor; [split; assumption|constructor].
Qed.
