(** What the converter makes of written Verilog modules can be converted to Python. *)
From Verif Require Import Base BaseFacts StrSpec AstModel StmModel LitModel SvExprModel SvExprProofs SvStmModel SvTypeModel SvDeclModel SvDeclProofs SvTfModel SvGenModel SvFileModel SvFileProofs SvInstProofs.
From Verif Require Import SvSyntaxModel SvSyntaxSpec SvStmSyntaxModel SvStmSyntaxSpec SvModSyntaxModel SvModSyntaxSpec PySpec Utf8Proofs PyObjModel PyObjSpec PySeenSpec VhdlTextSpec VhdlDecl2Proofs ConvertPySvModel SvPySpec SvPyProofs.
From Verif Require PyTreeModel.

Definition good_m (t : mtk) : Prop := match t with Y t => good_s t | M _ => True | Net w | Vec w | Atom w | Nonint w => w <> [] /\ plain_text w = true end.
Lemma good_Y l : Forall good_m (map Y l) <-> Forall good_s l.
Proof. rewrite Forall_map. reflexivity. Qed.
Lemma ys_rd e x : proper e -> Forall good_m (ys e) -> conv e = Ok x -> readable x = true.
Proof. intros P G. apply good_Y in G. exact (xs_rd e x P G). Qed.
Lemma ypar_rd e x : proper e -> Forall good_m (ypar e) -> conv e = Ok x -> readable x = true.
Proof. intros P G. apply good_Y in G. exact (par_rd e x P G). Qed.
Ltac mgoods := repeat match goal with
  | H : Forall good_m (_ ++ _) |- _ => apply Forall_app in H as [? H]
  | H : Forall good_m (_ :: _) |- _ => apply Forall_cons_iff in H as [? H]
  | H : Forall good_m [] |- _ => clear H
  end.
Ltac rdy := first [eassumption | solve [eapply ys_rd; [| |eassumption]; assumption] | solve [eapply ypar_rd; [| |eassumption]; assumption]].
Lemma word_rd w : w <> [] /\ plain_text w = true -> readable (EId w) = true.
Proof. intros [N P]. apply plain_id; assumption. Qed.
Lemma name_send i s : good_m (idt i) -> ident_str i = Ok s -> sendable_text s = true.
Proof. intros G H. destruct (ident_good i s G H) as [_ P]. exact (sendable_plain _ P). Qed.
Lemma visit_rd i x : good_m (idt i) -> visit_ident i = Ok x -> readable x = true.
Proof. intros G H. exact (ident_rd i x G H). Qed.
Lemma commas_all {A} (w : A -> list mtk -> Prop) l ts : w_commas w l ts -> Forall good_m ts -> Forall (fun x => exists ts, w x ts /\ Forall good_m ts) l.
Proof. induction 1 as [x ts W|x l ts ts' W Ws IH]; intros G; mgoods; (apply Forall_cons; [exists ts; split; assumption|auto]). Qed.

(** ** Dimensions *)
Definition rng_rd (r : vrange) : Prop := forall x, conv_range r = Ok x -> readable x = true.
Lemma rng_good r : rng_ok r -> Forall good_m (rng_toks r) -> rng_rd r.
Proof.
  intros O G x H. destruct r as [e|[] a b]; cbn [rng_ok rng_toks conv_range] in *; try (destruct O; fail).
  - rdy.
  - destruct O as [Oa Ob]. mgoods. repeat binv H. injection H as <-. apply mk2_readable; rdy.
Qed.
Lemma rngs_good (P : vrange -> Prop) l : (forall r, P r -> rng_ok r) -> Forall P l -> Forall good_m (dim_toks l) -> Forall rng_rd l.
Proof. intros HP. induction 1 as [|r l Pr _ IH]; intros G; [constructor|]. unfold dim_toks in G. cbn [flat_map] in G. mgoods. constructor; [apply rng_good; auto|]. apply IH. assumption. Qed.
Lemma sizes_good l : Forall size_ok l -> Forall good_m (dim_toks l) -> Forall rng_rd l.
Proof. apply rngs_good. intros r [H _]. exact H. Qed.
Definition orb_ (o : option expr) : Prop := match o with Some x => readable x = true | None => True end.
Lemma vdims_rd l r : Forall rng_rd l -> conv_vdims (map VD_range l) = Ok r -> Forall orb_ r.
Proof.
  unfold conv_vdims. intros F. revert r. induction F as [|d l Fd _ IH]; intros r H; [injection H as <-; constructor|]. cbn [map] in H.
  change (bind (conv_vdim (VD_range d)) (fun y => bind (mapM conv_vdim (map VD_range l)) (fun r => Ok (y :: r))) = Ok r) in H. repeat binv H. injection H as <-. constructor; [|exact (IH _ Hx0)]. cbn [conv_vdim] in Hx. binv Hx. injection Hx as <-. exact (Fd _ Hx1).
Qed.
Lemma pdims_rd l r : Forall rng_rd l -> mapM conv_pdim (map Some l) = Ok r -> Forall orb_ r.
Proof.
  intros F. revert r. induction F as [|d l Fd _ IH]; intros r H; [injection H as <-; constructor|]. cbn [map] in H.
  change (bind (conv_pdim (Some d)) (fun y => bind (mapM conv_pdim (map Some l)) (fun r => Ok (y :: r))) = Ok r) in H. repeat binv H. injection H as <-. constructor; [|exact (IH _ Hx0)]. cbn [conv_pdim] in Hx. binv Hx. injection Hx as <-. exact (Fd _ Hx1).
Qed.
Lemma index_rd l : Forall orb_ l -> forall t, readable t = true -> readable (fold_left index_dim l t) = true.
Proof. induction 1 as [|[x|] l O _ IH]; intros t T; [exact T| |]; cbn [fold_left]; apply IH; cbn [index_dim]; [apply mk2_readable; [exact T|exact O]|apply op1_readable; exact T]. Qed.
Lemma width_rd e w : readable e = true -> readable w = true -> readable (set_width e w) = true.
Proof. intros E W. destruct e as [| | | | | | |o l|]; try exact E. destruct l as [|a [|b [|c [|]]]]; try exact E. cbn [set_width readable forallb] in *. rewrite W. apply andb_prop in E as [-> E]. apply andb_prop in E as [_ E]. exact E. Qed.
Lemma dims_rd b l : readable b = true -> Forall orb_ l -> readable (fst (apply_dims b l)) = true /\ readable (snd (apply_dims b l)) = true.
Proof.
  intros B O. unfold apply_dims. destruct l as [|d l]; [split; exact B|]. inversion O as [|? ? Od Ol]; subst. destruct (open_wire b); cbn [fst snd].
  - assert (K : readable (set_width b match d with Some x => x | None => null_sym end) = true) by (apply width_rd; [exact B|destruct d; [exact Od|reflexivity]]). split; [exact K|]. apply index_rd; assumption.
  - split; [exact B|]. apply index_rd; assumption.
Qed.
Lemma udims_rd l : Forall rng_rd l -> forall t x, readable t = true -> apply_udims t l = Ok x -> readable x = true.
Proof. induction 1 as [|d l D _ IH]; intros t x T H; [injection H as <-; exact T|]. cbn [apply_udims] in H. binv H. eapply IH; [|exact H]. apply mk2_readable; [exact T|exact (D _ Hx)]. Qed.
Lemma clone_id e x : clone_e e = Ok x -> x = e.
Proof.
  revert x. induction e using expr_ind'; intros x E; cbn [clone_e] in E; try (injection E as <-; reflexivity); try discriminate.
  all: binv E; injection E as <-; f_equal; match goal with H : Forall _ _ |- _ => clear - H Hx; revert x0 Hx; induction H as [|e l He _ IH]; intros r Hr; [injection Hr as <-; reflexivity|] end.
  all: change (bind (clone_e e) (fun y => bind (mapM clone_e l) (fun r => Ok (y :: r))) = Ok r) in Hr; repeat binv Hr; injection Hr as <-; f_equal; [apply He; assumption|apply IH; assumption].
Qed.
Lemma clones_id l : forall r, clone_es l = Ok r -> r = l.
Proof. unfold clone_es. induction l as [|e l IH]; intros r H; [injection H as <-; reflexivity|]. change (bind (clone_e e) (fun y => bind (mapM clone_e l) (fun r => Ok (y :: r))) = Ok r) in H. repeat binv H. injection H as <-. f_equal; [exact (clone_id _ _ Hx)|exact (IH _ Hx0)]. Qed.

(** ** Types *)
Lemma wire_rd n r s : match n with Some x => readable x = true | None => True end -> readable r = true -> readable (wire_t n r s) = true.
Proof. intros N R. unfold wire_t. apply call_readable; [destruct n; [exact N|reflexivity]|]. cbn [forallb]. rewrite R. destruct s as [[]|]; reflexivity. Qed.
Lemma sign_rd t s : readable t = true -> readable (set_sign t s) = true.
Proof.
  intros T. destruct s as [s|]; [|exact T]. unfold set_sign. assert (K : readable (call_op PARAMETRIZATION t [mk2 (EId $"signed") MAP_ASSOCIATION (mk_signing (Some s))]) = true).
  { apply call_readable; [exact T|]. destruct s; reflexivity. }
  destruct t as [| | | | | | |o l|]; try exact K. destruct l as [|a [|b [|c [|]]]]; try exact K. destruct (is_par o); [|exact K]. cbn [readable forallb] in *. apply andb_prop in T as [-> T]. apply andb_prop in T as [-> _]. destruct s; reflexivity.
Qed.
Lemma type_rd t ts n x : w_type t ts -> Forall good_m ts -> match n with Some x => readable x = true | None => True end -> conv_doi (Some t) n = Ok x -> readable x = true.
Proof.
  intros W G N H. destruct W as [w s ds F|w s ds F|w ds F|s ds _ F]; mgoods; cbn [conv_doi conv_dtype conv_itype] in H.
  - change (bind (conv_vdims (map VD_range ds)) (fun l => Ok (snd (apply_dims (conv_prim (P_vector w) s) l))) = Ok x) in H. binv H. injection H as <-. apply dims_rd; [|eapply vdims_rd; [|exact Hx]; apply sizes_good; assumption].
    cbn [conv_prim]. apply sign_rd, wire_rd; [apply word_rd; assumption|reflexivity].
  - change (bind (conv_vdims (map VD_range ds)) (fun l => Ok (snd (apply_dims (conv_prim (P_atom w) s) l))) = Ok x) in H. binv H. injection H as <-. apply dims_rd; [|eapply vdims_rd; [|exact Hx]; apply sizes_good; assumption].
    cbn [conv_prim]. apply sign_rd, word_rd. assumption.
  - change (bind (conv_vdims (map VD_range ds)) (fun l => Ok (snd (apply_dims (conv_prim (P_nonint w) None) l))) = Ok x) in H. binv H. injection H as <-. apply dims_rd; [|eapply vdims_rd; [|exact Hx]; apply sizes_good; assumption].
    cbn [conv_prim]. apply word_rd. assumption.
  - apply (rngs_good rng_ok) in F; [|trivial|assumption]. destruct F as [|d ds Fd F]; cbn [map] in H; [injection H as <-; apply wire_rd; [exact Logic.I|reflexivity]|]. binv H. binv H. injection H as <-. apply index_rd; [eapply pdims_rd; eassumption|].
    apply wire_rd; [exact N|]. cbn [conv_pdim] in Hx. binv Hx. injection Hx as <-. exact (Fd _ Hx1).
Qed.
Lemma otype_rd t ts n x : w_otype t ts -> Forall good_m ts -> match n with Some x => readable x = true | None => True end -> conv_doi t n = Ok x -> readable x = true.
Proof. intros W G N H. destruct W; [injection H as <-; reflexivity|]. eapply type_rd; eassumption. Qed.
Lemma nvtype_rd t ts x : w_nvtype t ts -> Forall good_m ts -> conv_nvtype t = Ok x -> readable (fst x) = true.
Proof.
  intros W G H. destruct W; cbn [conv_nvtype] in H; [injection H as <-; reflexivity| |]; mgoods; binv H; injection H as <-; cbn [fst].
  - eapply otype_rd; [eassumption| | |eassumption]; [assumption|apply word_rd; assumption].
  - eapply type_rd; [eassumption| | |eassumption]; [assumption|exact Logic.I].
Qed.

(** ** Definitions *)
Definition rd0 (d : iddef) : Prop := sendable_text (d_name d) = true /\ d_doc d = [] /\ d_attrs d = [] /\ readable_type (d_type d) = true /\ opt_all readable (d_value d) = true.
Definition rd1 (d : iddef) : Prop := rd0 d /\ known_dir (d_dir d) = true.
Lemma rd1_def d : rd1 d -> readable_def d = true.
Proof. intros [(A & B & C & D & E) F]. unfold readable_def, readable_head. rewrite A, B, C, D, E, F. reflexivity. Qed.
Lemma rd1_defs l : Forall rd1 l -> forallb readable_def l = true.
Proof. rewrite forallb_forall, Forall_forall. intros H x I. apply rd1_def, H, I. Qed.
Lemma type_of x : readable x = true -> readable_type x = true.
Proof. destruct x; trivial. Qed.
Lemma new_rd n t v : sendable_text n = true -> readable_type t = true -> opt_all readable v = true -> rd1 (new_var n t v).
Proof. intros A B C. repeat split; assumption. Qed.
Lemma set_type_rd d t : rd1 d -> readable t = true -> rd1 (set_type d t).
Proof. intros [(A & B & C & D & E) F] T. repeat split; try assumption. apply type_of, T. Qed.
Lemma set_const_rd d b : rd1 d -> rd1 (set_const d b). Proof. intros H. exact H. Qed.
Lemma set_flags_rd d b c : rd1 d -> rd1 (set_flags d b c). Proof. intros H. exact H. Qed.
Lemma port_rd0 d r l : rd0 d -> rd0 (set_port d r l). Proof. intros H. exact H. Qed.
Lemma value_rd v x : opt_proper v -> Forall good_m (value_toks v) -> conv_opt conv v = Ok x -> opt_all readable x = true.
Proof. intros P G H. destruct v as [e|]; cbn [conv_opt opt_proper value_toks] in *; [|injection H as <-; reflexivity]. binv H. injection H as <-. mgoods. cbn [opt_all]. rdy. Qed.
Lemma passign_rd p ts d : w_passign p ts -> Forall good_m ts -> conv_passign p = Ok d -> rd1 d.
Proof.
  intros W G H. destruct W as [i ds v F P]. mgoods. cbn [conv_passign] in H. repeat binv H. injection H as <-. apply new_rd; [eapply name_send; eassumption|reflexivity|].
  apply (value_rd v); [exact P|assumption|]. destruct v; exact Hx.
Qed.
Lemma passigns_rd l ts r : w_commas w_passign l ts -> Forall good_m ts -> mapM conv_passign l = Ok r -> Forall rd1 r.
Proof. intros W G. apply mapM_all. eapply Forall_impl; [|exact (commas_all _ _ _ W G)]. intros p (ts' & W' & G') y. eapply passign_rd; eassumption. Qed.
Lemma typed_rd t l ts r : readable t = true -> w_commas w_passign l ts -> Forall good_m ts -> conv_typed t l = Ok r -> Forall rd1 r.
Proof.
  intros T W G H. unfold conv_typed in H. binv H. pose proof (passigns_rd _ _ _ W G Hx) as F. destruct F as [|d l' Fd F]; [injection H as <-; constructor|]. binv H. injection H as <-. constructor; [apply set_type_rd; assumption|].
  refine (mapM_all _ _ _ _ _ Hx0). eapply Forall_impl; [|exact F]. cbn beta. intros y Y z E. binv E. injection E as <-. apply set_type_rd; [exact Y|]. rewrite (clone_id _ _ Hx1). exact T.
Qed.
Lemma pbody_rd b ts r : w_pbody b ts -> Forall good_m ts -> conv_pbody b = Ok r -> Forall rd1 r.
Proof. intros W G H. destruct W. mgoods. cbn [conv_pbody] in H. binv H. eapply typed_rd; [|eassumption| |exact H]; [|assumption]. eapply (otype_rd _ _ None); [eassumption| |exact Logic.I|eassumption]. assumption. Qed.
Lemma local_rd b ts r : w_pbody b ts -> Forall good_m ts -> conv_local b = Ok r -> Forall rd1 r.
Proof. intros W G H. unfold conv_local in H. binv H. injection H as <-. apply Forall_map. eapply Forall_impl; [|eapply pbody_rd; eassumption]. intros d. apply set_const_rd. Qed.
Lemma pdecl_rd p ts r : w_pdecl p ts -> Forall good_m ts -> conv_pdecl p = Ok r -> Forall rd1 r.
Proof.
  intros W G H. destruct W; mgoods; cbn [conv_pdecl] in H; [eapply pbody_rd; eassumption|eapply local_rd; eassumption|]. binv H. eapply typed_rd; [|eassumption| |exact H]; [|assumption].
  refine (type_rd (DI_type t) _ None _ H0 _ Logic.I Hx). assumption.
Qed.
Lemma plist_rd p ts r : w_plist p ts -> Forall good_m ts -> match p with Some p => conv_plist p | None => Ok [] end = Ok r -> Forall rd1 r.
Proof.
  intros W G H. destruct W; mgoods; cbn [conv_plist] in H; try (injection H as <-; constructor); try (eapply passigns_rd; eassumption).
  refine (concatM_all _ _ _ _ _ H). eapply Forall_impl; [|eapply commas_all; eassumption]. intros d (ts' & W' & G') y. eapply pdecl_rd; eassumption.
Qed.
Lemma vitem_rd t v ts d b r : readable t = true -> w_vitem v ts -> Forall good_m ts -> conv_vitem t v d b = Ok r -> rd0 r /\ d_dir r = d.
Proof.
  intros T W G H. destruct W as [i ds e F P]. mgoods. unfold conv_vitem in H. cbn [vi_name vi_value] in H. repeat binv H. injection H as <-. split; [|reflexivity]. apply port_rd0. apply new_rd; [eapply name_send; eassumption|apply type_of, T|]. eapply value_rd; eassumption.
Qed.
Lemma vitem_dims v ts r : w_vitem v ts -> Forall good_m ts -> conv_vdims (vi_dims v) = Ok r -> Forall orb_ r.
Proof. intros W G H. destruct W as [i ds e F P]. mgoods. eapply vdims_rd; [|exact H]. apply sizes_good; assumption. Qed.
Lemma idlist_rd b lat d l ts r : readable b = true -> w_commas w_vitem l ts -> Forall good_m ts -> conv_idlist b lat d l = Ok r -> Forall (fun x => rd0 x /\ d_dir x = d) r.
Proof.
  intros B W G H. pose proof (commas_all _ _ _ W G) as F. destruct F as [|v l (ts1 & Wv & Gv) F]; [injection H as <-; constructor|]. cbn [conv_idlist] in H. binv H. pose proof (dims_rd b _ B (vitem_dims _ _ _ Wv Gv Hx)) as [K1 K2]. destruct (apply_dims b x) as [c t]. cbn [fst snd] in *.
  repeat binv H. injection H as <-. constructor; [eapply vitem_rd; [| | |eassumption]; eassumption|]. refine (mapM_all _ _ _ _ _ Hx1). eapply Forall_impl; [|exact F]. cbn beta. intros v' (ts' & W' & G') y E. repeat binv E. eapply vitem_rd; [|exact W'|exact G'|exact E].
  rewrite (clone_id _ _ Hx2). apply dims_rd; [exact K1|]. eapply vitem_dims; eassumption.
Qed.
Lemma iditems l ts : w_commas w_iditem l ts -> w_commas w_vitem l ts.
Proof. induction 1 as [x ts [H _]|x l ts ts' [H _] _ IH]; constructor; assumption. Qed.
Lemma nadecl_rd n ts r : w_nadecl n ts -> Forall good_m ts -> conv_nadecl n = Ok r -> Forall rd1 r.
Proof.
  intros W G H. assert (K : forall b lat d l ts, known_dir d = true -> readable b = true -> w_commas w_vitem l ts -> Forall good_m ts -> conv_idlist b lat d l = Ok r -> Forall rd1 r).
  { intros b lat d l ts' D B W' G' E. eapply Forall_impl; [|eapply idlist_rd; eassumption]. intros x [X1 X2]. split; [exact X1|]. rewrite X2. exact D. }
  destruct W as [t l tt ts Wt Wl|t l tt ts Wt Wl|t l tt ts Wt Wl]; mgoods; cbn [conv_nadecl] in H; binv H.
  - eapply K; [| |exact (iditems _ _ Wl)| |exact H]; [reflexivity| |assumption]. eapply nvtype_rd; eassumption.
  - eapply K; [| |exact Wl| |exact H]; [reflexivity| |assumption]. eapply nvtype_rd; eassumption.
  - eapply K; [| |exact (iditems _ _ Wl)| |exact H]; [reflexivity| |assumption]. assert (exists y, conv_nvtype t = Ok y /\ x = fst y) as (y & E & ->).
    { unfold conv_npt in Hx. destruct t as [[]|]; try discriminate; binv Hx; injection Hx as <-; eexists; (split; [eassumption|reflexivity]). }
    eapply nvtype_rd; eassumption.
Qed.
Lemma data_rd c a t l tt ts r : w_type t tt -> w_commas w_vitem l ts -> Forall good_m tt -> Forall good_m ts -> conv_data (mk_data c a (Some t) l) = Ok r -> Forall rd1 r.
Proof.
  intros W Wl G Gl H. unfold conv_data in H. cbn [dd_type dd_list dd_const dd_automatic] in H. repeat binv H. injection H as <-. apply Forall_map. assert (B : readable x = true) by (eapply (type_rd _ _ None); [exact W|exact G|exact Logic.I|exact Hx]).
  unfold conv_decl_assignments in Hx0. assert (F : Forall rd1 x0); [|eapply Forall_impl; [|exact F]; intros d; apply set_flags_rd]. refine (mapM_all _ _ _ _ _ Hx0). eapply Forall_impl; [|exact (commas_all _ _ _ Wl Gl)]. cbn beta. intros v (ts' & W' & G') y E. repeat binv E.
  rewrite (clone_id _ _ Hx1) in E. destruct (fun T => vitem_rd _ _ _ _ _ _ T W' G' E) as [K1 K2]; [apply dims_rd; [exact B|]; eapply vitem_dims; eassumption|]. split; [exact K1|]. rewrite K2. reflexivity.
Qed.
Lemma net_rd w t l tt ts r : (w <> [] /\ plain_text w = true) -> w_otype t tt -> w_commas w_nitem l ts -> Forall good_m tt -> Forall good_m ts -> conv_net_decl (mk_net (NK_net w) false t l) = Ok r -> Forall rd1 r.
Proof.
  intros Ww W Wl G Gl H. unfold conv_net_decl in H. cbn [nd_special nd_type nd_net nd_list] in H. binv H.
  assert (B : readable x = true) by (eapply (otype_rd _ _ (Some (EId w))); [exact W|exact G|apply word_rd; exact Ww|exact Hx]).
  assert (K : Forall (fun v => forall y, (nm <- ident_str (ni_name v) ;; z <- conv_opt conv (ni_value v) ;; t' <- apply_udims x (ni_dims v) ;; Ok (new_var nm t' z)) = Ok y -> rd1 y) l).
  { eapply Forall_impl; [|exact (commas_all _ _ _ Wl Gl)]. cbn beta. intros v (ts' & W' & G') y E. destruct W' as [i ds e F P]. mgoods. cbn [ni_name ni_value ni_dims] in E. repeat binv E. injection E as <-.
    apply new_rd; [eapply name_send; eassumption| |eapply value_rd; eassumption]. apply type_of. eapply (udims_rd ds); [|exact B|eassumption]. apply (rngs_good rng_ok); [trivial|exact F|assumption]. }
  destruct K as [|v l Kv K]; [injection H as <-; constructor|]. binv H. binv H. injection H as <-. constructor; [exact (Kv _ Hx0)|]. refine (mapM_all _ _ _ _ _ Hx1). eapply Forall_impl; [|exact K]. cbn beta. intros v' Kv' y E. binv E. rewrite (clone_id _ _ Hx2) in E. exact (Kv' _ E).
Qed.
Lemma genvar_rd l ts r : w_commas w_ident l ts -> Forall good_m ts -> mapM conv_genvar l = Ok r -> Forall rd1 r.
Proof.
  intros W G. apply mapM_all. eapply Forall_impl; [|exact (commas_all _ _ _ W G)]. cbn beta. intros i (ts' & -> & G') y H. unfold conv_genvar in H. binv H. injection H as <-. mgoods. assert (sendable_text x = true) by (eapply name_send; eassumption). repeat split; assumption.
Qed.
(** ** Ports of the header *)
Definition ob (b : option expr) : Prop := match b with Some x => readable x = true | None => True end.
Lemma ansi_rd p ts pd pt r : w_ansi p ts -> Forall good_m ts -> ob pt -> conv_ansi pd pt (snd p) = Ok r -> rd0 (fst (fst r)) /\ d_dir (fst (fst r)) = snd (fst r) /\ ob (snd r)
  /\ (known_dir pd = true \/ (exists d t v, snd p = AN_port (Some d) t v) -> known_dir (snd (fst r)) = true).
Proof.
  intros W G O H. destruct W as [d t v tt ts D Wt Wv]. mgoods. cbn [snd conv_ansi] in H. binv H. binv H.
  assert (B : readable (fst x) = true).
  { destruct t as [t|]; cbn [option_map] in Hx; [exact (nvtype_rd _ _ _ Wt ltac:(assumption) Hx)|]. destruct d as [d|]; [injection Hx as <-; reflexivity|]. destruct pt as [b|]; [|injection Hx as <-; reflexivity]. binv Hx. injection Hx as <-. cbn [fst]. rewrite (clone_id _ _ Hx1). exact O. }
  pose proof (dims_rd _ _ B (vitem_dims _ _ _ Wv ltac:(assumption) Hx0)) as [K1 K2]. destruct (apply_dims (fst x) x0) as [b t']. cbn [fst snd] in *. binv H. injection H as <-. cbn [fst snd]. destruct (vitem_rd _ _ _ _ _ _ K2 Wv ltac:(assumption) Hx1) as [V1 V2].
  repeat split; try assumption; try apply V1. intros [K|(d' & t'' & v' & E)]; [destruct d as [[]|]; try reflexivity; exact K|]. injection E as -> _ _. destruct d'; reflexivity.
Qed.
Lemma ansis_rd l ts : w_commas w_ansi l ts -> Forall good_m ts -> forall pd pt r, ob pt -> conv_ansi_list pd pt (map snd l) = Ok r ->
  Forall rd0 r /\ (known_dir pd = true \/ (exists d t v l', map snd l = AN_port (Some d) t v :: l') -> Forall rd1 r) /\ length r = length l.
Proof.
  intros W G. pose proof (commas_all _ _ _ W G) as F. clear W G. induction F as [|p l (ts' & W & G) F IH]; intros pd pt r O H; [injection H as <-; repeat split; constructor|]. cbn [map conv_ansi_list] in H. binv H. destruct (ansi_rd _ _ _ _ _ W G O Hx) as (K1 & K2 & K3 & K4). destruct x as [[y d] b]. cbn [fst snd] in *. binv H. injection H as <-.
  destruct (IH _ _ _ K3 Hx0) as (L1 & L2 & L3). repeat split; [constructor; assumption| |cbn [length]; rewrite L3; reflexivity]. intros K. assert (D : known_dir d = true) by (apply K4; destruct K as [K|(d' & t' & v' & l' & E)]; [left; exact K|right; cbn [map] in E; injection E as -> _; eauto]).
  constructor; [split; [exact K1|rewrite K2; exact D]|]. apply L2. left. exact D.
Qed.
Lemma no_docs l ts : w_commas w_ansi l ts -> Forall good_m ts -> forall ats ps, mapM (fun x => mapM conv_attr (snd (fst x))) l = Ok ats -> length ps = length l -> Forall rd0 ps ->
  map (fun x => more_attrs (snd (snd x)) (set_doc (fst x) (fst (snd x)))) (combine ps (combine (map (fun x => fst (fst x)) l) ats)) = ps.
Proof.
  intros W G. pose proof (commas_all _ _ _ W G) as F. clear W G. induction F as [|p l (ts' & W & G) F IH]; intros ats ps H L R; [destruct ps; [reflexivity|discriminate]|]. destruct ps as [|q ps]; [discriminate|].
  change (bind (mapM conv_attr (snd (fst p))) (fun y => bind (mapM (fun x => mapM conv_attr (snd (fst x))) l) (fun r => Ok (y :: r))) = Ok ats) in H. repeat binv H. injection H as <-. inversion R as [|? ? Rq Rl]; subst. cbn [map combine fst snd]. f_equal; [|apply IH; [exact Hx0|cbn in L; lia|exact Rl]].
  destruct W as [d t v tt tv D Wt Wv]. cbn [fst snd] in *. injection Hx as <-. destruct Rq as (_ & Rd & Ra & _). unfold more_attrs, set_doc. destruct q. cbn in *. subst. reflexivity.
Qed.
Lemma hports_rd p ts r : w_ports p ts -> Forall good_m ts -> conv_hports p = Ok r -> Forall rd0 r /\ (first_dir p = true -> Forall rd1 r).
Proof.
  intros W G H. assert (K : Forall rd1 r -> Forall rd0 r /\ (first_dir p = true -> Forall rd1 r)) by (intros K; split; [eapply Forall_impl; [|exact K]; intros d [D _]; exact D|trivial]).
  destruct W as [| | |l ts W|p l ts Hd W]; cbn [conv_hports] in H; try (injection H as <-; apply K; repeat constructor).
  - apply K. mgoods. refine (concatM_all _ _ _ _ _ H). eapply Forall_impl; [|eapply commas_all; eassumption]. cbn beta. intros o (ts' & W' & G') y E. destruct W' as [i]. mgoods. binv E. injection E as <-. constructor; [|constructor]. cbn [conv_naport] in Hx. unfold conv_dotted in Hx. cbn [do_name do_member do_dims] in Hx. binv Hx. binv Hx0. injection Hx0 as <-.
    unfold visit_ident in Hx1. binv Hx1. injection Hx1 as <-. injection Hx as <-. assert (sendable_text x0 = true) by (eapply name_send; eassumption). repeat split; assumption.
  - mgoods. repeat binv H. destruct (ansis_rd _ _ W ltac:(assumption) DIR_UNKNOWN None _ Logic.I Hx) as (L1 & L2 & L3). rewrite (no_docs _ _ W ltac:(assumption) _ _ Hx0 L3 L1) in H. injection H as <-. split; [exact L1|]. intros F. apply L2. right. destruct p as [[d a] [o t v|]]; [|inversion W; subst; match goal with X : w_ansi _ _ |- _ => inversion X end]. destruct o as [o|]; [|discriminate]. cbn [map snd]. eauto.
Qed.
(** ** Instances *)
Definition inst_rd (c : compinst) : Prop := readable_obj (B_inst c [] []) = true.
Lemma pexp_rd (v : option vexpr) x : opt_proper v -> Forall good_m (opt_ys v) -> conv_or_null conv_pexp (option_map PE_expr v) = Ok x -> readable x = true.
Proof. intros P G H. destruct v as [e|]; cbn [option_map conv_or_null conv_pexp opt_proper opt_ys] in *; [rdy|injection H as <-; reflexivity]. Qed.
Lemma oconn_rd (v : option vexpr) x : opt_proper v -> Forall good_m (opt_ys v) -> conv_or_null conv v = Ok x -> readable x = true.
Proof. intros P G H. destruct v as [e|]; cbn [conv_or_null opt_proper opt_ys] in *; [rdy|injection H as <-; reflexivity]. Qed.
Lemma gvalues_rd g ts r : w_gvalues g ts -> Forall good_m ts -> match g with Some g => conv_gvalues g | None => Ok [] end = Ok r -> forallb readable r = true.
Proof.
  intros W G H. destruct W as [| |l ts W|l ts W]; try (injection H as <-; reflexivity); apply Forall_readable; mgoods; cbn [conv_gvalues] in H; refine (mapM_all _ _ _ _ _ H); (eapply Forall_impl; [|eapply commas_all; eassumption]); cbn beta; intros p (ts' & W' & G') y E.
  - destruct W' as [e P]. cbn [conv_pexp] in E. rdy.
  - destruct W' as [i v P]. mgoods. cbn [fst snd] in E. repeat binv E. injection E as <-. apply mk2_readable; [eapply visit_rd; eassumption|]. eapply pexp_rd; eassumption.
Qed.
Lemma conns_rd c ts r : w_conns c ts -> Forall good_m ts -> conv_conns c = Ok r -> forallb readable r = true.
Proof.
  intros W G H. apply Forall_readable. destruct W as [l ts W|l ts W]; cbn [conv_conns] in H; refine (mapM_all _ _ _ _ _ H); (eapply Forall_impl; [|eapply commas_all; eassumption]); cbn beta; intros p (ts' & W' & G') y E.
  - destruct W' as [v P]. eapply oconn_rd; eassumption.
  - destruct W' as [|i|i v P]; mgoods; cbn [conv_nconn] in E; [injection E as <-; reflexivity| |]; repeat binv E; injection E as <-; (apply mk2_readable; [eapply visit_rd; eassumption|]); [reflexivity|eapply oconn_rd; eassumption].
Qed.
Lemma hinst_rd n g h ts c : readable (EId n) = true -> forallb readable g = true -> w_hinst h ts -> Forall good_m ts -> conv_hinst n g h = Ok c -> inst_rd c /\ ci_generics c = g.
Proof.
  intros N Rg W G H. destruct W as [i ds k ts F W]. mgoods. unfold conv_hinst in H. cbn [hi_name hi_dims hi_conns] in H. repeat binv H. injection H as <-. split; [|reflexivity]. unfold inst_rd. cbn [readable_obj ci_name ci_module ci_generics ci_ports].
  rewrite N, Rg, (conns_rd _ _ _ W ltac:(assumption) Hx1). rewrite (udims_rd ds (rngs_good rng_ok ds (fun _ H => H) F ltac:(assumption)) _ _ (visit_rd _ _ ltac:(eassumption) Hx) Hx0). reflexivity.
Qed.
Lemma insts_rd i ts r : w_inst i ts -> Forall good_m ts -> conv_inst i = Ok r -> Forall inst_rd r.
Proof.
  intros W G H. destruct W as [i g l gs ts Wg W]. mgoods. unfold conv_inst in H. cbn [in_params in_list in_module] in H. binv H.
  assert (N : readable (EId (raw_text i)) = true) by (apply word_rd; assert (K : good (id_tok i)) by assumption; pose proof (text_good i K) as T; exact T).
  pose proof (gvalues_rd _ _ _ Wg ltac:(assumption) Hx) as Rg. pose proof (commas_all _ _ _ W ltac:(assumption)) as F. destruct F as [|h l (ts' & W' & G') F]; [injection H as <-; constructor|]. binv H. binv H. injection H as <-.
  destruct (hinst_rd _ _ _ _ _ N Rg W' G' Hx0) as [K1 K2]. constructor; [exact K1|]. refine (mapM_all _ _ _ _ _ Hx1). eapply Forall_impl; [|exact F]. cbn beta. intros h' (ts2 & W2 & G2) y E. binv E. rewrite (clones_id _ _ Hx2), K2 in E. exact (proj1 (hinst_rd _ _ _ _ _ N Rg W2 G2 E)).
Qed.

(** ** Items *)
Definition so (o : sobj) : Prop := match o with SO_id d => rd1 d | _ => readable_obj (PyTreeModel.of_sobj o) = true end.
Lemma so_rd o : so o -> readable_obj (PyTreeModel.of_sobj o) = true.
Proof. destruct o; trivial. apply rd1_def. Qed.
Lemma sos_rd l : Forall so l -> forallb readable_obj (map PyTreeModel.of_sobj l) = true.
Proof. intros F. apply all_rd. eapply Forall_impl; [|exact F]. exact so_rd. Qed.
Lemma cont_rd l ts r : w_inits l ts -> Forall good_s ts -> conv_cont_assign l = Ok r -> Forall (fun s => readable_obj (of_stm s) = true) r.
Proof.
  intros W G. unfold conv_cont_assign. apply mapM_all. eapply Forall_impl; [|exact (inits_rd _ _ W G)]. cbn beta. intros p K y H. binv H. destruct (K _ Hx) as [R (h & d & x' & t & e & b & ->)]. injection H as <-. exact R.
Qed.
Section Gen.
Context (same : bool).
Lemma leaf_rd l ts r : w_leaf same l ts -> Forall good_m ts -> conv_gleaf l = Ok r -> Forall so (fst r) /\ Forall rd1 (snd r).
Proof.
  intros W G H. destruct W; cbn [conv_gleaf] in H; try (injection H as <-; repeat constructor; fail); mgoods; binv H; injection H as <-; cbn [fst snd]; (split; [|try (constructor; fail)]); try (constructor; fail).
  - eapply pbody_rd; eassumption.
  - apply Forall_map. eapply local_rd; eassumption.
  - apply Forall_map. eapply genvar_rd; eassumption.
  - apply Forall_map. eapply cont_rd; [eassumption| |eassumption]. apply good_Y. assumption.
  - apply Forall_map. eapply net_rd; [eassumption|eassumption|eassumption| | |eassumption]; assumption.
  - apply Forall_map. eapply data_rd; [eassumption|eassumption| | |eassumption]; assumption.
  - apply Forall_cons; [|constructor]. eapply always_rd; [eassumption| |eassumption]. apply good_Y. assumption.
  - apply Forall_cons; [|constructor]. eapply initial_rd; [eassumption| |eassumption]. apply good_Y. assumption.
  - apply Forall_map. eapply insts_rd; eassumption.
Qed.
Lemma pop_rd l : Forall so l -> readable_obj (PyTreeModel.of_sobj (pop_block l)) = true.
Proof. intros F. pose proof (sos_rd l F) as R. destruct F as [|o [|]]; [reflexivity|apply so_rd; assumption|]. exact R. Qed.
Lemma hdr_pre b h : readable_hdr (set_pre b h) = readable_hdr h. Proof. reflexivity. Qed.
Lemma mark_rd b o : so o -> so (mark b o).
Proof. destruct o; cbn [mark so PyTreeModel.of_sobj readable_obj]; rewrite ?hdr_pre; trivial. destruct s; trivial. Qed.
Lemma gcollapse_rd o x : so o -> collapse o = Ok x -> so x.
Proof.
  intros R H. destruct o as [| | | | | |h c t l [f|]|]; try (injection H as <-; exact R). destruct f as [| | | | | |h2 c2 t2 l2 f2|]; try (injection H as <-; exact R).
  cbn [collapse] in H. destruct (Bool.eqb _ _); [|discriminate]. injection H as <-. cbn [so PyTreeModel.of_sobj readable_obj] in R. apply andb_prop in R as [R Rf]. apply andb_prop in R as [R Rl]. apply andb_prop in R as [R Ra]. apply andb_prop in R as [Rh Rc].
  apply andb_prop in Rf as [Rf Rf2]. apply andb_prop in Rf as [Rf Rl2]. apply andb_prop in Rf as [Rf Ra2]. apply andb_prop in Rf as [Rh2 Rc2]. apply branches_inv in Rl, Rl2.
  cbn [so PyTreeModel.of_sobj readable_obj]. rewrite Rc, Ra, Rf2, !andb_true_r. apply andb_true_intro. split.
  - unfold readable_hdr in *. cbn [doc labels attrs]. apply andb_prop in Rh as [Rh Rat]. apply andb_prop in Rh as [Rd Rlb]. rewrite Rat, Rlb. rewrite !andb_true_r. apply andb_prop in Rh2 as [Rh2 _]. apply andb_prop in Rh2 as [Rd2 _]. unfold join_doc.
    destruct (doc h2) as [|b1 d2] eqn:E2; [exact Rd|]. destruct (doc h) as [|b2 d1] eqn:E1; [exact Rd2|]. apply sendable_app; [exact Rd|]. apply (sendable_app [nl]); [reflexivity|exact Rd2].
  - apply branches_rd. apply Forall_app. split; [exact Rl|]. constructor; [split; assumption|exact Rl2].
Qed.
Definition alt_rd (p : option expr * sobj) : Prop := opt_all readable (fst p) = true /\ readable_obj (PyTreeModel.of_sobj (snd p)) = true.
Lemma alts_rd l : Forall alt_rd l -> forall d r, match d with Some s => readable_obj (PyTreeModel.of_sobj s) = true | None => True end -> split_alts l d = Ok r ->
  Forall (fun p => readable (fst p) = true /\ readable_obj (PyTreeModel.of_sobj (snd p)) = true) (fst r) /\ match snd r with Some s => readable_obj (PyTreeModel.of_sobj s) = true | None => True end.
Proof.
  induction 1 as [|[[e|] s] l [H1 H2] _ IH]; intros d r D H; cbn [split_alts] in H.
  - injection H as <-. split; [constructor|exact D].
  - binv H. injection H as <-. destruct (IH d _ D Hx) as [A B]. split; [constructor; [split; assumption|exact A]|exact B].
  - destruct d; [discriminate|]. exact (IH (Some s) r H2 H).
Qed.
Lemma opt_name_rd i r : Forall good_m (match i with Some i => [idt i] | None => [] end) -> opt_ident i = Ok r -> forallb sendable_text r = true.
Proof. intros G H. destruct i as [i|]; [|injection H as <-; reflexivity]. cbn [opt_ident] in H. binv H. injection H as <-. mgoods. cbn [forallb]. rewrite (name_send _ _ ltac:(eassumption) Hx). reflexivity. Qed.
Lemma yname_good n : Forall good_m (yname n) -> Forall good_m (match n with Some i => [idt i] | None => [] end).
Proof. destruct n as [i|]; [|constructor]. intros G. inversion G as [|? ? _ G']. exact G'. Qed.
Lemma pre_good n : Forall good_m (pre_toks n) -> Forall good_m (match n with Some i => [idt i] | None => [] end).
Proof. destruct n as [i|]; [|constructor]. intros G. inversion G as [|? ? G' _]. constructor; [exact G'|constructor]. Qed.
Lemma ginit_rd i ts x : w_ginit i ts -> Forall good_m ts -> conv_ginit i = Ok x -> so x.
Proof.
  intros W G H. destruct W as [g i e P]. mgoods. unfold conv_ginit in H. cbn [gi_value gi_genvar gi_name gi_doc] in H. binv H. assert (R : readable x0 = true) by rdy. destruct g.
  - binv H. injection H as <-. assert (sendable_text x1 = true) by (eapply name_send; eassumption). repeat split; try assumption.
  - binv H. binv H. injection H as <-. assert (R1 : readable x1 = true) by (eapply visit_rd; eassumption). cbn [so PyTreeModel.of_sobj]. eapply mk_assign_rd; [| | | | |exact Hx1]; first [exact R1|exact R|reflexivity].
Qed.
Lemma gstep_rd s ts x : w_gstep s ts -> Forall good_m ts -> conv_gstep s = Ok x -> readable_obj (of_stm x) = true.
Proof.
  intros W G H. destruct W; mgoods; cbn [conv_gstep] in H; repeat binv H; injection H as <-; cbn [of_stm readable_obj readable_leaf].
  - apply mk2_readable; [eapply visit_rd; eassumption|rdy].
  - apply op1_readable. eapply visit_rd; eassumption.
  - apply op1_readable. eapply visit_rd; eassumption.
Qed.
Lemma one_rd l o : Forall so l -> the_one l = Ok o -> readable_obj (PyTreeModel.of_sobj o) = true.
Proof. intros F H. destruct F as [|x [|]]; try discriminate. injection H as <-. apply so_rd. assumption. Qed.
Theorem gens_rd :
  (forall g ts, w_gen same g ts -> Forall good_m ts -> forall r, conv_gitem g = Ok r -> Forall so r) /\
  (forall l ts, w_gens same l ts -> Forall good_m ts -> forall r, concatM conv_gitem l = Ok r -> Forall so r) /\
  (forall l ts, w_gcases same l ts -> Forall good_m ts -> forall r, concatM (conv_alt conv_gitem) l = Ok r -> Forall alt_rd r).
Proof.
  apply (w_gen_mutind same (fun g ts _ => Forall good_m ts -> forall r, conv_gitem g = Ok r -> Forall so r)
    (fun l ts _ => Forall good_m ts -> forall r, concatM conv_gitem l = Ok r -> Forall so r)
    (fun l ts _ => Forall good_m ts -> forall r, concatM (conv_alt conv_gitem) l = Ok r -> Forall alt_rd r)).
  - intros l ts W G r H. cbn [conv_gitem] in H. binv H. injection H as <-. exact (proj1 (leaf_rd _ _ _ W G Hx)).
  - intros p n m l ts _ Wl IH G r H. cbn [conv_gitem] in H. repeat binv H. injection H as <-. mgoods. constructor; [|constructor]. cbn [so PyTreeModel.of_sobj readable_obj]. rewrite (sos_rd _ (IH ltac:(assumption) _ Hx)). unfold readable_hdr. cbn [doc labels attrs].
    rewrite !forallb_app, (opt_name_rd _ _ (pre_good _ ltac:(eassumption)) Hx0), (opt_name_rd _ _ (yname_good n ltac:(eassumption)) Hx1), (opt_name_rd _ _ (yname_good m ltac:(eassumption)) Hx2). reflexivity.
  - intros l ts Wl IH G r H. cbn [conv_gitem] in H. binv H. injection H as <-. mgoods. apply Forall_map. eapply Forall_impl; [|exact (IH ltac:(assumption) _ Hx)]. intros o. apply mark_rd.
  - intros i c s b is ss ts Wi Pc Ws Wb IH G r H. cbn [conv_gitem] in H. repeat binv H. injection H as <-. mgoods. constructor; [|constructor]. cbn [so PyTreeModel.of_sobj readable_obj map forallb].
    rewrite (so_rd _ (ginit_rd _ _ _ Wi ltac:(assumption) Hx)), (ys_rd c _ Pc ltac:(assumption) Hx0), (gstep_rd _ _ _ Ws ltac:(assumption) Hx1), (pop_rd _ (IH ltac:(assumption) _ Hx2)). reflexivity.
  - intros c t ts Pc Wt IH G r H. cbn [conv_gitem] in H. repeat binv H. injection H as <-. injection Hx1 as <-. mgoods. constructor; [|constructor]. refine (gcollapse_rd _ _ _ Hx2). cbn [so PyTreeModel.of_sobj readable_obj map forallb].
    rewrite (ypar_rd c _ Pc ltac:(assumption) Hx), (pop_rd _ (IH ltac:(assumption) _ Hx0)). reflexivity.
  - intros c t e ts es Pc Wt IH _ We IHe G r H. cbn [conv_gitem] in H. repeat binv H. injection H as <-. binv Hx1. injection Hx1 as <-. mgoods. constructor; [|constructor]. refine (gcollapse_rd _ _ _ Hx2). cbn [so PyTreeModel.of_sobj readable_obj map forallb].
    rewrite (ypar_rd c _ Pc ltac:(assumption) Hx), (pop_rd _ (IH ltac:(assumption) _ Hx0)), (pop_rd _ (IHe ltac:(assumption) _ Hx3)). reflexivity.
  - intros e l ts Pe N Wl IH G r H. cbn [conv_gitem] in H. repeat binv H. injection H as <-. mgoods. constructor; [|constructor]. destruct (alts_rd _ (IH ltac:(assumption) _ Hx0) None _ Logic.I Hx1) as [A B]. cbn [so PyTreeModel.of_sobj readable_obj].
    rewrite (ypar_rd e _ Pe ltac:(assumption) Hx), (branches_rd PyTreeModel.of_sobj _ A). destruct (snd x1); [rewrite B|]; reflexivity.
  - intros _ r H. injection H as <-. constructor.
  - intros g l ts ts' Wg IHg Wl IHl G r H. mgoods. change (bind (conv_gitem g) (fun a => bind (concatM conv_gitem l) (fun r => Ok (a ++ r))) = Ok r) in H. repeat binv H. injection H as <-. apply Forall_app. split; [eapply IHg|eapply IHl]; eassumption.
  - intros _ r H. injection H as <-. constructor.
  - intros es g l ts ts' N P Wg IHg Wl IHl G r H. mgoods. change (bind (conv_alt conv_gitem (es, g)) (fun a => bind (concatM (conv_alt conv_gitem) l) (fun r => Ok (a ++ r))) = Ok r) in H. repeat binv H. injection H as <-. apply Forall_app. split; [|eapply IHl; eassumption].
    assert (F : Forall good_s (label_toks es)) by (apply good_Y; assumption). pose proof (labels_good es P F) as Fe. destruct es as [|e es]; [congruence|]. unfold conv_alt in Hx. cbn [fst snd] in Hx. refine (mapM_all _ _ _ _ _ Hx). eapply Forall_impl; [|exact Fe]. cbn beta. intros e' [Pe Ge] y E. repeat binv E. injection E as <-. unfold alt_rd. cbn [fst snd].
    pose proof (xs_rd e' _ Pe Ge Hx1) as R. rewrite (nn _ _ _ R). split; [exact R|]. eapply one_rd; [|exact Hx3]. eapply IHg; eassumption.
  - intros g l colon ts ts' _ Wg IHg Wl IHl G r H. mgoods. change (bind (conv_alt conv_gitem ([], g)) (fun a => bind (concatM (conv_alt conv_gitem) l) (fun r => Ok (a ++ r))) = Ok r) in H. repeat binv H. injection H as <-. apply Forall_app. split; [|eapply IHl; eassumption].
    unfold conv_alt in Hx. cbn [fst snd] in Hx. binv Hx. binv Hx. injection Hx as <-. constructor; [|constructor]. split; [reflexivity|]. cbn [snd]. eapply one_rd; [|eassumption]. eapply IHg; eassumption.
Qed.
(** ** Modules *)
Definition ro (o : mobj fobj) : Prop := match o with MO_id d => rd1 d | MO_other x => readable_obj (of_fobj x) = true end.
Lemma dress_nil o : dress [] [] o = o.
Proof.
  assert (H : forall h, dress_hdr [] [] h = h) by (intros []; unfold dress_hdr; cbn; rewrite app_nil_r; reflexivity).
  assert (K : forall h, dress_nhdr [] [] h = h) by (intros []; unfold dress_nhdr; cbn; rewrite app_nil_r; reflexivity).
  assert (D : forall d, more_attrs [] (set_doc d ([] ++ d_doc d)) = d) by (intros []; unfold more_attrs, set_doc; cbn; rewrite app_nil_r; reflexivity).
  destruct o; cbn [dress]; rewrite ?H, ?K, ?D, ?app_nil_r; try reflexivity. f_equal. destruct s; cbn [set_hdr]; rewrite ?H; reflexivity.
Qed.
Lemma more_nil d : more_attrs [] d = d. Proof. destruct d. unfold more_attrs. cbn. rewrite app_nil_r. reflexivity. Qed.
Lemma mores_nil l : map (more_attrs []) l = l. Proof. rewrite (map_ext _ (fun d => d) more_nil). apply map_id. Qed.
Lemma add_nil o : add_attr [] o = o.
Proof. destruct o as [d|[d|d a x|m|m l]]; cbn [add_attr]; rewrite ?more_nil, ?app_nil_r; reflexivity. Qed.
Lemma adds_nil l : map (add_attr []) l = l. Proof. rewrite (map_ext _ (fun d => d) add_nil). apply map_id. Qed.
Lemma docs_nil l : doc_first [] l = l.
Proof. destruct l as [|[d|[d|d a x|m|m l']] l]; try reflexivity. cbn. f_equal. f_equal. destruct d. reflexivity. Qed.
Lemma news_nil {X} (l : list X) : new_attrs l [] = Ok []. Proof. destruct l; reflexivity. Qed.
Lemma so_ro l : Forall so l -> Forall ro (map of_sobj l).
Proof. intros F. apply Forall_map. eapply Forall_impl; [|exact F]. intros o K. destruct o; cbn [of_sobj ro of_fobj] in *; rewrite ?dress_nil; exact K. Qed.
Lemma top_rd g ts r : w_gen same g ts -> Forall good_m ts -> conv_top g = Ok r -> Forall so (fst r) /\ Forall rd1 (snd r).
Proof.
  intros W G H. assert (K : forall r, conv_gitem g = Ok r -> Forall so r) by (exact (proj1 gens_rd g ts W G)).
  destruct g as [l| | | | |]; unfold conv_top in H; [inversion W; subst; eapply leaf_rd; eassumption|..]; binv H; injection H as <-; (split; [exact (K _ Hx)|constructor]).
Qed.
Lemma update_rd (f : iddef -> iddef) n : (forall p, rd0 p -> rd0 (f p)) -> forall l r, Forall rd0 l -> update_port n f l = Some r -> Forall rd0 r.
Proof.
  intros K. induction l as [|p l IH]; intros r F H; [discriminate|]. inversion F as [|? ? Fp Fl]; subst. cbn [update_port] in H. destruct (seqb (d_name p) n); [injection H as <-; constructor; auto|].
  destruct (update_port n f l) as [r'|]; [|discriminate]. injection H as <-. constructor; [exact Fp|]. apply IH; [exact Fl|reflexivity].
Qed.
Lemma insert_rd d l : rd0 d -> Forall rd0 l -> Forall rd0 (insert_port d l).
Proof. intros D F. induction F as [|p l Fp F IH]; [apply Forall_cons; [exact D|constructor]|]. cbn [insert_port]. destruct l; [destruct (seqb _ _); (apply Forall_cons; [assumption|]); (apply Forall_cons; [assumption|constructor])|]. constructor; [exact Fp|exact IH]. Qed.
Lemma merged p d : rd0 p -> rd0 d -> rd0 (merge_decl p d).
Proof. intros (A & B & C & D & E) (A' & B' & C' & D' & E'). unfold rd0, merge_decl. cbn. rewrite B, B'. repeat split; try assumption. destruct (d_value d); assumption. Qed.
Lemma merged_var p d : rd0 p -> rd0 d -> rd0 (merge_var p d).
Proof. intros (A & B & C & D & E) (A' & B' & C' & D' & E'). unfold rd0, merge_var. cbn. rewrite B, B'. repeat split; try assumption. destruct (d_value d); assumption. Qed.
Lemma add_rd l d r : Forall rd0 l -> rd0 d -> add_decl l d = Ok r -> Forall rd0 r.
Proof.
  intros F D H. unfold add_decl in H. destruct (find_port (d_name d) l) as [p|]; [|injection H as <-; apply insert_rd; assumption].
  assert (K : match update_port (d_name d) (fun p => merge_decl p d) l with Some r => Ok r | None => UB "unreachable" end = Ok r) by (destruct (d_value d), (d_value p); (discriminate || exact H)).
  destruct (update_port _ _ l) as [r'|] eqn:E; [|discriminate]. injection K as <-. refine (update_rd _ _ _ _ _ F E). intros q Q. apply merged; assumption.
Qed.
Lemma adds_rd ds : forall l r, Forall rd0 l -> Forall rd0 ds -> foldM add_decl l ds = Ok r -> Forall rd0 r.
Proof. induction ds as [|d ds IH]; intros l r F D H; [injection H as <-; exact F|]. inversion D as [|? ? D1 D2]; subst. cbn [foldM] in H. binv H. exact (IH _ _ (add_rd _ _ _ F D1 Hx) D2 H). Qed.
Lemma consume_rd l : Forall ro l -> forall ports, Forall rd0 ports -> Forall rd0 (fst (consume ports l)) /\ Forall ro (snd (consume ports l)).
Proof.
  induction 1 as [|o l O F IH]; intros ports P; [split; [exact P|constructor]|]. destruct o as [v|x]; cbn [consume].
  - destruct (update_port (d_name v) (fun p => merge_var p v) ports) as [q|] eqn:E.
    + apply IH. refine (update_rd _ _ _ _ _ P E). intros p Q. apply merged_var; [exact Q|exact (proj1 O)].
    + specialize (IH _ P). destruct (consume ports l). cbn [fst snd] in *. destruct IH. split; [assumption|constructor; assumption].
  - specialize (IH _ P). destruct (consume ports l). cbn [fst snd] in *. destruct IH. split; [assumption|constructor; assumption].
Qed.
Lemma fill_rd d : rd0 d -> rd0 (fill_type d) /\ d_dir (fill_type d) = d_dir d.
Proof. intros (A & B & C & D & E). unfold fill_type. destruct (d_type d) eqn:T; (split; [|reflexivity]); unfold rd0; cbn; rewrite ?T; repeat split; assumption. Qed.
Lemma dirs_rd l : Forall rd0 l -> forall p, known_dir p = true -> Forall rd1 (fill_dirs p l).
Proof.
  induction 1 as [|d l D _ IH]; intros p P; [constructor|]. cbn [fill_dirs]. destruct (fill_rd d D) as [F1 F2]. destruct (is_unknown (d_dir d)) eqn:U; (constructor; [split|]).
  - apply port_rd0, F1.
  - exact P.
  - apply IH. exact P.
  - exact F1.
  - rewrite F2. destruct (d_dir d); (discriminate || reflexivity).
  - apply IH. destruct (d_dir d); (discriminate || reflexivity).
Qed.
Lemma fills_rd l : Forall rd1 l -> Forall rd1 (map fill_type l).
Proof. intros F. apply Forall_map. eapply Forall_impl; [|exact F]. intros d [D K]. destruct (fill_rd d D) as [F1 F2]. split; [exact F1|rewrite F2; exact K]. Qed.
Lemma mobjs_rd l : Forall ro l -> forallb readable_obj (map of_fobj (map of_mobj l)) = true.
Proof. intros F. rewrite map_map. apply all_rd. eapply Forall_impl; [|exact F]. intros [d|x] O; [apply rd1_def; exact O|exact O]. Qed.
Definition inv (st : mstate) : Prop := Forall rd1 (ms_generics st) /\ Forall rd0 (ms_ports st) /\ Forall ro (ms_objs st).
Lemma header_rd h p ts : w_header (h, p) ts -> Forall good_m ts -> good (id_tok (mh_name h)) /\ mh_doc h = [] /\
  (forall r, conv_header h = Ok r -> fst r = [] /\ Forall rd1 (snd r)) /\ (forall r, conv_hports p = Ok r -> Forall rd0 r /\ (first_dir p = true -> Forall rd1 r)).
Proof.
  intros W G. inversion W as [k i g p' gs ps Hk Wg Wp E1 E2]; subst. mgoods. cbn [mh_name mh_doc]. split; [assumption|]. split; [reflexivity|]. split.
  - intros r Hr. unfold conv_header in Hr. cbn [mh_attrs mh_params] in Hr. repeat binv Hr. injection Hx as <-. injection Hr as <-. split; [reflexivity|]. cbn [snd]. eapply plist_rd; eassumption.
  - intros r Hr. eapply hports_rd; eassumption.
Qed.
Lemma dec_rd i gs ps : good (id_tok i) -> Forall rd1 gs -> Forall rd1 ps -> readable_obj (of_mdec (mk_mdec (raw_text i) [] [] (map fill_type gs) ps)) = true.
Proof.
  intros G Hg Hp. destruct (text_good i G) as [_ T]. unfold of_mdec. cbn [readable_obj md_name md_doc md_attrs md_generics md_ports forallb]. rewrite (rd1_defs _ (fills_rd _ Hg)), (rd1_defs _ Hp).
  unfold readable_nhdr. cbn [n_name n_doc n_attrs]. change (raw_text i) with (ident_text i). rewrite (sendable_plain _ T). reflexivity.
Qed.
Notation known_items l := (forallb (fun i => match i with MT_module m => known_mod m | _ => true end) l).
Theorem modules_rd :
  (forall m ts, w_module same m ts -> Forall good_m ts -> known_mod m = true -> forall o, conv_mdecl m = Ok o -> readable_obj (of_fobj o) = true) /\
  (forall l ts, w_items same l ts -> Forall good_m ts -> known_items l = true -> forall st st', inv st -> foldM (run_mditem conv_mdecl) st l = Ok st' -> inv st').
Proof.
  apply (w_module_mutind same (fun m ts _ => Forall good_m ts -> known_mod m = true -> forall o, conv_mdecl m = Ok o -> readable_obj (of_fobj o) = true)
    (fun l ts _ => Forall good_m ts -> known_items l = true -> forall st st', inv st -> foldM (run_mditem conv_mdecl) st l = Ok st' -> inv st')).
  - intros h p l n hs ts Wh Wl IH _ G K o H. mgoods. destruct (header_rd _ _ _ Wh ltac:(assumption)) as (Hn & Hd & Hh & Hp). cbn [known_mod negb orb andb] in K. cbn [conv_mdecl] in H. binv H. binv H. binv H. destruct (Hh _ Hx) as [A1 A2]. destruct (Hp _ Hx0) as [B1 _].
    destruct (IH ltac:(assumption) K (mk_mstate (snd x) x0 []) x1) as (C1 & C2 & C3); [repeat split; [exact A2|exact B1|constructor]|exact Hx1|].
    pose proof (consume_rd _ C3 _ C2) as [D1 D2]. destruct (consume (ms_ports x1) (ms_objs x1)) as [ports objs]. cbn [fst snd] in *. injection H as <-. rewrite Hd, A1. cbn [of_fobj readable_obj md_name].
    rewrite (dec_rd _ _ _ Hn C1 (dirs_rd _ D1 DIR_INOUT eq_refl)), (mobjs_rd _ D2). destruct (text_good _ Hn) as [T1 T2]. cbn [opt_all]. change (raw_text (mh_name h)) with (ident_text (mh_name h)). rewrite (plain_id _ T1 T2). reflexivity.
  - intros h p hs Wh _ G K o H. mgoods. destruct (header_rd _ _ _ Wh ltac:(assumption)) as (Hn & Hd & Hh & Hp). cbn [known_mod negb orb forallb] in K. rewrite andb_true_r in K. cbn [conv_mdecl] in H. binv H. binv H. injection H as <-. destruct (Hh _ Hx) as [A1 A2]. destruct (Hp _ Hx0) as [_ B1]. rewrite Hd, A1. cbn [of_fobj].
    apply dec_rd; [exact Hn|exact A2|]. apply fills_rd. exact (B1 K).
  - intros _ _ st st' I H. injection H as <-. exact I.
  - intros i l ts ts' Wi Wl IH G K st st' (I1 & I2 & I3) H. mgoods. cbn [forallb] in K. apply andb_prop in K as [_ K]. cbn [foldM] in H. binv H. eapply IH; [assumption|exact K| |exact H]. destruct Wi as [l' ts W|g ts _ W]; cbn [run_mditem] in Hx.
    + binv Hx. injection Hx as <-. repeat split; try assumption. cbn [ms_objs]. apply Forall_app. split; [exact I3|]. apply so_ro. refine (proj1 gens_rd _ _ (w_g_region same _ _ W) _ _ Hx0). assumption.
    + binv Hx. rewrite !news_nil in Hx. cbn [bind] in Hx. rewrite mores_nil, adds_nil, docs_nil in Hx. injection Hx as <-. destruct (top_rd _ _ _ W ltac:(assumption) Hx0) as [T1 T2]. repeat split; cbn [ms_generics ms_ports ms_objs]; [apply Forall_app; split; assumption|assumption|apply Forall_app; split; [assumption|apply so_ro; exact T1]].
  - intros n l ts ts' Wn Wl IH G K st st' (I1 & I2 & I3) H. mgoods. cbn [forallb] in K. cbn [foldM] in H. binv H. eapply IH; [assumption|exact K| |exact H]. cbn [run_mditem] in Hx. binv Hx. binv Hx. injection Hx as <-. repeat split; try assumption. cbn [ms_ports].
    unfold conv_mports in Hx0. binv Hx0. rewrite news_nil in Hx0. cbn [bind] in Hx0. rewrite mores_nil in Hx0. injection Hx0 as <-. pose proof (nadecl_rd _ _ _ Wn ltac:(assumption) Hx) as F. destruct F as [|d ds D F]; cbn [add_decls] in Hx1; [injection Hx1 as <-; exact I2|].
    binv Hx1. refine (adds_rd _ _ _ _ _ Hx1); [|eapply Forall_impl; [|exact F]; intros q [Q _]; exact Q]. refine (add_rd _ _ _ I2 _ Hx0). destruct D as [(A & B & C & D & E) _]. repeat split; try assumption. cbn. destruct (find_port (d_name d) (ms_ports st)); reflexivity.
  - intros m l ts ts' Wm IHm Wl IH G K st st' (I1 & I2 & I3) H. mgoods. cbn [forallb] in K. apply andb_prop in K as [Km K]. cbn [foldM] in H. binv H. eapply IH; [assumption|exact K| |exact H]. cbn [run_mditem] in Hx. binv Hx. injection Hx as <-. repeat split; try assumption. cbn [ms_objs]. apply Forall_app. split; [exact I3|]. constructor; [|constructor].
    exact (IHm ltac:(assumption) Km _ Hx0).
Qed.
Theorem file_rd l ts r : w_file same l ts -> Forall good_m ts -> known_file l = true -> conv_source l = Ok r -> forallb readable_obj (map of_fobj r) = true.
Proof.
  intros W G K H. apply all_rd. revert K r H. induction W as [|m l ts ts' Wm W IH]; intros K r H; [injection H as <-; constructor|]. mgoods. cbn [known_file forallb] in K. apply andb_prop in K as [Km K].
  change (bind (bind (conv_mdecl m) (fun o => Ok [o])) (fun a => bind (conv_source l) (fun r => Ok (a ++ r))) = Ok r) in H. binv H. binv H. binv Hx. injection Hx as <-. injection H as <-. constructor; [exact (proj1 modules_rd _ _ Wm ltac:(assumption) Km _ Hx1)|]. apply IH; assumption.
Qed.
End Gen.
