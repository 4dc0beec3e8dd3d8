From Verif Require Import Base BaseFacts AstModel StmModel LitModel SvExprModel SvStmModel SvExprSpec SvExprProofs SvTypeModel SvDeclModel SvInstProofs SvDeclProofs VhdlExprModel VhdlExprSpec VhdlExprProofs VhdlStmModel VhdlStmSpec VhdlStmProofs VhdlDeclModel VhdlDeclSpec VhdlDeclProofs VhdlDecl2Proofs VhdlHierProofs VhdlElabProofs VhdlFileSpec.

Section File.
Context (A : halgebra) (M : hmachine A) (fuel : nat).
Notation hv := (hvmeaning A). Notation hm := (hmeaning A).
Notation dsame := (dsame A M). Notation same := (does_same A M).

Lemma part_ok l x : s_part l = Some x -> exists a, conv_nlit l = Ok a /\ m_part a = Some x /\ flatten a = [a].
Proof.
  destruct l as [s|t|t]; cbn [s_part conv_nlit]; intros H.
  - injection H as <-. eexists. repeat split.
  - oinv H. injection H as <-. rewrite (hv_string_ok _ _ Hv). eexists. repeat split.
  - oinv H. injection H as <-. rewrite (hv_char_ok _ _ Hv). eexists. repeat split.
Qed.
Lemma path_ok n : forall p, s_path n = Some p -> exists x, hconv n = Ok x /\ omapM m_part (flatten x) = Some p.
Proof.
  induction n; intros p H; cbn [s_path] in H; try discriminate.
  - oinv H. injection H as <-. destruct (part_ok _ _ Hv) as (a & Ha & Ma & Fa). exists a. split; [exact Ha|]. rewrite Fa. cbn [omapM]. rewrite Ma. reflexivity.
  - oinv H. oinv H. injection H as <-. destruct (IHn _ Hv) as (x & Hx & Mx). destruct (part_ok _ _ Hv0) as (a & Ha & Ma & Fa). eexists. split; [cbn [hconv]; rewrite Hx; cbn [bind]; rewrite Ha; reflexivity|].
    unfold op2. cbn [flatten flat_map]. rewrite Fa. apply homapM_app; [exact Mx|]. cbn [app omapM]. rewrite Ma. reflexivity.
  - oinv H. injection H as <-. destruct (IHn _ Hv) as (x & Hx & Mx). eexists. split; [cbn [hconv]; rewrite Hx; reflexivity|].
    unfold op2. cbn [flatten flat_map]. apply homapM_app; [exact Mx|reflexivity].
Qed.
Lemma uses_ok l r : omapM s_path l = Some r -> exists os, mapM conv_use l = Ok os /\ Forall2 (fun o p => exists e, o = O_import e /\ omapM m_part e = Some p) os r.
Proof.
  revert r. induction l as [|n l IH]; intros r H; cbn [omapM] in H.
  - injection H as <-. exists []. split; [reflexivity|constructor].
  - oinv H. oinv H. injection H as <-. destruct (path_ok _ _ Hv) as (x & Hx & Mx). destruct (IH _ Hv0) as (os & Ho & Mo). exists (O_import (flatten x) :: os). split.
    + change (mapM conv_use (n :: l)) with (y <- conv_use n ;; r <- mapM conv_use l ;; Ok (y :: r)). unfold conv_use at 1. rewrite Hx. cbn [bind]. rewrite Ho. reflexivity.
    + constructor; [eauto|exact Mo].
Qed.
Lemma objects_ok ns k t v l : s_objects A M ns k t v = Some l ->
  exists ty e x y, extract ns t v = Ok (map (fun n => new_iddef n ty e DIR_INTERNAL false) ns) /\ hm ty = Some x /\ om A e = Some y /\ l = map (fun n => M_object n k x y) ns.
Proof.
  unfold s_objects. intros H. oinv H. oinv H. injection H as <-. destruct (hv_ok A _ _ Hv) as (ty & Ht & Mt). destruct (opt_ok A _ _ Hv0) as (e & He & Me).
  exists ty, e, v0, v1. repeat split; try assumption. apply extract_eq; assumption.
Qed.
Lemma dsame_list l : Forall2 dsame l l <-> Forall (fun d => dsame d d) l.
Proof. split; intros H; induction l; constructor; inversion H; subst; auto. Qed.
Definition dgood (r : list hobj) (l : list (dmean A M)) : Prop := exists l', omapM (m_decl A M fuel) r = Some l' /\ Forall2 dsame l' l.
Lemma dgood_app r l r' l' : dgood r l -> dgood r' l' -> dgood (r ++ r') (l ++ l').
Proof. intros (a & H1 & H2) (b & H3 & H4). exists (a ++ b). split; [apply homapM_app; assumption|apply Forall2_app; assumption]. Qed.
Lemma dgood_1 o d : m_decl A M fuel o = Some d -> dsame d d -> dgood [o] [d].
Proof. intros H S. exists [d]. split; [cbn [omapM]; rewrite H; reflexivity|constructor; [exact S|constructor]]. Qed.
(** The conversions of the parts of a list. *)
Lemma decls_ok l : Forall (fun d => forall ms, s_decl A M fuel d = Some ms -> exists r, conv_decl false d = Ok r /\ dgood r ms) l ->
  forall ms, omapM (s_decl A M fuel) l = Some ms -> exists r, concatM (conv_decl false) l = Ok r /\ dgood r (List.concat ms).
Proof.
  induction l as [|d l IH]; intros F ms H; cbn [omapM] in H.
  - injection H as <-. exists []. split; [reflexivity|]. exists []. split; [reflexivity|constructor].
  - oinv H. oinv H. injection H as <-. inversion_clear F as [|? ? Fd Fl]. destruct (Fd _ Hv) as (a & Ha & Ga). destruct (IH Fl _ Hv0) as (b & Hb & Gb).
    exists (a ++ b). split; [apply concatM_cons; assumption|]. cbn [List.concat]. apply dgood_app; assumption.
Qed.
(** Declarations are no statements. *)
Definition is_stm (o : hobj) : bool := match o with O_stm _ => true | _ => false end.
Lemma m_decl_not_stm o d : m_decl A M fuel o = Some d -> is_stm o = false.
Proof. destruct o; try reflexivity. discriminate. Qed.
Lemma stms_of_map os : stms_of (map O_stm os) = Some os.
Proof. induction os as [|s os IH]; [reflexivity|]. cbn [map stms_of]. rewrite IH. reflexivity. Qed.
Lemma split_ok r ds os ks : omapM (m_decl A M fuel) r = Some ds -> omapM (mh_stm A M fuel) os = Some ks -> m_split A M fuel (m_decl A M fuel) (r ++ map O_stm os) = Some (ds, ks).
Proof.
  revert ds. induction r as [|o r IH]; intros ds H K; cbn [omapM] in H.
  - injection H as <-. cbn [app]. destruct os as [|s os]; [injection K as <-; reflexivity|]. cbn [map m_split]. change (O_stm s :: map O_stm os) with (map O_stm (s :: os)). rewrite stms_of_map. cbn [obind]. rewrite K. reflexivity.
  - oinv H. oinv H. injection H as <-. pose proof (m_decl_not_stm _ _ Hv) as Q. cbn [app].
    assert (m_split A M fuel (m_decl A M fuel) (o :: r ++ map O_stm os) = (d <~ m_decl A M fuel o ;; r <~ m_split A M fuel (m_decl A M fuel) (r ++ map O_stm os) ;; Some (d :: fst r, snd r))) as -> by (destruct o; try reflexivity; discriminate).
    rewrite Hv. cbn [obind]. rewrite (IH _ Hv0 K). reflexivity.
Qed.
Theorem decl_ok d : forall ms, s_decl A M fuel d = Some ms -> exists r, conv_decl false d = Ok r /\ dgood r ms.
Proof.
  induction d as [d K] using decl_ind'. intros ms H.
  destruct d as [ns t v|ns t k v|sh ns t v|n t|n t|n t e sg|s|s ds ss|n g ds|n ds|c|l|dr]; cbn [d_kids] in K.
  - cbn [s_decl conv_decl] in *. destruct (objects_ok _ _ _ _ _ H) as (ty & e & x & y & Hx & Mt & Me & ->). rewrite Hx. cbn [bind]. eexists. split; [reflexivity|]. rewrite map_map.
    exists (map (fun n => M_object n K_constant x y) ns). split; [|apply dsame_list, Forall_forall; intros d Hd; apply in_map_iff in Hd as (? & <- & _); constructor].
    rewrite omapM_map. apply omapM_pure. intros n. cbn [m_decl]. unfold m_object. cbn [d_alias set_const new_iddef d_type d_value d_name]. rewrite Mt. cbn [obind]. rewrite Me. reflexivity.
  - cbn [s_decl conv_decl] in *. destruct k; [discriminate|]. destruct (objects_ok _ _ _ _ _ H) as (ty & e & x & y & Hx & Mt & Me & ->). rewrite Hx. cbn [bind]. eexists. split; [reflexivity|]. rewrite map_map.
    exists (map (fun n => M_object n K_signal x y) ns). split; [|apply dsame_list, Forall_forall; intros d Hd; apply in_map_iff in Hd as (? & <- & _); constructor].
    rewrite omapM_map. apply omapM_pure. intros n. cbn [m_decl]. unfold m_object. cbn [d_alias new_iddef d_type d_value d_name]. rewrite Mt. cbn [obind]. rewrite Me. reflexivity.
  - cbn [s_decl conv_decl] in *. destruct (objects_ok _ _ _ _ _ H) as (ty & e & x & y & Hx & Mt & Me & ->). rewrite Hx. cbn [bind]. eexists. split; [reflexivity|]. rewrite map_map.
    exists (map (fun n => M_object n (K_variable sh) x y) ns). split; [|apply dsame_list, Forall_forall; intros d Hd; apply in_map_iff in Hd as (? & <- & _); constructor].
    rewrite omapM_map. apply omapM_pure. intros n. cbn [m_decl]. unfold m_object. cbn [d_alias set_shared set_latched new_iddef d_type d_value d_name]. rewrite Mt. cbn [obind]. rewrite Me. reflexivity.
  - cbn [s_decl] in H. oinv H. injection H as <-. destruct (tdecl_sim A false _ _ Hv) as (o & Ho & Mo). exists [o]. split; [exact Ho|]. apply dgood_1; [|constructor].
    destruct o; try discriminate. cbn [m_decl]. rewrite Mo. reflexivity.
  - cbn [s_decl] in H. oinv H. injection H as <-. destruct (tdecl_sim A false _ _ Hv) as (o & Ho & Mo). exists [o]. split; [exact Ho|]. apply dgood_1; [|constructor].
    destruct o; try discriminate. cbn [m_decl]. rewrite Mo. reflexivity.
  - cbn [s_decl conv_decl] in *. destruct sg; [discriminate|]. oinv H. oinv H. injection H as <-. destruct (hv_ok A _ _ Hv0) as (x & Hx & Mx). destruct t as [t|]; cbn [os] in Hv.
    + oinv Hv. injection Hv as <-. destruct (hv_ok A _ _ Hv1) as (y & Hy & My). rewrite Hy. cbn [bind]. rewrite Hx. cbn [bind]. eexists. split; [reflexivity|]. apply dgood_1; [|constructor].
      cbn [m_decl]. unfold m_object. cbn [d_alias set_alias new_iddef d_type d_value d_name]. rewrite Mx. destruct y; try discriminate; cbn [om]; rewrite My; reflexivity.
    + injection Hv as <-. cbn [bind]. rewrite Hx. cbn [bind]. eexists. split; [reflexivity|]. apply dgood_1; [|constructor]. cbn [m_decl]. unfold m_object. cbn [d_alias set_alias new_iddef d_type d_value d_name om obind]. rewrite Mx. reflexivity.
  - cbn [s_decl conv_decl] in *. oinv H. injection H as <-. unfold s_sub in Hv. destruct (keyworded_clause (sp_params s)) eqn:Kw; [|discriminate].
    destruct (subprog_sim A false _ s [] _ (or_intror Kw) Hv) as (o & Ho & Mo & Q). rewrite Ho. cbn [bind]. eexists. split; [reflexivity|]. apply dgood_1; [|constructor].
    destruct o; try contradiction. destruct Q as (-> & ->). change (negb false) with true in *. cbn [m_decl]. rewrite Mo. reflexivity.
  - cbn [s_decl] in H. oinv H. oinv H. oinv H. injection H as <-. unfold s_sub in Hv. destruct (keyworded_clause (sp_params s)) eqn:Kw; [|discriminate].
    destruct (decls_ok ds K _ Hv0) as (r & Hr & l' & Mr & Sr). destruct (stms_sim A M fuel ss _ Hv1) as (os & ks' & Ho & Mo & So).
    destruct (subprog_sim A true _ s [] _ (or_intror Kw) Hv) as (o1 & H1 & _). destruct (subprog_sim A true _ s (r ++ map O_stm os) _ (or_intror Kw) Hv) as (o & H2 & M2 & Q).
    cbn [conv_decl]. rewrite H1. cbn [bind]. rewrite Hr. cbn [bind]. rewrite Ho. cbn [bind]. rewrite H2. cbn [bind]. eexists. split; [reflexivity|].
    destruct o; try contradiction. destruct Q as (-> & ->). exists [M_body v l' ks']. split.
    + change (negb true) with false in *. cbn [omapM m_decl]. rewrite M2. cbn [obind]. rewrite (split_ok _ _ _ _ Mr Mo). reflexivity.
    + constructor; [|constructor]. constructor; assumption.
  - cbn [s_decl] in H. destruct g; [discriminate|]. oinv H. injection H as <-. destruct (decls_ok ds K _ Hv) as (r & Hr & l' & Mr & Sr). cbn [conv_decl]. rewrite Hr. cbn [bind]. eexists. split; [reflexivity|].
    exists [M_package n false l']. split; [cbn [omapM m_decl negb]; rewrite Mr; reflexivity|]. constructor; [|constructor]. constructor; assumption.
  - cbn [s_decl] in H. oinv H. injection H as <-. destruct (decls_ok ds K _ Hv) as (r & Hr & l' & Mr & Sr). cbn [conv_decl]. rewrite Hr. cbn [bind]. eexists. split; [reflexivity|].
    exists [M_package n true l']. split; [cbn [omapM m_decl negb]; rewrite Mr; reflexivity|]. constructor; [|constructor]. constructor; assumption.
  - cbn [s_decl] in H. oinv H. injection H as <-. unfold s_unit_interface in Hv. destruct (keyworded_clause (cp_generics c)) eqn:Kw; [|discriminate].
    destruct (component_sim A c _ Kw Hv) as (o & Ho & Mo). cbn [conv_decl]. rewrite Ho. cbn [bind]. eexists. split; [reflexivity|]. apply dgood_1; [|constructor].
    unfold conv_component in Ho. binv Ho. binv Ho. injection Ho as <-. cbn [m_decl]. rewrite Mo. reflexivity.
  - cbn [s_decl] in H. oinv H. injection H as <-. destruct (uses_ok _ _ Hv) as (os & Ho & F). cbn [conv_decl]. exists os. split; [exact Ho|]. exists (map M_use v). split.
    + clear Ho Hv. induction F as [|o p os r (e & -> & He) F IH]; [reflexivity|]. cbn [omapM map m_decl]. rewrite He. cbn [obind]. rewrite IH. reflexivity.
    + apply dsame_list, Forall_forall. intros d Hd. apply in_map_iff in Hd as (? & <- & _). constructor.
  - discriminate.
Qed.
Lemma decls_all l ms : s_decls A M fuel l = Some ms -> exists r, conv_decls false l = Ok r /\ dgood r ms.
Proof. unfold s_decls. intros H. oinv H. injection H as <-. apply decls_ok; [apply Forall_forall; intros; apply decl_ok; assumption|exact Hv]. Qed.

(** Leaves of architectures. *)
Notation csame := (csame A M).
Lemma m_leaf_decl o d : m_decl A M fuel o = Some d -> m_leaf A M fuel o = Some (C_decl d).
Proof. intros H. destruct o; try discriminate; unfold m_leaf; rewrite H; reflexivity. Qed.
Lemma m_leaves_decl r l : omapM (m_decl A M fuel) r = Some l -> omapM (m_leaf A M fuel) r = Some (map C_decl l).
Proof.
  revert l. induction r as [|o r IH]; intros l H; cbn [omapM] in *; [injection H as <-; reflexivity|]. oinv H. oinv H. injection H as <-. rewrite (m_leaf_decl _ _ Hv). cbn [obind]. rewrite (IH _ Hv0). reflexivity.
Qed.
Definition plain_stm (s : stm) : Prop := match s with SExpr h _ | SAssign h _ _ _ _ _ | SCase h _ _ _ _ _ => h = hdr0 | _ => False end.
Lemma stm_leaf lb s k k' : plain_stm s -> mh_stm A M fuel s = Some k' -> same k' k ->
  exists x, m_leaf A M fuel (match lb with Some l => label_obj l (O_stm s) | None => O_stm s end) = Some x /\ csame x (C_stm lb k).
Proof.
  intros P H E. exists (C_stm lb k'). split; [|constructor; exact E].
  assert (m_leaf A M fuel (match lb with Some l => label_obj l (O_stm s) | None => O_stm s end) = (k <~ mh_stm A M fuel (match lb with Some l => set_hdr (push_label l) s | None => s end) ;; Some (C_stm lb k))) as ->
    by (destruct s; try contradiction; cbn [plain_stm] in P; subst; destruct lb; reflexivity).
  rewrite (label_other A M fuel lb s) by (destruct s; try contradiction; reflexivity). rewrite H. reflexivity.
Qed.
Lemma mk_assign_plain d s t e b o : mk_assign hdr0 d s t e b = Ok o -> plain_stm o.
Proof. unfold mk_assign. destruct d, s; intros H; try discriminate; injection H as <-; reflexivity. Qed.
Lemma conc_plain c o : conv_conc c = Ok o -> plain_stm o.
Proof.
  destruct c; cbn [conv_conc]; unfold conv_select; intros H; repeat binv H; try (exact (mk_assign_plain _ _ _ _ _ _ H)). injection H as <-. reflexivity.
Qed.
Lemma sens_ok se x : hv_sens A se = Some x ->
  exists se', match se with HSens_none => Ok None | HSens_all => Ok (Some [ESym symb_ALL]) | HSens l => r <- mapM hconv l ;; Ok (Some r) end = Ok se' /\ m_sens A se' = Some x.
Proof.
  intros Hx. destruct se as [| |l0]; cbn [hv_sens] in Hx.
  - injection Hx as <-. eexists. split; reflexivity.
  - injection Hx as <-. eexists. split; reflexivity.
  - oinv Hx. injection Hx as <-. destruct (list_hconv A l0 v Hv) as (xs & -> & Hm). cbn [bind]. eexists. split; [reflexivity|].
    unfold m_sens. rewrite Hm. destruct xs as [|[| | | | |[]| | |] [|? ?]]; try reflexivity. discriminate.
Qed.
Lemma simple_ok lb s x : s_simple A M fuel lb s = Some x -> exists o x', conv_csimple false s = Ok o /\
  m_leaf A M fuel (match lb with Some l => label_obj l o | None => o end) = Some x' /\ csame x' x.
Proof.
  destruct s as [se ds ss e|n|c r sv|c]; cbn [s_simple conv_csimple]; intros H.
  - oinv H. oinv H. oinv H. injection H as <-. destruct (sens_ok _ _ Hv) as (se' & -> & Mse). cbn [bind]. destruct (decls_all _ _ Hv0) as (r & Hr & l' & Mr & Sr). rewrite Hr. cbn [bind].
    destruct (stms_sim A M fuel ss _ Hv1) as (os & ks' & Ho & Mo & So). rewrite Ho. cbn [bind]. exists (O_process hdr0 se' (r ++ map O_stm os)), (C_process lb v l' ks'). split; [reflexivity|]. split; [|constructor; assumption].
    destruct lb; cbn [label_obj m_leaf]; rewrite Mse; cbn [obind]; rewrite (split_ok _ _ _ _ Mr Mo); reflexivity.
  - oinv H. injection H as <-. destruct (pcall_sim A M n _ Hv) as (a & Ha & Ma). rewrite Ha. cbn [bind].
    destruct (stm_leaf lb (SExpr hdr0 a) (hact_ A M (hp_call M v)) _ eq_refl Ma (fun _ => eq_refl)) as (x & Hx & Sx). eauto 6.
  - oinv H. injection H as <-. destruct (hstm_sim A M fuel (HS None (J_assert c r sv)) _ Hv) as (o & Ho & _ & k' & Hk & Sk). rewrite Ho. cbn [bind].
    destruct (stm_leaf lb o v k') as (x & Hx & Sx); [|exact Hk|exact Sk|eauto 6]. cbn [conv_hstm conv_hitem] in Ho. repeat binv Ho. injection Ho as <-. repeat binv Hx. injection Hx as <-. reflexivity.
  - oinv H. injection H as <-. destruct (conc_sim A M fuel c _ Hv) as (o & Ho & _ & k' & Hk & Sk). rewrite Ho. cbn [bind].
    destruct (stm_leaf lb o v k' (conc_plain _ _ Ho) Hk Sk) as (x & Hx & Sx). eauto 6.
Qed.
Definition cgood (r : list hobj) (l : list (cmean A M)) : Prop := exists l', omapM (m_leaf A M fuel) r = Some l' /\ Forall2 csame l' l.
Theorem leaf_ok l ms : s_leaf A M fuel l = Some ms -> exists r, conv_leaf false l = Ok r /\ cgood r ms.
Proof.
  destruct l as [d|s]; cbn [s_leaf conv_leaf]; intros H.
  - oinv H. injection H as <-. destruct (decl_ok _ _ Hv) as (r & Hr & l' & Mr & Sr). exists r. split; [exact Hr|]. exists (map C_decl l'). split; [apply m_leaves_decl; exact Mr|].
    clear Mr Hr Hv. induction Sr; constructor; [constructor|]; assumption.
  - destruct s as [| l u gm pm| | | |lb p s]; try discriminate.
    + oinv H. injection H as <-. destruct (vinst_sim A l u gm pm _ Hv) as (o & Ho & Mo). cbn [conv_cstm]. rewrite Ho. cbn [bind]. eexists. split; [reflexivity|]. exists [C_instance v]. split; [|repeat constructor].
      unfold conv_vinst in Ho. repeat binv Ho. injection Ho as <-. cbn [omapM m_leaf]. rewrite Mo. reflexivity.
    + destruct p; [discriminate|]. oinv H. injection H as <-. destruct (simple_ok _ _ _ Hv) as (o & x' & Ho & Mo & So). cbn [conv_cstm]. rewrite Ho. cbn [bind]. eexists. split; [reflexivity|].
      exists [x']. split; [cbn [omapM]; rewrite Mo; reflexivity|constructor; [exact So|constructor]].
Qed.

(** Files. *)
Context (N : Type) (test : env N -> HV A -> bool) (range : env N -> HV A -> list N) (matches : env N -> HV A -> HV A -> bool).
Notation isame := (item_same A M N). Notation usame := (usame A M N).
Notation s_unit := (s_unit A M fuel N test range matches). Notation m_unit := (m_unit A M fuel N test range matches).
Lemma items_ok its : forall ms, omapM (s_item A M fuel N) its = Some ms -> exists os l', concatM (conv_item N false) its = Ok os /\ omapM (m_item A M fuel N) os = Some l' /\ Forall2 isame l' (List.concat ms).
Proof.
  induction its as [|[q l] its IH]; intros ms H; cbn [omapM] in H.
  - injection H as <-. exists [], []. repeat split; constructor.
  - oinv H. oinv H. injection H as <-. unfold s_item in Hv. cbn [fst snd] in Hv. oinv Hv. injection Hv as <-. destruct (leaf_ok _ _ Hv1) as (r & Hr & l' & Mr & Sr). destruct (IH _ Hv0) as (os & l2 & Ho & Mo & So).
    exists (map (fun x => (q, x)) r ++ os), (map (fun x => (q, x)) l' ++ l2). split; [|split].
    + apply concatM_cons; [|exact Ho]. unfold conv_item. cbn [fst snd]. rewrite Hr. reflexivity.
    + apply homapM_app; [|exact Mo]. rewrite omapM_map. clear - Mr. revert l' Mr. induction r as [|o r IH]; intros l' H; cbn [omapM] in *; [injection H as <-; reflexivity|].
      oinv H. oinv H. injection H as <-. unfold m_item at 1. cbn [fst snd]. rewrite Hv. cbn [obind]. rewrite (IH _ Hv0). reflexivity.
    + cbn [List.concat]. apply Forall2_app; [|exact So]. clear - Sr. induction Sr; constructor; [split; [reflexivity|assumption]|assumption].
Qed.
Lemma context_ok c ms : s_context A M N c = Some ms -> exists r, conv_citem c = Ok r /\ omapM m_unit r = Some ms.
Proof.
  destruct c as [l|l|l]; cbn [s_context conv_citem]; intros H; [| |discriminate].
  - injection H as <-. eexists. split; [reflexivity|]. rewrite omapM_map. apply omapM_pure. reflexivity.
  - oinv H. injection H as <-. destruct (uses_ok _ _ Hv) as (os & Ho & F). exists os. split; [exact Ho|]. clear Ho Hv. induction F as [|o p os r (e & -> & He) F IH]; [reflexivity|]. cbn [omapM map VhdlFileSpec.m_unit].
    rewrite He. cbn [obind]. rewrite IH. reflexivity.
Qed.
Lemma usame_refl_list l : (forall x, In x l -> usame x x) -> Forall2 usame l l.
Proof. induction l; intros H; constructor; [apply H; left; reflexivity|apply IHl; intros; apply H; right; assumption]. Qed.
Lemma contexts_ok cs : forall ms, omapM (s_context A M N) cs = Some ms -> exists r, concatM conv_citem cs = Ok r /\ omapM m_unit r = Some (List.concat ms) /\ Forall2 usame (List.concat ms) (List.concat ms).
Proof.
  induction cs as [|c cs IH]; intros ms H; cbn [omapM] in H.
  - injection H as <-. exists []. repeat split; constructor.
  - oinv H. oinv H. injection H as <-. destruct (context_ok _ _ Hv) as (a & Ha & Ma). destruct (IH _ Hv0) as (b & Hb & Mb & Sb). exists (a ++ b). split; [apply concatM_cons; assumption|]. cbn [List.concat]. split; [apply homapM_app; assumption|].
    apply Forall2_app; [|exact Sb]. apply usame_refl_list. intros x Hx. destruct c as [l|l|l]; cbn [s_context] in Hv; [injection Hv as <-|oinv Hv; injection Hv as <-|discriminate]; apply in_map_iff in Hx as (? & <- & _); constructor.
Qed.
(** Whether the statements in branches that are not taken are converted is not known from the meaning. *)
Theorem unit_ok u r x : conv_lunit false u = Ok r -> s_unit u = Some x -> exists o x', r = [o] /\ m_unit o = Some x' /\ usame x' x.
Proof.
  destruct u as [n g p ds ss|n of_ ds ss|n g ds|n ds|n|n|n]; cbn [VhdlFileSpec.s_unit]; intros C H; try discriminate.
  - destruct ss; [|discriminate]. oinv H. oinv H. injection H as <-. unfold s_unit_interface in Hv. destruct (keyworded_clause g) eqn:Kw; [|discriminate]. destruct (decls_all _ _ Hv0) as (l & Hl & l' & Ml & Sl).
    destruct (entity_sim A n g p ds [] _ Kw Hv (ex_intro _ l Hl)) as (o & Ho & Mo). rewrite Ho in C. injection C as <-. exists o, (U_entity v l'). split; [reflexivity|]. split; [|constructor; exact Sl].
    cbn [conv_lunit] in Ho. binv Ho. binv Ho. rewrite Hl in Ho. cbn [bind] in Ho. injection Ho as <-. cbn [VhdlFileSpec.m_unit]. rewrite Mo. cbn [obind]. rewrite Ml. reflexivity.
  - oinv H. oinv H. oinv H. injection H as <-. cbn [conv_lunit] in C. binv C. binv C. binv C. injection C as <-. destruct (hv_ok A _ _ Hv) as (y & Hy & My). rewrite Hx in Hy. injection Hy as <-.
    destruct (elabs_sim A N test range matches false [] [] ss x1 v0 Hx1 Hv0) as (os & Ho & Eo).
    pose proof (decls_items N false [] [] ds x0 Hx0) as Hd. pose proof (decls_atomic false ds x0 Hx0) as At.
    destruct (items_ok _ _ Hv1) as (os2 & l' & Ho2 & Mo2 & So2). assert (os2 = map (fun x => ([], [], x)) x0 ++ os) as ->.
    { enough (Ok os2 = Ok (map (fun x => ([], [], x)) x0 ++ os)) as E by (injection E as ->; reflexivity). rewrite <- Ho2. exact (concatM_app _ _ _ _ _ Hd Ho). }
    eexists _, (U_arch n v l'). split; [reflexivity|]. split; [|constructor; exact So2]. cbn [VhdlFileSpec.m_unit]. rewrite My. cbn [obind].
    rewrite (a_els_app A N test range matches [] [] x0 x1 _ _ (atomic_el A N test range matches [] [] x0 At) Eo). cbn [obind]. exact (f_equal (fun q => obind q (fun r => Some (U_arch n v r))) Mo2).
  - destruct g; [discriminate|]. oinv H. injection H as <-. destruct (decls_all _ _ Hv) as (l & Hl & l' & Ml & Sl). cbn [conv_lunit conv_decl] in C. unfold conv_decls in Hl. rewrite Hl in C. injection C as <-.
    eexists _, (U_package n false l'). split; [reflexivity|]. split; [|constructor; exact Sl]. cbn [VhdlFileSpec.m_unit]. rewrite Ml. reflexivity.
  - oinv H. injection H as <-. destruct (decls_all _ _ Hv) as (l & Hl & l' & Ml & Sl). cbn [conv_lunit conv_decl] in C. unfold conv_decls in Hl. rewrite Hl in C. injection C as <-.
    eexists _, (U_package n true l'). split; [reflexivity|]. split; [|constructor; exact Sl]. cbn [VhdlFileSpec.m_unit]. rewrite Ml. reflexivity.
Qed.
Theorem file_ok l : forall r f, conv_file false l = Ok r -> s_file A M fuel N test range matches l = Some f ->
  exists f', m_file A M fuel N test range matches r = Some f' /\ Forall2 usame f' f.
Proof.
  unfold conv_file, s_file, m_file. induction l as [|[c u] l IH]; intros r f C H.
  - injection C as <-. injection H as <-. exists []. split; [reflexivity|constructor].
  - apply concatM_inv in C as (a & b & Ca & Cb & ->). oinv H. injection H as <-. cbn [omapM] in Hv. oinv Hv. oinv Hv. injection Hv as <-.
    destruct (IH b (List.concat v1) Cb) as (fb & Mb & Sb); [rewrite Hv1; reflexivity|]. unfold conv_dunit in Ca. cbn [fst snd] in Ca. binv Ca. binv Ca. injection Ca as <-.
    unfold s_dunit in Hv0. cbn [fst snd] in Hv0. oinv Hv0. oinv Hv0. injection Hv0 as <-. destruct (contexts_ok _ _ Hv) as (rc & Hc & Mc & Sc). rewrite Hx in Hc. injection Hc as <-.
    destruct (unit_ok _ _ _ Hx0 Hv2) as (o & x' & -> & Mo & So). exists (List.concat v ++ [x'] ++ fb). split.
    + rewrite <- app_assoc. apply homapM_app; [exact Mc|]. cbn [app omapM]. rewrite Mo. cbn [obind]. rewrite Mb. reflexivity.
    + cbn [List.concat]. rewrite <- app_assoc. apply Forall2_app; [exact Sc|]. constructor; assumption.
Qed.
End File.
