(** Functions and tasks have the arguments, local declarations and behaviour of the source. *)
From Verif Require Import Base BaseFacts AstModel StmModel LitModel SvExprModel SvExprSpec SvExprProofs SvStmModel SvStmSpec SvStmProofs SvTypeModel SvDeclModel SvDeclSpec SvInstProofs SvDeclProofs SvTfModel SvTfSpec.

(** ** Arguments in parentheses *)
Lemma value_of v x : conv_opt conv v = Ok x -> value_is conv v x.
Proof. destruct v as [v|]; cbn [conv_opt]; intros H; [apply bind_inv in H as (y & Hy & H); injection H as <-; exact Hy|injection H as <-; exact I]. Qed.
Lemma ansi_args l : forall t r a, plain_args t l = true -> full_args (TD V_INPUT) t l = Some a -> mapM conv_tfport l = Ok r -> Forall2 arg_is a r.
Proof.
  induction l as [|p l IH]; intros t r a Hp Ha Hr.
  - injection Ha as <-. injection Hr as <-. constructor.
  - cbn [plain_args full_args] in Hp, Ha. apply andb_prop in Hp as (Hp & Hl). apply andb_prop in Hp as (Hd & Ht).
    change (bind (conv_tfport p) (fun y => bind (mapM conv_tfport l) (fun r => Ok (y :: r))) = Ok r) in Hr.
    apply bind_inv in Hr as (x & Hx & Hr). apply bind_inv in Hr as (r' & Hr' & Hr). injection Hr as <-.
    set (d' := match tp_dir p with Some x => x | None => TD V_INPUT end) in *.
    assert (d' = TD V_INPUT) as Hd' by (unfold d'; destruct (tp_dir p) as [[|[]]|]; try discriminate; reflexivity). rewrite Hd' in Ha. clearbody d'. clear Hd' d'.
    set (t' := match tp_type p, tp_dir p with Some x, _ => Some x | None, Some _ => None | None, None => t end) in *.
    assert (t' = tp_type p) as Et by (unfold t'; destruct (tp_type p), (tp_dir p), t; try discriminate; reflexivity).
    clearbody t'. subst t'. destruct (tp_name p) as [i|] eqn:En; [|discriminate]. destruct (full_args (TD V_INPUT) (tp_type p) l) as [a'|] eqn:Ea; [|discriminate]. injection Ha as <-.
    constructor; [|exact (IH _ _ _ Hl Ea Hr')]. unfold conv_tfport in Hx. apply bind_inv in Hx as (b & Hb & Hx). apply bind_inv in Hx as (ds & Hds & Hx).
    rewrite En in Hx. apply bind_inv in Hx as (n & Hn & Hx). apply bind_inv in Hx as (v & Hv & Hx). injection Hx as <-. cbn [arg_is new_iddef d_name d_dir d_type d_value dir_of].
    split; [exact Hn|]. split; [reflexivity|]. split; [exact (value_of _ _ Hv)|]. exists b, ds. split; [exact Hb|]. split; [exact Hds|reflexivity].
Qed.
Lemma ansi_dirs l r : mapM conv_tfport l = Ok r -> Forall (fun x => d_dir x = DIR_IN) r.
Proof.
  intros H. apply mapM_ok_in in H. induction H as [|p x l r Hp H IH]; [constructor|]. constructor; [|exact IH].
  unfold conv_tfport in Hp. repeat (apply bind_inv in Hp as (? & ? & Hp)). injection Hp as <-. reflexivity.
Qed.

(** ** Declarations of arguments *)
Lemma idlist_one b lat d v x : conv_idlist b lat d [v] = Ok [x] ->
  ident_str (vi_name v) = Ok (d_name x) /\ d_dir x = d /\ d_latched x = lat /\ value_is conv (vi_value v) (d_value x) /\ exists ls, conv_vdims (vi_dims v) = Ok ls /\ d_type x = snd (apply_dims b ls).
Proof.
  cbn [conv_idlist mapM]. intros H. apply bind_inv in H as (ls & Hl & H). destruct (apply_dims b ls) as (b', t) eqn:E. apply bind_inv in H as (y & Hy & H). cbn [bind] in H. injection H as ->.
  unfold conv_vitem in Hy. apply bind_inv in Hy as (n & Hn & Hy). apply bind_inv in Hy as (w & Hw & Hy). injection Hy as <-. cbn [set_port new_var new_iddef d_name d_dir d_latched d_value d_type].
  split; [exact Hn|]. split; [reflexivity|]. split; [reflexivity|]. split; [exact (value_of _ _ Hw)|]. exists ls. split; [exact Hl|]. rewrite E. reflexivity.
Qed.
Lemma idlist_nodims b lat d l r : forallb (fun v => match vi_dims v with [] => true | _ => false end) l = true -> conv_idlist b lat d l = Ok r -> Forall2 (fun v x => conv_idlist b lat d [v] = Ok [x]) l r.
Proof.
  intros Hd H. destruct l as [|v l]; [injection H as <-; constructor|]. cbn [forallb] in Hd. apply andb_prop in Hd as (Hv & Hd).
  cbn [conv_idlist] in H. apply bind_inv in H as (ds & Hds & H). destruct (vi_dims v) eqn:Ev; [|discriminate]. injection Hds as <-. cbn [apply_dims] in H.
  apply bind_inv in H as (x & Hx & H). apply bind_inv in H as (r' & Hr & H). injection H as <-. constructor.
  - cbn [conv_idlist mapM]. rewrite Ev. cbn [bind conv_vdims mapM apply_dims]. rewrite Hx. reflexivity.
  - apply mapM_ok_in in Hr. induction Hr as [|v' x' l r' Hv' Hr IH]; [constructor|]. cbn [forallb] in Hd. apply andb_prop in Hd as (Hv1 & Hd). constructor; [|exact (IH Hd)].
    apply bind_inv in Hv' as (c & Hc & Hv'). apply clone_e_same in Hc as ->. apply bind_inv in Hv' as (ds' & Hds' & Hv'). destruct (vi_dims v') eqn:Ev'; [|discriminate]. injection Hds' as <-. cbn [apply_dims snd] in Hv'.
    cbn [conv_idlist mapM]. rewrite Ev'. cbn [bind conv_vdims mapM apply_dims]. rewrite Hv'. reflexivity.
Qed.
Lemma tfdecl_each d t l r : plain_decl t l = true -> conv_tfdecl d false t l = Ok r -> Forall2 (fun v x => arg_is (Arg d t (vi_name v) (vi_dims v) (vi_value v)) x) l r.
Proof.
  unfold plain_decl, conv_tfdecl. intros Hp H. apply bind_inv in H as (b & Hb & H).
  assert (Forall2 (fun v x => conv_idlist b false (visit_tfdir d) [v] = Ok [x]) l r) as F.
  { apply orb_prop in Hp as [Hp|Hp]; [apply idlist_each; [exact (doi_open t None b Hp Hb)|exact H]|apply idlist_nodims; assumption]. }
  clear H Hp. induction F as [|v x l r Hv F IH]; [constructor|]. constructor; [|exact IH]. apply idlist_one in Hv as (H1 & H2 & H3 & H4 & ls & H5 & H6).
  split; [exact H1|]. split; [rewrite H2; destruct d as [|[]]; reflexivity|]. split; [exact H4|]. exists b, ls. split; [exact Hb|]. split; assumption.
Qed.

(** ** Items in order *)
Definition step1 (st : list iddef * list iddef) (i : ditem) : list iddef * list iddef :=
  match i with
  | DP x => (fst st, snd st ++ [x])
  | DB o => match update_port (d_name o) (with_type_value o) (snd st) with Some ps => (fst st, ps) | None => (fst st ++ [o], snd st) end
  end.
Lemma merge_fold l : forall objs ports, (let '(p, r) := merge_objs ports l in (objs ++ r, p)) = fold_left step1 (map DB l) (objs, ports).
Proof.
  induction l as [|o l IH]; intros objs ports; cbn [merge_objs map fold_left]; [rewrite app_nil_r; reflexivity|]. cbn [step1 fst snd].
  destruct (update_port (d_name o) (with_type_value o) ports) as [ps|]; [apply IH|]. rewrite <- IH. destruct (merge_objs ports l) as (p, r). rewrite <- app_assoc. reflexivity.
Qed.
Lemma ports_fold l : forall objs ports, (objs, ports ++ l) = fold_left step1 (map DP l) (objs, ports).
Proof.
  induction l as [|o l IH]; intros objs ports; cbn [map fold_left]; [rewrite app_nil_r; reflexivity|]. cbn [step1 fst snd]. rewrite <- IH, <- app_assoc. reflexivity.
Qed.
Lemma run_fold l : forall st st', foldM run_tfitem st l = Ok st' -> exists ds, concatM declares l = Ok ds /\ st' = fold_left step1 ds st.
Proof.
  induction l as [|i l IH]; intros st st' H; cbn [foldM] in H; [injection H as <-; exists []; split; reflexivity|].
  apply bind_inv in H as (st1 & H1 & H). destruct (IH _ _ H) as (ds & Hd & ->). cbn [concatM].
  assert (exists d1, declares i = Ok d1 /\ st1 = fold_left step1 d1 st) as (d1 & E1 & ->).
  { destruct i as [b|d v t vl]; cbn [run_tfitem declares] in *; apply bind_inv in H1 as (r & Hr & H1); rewrite Hr; cbn [bind]; eexists; (split; [reflexivity|]); destruct st as (objs, ports); cbn [fst snd] in H1.
    - rewrite <- merge_fold. destruct (merge_objs ports r). injection H1 as <-. reflexivity.
    - rewrite <- ports_fold. injection H1 as <-. reflexivity. }
  rewrite E1. cbn [bind]. exists (d1 ++ ds). split; [|rewrite fold_left_app; reflexivity].
  change ((fix go l0 := match l0 with [] => Ok [] | x :: l' => a <- declares x ;; r <- go l' ;; Ok (a ++ r) end) l) with (concatM declares l). rewrite Hd. reflexivity.
Qed.
(** The port after all its other declarations. *)
Definition final (l : list ditem) (p : iddef) : iddef := fold_left (fun p o => with_type_value o p) (filter (has (d_name p)) (others_of l)) p.
Lemma ports_app l l' : ports_of (l ++ l') = ports_of l ++ ports_of l'.
Proof. apply flat_map_app. Qed.
Lemma others_app l l' : others_of (l ++ l') = others_of l ++ others_of l'.
Proof. apply flat_map_app. Qed.
Lemma ordered_app l x : ordered (l ++ [x]) = true -> ordered l = true /\ match x with DP p => existsb (has (d_name p)) (others_of l) = false | DB _ => True end.
Proof.
  induction l as [|[p|o] l IH]; cbn [app ordered others_of flat_map]; intros H.
  - split; [reflexivity|]. destruct x; [reflexivity|exact I].
  - apply IH in H as (H1 & H2). split; [exact H1|exact H2].
  - apply andb_prop in H as (Ho & H). apply IH in H as (H1 & H2). rewrite ports_app, existsb_app in Ho. apply negb_true_iff, orb_false_iff in Ho as (Ho1 & Ho2).
    rewrite Ho1, H1. split; [reflexivity|]. destruct x as [p|]; [|exact I]. cbn [app existsb]. fold (others_of l). rewrite H2, orb_false_r. cbn in Ho2. rewrite orb_false_r in Ho2.
    unfold has in *. destruct (seqb (d_name o) (d_name p)) eqn:E; [|reflexivity]. apply seqb_eq in E. rewrite E in Ho2. rewrite (proj2 (seqb_eq _ _) eq_refl) in Ho2. discriminate.
Qed.
Lemma final_name l p : d_name (final l p) = d_name p.
Proof. unfold final. generalize (filter (has (d_name p)) (others_of l)). intros os. revert p. induction os as [|o os IH]; intros p; [reflexivity|]. cbn [fold_left]. rewrite IH. reflexivity. Qed.
Lemma final_is l p : port_is l p (final l p).
Proof.
  unfold port_is, final, last_of. generalize (filter (has (d_name p)) (others_of l)). intros os. split; [|split; [|split; [|split]]].
  1-3: revert p; induction os as [|o os IH]; intros p; [reflexivity|]; cbn [fold_left]; rewrite IH; reflexivity.
  all: destruct os as [|o os] using rev_ind; [reflexivity|]; rewrite fold_left_app, last_last; reflexivity.
Qed.
Lemma final_other l o p : seqb (d_name o) (d_name p) = false -> final (l ++ [DB o]) p = final l p.
Proof. intros H. unfold final. rewrite others_app, filter_app. cbn. unfold has at 2. rewrite H, app_nil_r. reflexivity. Qed.
Lemma final_same l o p : seqb (d_name o) (d_name p) = true -> final (l ++ [DB o]) p = with_type_value o (final l p).
Proof. intros H. unfold final. rewrite others_app, filter_app. cbn. unfold has at 2. rewrite H, fold_left_app. reflexivity. Qed.
Lemma final_port l x p : final (l ++ [DP x]) p = final l p.
Proof. unfold final. rewrite others_app, app_nil_r. reflexivity. Qed.
Lemma seqb_sym a b : seqb a b = seqb b a.
Proof. destruct (seqb a b) eqn:E; [apply seqb_eq in E as ->; symmetry; apply seqb_eq; reflexivity|]. destruct (seqb b a) eqn:E'; [|reflexivity]. apply seqb_eq in E' as ->. rewrite (proj2 (seqb_eq _ _) eq_refl) in E. discriminate. Qed.
Lemma update_all l o ps : NoDup (map d_name ps) -> existsb (has (d_name o)) ps = true ->
  update_port (d_name o) (with_type_value o) (map (final l) ps) = Some (map (final (l ++ [DB o])) ps).
Proof.
  induction ps as [|p ps IH]; intros N H; [discriminate|]. cbn [map update_port existsb] in *. inversion_clear N as [|? ? N1 N2]. rewrite final_name. unfold has in H at 1.
  destruct (seqb (d_name p) (d_name o)) eqn:E.
  - rewrite final_same by (rewrite seqb_sym; exact E). f_equal. f_equal. apply map_ext_in. intros q Hq. symmetry. apply final_other.
    destruct (seqb (d_name o) (d_name q)) eqn:E'; [|reflexivity]. apply seqb_eq in E, E'. exfalso. apply N1. rewrite E, E'. apply in_map. exact Hq.
  - cbn [orb] in H. rewrite (IH N2 H). rewrite final_other by (rewrite seqb_sym; exact E). reflexivity.
Qed.
Lemma update_no l o ps : existsb (has (d_name o)) ps = false -> update_port (d_name o) (with_type_value o) (map (final l) ps) = None /\ map (final (l ++ [DB o])) ps = map (final l) ps.
Proof.
  induction ps as [|p ps IH]; intros H; [split; reflexivity|]. cbn [map update_port existsb] in *. apply orb_false_iff in H as (E & H). unfold has in E. destruct (IH H) as (H1 & H2).
  rewrite final_name, E, H1, H2, final_other by (rewrite seqb_sym; exact E). split; reflexivity.
Qed.
Lemma items_final l : ordered l = true -> NoDup (map d_name (ports_of l)) ->
  fold_left step1 l ([], []) = (filter (fun x => negb (is_arg l x)) (others_of l), map (final l) (ports_of l)).
Proof.
  induction l as [|x l IH] using rev_ind; intros Ho N; [reflexivity|]. apply ordered_app in Ho as (Ho & Hx). rewrite ports_app, map_app in N.
  rewrite fold_left_app, (IH Ho) by (destruct x; cbn in N; [apply NoDup_remove_1 in N; rewrite app_nil_r in N; exact N|rewrite app_nil_r in N; exact N]).
  cbn [fold_left]. unfold is_arg. rewrite ports_app, others_app. destruct x as [p|o]; cbn [step1 fst snd ports_of others_of flat_map app].
  - fold (ports_of l) (others_of l). rewrite app_nil_r, map_app. f_equal.
    + apply filter_ext_in. intros y Hy. rewrite existsb_app. cbn [existsb]. rewrite orb_false_r. f_equal. destruct (existsb (has (d_name y)) (ports_of l)); [reflexivity|]. cbn [orb]. unfold has.
      destruct (seqb (d_name p) (d_name y)) eqn:E; [|reflexivity]. apply seqb_eq in E. exfalso. assert (existsb (has (d_name p)) (others_of l) = true) as Q; [|rewrite Q in Hx; discriminate].
      apply existsb_exists. exists y. split; [exact Hy|]. unfold has. rewrite E. apply seqb_eq. reflexivity.
    + f_equal; [apply map_ext; intros q; symmetry; apply final_port|]. cbn [map]. f_equal. rewrite final_port. unfold final.
      replace (filter (has (d_name p)) (others_of l)) with (@nil iddef); [reflexivity|]. symmetry. clear -Hx. induction (others_of l) as [|y ys IH]; [reflexivity|]. cbn [existsb filter] in *.
      apply orb_false_iff in Hx as (-> & Hx). apply IH. exact Hx.
  - fold (ports_of l) (others_of l). rewrite app_nil_r. rewrite filter_app. cbn [filter]. destruct (existsb (has (d_name o)) (ports_of l)) eqn:E.
    + cbn in N. rewrite app_nil_r in N. rewrite (update_all l o _ N E). cbn [negb]. rewrite app_nil_r. reflexivity.
    + destruct (update_no l o _ E) as (H1 & H2). rewrite H1, H2. reflexivity.
Qed.
Theorem items_ok l objs ps : foldM run_tfitem ([], []) l = Ok (objs, ps) ->
  exists ds, concatM declares l = Ok ds /\ (ordered ds = true -> NoDup (map d_name (ports_of ds)) -> Forall2 (port_is ds) (ports_of ds) ps /\ objs = filter (fun x => negb (is_arg ds x)) (others_of ds)).
Proof.
  intros H. apply run_fold in H as (ds & Hd & H). exists ds. split; [exact Hd|]. intros Ho N. rewrite (items_final ds Ho N) in H. injection H as -> ->. split; [|reflexivity].
  induction (ports_of ds) as [|p l' IH] in |- *; constructor; [apply final_is|]. apply IH.
Qed.

(** ** The body *)
Section Body.
Context (A : algebra) (M : machine A) (n : nat).
Lemma defs_mean l ds : omapM (m_def A M) l = Some ds -> omapM (m_stm A M n) (map SDef l) = Some ds.
Proof.
  revert ds. induction l as [|d l IH]; intros ds H; [exact H|]. change (omapM (m_def A M) (d :: l)) with (y <~ m_def A M d ;; r <~ omapM (m_def A M) l ;; Some (y :: r)) in H.
  apply obind_inv in H as (k & Hk & H). apply obind_inv in H as (r & Hr & H). injection H as <-.
  change (omapM (m_stm A M n) (map SDef (d :: l))) with (y <~ m_def A M d ;; r <~ omapM (m_stm A M n) (map SDef l) ;; Some (y :: r)). rewrite Hk. cbn [obind]. rewrite (IH r Hr). reflexivity.
Qed.
Theorem body_sim (l : list vstm) (ks : list (beh A M)) (locals : list iddef) (ds : list (beh A M)) (xs : list stm) : omapM (v_stm A M n) l = Some ks -> omapM (m_def A M) locals = Some ds ->
  mapM conv_stm l = Ok xs -> exists k, m_stm A M n (SBlock hdr0 SEQ (map SDef locals ++ xs)) = Some k /\ forall s, k s = seqs A M (ds ++ ks) s.
Proof.
  intros Hk Hd Hx. destruct (stms_sim A M n l (proj2 (Forall_forall _ l) (fun s _ => stm_sim A M n s)) ks Hk) as (xs' & ks' & Hx' & Hm & Hs & _). rewrite Hx in Hx'. injection Hx' as <-.
  exists (seqs A M (ds ++ ks')). split.
  - change (m_stm A M n (SBlock hdr0 SEQ (map SDef locals ++ xs))) with (r <~ omapM (m_stm A M n) (map SDef locals ++ xs) ;; Some (seqs A M r)).
    rewrite (omapM_app (m_stm A M n) _ _ ds ks' (defs_mean _ _ Hd) Hm). reflexivity.
  - apply seqs_same. apply Forall2_app; [|exact Hs]. clear. induction ds; constructor; [intros s; reflexivity|assumption].
Qed.
End Body.
