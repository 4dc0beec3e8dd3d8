(** The AST of a Verilog file means what the file means. *)
From Verif Require Import Base BaseFacts AstModel LitModel SvExprModel SvExprSpec SvExprProofs StmModel SvStmModel SvStmSpec SvStmProofs SvProcProofs SvTypeModel SvDeclModel SvDeclSpec SvInstSpec SvInstProofs SvDeclProofs SvTfModel SvTfSpec SvGenModel SvGenSpec SvGenProofs SvModuleSpec SvModuleProofs SvTypeSpec SvTypeProofs SvFileModel SvFileSpec.

Lemma Forall_in {X} (P : X -> Prop) l : Forall P l -> forall x, In x l -> P x. Proof. intros H. apply Forall_forall. exact H. Qed.
Lemma foldM_cons {X Y} (f : X -> Y -> outcome X) a b l : foldM f a (b :: l) = (a' <- f a b ;; foldM f a' l). Proof. reflexivity. Qed.
Section Ind.
Context (P : sobj -> Prop).
Definition so_opt (o : option sobj) : Prop := match o with Some o => P o | None => True end.
Definition so_kids (o : sobj) : Prop :=
  match o with
  | SO_block _ l => Forall P l
  | SO_for _ _ _ _ b => P b
  | SO_if _ _ t l f => P t /\ Forall (fun p => P (snd p)) l /\ so_opt f
  | SO_case _ _ l d => Forall (fun p => P (snd p)) l /\ so_opt d
  | _ => True
  end.
Context (H : forall o, so_kids o -> P o).
Fixpoint sobj_ind' (o : sobj) : P o :=
  H o (match o return so_kids o with
       | SO_block _ l => Forall_fix P sobj_ind' l
       | SO_for _ _ _ _ b => sobj_ind' b
       | SO_if _ _ t l f => conj (sobj_ind' t) (conj (Forall_fix (fun p => P (snd p)) (fun p => match p return P (snd p) with (_, o) => sobj_ind' o end) l)
                              (match f return so_opt f with Some o => sobj_ind' o | None => I end))
       | SO_case _ _ l d => conj (Forall_fix (fun p => P (snd p)) (fun p => match p return P (snd p) with (_, o) => sobj_ind' o end) l)
                              (match d return so_opt d with Some o => sobj_ind' o | None => I end)
       | _ => I
       end).
End Ind.

Section Sim.
Context (A : algebra) (M : machine A).
Context (N : Type) (num : genv N -> V A -> N) (test : genv N -> V A -> bool) (matches : genv N -> V A -> V A -> bool) (arith : asgop -> N -> N -> N) (one_more : bool -> N -> N) (n : nat).
Notation typ_is := (typ_is A). Notation not_type := (not_type A).
Notation logical := (logical A). Notation as_logic := (as_logic A).

(** ** Subroutines *)
Lemma as_logic_dims t ds : as_logic (add_dims A t ds) = add_dims A (as_logic t) ds. Proof. destruct t as [[]]; reflexivity. Qed.
Lemma dtype_logic t T : not_wire t = true -> v_dtype A t = Some T -> as_logic T = T.
Proof.
  destruct t as [| | |i p sub|e|t|[kw|kw|kw] s ds|ds|ds|p ds]; cbn [v_dtype not_wire]; intros Hw H; try discriminate; try (injection H as <-; reflexivity).
  - apply obind_inv in H as (v & _ & H). injection H as <-. reflexivity.
  - apply obind_inv in H as (v & _ & H). injection H as <-. reflexivity.
  - apply obind_inv in H as (v & Hv & H). apply obind_inv in H as (l & _ & H). injection H as <-. apply v_word_inv in Hv as (-> & _). cbn [SvFileSpec.as_logic]. apply negb_true_iff in Hw. rewrite Hw. reflexivity.
  - destruct ds; [|discriminate]. apply obind_inv in H as (v & Hv & H). injection H as <-. apply v_word_inv in Hv as (-> & _). cbn [SvFileSpec.as_logic]. apply negb_true_iff in Hw. rewrite Hw. reflexivity.
  - destruct s; [discriminate|]. destruct ds; [|discriminate]. apply obind_inv in H as (v & Hv & H). injection H as <-. apply v_word_inv in Hv as (-> & _). unfold plain. cbn [SvFileSpec.as_logic]. apply negb_true_iff in Hw. rewrite Hw. reflexivity.
  - apply obind_inv in H as (v & _ & H). apply obind_inv in H as (l & _ & H). injection H as <-. reflexivity.
Qed.
Lemma sdoi_sim t T : kept_sdoi t = true -> v_doi A R_var t = Some T -> exists x T', conv_doi t None = Ok x /\ typ_is (Word $"wire") x T' /\ as_logic T' = T /\ not_type T'.
Proof.
  intros Hk H. unfold kept_sdoi in Hk. apply andb_prop in Hk as (Hk & Hw).
  assert (exists T', v_doi A R_port t = Some T' /\ as_logic T' = T) as (T' & HT & HL).
  { unfold v_doi in *. cbn [role_ok] in *. destruct t as [[t|[s [|d ds]]]|].
    - exists T. split; [exact H|]. exact (dtype_logic t T Hw H).
    - injection H as <-. eexists. split; reflexivity.
    - apply obind_inv in H as (l & Hl & H). injection H as <-. cbv zeta. rewrite Hl. eexists. split; reflexivity.
    - injection H as <-. eexists. split; reflexivity. }
  destruct (doi_sim A R_port t T' Hk HT) as (x & Hx & Ht). exists x, T'. split; [exact Hx|]. split; [exact Ht|]. split; [exact HL|]. exact (doi_not_type A _ _ _ HT).
Qed.
Lemma vitem_logic T' dir a b c v : v_vitem A (as_logic T') dir a b c v = (o <~ v_vitem A T' dir a b c v ;; Some (logical o)).
Proof.
  unfold v_vitem. destruct (v_ident (vi_name v)); [|reflexivity]. cbn [obind]. destruct (omapM (v_vdim A) (vi_dims v)); [|reflexivity]. cbn [obind]. destruct (v_val A (vi_value v)); [|reflexivity].
  cbn [obind]. unfold SvFileSpec.logical. cbn. rewrite as_logic_dims. reflexivity.
Qed.
Lemma omapM_then {X Y Z} (f : X -> option Y) (g : X -> option Z) (h : Y -> Z) : (forall x, g x = (y <~ f x ;; Some (h y))) -> forall l r, omapM g l = Some r -> exists r', omapM f l = Some r' /\ map h r' = r.
Proof.
  intros E. induction l as [|x l IH]; intros r H; [injection H as <-; exists []; split; reflexivity|]. cbn [omapM] in *. rewrite E in H. apply obind_inv in H as (z & Hz & H).
  apply obind_inv in Hz as (y & Hy & Hz). injection Hz as <-. fold (omapM g) in H. apply obind_inv in H as (r0 & Hr & H). injection H as <-. destruct (IH r0 Hr) as (r' & Hr' & <-).
  exists (y :: r'). rewrite Hy. cbn [obind]. fold (omapM f). rewrite Hr'. split; reflexivity.
Qed.
(** An argument between parentheses. *)
Lemma arg_sim p i o : kept_tfport p = true -> tp_name p = Some i -> v_arg A (Arg (TD V_INPUT) (tp_type p) i (tp_dims p) (tp_value p)) = Some o ->
  exists x o', conv_tfport p = Ok x /\ m_object A false x = Some o' /\ logical o' = o.
Proof.
  unfold kept_tfport. intros Hk Hi H. apply andb_prop in Hk as (Hk & Ho). apply and3 in Hk as (Hvar & Hk & Hds). apply negb_true_iff in Hvar.
  cbn [v_arg] in H. apply obind_inv in H as (m & Hm & H). apply obind_inv in H as (T & HT & H). apply obind_inv in H as (ds & Hd & H). apply obind_inv in H as (w & Hw & H). injection H as <-.
  destruct (sdoi_sim _ T Hk HT) as (x & T' & Hx & Ht & HL & HnT). destruct (vdims_sim A (Word $"wire") _ ds Hds Hd) as (l & Hl & Hf).
  assert (Hopen : l = [] \/ open_wire x = false).
  { destruct (tp_dims p); [left; injection Hl as <-; reflexivity|right; exact (doi_open _ None x Ho Hx)]. }
  destruct (apply_sim A _ x T' l ds Hopen Hf Ht) as (Ht' & _). destruct (val_sim A _ w Hw) as (e & He & Hv). unfold conv_tfport. rewrite Hx. cbn [bind]. rewrite Hl. cbn [bind]. rewrite Hi, (ident_name _ _ Hm). cbn [bind]. rewrite He. cbn [bind].
  do 2 eexists. split; [reflexivity|]. rewrite Hvar. split; [exact (object_ok A false (new_iddef m (snd (apply_dims x l)) e DIR_IN false) (add_dims A T' ds) w Ht' (add_not_type A T' ds HnT) Hv)|].
  unfold SvFileSpec.logical. cbn. rewrite as_logic_dims, HL. reflexivity.
Qed.
Lemma args_sim l : forall t a r, plain_args t l = true -> forallb kept_tfport l = true -> full_args (TD V_INPUT) t l = Some a -> omapM (v_arg A) a = Some r ->
  exists xs r', mapM conv_tfport l = Ok xs /\ omapM (m_object A false) xs = Some r' /\ map logical r' = r.
Proof.
  induction l as [|p l IH]; intros t a r Hp Hk Ha Hr.
  - injection Ha as <-. injection Hr as <-. exists [], []. repeat split.
  - cbn [plain_args full_args forallb] in Hp, Ha, Hk. apply andb_prop in Hp as (Hp & Hl). apply andb_prop in Hp as (Hd & Ht). apply andb_prop in Hk as (Hkp & Hk).
    set (d' := match tp_dir p with Some x => x | None => TD V_INPUT end) in *.
    assert (d' = TD V_INPUT) as Hd' by (unfold d'; destruct (tp_dir p) as [[|[]]|]; try discriminate; reflexivity). rewrite Hd' in Ha. clearbody d'. clear Hd' d'.
    set (t' := match tp_type p, tp_dir p with Some x, _ => Some x | None, Some _ => None | None, None => t end) in *.
    assert (t' = tp_type p) as Et by (unfold t'; destruct (tp_type p), (tp_dir p), t; try discriminate; reflexivity).
    clearbody t'. subst t'. destruct (tp_name p) as [i|] eqn:En; [|discriminate]. destruct (full_args (TD V_INPUT) (tp_type p) l) as [a'|] eqn:Ea; [|discriminate]. injection Ha as <-.
    cbn [omapM] in Hr. apply obind_inv in Hr as (o & Ho & Hr). fold (omapM (v_arg A)) in Hr. apply obind_inv in Hr as (r0 & Hr0 & Hr). injection Hr as <-.
    destruct (arg_sim p i o Hkp En Ho) as (x & o' & Hx & Hm & <-). destruct (IH _ _ _ Hl Hk Ea Hr0) as (xs & r' & Hxs & Hms & <-). exists (x :: xs), (o' :: r').
    cbn [mapM omapM]. rewrite Hx, Hm. cbn [bind obind]. fold (mapM conv_tfport). fold (omapM (m_object A false)). rewrite Hxs, Hms. repeat split.
Qed.
Lemma localise_object (l : list iddef) : omapM (m_object A true) (localise true l) = omapM (m_object A false) (localise true l).
Proof. induction l as [|d l IH]; [reflexivity|]. cbn [localise map omapM] in *. fold (omapM (m_object A true)). fold (omapM (m_object A false)). rewrite IH. reflexivity. Qed.
Lemma local_sim b r : full_body b && forallb kept_pone (body_ones true b) = true -> omapM (v_pone A) (body_ones true b) = Some r -> exists xs, conv_local b = Ok xs /\ omapM (m_object A false) xs = Some r.
Proof.
  intros Hk H. apply andb_prop in Hk as (Hf & Hk). destruct (SvTypeProofs.body_sim A true b r Hf Hk H) as (xs & Hx & Hm). exists (localise true xs). rewrite localise_object in Hm. split; [|exact Hm].
  unfold conv_local. rewrite Hx. reflexivity.
Qed.
Lemma bitem_sim b r : kept_bitem b = true -> v_bitem A b = Some r -> exists xs, conv_bitem b = Ok xs /\ omapM (m_object A false) xs = Some r.
Proof. destruct b as [d|b|b|]; cbn [kept_bitem v_bitem conv_bitem]; intros Hk H; [exact (data_sim A d r Hk H)|exact (local_sim b r Hk H)|discriminate..]. Qed.
Lemma bitems_sim l : forall r, forallb kept_bitem l = true -> omapM (v_bitem A) l = Some r -> exists xs, concatM conv_bitem l = Ok xs /\ omapM (m_object A false) xs = Some (List.concat r).
Proof.
  induction l as [|b l IH]; intros r Hk H; [injection H as <-; exists []; split; reflexivity|]. cbn [forallb] in Hk. apply andb_prop in Hk as (Hb & Hk). cbn [omapM] in H.
  apply obind_inv in H as (o & Ho & H). fold (omapM (v_bitem A)) in H. apply obind_inv in H as (r0 & Hr & H). injection H as <-. destruct (bitem_sim b o Hb Ho) as (xs & Hx & Hm). destruct (IH r0 Hk Hr) as (ys & Hy & Hms).
  exists (xs ++ ys). split; [cbn [concatM]; rewrite Hx; cbn [bind]; fold (concatM conv_bitem); rewrite Hy; reflexivity|]. rewrite omapM_app, Hm. cbn [obind]. rewrite Hms. reflexivity.
Qed.
Lemma tfdecl_sim d t l T r : kept_sdoi t = true -> forallb (kept_vitem (sized_doi t)) l = true -> v_doi A R_var t = Some T -> omapM (v_vitem A T (dir_of d) false false false) l = Some r ->
  exists xs r', conv_tfdecl d false t l = Ok xs /\ omapM (m_object A false) xs = Some r' /\ map logical r' = r.
Proof.
  intros Hk Hl HT H. destruct (sdoi_sim t T Hk HT) as (x & T' & Hx & Ht & HL & HnT). subst T.
  destruct (omapM_then _ _ logical (fun v => vitem_logic T' (dir_of d) false false false v) l r H) as (r' & Hr' & <-).
  destruct (idlist_sim A _ x T' false (dir_of d) (sized_doi t) l r' Hl (fun Hs => doi_open t None x Hs Hx) HnT eq_refl Ht Hr') as (xs & Hxs & Hm).
  exists xs, r'. split; [|split; [exact Hm|reflexivity]]. unfold conv_tfdecl. rewrite Hx. cbn [bind]. replace (visit_tfdir d) with (dir_of d); [exact Hxs|]. destruct d as [|[]]; reflexivity.
Qed.
Lemma object_name p d o : m_object A p d = Some o -> ob_name A o = d_name d.
Proof. unfold m_object. intros H. apply obind_inv in H as (t & _ & H). apply obind_inv in H as (v & _ & H). injection H as <-. reflexivity. Qed.
Lemma objects_names p l : forall r, omapM (m_object A p) l = Some r -> map (ob_name A) r = map d_name l.
Proof.
  induction l as [|d l IH]; intros r H; [injection H as <-; reflexivity|]. cbn [omapM] in H. apply obind_inv in H as (o & Ho & H). fold (omapM (m_object A p)) in H. apply obind_inv in H as (r0 & Hr & H). injection H as <-.
  cbn [map]. rewrite (object_name p d o Ho), (IH r0 Hr). reflexivity.
Qed.
Lemma mem_find s P : mem s (map d_name P) = false -> find_port s P = None. Proof. intros H. apply find_none_names. exact H. Qed.
Lemma merge_none objs : forall P, (forall o, In o objs -> mem (d_name o) (map d_name P) = false) -> merge_objs P objs = (P, objs).
Proof.
  induction objs as [|o l IH]; intros P H; [reflexivity|]. cbn [merge_objs]. rewrite (update_none _ _ _ (mem_find _ _ (H o (or_introl eq_refl)))), IH; [reflexivity|]. intros x Hx. apply H. right. exact Hx.
Qed.
Lemma mem_app s a b : mem s (a ++ b) = mem s a || mem s b. Proof. apply existsb_app. Qed.
Lemma in_names p l r d : omapM (m_object A p) l = Some r -> In d l -> In (d_name d) (map (ob_name A) r).
Proof. intros H Hd. rewrite (objects_names p l r H). apply in_map. exact Hd. Qed.
Lemma logical_names r : map (ob_name A) (map logical r) = map (ob_name A) r. Proof. rewrite map_map. apply map_ext. reflexivity. Qed.
Lemma tfitems_sim l : forall L P r, forallb kept_tfitem l = true -> omapM (v_tfitem A) l = Some r ->
  (forall s, In s (map (ob_name A) (List.concat (map snd r))) -> mem s (map d_name P ++ map (ob_name A) (List.concat (map fst r))) = false) ->
  exists L' P' pr, foldM run_tfitem (L, P) l = Ok (L ++ L', P ++ P') /\ omapM (m_object A false) L' = Some (List.concat (map snd r)) /\ omapM (m_object A false) P' = Some pr /\ map logical pr = List.concat (map fst r).
Proof.
  induction l as [|i l IH]; intros L P r Hk H Hap.
  - injection H as <-. exists [], [], []. rewrite !app_nil_r. repeat split.
  - cbn [forallb] in Hk. apply andb_prop in Hk as (Hi & Hk). cbn [omapM] in H. apply obind_inv in H as (q & Hq & H). fold (omapM (v_tfitem A)) in H. apply obind_inv in H as (r0 & Hr & H). injection H as <-.
    rewrite foldM_cons. destruct i as [b|d var t vl]; cbn [v_tfitem kept_tfitem run_tfitem] in *.
    + apply obind_inv in Hq as (os & Hos & Hq). injection Hq as <-. cbn [map List.concat fst snd app] in *. destruct (bitem_sim b os Hi Hos) as (xs & Hx & Hm). rewrite Hx. cbn [bind].
      rewrite merge_none.
      2:{ intros o Ho. specialize (Hap (d_name o)). rewrite map_app, in_app_iff, mem_app in Hap. specialize (Hap (or_introl (in_names false xs os o Hm Ho))). apply orb_false_iff in Hap as (Hap & _). exact Hap. }
      cbn [bind]. destruct (IH (L ++ xs) P r0 Hk Hr) as (L' & P' & pr & Hf & HL & HP & Hpr).
      { intros s Hs. apply Hap. rewrite map_app, in_app_iff. right. exact Hs. }
      exists (xs ++ L'), P', pr. split; [|split; [|split; assumption]].
      * cbn [fst snd]. rewrite Hf, app_assoc. reflexivity.
      * rewrite omapM_app, Hm. cbn [obind]. rewrite HL. reflexivity.
    + apply and3 in Hi as (Hvar & Hkt & Hkl). apply negb_true_iff in Hvar. subst var. apply obind_inv in Hq as (T & HT & Hq). apply obind_inv in Hq as (os & Hos & Hq). injection Hq as <-. cbn [map List.concat fst snd app] in *.
      destruct (tfdecl_sim d t vl T os Hkt Hkl HT Hos) as (xs & r' & Hx & Hm & <-). rewrite Hx. cbn [bind].
      destruct (IH L (P ++ xs) r0 Hk Hr) as (L' & P' & pr & Hf & HL & HP & Hpr).
      { intros s Hs. specialize (Hap s Hs). rewrite map_app, logical_names, (objects_names false xs r' Hm) in Hap. rewrite map_app, <- app_assoc. exact Hap. }
      exists L', (xs ++ P'), (r' ++ pr). split; [|split; [exact HL|split]].
      * cbn [fst snd]. rewrite Hf, app_assoc. reflexivity.
      * rewrite omapM_app, Hm. cbn [obind]. rewrite HP. reflexivity.
      * rewrite map_app, Hpr. reflexivity.
Qed.

Lemma no_void b T : typ_is b (EId $"void") T -> False. Proof. intros (H & _). discriminate. Qed.
Lemma ret_word b x T : typ_is b x T -> m_ret A false x = (y <~ m_typ A (Word $"wire") x ;; Some (Some (as_logic y))).
Proof. intros H. destruct x; try reflexivity. cbn [m_ret]. destruct (seqb s $"void") eqn:E; [|reflexivity]. apply seqb_eq in E as ->. destruct (no_void b T H). Qed.
Lemma ret_sim task r T : kept_ret task r = true -> v_ret A task r = Some T -> exists x, conv_ret task r = Ok x /\ m_ret A task x = Some T.
Proof.
  intros Hk H. unfold v_ret, conv_ret, kept_ret in *. destruct task; [injection H as <-; eexists; split; reflexivity|]. cbn [orb] in Hk. destruct r as [[|t|i]|].
  - injection H as <-. eexists. split; reflexivity.
  - apply andb_prop in Hk as (Hk & Hw). apply obind_inv in H as (T' & HT & H). injection H as <-. destruct (dtype_sim A (Word $"wire") t T' Hk HT) as (x & Hx & Ht & _). exists x. split; [exact Hx|].
    rewrite (ret_word _ x T' Ht), (proj1 Ht). cbn [obind]. rewrite (dtype_logic t T' Hw HT). reflexivity.
  - apply obind_inv in H as (T' & HT & H). injection H as <-. assert (Hs : kept_sdoi (Some (DI_implicit i)) = true) by (unfold kept_sdoi; rewrite Hk; reflexivity).
    destruct (sdoi_sim _ T' Hs HT) as (x & T1 & Hx & Ht & HL & _). exists x. split; [exact Hx|]. rewrite (ret_word _ x T1 Ht), (proj1 Ht). cbn [obind]. rewrite HL. reflexivity.
  - apply obind_inv in H as (T' & HT & H). injection H as <-. injection HT as <-. eexists. split; reflexivity.
Qed.
Lemma split_defs_ok L b : Forall (fun o => forall d, o <> SDef d) b -> split_defs (map SDef L ++ b) = (L, b).
Proof.
  intros H. induction L as [|d L IH]; [|cbn [map app split_defs]; rewrite IH; reflexivity]. cbn [map app]. destruct H as [|o b Ho _]; [reflexivity|]. destruct o; try reflexivity. destruct (Ho d eq_refl).
Qed.
Lemma tf_sim f s : kept_tf A M n f = true -> v_tf A M n f = Some s -> exists x s', conv_tf f = Ok x /\ m_tf A M n x = Some s' /\ sub_same A M s s'.
Proof.
  intros Hk H. unfold kept_tf in Hk. rewrite H in Hk. apply and3 in Hk as (Hr & Hh & Hap). unfold v_tf in H. destruct (tf_scoped f); [discriminate|].
  apply obind_inv in H as (m & Hm & H). apply obind_inv in H as (T & HT & H). apply obind_inv in H as ((args & locs) & Hhd & H). apply obind_inv in H as (ks & Hb & H). injection H as <-. cbn [fst snd] in *.
  unfold apart in Hap. cbn [su_locals su_args] in Hap.
  destruct (ret_sim _ _ T Hr HT) as (re & Hre & Hmr).
  destruct (stms_sim A M n (tf_body f) (proj2 (Forall_forall _ _) (fun s _ => stm_sim A M n s)) ks Hb) as (xs & ks' & Hxs & Hks & Hsame & Hnd).
  assert (exists L P pr, match tf_head f with TH_ansi l ds => ps <- mapM conv_tfport l ;; os <- concatM conv_bitem ds ;; Ok (os, ps) | TH_items l => foldM run_tfitem ([], []) l end = Ok (L, P) /\
      omapM (m_object A false) L = Some locs /\ omapM (m_object A false) P = Some pr /\ map logical pr = args) as (L & P & pr & Hc & HL & HP & Hpr).
  { destruct (tf_head f) as [l ds|l]; cbn [kept_thead v_thead] in *.
    - apply and3 in Hh as (Hp & Hka & Hkb). apply obind_inv in Hhd as (a & Ha & Hhd). apply obind_inv in Hhd as (r & Hrr & Hhd). apply obind_inv in Hhd as (o & Ho & Hhd). injection Hhd as <- <-.
      destruct (args_sim l None a r Hp Hka Ha Hrr) as (ps & pr & Hps & Hmp & Hpr). destruct (bitems_sim ds o Hkb Ho) as (os & Hos & Hmo). exists os, ps, pr. rewrite Hps. cbn [bind]. rewrite Hos. repeat split; assumption.
    - apply obind_inv in Hhd as (r & Hrr & Hhd). injection Hhd as <- <-. destruct (tfitems_sim l [] [] r Hh Hrr) as (L & P & pr & Hf & HL & HP & Hpr).
      { intros s Hs. apply in_map_iff in Hs as (o & <- & Ho). rewrite forallb_forall in Hap. specialize (Hap o Ho). apply negb_true_iff in Hap. exact Hap. }
      exists L, P, pr. repeat split; assumption. }
  unfold conv_tf. rewrite Hre. cbn [bind]. rewrite (ident_name _ _ Hm). cbn [bind]. rewrite Hc. cbn [bind]. rewrite Hxs. cbn [bind fst snd]. do 2 eexists. split; [reflexivity|]. split.
  - unfold m_tf. cbn [sf_task sf_ret sf_params sf_body]. rewrite Hmr. cbn [obind]. rewrite HP. cbn [obind]. rewrite (split_defs_ok L xs Hnd). cbn [fst snd]. rewrite HL. cbn [obind]. rewrite Hks. reflexivity.
  - unfold sub_same. cbn. repeat split; try congruence. clear - Hsame. induction Hsame as [|k k' l l' Hk H IH]; constructor; [|exact IH]. intros s. symmetry. apply Hk.
Qed.

(** ** Items *)
Notation m_leaf := (m_leaf A M n). Notation item_same := (item_same A M).
Lemma process_mark b s : m_process A M n (set_hdr (set_pre b) s) = m_process A M n s.
Proof. destruct s; reflexivity. Qed.
Lemma leaf_mark o : m_leaf (mark false o) = m_leaf o.
Proof.
  destruct o as [d|c|f|s|h l|h i c s b|h c t l f|h s l d]; try reflexivity. cbn [mark SvFileSpec.m_leaf]. destruct s; reflexivity.
Qed.
Definition leaves (os : list sobj) : option (list (litem A M)) := flat m_leaf os.
Lemma flat_app {X Y} (f : X -> option (list Y)) a b : flat f (a ++ b) = (x <~ flat f a ;; y <~ flat f b ;; Some (x ++ y)).
Proof.
  unfold flat. rewrite omapM_app. destruct (omapM f a); [|reflexivity]. cbn [obind]. destruct (omapM f b); [|reflexivity]. cbn [obind]. rewrite concat_app. reflexivity.
Qed.
Lemma flat_cons {X Y} (f : X -> option (list Y)) a l : flat f (a :: l) = (x <~ f a ;; y <~ flat f l ;; Some (x ++ y)).
Proof. unfold flat. cbn [omapM]. destruct (f a); [|reflexivity]. cbn [obind]. fold (omapM f). destruct (omapM f l); reflexivity. Qed.
Lemma leaves_map {X Y} (g : X -> option Y) (c : X -> sobj) (h : Y -> litem A M) : (forall x y, g x = Some y -> m_leaf (c x) = Some [h y]) -> forall l r, omapM g l = Some r -> leaves (map c l) = Some (map h r).
Proof.
  intros E. induction l as [|x l IH]; intros r H; [injection H as <-; reflexivity|]. cbn [omapM] in H. apply obind_inv in H as (y & Hy & H). fold (omapM g) in H. apply obind_inv in H as (r0 & Hr & H). injection H as <-.
  unfold leaves. cbn [map]. rewrite flat_cons, (E x y Hy). cbn [obind]. unfold leaves in IH. rewrite (IH r0 Hr). reflexivity.
Qed.
Lemma same_refl x : match x with LProc _ _ _ _ | LSub _ _ _ => False | _ => True end -> item_same x x. Proof. destruct x; intros H; try contradiction; reflexivity. Qed.
Lemma same_map {Y} (h : Y -> litem A M) (l : list Y) : (forall y, match h y with LProc _ _ _ _ | LSub _ _ _ => False | _ => True end) -> Forall2 item_same (map h l) (map h l).
Proof. intros H. induction l as [|y l IH]; constructor; [apply same_refl, H|exact IH]. Qed.
Lemma drive_sim l r : omapM (v_drive A M) l = Some r -> exists os, conv_cont_assign l = Ok os /\ leaves (map SO_stm os) = Some r /\ Forall2 item_same r r.
Proof.
  revert r. induction l as [|p l IH]; intros r H; [injection H as <-; exists []; repeat split; constructor|]. cbn [omapM] in H. apply obind_inv in H as (i & Hi & H). fold (omapM (v_drive A M)) in H. apply obind_inv in H as (r0 & Hr & H). injection H as <-.
  destruct (IH r0 Hr) as (os & Hos & Hl & Hs). unfold v_drive in Hi. apply obind_inv in Hi as (d & Hd & Hi). apply obind_inv in Hi as (s & Hss & Hi). injection Hi as <-.
  destruct (conv_sim A _ d Hd) as (xd & Hxd & Hmd & _). destruct (conv_sim A _ s Hss) as (xs & Hxs & Hms & _).
  exists (SAssign (hdr_doc (snd p)) xd xs None None false :: os). split; [|split].
  - unfold conv_cont_assign in *. cbn [mapM]. unfold conv_var_assign at 1. rewrite Hxd. cbn [bind]. rewrite Hxs. cbn [bind]. unfold mk_assign.
    destruct xd; try discriminate; destruct xs; try discriminate; cbn [bind]; fold (mapM (fun p => s <- conv_var_assign p ;; match s with SAssign h d x t e _ => Ok (SAssign h d x t e false) | _ => Ok s end)); rewrite Hos; reflexivity.
  - unfold leaves in *. cbn [map]. rewrite flat_cons. cbn [SvFileSpec.m_leaf]. rewrite Hmd. cbn [obind]. rewrite Hms. cbn [obind]. rewrite Hl. reflexivity.
  - constructor; [reflexivity|exact Hs].
Qed.
Lemma objs_sim xs r : omapM (m_object A false) xs = Some r -> leaves (map SO_id xs) = Some (map (LObj A M) r) /\ Forall2 item_same (map (LObj A M) r) (map (LObj A M) r).
Proof.
  intros H. split; [|apply same_map; intros y; exact I]. refine (leaves_map (m_object A false) SO_id (LObj A M) _ xs r H). intros x y E. cbn [SvFileSpec.m_leaf]. rewrite E. reflexivity.
Qed.
Lemma inst_leaf c i : m_inst A c = Some i -> m_gkind (i_module A i) = None -> m_leaf (SO_inst c) = Some [LInst A M i].
Proof.
  intros H E. cbn [SvFileSpec.m_leaf]. pose proof H as H0. unfold m_inst in H. destruct (ci_module c) as [s| | | | | | | |]; try discriminate. apply obind_inv in H as (p & _ & H). apply obind_inv in H as (m & _ & H). apply obind_inv in H as (l & _ & H). injection H as <-.
  cbn [i_module] in E. rewrite E, H0. reflexivity.
Qed.
Lemma gate_leaf g x : m_gobj A g = Some x -> m_leaf (of_gobj g) = Some [of_gate A M x].
Proof.
  destruct g as [d s|c]; cbn [of_gobj SvFileSpec.m_leaf]; intros H; pose proof H as H0; cbn [m_gobj] in H.
  - apply obind_inv in H as (a & Ha & H). apply obind_inv in H as (b & Hb & H). injection H as <-. rewrite Ha. cbn [obind]. rewrite Hb. reflexivity.
  - destruct (ci_name c) as [nm| | | | | | | |]; try discriminate. destruct (ci_module c) as [s| | | | | | | |]; try discriminate. destruct (m_gkind s) eqn:E.
    + rewrite H0. reflexivity.
    + exfalso. destruct (ci_generics c); [|discriminate]. destruct (ci_ports c); discriminate.
Qed.
Lemma inst_modules i r : v_inst A (by_name A) i = Some r -> no_gate (in_module i) = true -> Forall (fun x => m_gkind (i_module A x) = None) r.
Proof.
  unfold v_inst. intros H Hg. revert r H. induction (in_list i) as [|h l IH]; intros r H; [injection H as <-; constructor|]. cbn [omapM] in H. apply obind_inv in H as (x & Hx & H). fold (omapM (v_hinst A (by_name A) i)) in H. apply obind_inv in H as (r0 & Hr & H). injection H as <-.
  constructor; [|exact (IH r0 Hr)]. unfold v_hinst in Hx. apply obind_inv in Hx as (m & Hm & Hx). do 4 (apply obind_inv in Hx as (? & _ & Hx)). injection Hx as <-. cbn [i_module].
  destruct (in_module i) as [s|]; [|discriminate]. unfold v_ident in Hm. destruct (seqb s _); [discriminate|]. injection Hm as <-. cbn [no_gate] in Hg. destruct (m_gkind s); [discriminate|reflexivity].
Qed.
Lemma insts_leaf cs : forall r, omapM (m_inst A) cs = Some r -> Forall (fun x => m_gkind (i_module A x) = None) r -> leaves (map SO_inst cs) = Some (map (LInst A M) r).
Proof.
  induction cs as [|c cs IH]; intros r H F; [injection H as <-; reflexivity|]. cbn [omapM] in H. apply obind_inv in H as (i & Hi & H). fold (omapM (m_inst A)) in H. apply obind_inv in H as (r0 & Hr & H). injection H as <-.
  inversion_clear F. unfold leaves in *. cbn [map]. rewrite flat_cons, (inst_leaf c i Hi) by assumption. cbn [obind]. rewrite (IH r0 Hr) by assumption. reflexivity.
Qed.
Lemma process_leaf s k : m_process A M n s = Some k -> m_leaf (SO_stm s) = Some [LProc A M (fun _ => True) k].
Proof. intros H. destruct s; try discriminate. cbn [SvFileSpec.m_leaf]. rewrite H. reflexivity. Qed.
Lemma leaf_sim (Hn : n <> 0) l r : kept_leaf A M n l = true -> v_leaf A M n l = Some r -> exists os r', conv_gleaf l = Ok (os, []) /\ leaves os = Some r' /\ Forall2 item_same r r'.
Proof.
  intros Hk H. destruct l as [i|g|b|b| |nd|d|f|l|l|s|k ds s|e|]; cbn [kept_leaf v_leaf conv_gleaf] in *; try discriminate.
  - apply and3 in Hk as (Hf & Hs & Hg). apply negb_true_iff in Hs. apply obind_inv in H as (is & His & H). injection H as <-. destruct (inst_sim A (by_name A) i is) as (cs & Hc & Hm); [destruct (in_list i); discriminate|assumption..|].
    rewrite Hc. exists (map SO_inst cs), (map (LInst A M) is). split; [reflexivity|]. split; [exact (insts_leaf cs is Hm (inst_modules i is His Hg))|]. apply same_map. intros y. exact I.
  - apply obind_inv in H as (gs & Hg & H). injection H as <-. destruct (gates_sim A g gs Hk Hg) as (os & Ho & Hm). rewrite Ho. exists (map of_gobj os), (map (of_gate A M) gs). split; [reflexivity|]. split; [exact (leaves_map (m_gobj A) of_gobj (of_gate A M) gate_leaf os gs Hm)|].
    apply same_map. intros []; exact I.
  - apply obind_inv in H as (os & Ho & H). injection H as <-. destruct (local_sim b os Hk Ho) as (xs & Hx & Hm). rewrite Hx. exists (map SO_id xs), (map (LObj A M) os). split; [reflexivity|]. exact (objs_sim xs os Hm).
  - injection H as <-. exists [SO_stm (SNop hdr0)], []. repeat split. constructor.
  - apply obind_inv in H as (os & Ho & H). injection H as <-. destruct (net_decl_sim A nd os Hk Ho) as (xs & Hx & Hm). rewrite Hx. exists (map SO_id xs), (map (LObj A M) os). split; [reflexivity|]. exact (objs_sim xs os Hm).
  - apply obind_inv in H as (os & Ho & H). injection H as <-. destruct (data_sim A d os Hk Ho) as (xs & Hx & Hm). rewrite Hx. exists (map SO_id xs), (map (LObj A M) os). split; [reflexivity|]. exact (objs_sim xs os Hm).
  - apply obind_inv in H as (s & Hs & H). injection H as <-. destruct (tf_sim f s Hk Hs) as (x & s' & Hx & Hm & Hsame). rewrite Hx. exists [SO_func x], [LSub A M s']. split; [reflexivity|]. split.
    + unfold leaves. rewrite flat_cons. cbn [SvFileSpec.m_leaf]. rewrite Hm. reflexivity.
    + constructor; [exact Hsame|constructor].
  - apply obind_inv in H as (os & Ho & H). injection H as <-. destruct (genvar_sim A l os Ho) as (xs & Hx & Hm). rewrite Hx. exists (map SO_id xs), (map (LObj A M) os). split; [reflexivity|]. exact (objs_sim xs os Hm).
  - destruct (drive_sim l r H) as (os & Ho & Hl & Hs). rewrite Ho. exists (map SO_stm os), r. split; [reflexivity|]. split; assumption.
  - apply obind_inv in H as (k0 & Hk0 & H). apply obind_inv in H as (k & Hki & H). injection H as <-. apply negb_true_iff in Hk. destruct (initial_sim A M n s k0 k Hk0 Hki Hk Hn) as (o & k' & Ho & Hm & Hs). rewrite Ho.
    exists [SO_stm o], [LProc A M (fun _ => True) k']. split; [reflexivity|]. split; [unfold leaves; rewrite flat_cons, (process_leaf o k' Hm); reflexivity|]. constructor; [|constructor]. intros st Hst. symmetry. exact (Hs st Hst).
  - apply obind_inv in H as (b & Hb & H). injection H as <-. destruct (always_sim A M n k ds s b Hb Hk) as (o & k' & Ho & Hm & Hs). rewrite Ho.
    exists [SO_stm o], [LProc A M (fun _ => True) k']. split; [reflexivity|]. split; [unfold leaves; rewrite flat_cons, (process_leaf o k' Hm); reflexivity|]. constructor; [|constructor]. intros st _. symmetry. exact (Hs st).
  - apply obind_inv in H as (v & Hv & H). injection H as <-. destruct (conv_sim A e v Hv) as (x & Hx & Hm & _). rewrite Hx. exists [SO_stm (SExpr hdr0 x)], [LCall A M v]. split; [reflexivity|]. split; [unfold leaves; rewrite flat_cons; cbn [SvFileSpec.m_leaf]; rewrite Hm; reflexivity|]. constructor; [reflexivity|constructor].
Qed.

(** ** Paths *)
Notation a_el := (a_gen A N num test matches arith one_more n). Notation a_els := (a_gens A N num test matches arith one_more n).
Lemma app_one {X} (l : list X) a : l ++ [a] <> []. Proof. destruct l; discriminate. Qed.
Lemma omapM_Forall {X Y} (f : X -> option (list Y)) (Q : Y -> Prop) l : (forall x r, In x l -> f x = Some r -> Forall Q r) -> forall rs, omapM f l = Some rs -> Forall Q (List.concat rs).
Proof.
  induction l as [|x l IH]; intros Hf rs H; [injection H as <-; constructor|]. cbn [omapM] in H. apply obind_inv in H as (r & Hr & H). fold (omapM f) in H. apply obind_inv in H as (r0 & Hr0 & H). injection H as <-.
  cbn [List.concat]. apply Forall_app. split; [exact (Hf x r (or_introl eq_refl) Hr)|]. apply IH; [|exact Hr0]. intros y q Hy. apply Hf. right. exact Hy.
Qed.
Definition deep {X} (r : list (gres N X)) : Prop := Forall (fun x => fst (fst x) <> []) r.
Lemma steps_deep {X} go next (body : N -> option (list (gres N X))) : (forall k r, body k = Some r -> deep r) -> forall m k r, steps N go next body m k = Some r -> deep r.
Proof.
  intros Hb. induction m as [|m IH]; intros k r H; [discriminate|]. cbn [steps] in H. destruct (go k); [|injection H as <-; constructor]. apply obind_inv in H as (a & Ha & H). apply obind_inv in H as (b & Hb' & H). injection H as <-.
  apply Forall_app. split; [exact (Hb k a Ha)|exact (IH _ _ Hb')].
Qed.
Lemma elab_deep o : forall w p e r, a_el o w p e = Some r -> w <> None \/ p <> [] \/ leaf_obj o = false -> deep r.
Proof.
  induction o as [o K] using sobj_ind'. intros w p e r H Hc.
  assert (Hleaf : forall x, leaf_obj o = true -> Some [(in_single N w p, e, x)] = Some r -> deep r).
  { intros x Hl E. injection E as <-. constructor; [|constructor]. cbn [fst]. destruct w as [i|]; cbn [in_single]; [apply app_one|]. destruct Hc as [Hc|[Hc|Hc]]; [congruence|exact Hc|congruence]. }
  destruct o as [d|c|f|s|h l|h i c s b|h c t l f|h s l d]; try (exact (Hleaf _ eq_refl H)); cbn [so_kids] in K; cbn [a_gen] in H.
  - apply obind_inv in H as (rs & Hrs & H). injection H as <-. apply (omapM_Forall _ _ l) with (2 := Hrs). intros x q Hx Hq. rewrite Forall_forall in K. apply (K x Hx _ _ _ _ Hq). right. left. apply app_one.
  - apply obind_inv in H as (xv & _ & H). apply obind_inv in H as (vc & _ & H). apply obind_inv in H as (nx & _ & H). apply (steps_deep _ _ _) with (2 := H). intros k q Hq. apply (K _ _ _ _ Hq). left. discriminate.
  - destruct K as (Kt & Kl & Kf). apply obind_inv in H as (v & _ & H). assert (Hb : forall o q, (forall w p e r, a_el o w p e = Some r -> w <> None \/ p <> [] \/ leaf_obj o = false -> deep r) -> a_el o (Some None) (in_choice N w p) e = Some q -> deep q) by (intros o q Ko Hq; apply (Ko _ _ _ _ Hq); left; discriminate).
    clear Hleaf Hc. destruct (test e v); [exact (Hb t r Kt H)|]. revert H. induction Kl as [|(c', o) l Ko Kl IH]; cbn [a_elifs]; intros H.
    + destruct f as [f|]; [exact (Hb f r Kf H)|]. injection H as <-. constructor.
    + apply obind_inv in H as (v' & _ & H). destruct (test e v'); [exact (Hb o r Ko H)|exact (IH H)].
  - destruct K as (Kl & Kf). apply obind_inv in H as (v & _ & H). assert (Hb : forall o q, (forall w p e r, a_el o w p e = Some r -> w <> None \/ p <> [] \/ leaf_obj o = false -> deep r) -> a_el o (Some None) (in_choice N w p) e = Some q -> deep q) by (intros o q Ko Hq; apply (Ko _ _ _ _ Hq); left; discriminate).
    clear Hleaf Hc. revert H. induction Kl as [|(c', o) l Ko Kl IH]; cbn [a_cases]; intros H.
    + destruct d as [f|]; [exact (Hb f r Kf H)|]. injection H as <-. constructor.
    + apply obind_inv in H as (v' & _ & H). destruct (matches e v v'); [exact (Hb o r Ko H)|exact (IH H)].
Qed.

(** ** Items of the body that are not ports *)
Notation located_ := (located A M N m_leaf). Notation items_of := (all_located A M N m_leaf). Notation direct := (direct A M N). Notation is_direct := (is_direct A M N).
Definition stays (names : list str) (o : sobj) : bool := match o with SO_id d => negb (mem (d_name d) names) | _ => true end.
Lemma els_cons o l p e : a_els p e (o :: l) = (a <~ a_el o None p e ;; b <~ a_els p e l ;; Some (a ++ b)).
Proof. unfold a_gens. cbn [omapM]. destruct (a_el o None p e); [|reflexivity]. cbn [obind]. fold (omapM (fun o => a_el o None p e)). destruct (omapM _ l); reflexivity. Qed.
Lemma items_app a b : items_of (a ++ b) = (x <~ items_of a ;; y <~ items_of b ;; Some (x ++ y)).
Proof. exact (flat_app located_ a b). Qed.
Lemma items_cons a l : items_of (a :: l) = (x <~ located_ a ;; y <~ items_of l ;; Some (x ++ y)).
Proof. exact (flat_cons located_ a l). Qed.
Lemma no_obj o r : m_leaf o = Some r -> (forall d, o <> SO_id d) -> Forall (fun i => match i with LObj _ _ _ => False | _ => True end) r.
Proof.
  destruct o as [d|c|f|s|h l|h i c s b|h c t l f|h s l d]; cbn [SvFileSpec.m_leaf]; intros H Hd; try discriminate.
  - destruct (Hd d eq_refl).
  - destruct (ci_module c); try discriminate. destruct (m_gkind s); apply obind_inv in H as (x & _ & H); injection H as <-; repeat constructor. destruct x; exact I.
  - apply obind_inv in H as (x & _ & H). injection H as <-. repeat constructor.
  - destruct s; try (cbn [m_process] in H; discriminate H); try (injection H as <-; constructor);
      repeat match type of H with
      | obind _ _ = Some _ => let x := fresh in let Hx := fresh in apply obind_inv in H as (x & Hx & H)
      | match ?x with Some _ => _ | None => _ end = Some _ => destruct x; try discriminate H
      | (if ?x then _ else _) = Some _ => destruct x; try discriminate H
      end; try (injection H as <-; repeat constructor); try (cbn [m_process] in *; discriminate).
Qed.
Lemma not_direct x names : direct x = [] -> is_direct names x = false. Proof. unfold SvFileSpec.is_direct. intros ->. reflexivity. Qed.
Lemma located_none x r : located_ x = Some r -> fst (fst x) <> [] \/ (forall d, snd x <> SO_id d) -> Forall (fun y => direct y = []) r.
Proof.
  unfold located. intros H Hc. apply obind_inv in H as (l & Hl & H). injection H as <-. destruct x as ((p, e), o). cbn [fst snd] in *. destruct Hc as [Hc|Hc].
  - apply Forall_forall. intros y Hy. apply in_map_iff in Hy as (i & <- & _). destruct p; [congruence|]. reflexivity.
  - pose proof (no_obj o l Hl Hc) as F. clear - F. induction F as [|i l Hi F IH]; [constructor|]. cbn [map]. constructor; [|exact IH]. unfold SvFileSpec.direct. destruct p; [|reflexivity]. destruct i; try reflexivity. contradiction.
Qed.
Lemma items_none os r : items_of os = Some r -> Forall (fun x => fst (fst x) <> [] \/ (forall d, snd x <> SO_id d)) os -> Forall (fun y => direct y = []) r.
Proof.
  revert r. induction os as [|x os IH]; intros r H F; [injection H as <-; constructor|]. inversion_clear F. rewrite items_cons in H. apply obind_inv in H as (a & Ha & H). apply obind_inv in H as (b & Hb & H). injection H as <-.
  apply Forall_app. split; [exact (located_none x a Ha H0)|exact (IH b Hb H1)].
Qed.
Lemma filter_none names r : Forall (fun y => direct y = []) r -> filter (fun x => negb (is_direct names x)) r = r /\ flat_map direct r = [].
Proof.
  induction 1 as [|y r Hy F (IH1 & IH2)]; [split; reflexivity|]. cbn [filter flat_map]. rewrite (not_direct y names Hy), Hy. cbn [negb]. rewrite IH1, IH2. split; reflexivity.
Qed.
Lemma body_filter names l : forall os items, a_els [] [] l = Some os -> items_of os = Some items ->
  omapM (m_object A false) (flat_map (fun o => match o with SO_id d => [d] | _ => [] end) l) = Some (flat_map direct items) /\
  exists os', a_els [] [] (filter (stays names) l) = Some os' /\ items_of os' = Some (filter (fun x => negb (is_direct names x)) items).
Proof.
  induction l as [|o l IH]; intros os items H Hi.
  - injection H as <-. injection Hi as <-. split; [reflexivity|]. exists []. split; reflexivity.
  - rewrite els_cons in H. apply obind_inv in H as (a & Ha & H). apply obind_inv in H as (b & Hb & H). injection H as <-. rewrite items_app in Hi. apply obind_inv in Hi as (x & Hx & Hi). apply obind_inv in Hi as (y & Hy & Hi). injection Hi as <-.
    destruct (IH b y Hb Hy) as (Hobj & os' & Hos & Hits). cbn [flat_map]. rewrite flat_map_app, filter_app.
    destruct (match o with SO_id _ => true | _ => false end) eqn:Eid.
    + destruct o as [d|c|f|s|h l0|h i c s b0|h c t l0 f|h s l0 d]; try discriminate. cbn [a_gen in_single mark] in Ha. injection Ha as <-. rewrite items_cons in Hx. unfold located in Hx. cbn [snd fst SvFileSpec.m_leaf] in Hx.
      apply obind_inv in Hx as (q & Hq & Hx). apply obind_inv in Hq as (q' & Hq' & Hq). injection Hq as <-. apply obind_inv in Hq' as (ob & Hob & Hq'). injection Hq' as <-. cbn in Hx. injection Hx as <-.
      cbn [app flat_map SvFileSpec.direct map]. split.
      * cbn [omapM]. rewrite Hob. cbn [obind]. fold (omapM (m_object A false)). rewrite Hobj. reflexivity.
      * cbn [filter stays]. unfold SvFileSpec.is_direct at 1. cbn [SvFileSpec.direct existsb]. rewrite (object_name false d ob Hob), orb_false_r. destruct (mem (d_name d) names); cbn [negb app].
        -- exists os'. split; assumption.
        -- exists (([], [], SO_id d) :: os'). split; [rewrite els_cons; cbn [a_gen in_single mark obind]; rewrite Hos; reflexivity|]. rewrite items_cons. unfold located at 1. cbn [snd fst SvFileSpec.m_leaf]. rewrite Hob. cbn [obind map]. rewrite Hits. reflexivity.
    + assert (F : Forall (fun x => fst (fst x) <> [] \/ (forall d, snd x <> SO_id d)) a).
      { destruct (leaf_obj o) eqn:El.
        - assert (a = [([], [], mark false o)]) as -> by (destruct o; try discriminate; injection Ha as <-; reflexivity). constructor; [|constructor]. right. cbn [snd]. intros d. destruct o; discriminate.
        - pose proof (elab_deep o None [] [] a Ha (or_intror (or_intror El))) as D. clear - D. induction D; constructor; [left; assumption|assumption]. }
      destruct (filter_none names x (items_none a x Hx F)) as (E1 & E2). rewrite E1, E2. assert ((match o with SO_id d => [d] | _ => [] end) = []) as -> by (destruct o; reflexivity || discriminate). split; [exact Hobj|].
      cbn [filter]. assert (stays names o = true) as -> by (destruct o; reflexivity || discriminate). exists (a ++ os'). split; [rewrite els_cons, Ha; cbn [obind]; rewrite Hos; reflexivity|]. rewrite items_app, Hx. cbn [obind]. rewrite Hits. reflexivity.
Qed.
Notation v_kleaf := (v_kleaf A M n). Notation place_same := (place_same A M N).
Lemma located_sim (Hn : n <> 0) x q : located A M N v_kleaf x = Some q -> exists os r, conv_gres N x = Ok os /\ items_of os = Some r /\ Forall2 place_same q r.
Proof.
  intros H. unfold located in H. apply obind_inv in H as (l & Hl & H). injection H as <-. unfold SvFileSpec.v_kleaf in Hl. destruct (kept_leaf A M n (snd x)) eqn:Hk; [|discriminate].
  destruct (leaf_sim Hn (snd x) l Hk Hl) as (os & r' & Hc & Hm & Hs). exists (map (fun o => (fst x, mark false o)) os), (map (fun i => (fst x, i)) r'). split; [unfold conv_gres; rewrite Hc; reflexivity|]. split.
  - clear - Hm. revert r' Hm. induction os as [|o os IH]; intros r' Hm; [injection Hm as <-; reflexivity|]. unfold leaves in *. rewrite flat_cons in Hm. apply obind_inv in Hm as (a & Ha & Hm). apply obind_inv in Hm as (b & Hb & Hm). injection Hm as <-.
    cbn [map]. rewrite items_cons. unfold located at 1. cbn [fst snd]. rewrite leaf_mark, Ha. cbn [obind]. rewrite (IH b Hb). cbn [obind]. rewrite map_app. reflexivity.
  - clear - Hs. induction Hs as [|i j l l' Hi H IH]; [constructor|]. cbn [map]. constructor; [split; [reflexivity|exact Hi]|exact IH].
Qed.
Lemma body_sim (Hn : n <> 0) gs R g items : concatM conv_gitem gs = Ok R -> s_gens A N num test matches arith one_more n [] [] gs = Some g -> all_located A M N v_kleaf g = Some items ->
  exists os items', a_els [] [] R = Some os /\ items_of os = Some items' /\ Forall2 place_same items items'.
Proof.
  intros HR Hg Hi. destruct (gens_sim A N num test matches arith one_more n gs [] [] R g HR Hg) as (os & Hos & Ha). exists os.
  assert (exists items', items_of os = Some items' /\ Forall2 place_same items items') as (items' & H1 & H2); [|exists items'; auto].
  clear - Hn Hos Hi. revert os items Hos Hi. induction g as [|x g IH]; intros os items Hos Hi; [injection Hos as <-; injection Hi as <-; exists []; split; [reflexivity|constructor]|].
  change (bind (conv_gres N x) (fun a => bind (conv_gress N g) (fun r => Ok (a ++ r))) = Ok os) in Hos. apply bind_inv in Hos as (a & Ha & Hos). apply bind_inv in Hos as (b & Hb & Hos). injection Hos as <-.
  unfold all_located in Hi. change (flat (located A M N v_kleaf) (x :: g) = Some items) in Hi. rewrite flat_cons in Hi. apply obind_inv in Hi as (q & Hq & Hi). apply obind_inv in Hi as (r & Hr & Hi). injection Hi as <-.
  destruct (located_sim Hn x q Hq) as (os & r' & Hc & Hm & Hs). rewrite Hc in Ha. injection Ha as ->. destruct (IH b r Hb Hr) as (r2 & Hm2 & Hs2). exists (r' ++ r2). rewrite items_app, Hm. cbn [obind]. rewrite Hm2. split; [reflexivity|]. apply Forall2_app; assumption.
Qed.
(** Documentation and attributes do not matter. *)
Definition bare (d : iddef) : iddef := mk_iddef (d_name d) (d_type d) (d_value d) (d_dir d) (d_latched d) (d_const d) (d_static d) (d_shared d) (d_alias d) [] [].
Definition bare_o (o : sobj) : sobj := match o with SO_id d => SO_id (bare d) | _ => o end.
Lemma bare_object p d d' : bare d = bare d' -> m_object A p d = m_object A p d'.
Proof. intros E. change (m_object A p (bare d) = m_object A p (bare d')). rewrite E. reflexivity. Qed.
Lemma map_cons_inv {X Y} (f : X -> Y) a l a' l' : map f (a :: l) = map f (a' :: l') -> f a = f a' /\ map f l = map f l'. Proof. intros E. injection E as E1 E2. split; [|exact E2]. exact E1. Qed.

Lemma bare_objects p l : forall l', map bare l = map bare l' -> omapM (m_object A p) l = omapM (m_object A p) l'.
Proof.
  induction l as [|d l IH]; intros [|d' l'] E; try discriminate; [reflexivity|]. apply map_cons_inv in E as (E & El). cbn [omapM]. rewrite (bare_object p d d' E). fold (omapM (m_object A p)). rewrite (IH l' El). reflexivity.
Qed.
Lemma bare_items l : forall l' os, map bare_o l = map bare_o l' -> a_els [] [] l = Some os -> exists os', a_els [] [] l' = Some os' /\ items_of os' = items_of os.
Proof.
  induction l as [|o l IH]; intros [|o' l'] os E H; try discriminate; [exists []; injection H as <-; split; reflexivity|]. apply map_cons_inv in E as (E & El).
  rewrite els_cons in H. apply obind_inv in H as (a & Ha & H). apply obind_inv in H as (b & Hb & H). injection H as <-. destruct (IH l' b El Hb) as (b' & Hb' & Hi).
  assert (exists a', a_el o' None [] [] = Some a' /\ items_of a' = items_of a) as (a' & Ha' & Hia).
  { destruct (match o with SO_id _ => true | _ => false end) eqn:Eid.
    - destruct o as [d|c|f|s|h l0|h i c s b0|h c t l0 f|h s l0 d]; try discriminate. destruct o' as [d'|c|f|s|h l0|h i c s b0|h c t l0 f|h s l0 d']; try discriminate. injection Ha as <-. eexists. split; [reflexivity|].
      rewrite !items_cons. unfold located. cbn [snd fst SvFileSpec.m_leaf mark]. cbn [bare_o] in E. assert (Eb : bare d = bare d') by congruence. rewrite (bare_object false d d' Eb). reflexivity.
    - assert (o = o') as <- by (destruct o, o'; try discriminate; exact E). exists a. split; [exact Ha|reflexivity]. }
  exists (a' ++ b'). rewrite els_cons, Ha'. cbn [obind]. rewrite Hb'. split; [reflexivity|]. rewrite !items_app, Hia, Hi. reflexivity.
Qed.
(** ** The objects of the body *)
Definition wf_obj (o : mobj fobj) : Prop := match o with MO_other (FO_other _ _ (SO_id _)) | MO_other (FO_id _) => False | _ => True end.
Definition sobjs (O : list (mobj fobj)) : list sobj := flat_map item_of (map of_mobj O).
Definition plain_obj (o : mobj fobj) : Prop := match o with MO_other (FO_dec _) | MO_other (FO_def _ _) => False | _ => True end.
Lemma sobjs_app a b : sobjs (a ++ b) = sobjs a ++ sobjs b. Proof. unfold sobjs. rewrite map_app, flat_map_app. reflexivity. Qed.
Lemma of_sobjs l : sobjs (map of_sobj l) = l /\ Forall wf_obj (map of_sobj l) /\ Forall plain_obj (map of_sobj l).
Proof.
  induction l as [|o l (IH1 & IH2 & IH3)]; [repeat split; constructor|]. unfold sobjs in *. cbn [map flat_map]. rewrite IH1. split; [destruct o; reflexivity|]. split; constructor; try assumption; destruct o; exact I.
Qed.
Lemma add_same (f : mobj fobj -> mobj fobj) : (forall o, wf_obj o -> plain_obj o -> wf_obj (f o) /\ plain_obj (f o) /\ map bare_o (item_of (of_mobj (f o))) = map bare_o (item_of (of_mobj o))) ->
  forall l, Forall wf_obj l -> Forall plain_obj l -> Forall wf_obj (map f l) /\ Forall plain_obj (map f l) /\ map bare_o (sobjs (map f l)) = map bare_o (sobjs l).
Proof.
  intros Hf. induction l as [|o l IH]; intros Hw Hp; [repeat split; constructor|]. inversion_clear Hw. inversion_clear Hp. destruct (Hf o) as (F1 & F2 & F3); [assumption..|]. destruct IH as (I1 & I2 & I3); [assumption..|].
  cbn [map]. split; [constructor; assumption|]. split; [constructor; assumption|]. unfold sobjs in *. cbn [map flat_map]. rewrite !map_app, F3, I3. reflexivity.
Qed.
Lemma add_attr_same a o : wf_obj o -> plain_obj o -> wf_obj (add_attr a o) /\ plain_obj (add_attr a o) /\ map bare_o (item_of (of_mobj (add_attr a o))) = map bare_o (item_of (of_mobj o)).
Proof. destruct o as [d|[d|s b x|m|m l]]; cbn; intros Hw Hp; try contradiction; repeat split. exact Hw. Qed.
Lemma add_doc_same a o : wf_obj o -> plain_obj o -> wf_obj (add_doc a o) /\ plain_obj (add_doc a o) /\ map bare_o (item_of (of_mobj (add_doc a o))) = map bare_o (item_of (of_mobj o)).
Proof. destruct o as [d|[d|s b x|m|m l]]; cbn; intros Hw Hp; try contradiction; repeat split. exact Hw. Qed.
Lemma out_ok doc a l : let O := map (add_attr a) (doc_first doc (map of_sobj l)) in Forall wf_obj O /\ Forall plain_obj O /\ map bare_o (sobjs O) = map bare_o l.
Proof.
  cbv zeta. destruct (of_sobjs l) as (E & W & P). assert (Forall wf_obj (doc_first doc (map of_sobj l)) /\ Forall plain_obj (doc_first doc (map of_sobj l)) /\ map bare_o (sobjs (doc_first doc (map of_sobj l))) = map bare_o l) as (W' & P' & E').
  { destruct l as [|o l]; [repeat split; constructor|]. cbn [map doc_first] in *. inversion_clear W. inversion_clear P. destruct (add_doc_same doc (of_sobj o)) as (F1 & F2 & F3); [assumption..|].
    split; [constructor; assumption|]. split; [constructor; assumption|]. change (map bare_o (sobjs (add_doc doc (of_sobj o) :: map of_sobj l)) = map bare_o (o :: l)). rewrite <- E. unfold sobjs. cbn [map flat_map]. rewrite !map_app, F3. reflexivity. }
  destruct (add_same _ (add_attr_same a) _ W' P') as (Q1 & Q2 & Q3). split; [exact Q1|]. split; [exact Q2|]. rewrite Q3. exact E'.
Qed.
Notation v_module := (v_module A M N num test matches arith one_more n). Notation m_module := (m_module A M N num test matches arith one_more n). Notation mod_same := (mod_same A M N). Notation smodule := (smodule A M N).
Definition v_sub (i : mditem mdecl) : option (list smodule) := match i with MT_module m => s <~ v_module m ;; Some [s] | MT_skipped => None | _ => Some [] end.
Definition m_sub (o : fobj) : option (list smodule) := match o with FO_dec _ | FO_def _ _ => s <~ m_module o ;; Some [s] | _ => Some [] end.
Lemma v_module_eq ext h p l : v_module (MD ext h p l) =
      (s <~ v_ident (mh_name h) ;; hp <~ v_plist A (mh_params h) ;;
      if ext then match l with [] => r <~ v_extern A p ;; Some (Mod A M N s true hp r [] []) | _ => None end
      else
        bp <~ flat (body_params A) l ;; params <~ all_params A (mh_params h) hp bp ;;
        g <~ s_gens A N num test matches arith one_more n [] [] (flat_map body_gens l) ;; items <~ all_located A M N v_kleaf g ;;
        ds <~ flat (body_ports A) l ;; ports <~ v_ports A p ds (flat_map direct items) ;;
        subs <~ flat v_sub l ;;
        Some (Mod A M N s false params ports (filter (fun x => negb (is_direct (map (ob_name A) ports) x)) items) subs)).
Proof. reflexivity. Qed.
Lemma m_module_eq d l : m_module (FO_def d l) =
      (hp <~ omapM (m_object A true) (md_generics d) ;; r <~ omapM (m_object A false) (md_ports d) ;;
      g <~ a_els [] [] (flat_map item_of l) ;; items <~ items_of g ;;
      subs <~ flat m_sub l ;;
      Some (Mod A M N (md_name d) false hp r items subs)).
Proof. reflexivity. Qed.
Lemma plain_subs O : Forall plain_obj O -> flat m_sub (map of_mobj O) = Some [].
Proof. induction 1 as [|o O Ho H IH]; [reflexivity|]. cbn [map]. rewrite flat_cons, IH. destruct o as [d|[d|s b x|m|m l]]; try contradiction; reflexivity. Qed.
Definition msim (m : mdecl) : Prop := forall o, conv_mdecl m = Ok o -> match o with FO_dec _ | FO_def _ _ => True | _ => False end /\ forall s, v_module m = Some s -> exists s', m_module o = Some s' /\ mod_same s s'.
Lemma noparam l r : conv_gleaf l = Ok r -> match l with GL_param _ => True | _ => snd r = [] end.
Proof. destruct l; cbn [conv_gleaf]; intros H; try exact I; repeat (apply bind_inv in H as (? & _ & H)); injection H as <-; reflexivity. Qed.
Lemma concat_cons {X Y} (f : X -> outcome (list Y)) a l : concatM f (a :: l) = (x <- f a ;; y <- concatM f l ;; Ok (x ++ y)). Proof. reflexivity. Qed.
Lemma concat_one {X Y} (f : X -> outcome (list Y)) a r : f a = Ok r -> concatM f [a] = Ok r. Proof. intros H. rewrite concat_cons, H. cbn. rewrite app_nil_r. reflexivity. Qed.
Lemma concat_app_ok {X Y} (f : X -> outcome (list Y)) a b x y : concatM f a = Ok x -> concatM f b = Ok y -> concatM f (a ++ b) = Ok (x ++ y).
Proof.
  revert x. induction a as [|z a IH]; intros x Ha Hb; [injection Ha as <-; exact Hb|]. rewrite concat_cons in Ha. cbn [app]. rewrite concat_cons. apply bind_inv in Ha as (u & Hu & Ha). apply bind_inv in Ha as (v & Hv & Ha). injection Ha as <-.
  rewrite Hu. cbn [bind]. rewrite (IH v Hv Hb). cbn [bind]. rewrite app_assoc. reflexivity.
Qed.
Lemma bare_more a l : map bare (map (more_attrs a) l) = map bare l. Proof. rewrite map_map. apply map_ext. reflexivity. Qed.
Lemma foldM_app {X Y} (f : X -> Y -> outcome X) a : forall b x y, foldM f x a = Ok y -> foldM f x (a ++ b) = foldM f y b.
Proof. induction a as [|z a IH]; intros b x y H; [injection H as <-; reflexivity|]. cbn [app]. rewrite foldM_cons in *. apply bind_inv in H as (u & Hu & H). rewrite Hu. cbn [bind]. exact (IH b u y H). Qed.
(** One item. *)
Record step_ok (i : mditem mdecl) (st st' : mstate) (D GS : list iddef) (OS : list (mobj fobj)) (R : list sobj) : Prop := mk_step {
  s_objs : ms_objs st' = ms_objs st ++ OS; s_wf : Forall wf_obj OS;
  s_conv : concatM conv_gitem (body_gens i) = Ok R; s_same : map bare_o (sobjs OS) = map bare_o R;
  s_gen : ms_generics st' = ms_generics st ++ GS; s_params : forall bp, body_params A i = Some bp -> omapM (m_object A true) GS = Some bp;
  s_ports : foldM add_decl (ms_ports st) D = Ok (ms_ports st'); s_decls : forall ds, body_ports A i = Some ds -> omapM (m_object A false) D = Some ds;
  s_subs : forall subs, v_sub i = Some subs -> exists subs', flat m_sub (map of_mobj OS) = Some subs' /\ Forall2 mod_same subs subs' }.
Lemma item_step i st st' : match i with MT_module m => msim m | _ => True end -> run_mditem conv_mdecl st i = Ok st' -> exists D GS OS R, step_ok i st st' D GS OS R.
Proof.
  intros Hm H. destruct i as [l|doc at_ g|doc at_ nd|m|]; cbn [run_mditem] in H.
  - apply bind_inv in H as (r & Hr & H). injection H as <-. destruct (of_sobjs r) as (E & W & P). exists [], [], (map of_sobj r), r. split; cbn [ms_objs ms_generics ms_ports body_gens body_params body_ports v_sub]; try rewrite app_nil_r; try reflexivity; try assumption.
    + exact (concat_one _ _ _ Hr).
    + rewrite E. reflexivity.
    + intros bp Hb. injection Hb as <-. reflexivity.
    + intros ds Hd. injection Hd as <-. reflexivity.
    + intros s Hs. injection Hs as <-. exists []. split; [exact (plain_subs _ P)|constructor].
  - apply bind_inv in H as (r & Hr & H). apply bind_inv in H as (b & Hb & H). apply bind_inv in H as (a & Ha & H). injection H as <-. destruct (out_ok doc a (fst r)) as (W & P & E).
    set (OS := map (add_attr a) (doc_first doc (map of_sobj (fst r)))) in *.
    destruct (match g with GI_leaf (GL_param _) => true | _ => false end) eqn:Ep.
    + destruct g as [l| | | | |]; try discriminate. destruct l; try discriminate. cbn [conv_top conv_gleaf] in Hr. apply bind_inv in Hr as (r0 & Hr & Hr0). injection Hr0 as <-. cbn [fst snd] in *. exists [], (map (more_attrs b) r0), OS, [].
      split; cbn [ms_objs ms_generics ms_ports body_gens body_params body_ports v_sub]; try reflexivity; try assumption.
      * intros bp Hbp. destruct (full_body b0) eqn:Hf; [|discriminate]. unfold v_params in Hbp. destruct (forallb kept_pone (body_ones false b0)) eqn:Hk; [|discriminate].
        destruct (SvTypeProofs.body_sim A false b0 bp Hf Hk Hbp) as (xs & Hx & Hxm). rewrite Hr in Hx. injection Hx as ->. rewrite <- Hxm. apply bare_objects. apply bare_more.
      * intros ds Hd. injection Hd as <-. reflexivity.
      * intros s Hs. injection Hs as <-. exists []. split; [exact (plain_subs _ P)|constructor].
    + assert (Hbg : body_gens (MT_item doc at_ g) = [g]) by (destruct g as [l| | | | |]; try reflexivity; destruct l; try reflexivity; discriminate).
      assert (Hbp : body_params A (MT_item doc at_ g) = Some []) by (destruct g as [l| | | | |]; try reflexivity; destruct l; try reflexivity; discriminate).
      assert (Hg : conv_gitem g = Ok (fst r) /\ snd r = []).
      { destruct g as [l| | | | |]; try (unfold conv_top in Hr; apply bind_inv in Hr as (q & Hq & Hr); injection Hr as <-; split; [exact Hq|reflexivity]). cbn [conv_top conv_gitem] in *. rewrite Hr. split; [reflexivity|]. pose proof (noparam l r Hr) as Q. destruct l; try exact Q. discriminate. }
      destruct Hg as (Hg & Hs). exists [], (map (more_attrs b) (snd r)), OS, (fst r). split; cbn [ms_objs ms_generics ms_ports]; try reflexivity; try assumption.
      * rewrite Hbg. exact (concat_one _ _ _ Hg).
      * intros bp Hp. rewrite Hbp in Hp. injection Hp as <-. rewrite Hs. reflexivity.
      * intros ds Hd. injection Hd as <-. reflexivity.
      * intros s Hsb. injection Hsb as <-. exists []. split; [exact (plain_subs _ P)|constructor].
  - apply bind_inv in H as (l & Hl & H). apply bind_inv in H as (ps & Hps & H). injection H as <-. unfold conv_mports in Hl. apply bind_inv in Hl as (l0 & Hl0 & Hl). apply bind_inv in Hl as (a & Ha & Hl). injection Hl as <-.
    assert (exists D, foldM add_decl (ms_ports st) D = Ok ps /\ map bare D = map bare l0) as (D & HD & Eb).
    { destruct l0 as [|d l0]; cbn [map add_decls] in Hps; [injection Hps as <-; exists []; split; reflexivity|]. match type of Hps with bind (add_decl _ ?x) (fun _ => foldM add_decl _ ?y) = _ => exists (x :: y) end. split; [exact Hps|]. cbn [map]. rewrite bare_more. reflexivity. }
    exists D, [], [], []. split; cbn [ms_objs ms_generics ms_ports body_gens body_params body_ports v_sub]; try rewrite app_nil_r; try reflexivity; try assumption.
    + constructor.
    + intros bp Hb. injection Hb as <-. reflexivity.
    + intros ds Hd. destruct (kept_nadecl nd) eqn:Hk; [|discriminate]. destruct (nadecl_sim A nd ds Hk Hd) as (xs & Hx & Hxm). rewrite Hl0 in Hx. injection Hx as ->. rewrite (bare_objects false D xs Eb). exact Hxm.
    + intros s Hs. injection Hs as <-. exists []. split; [reflexivity|constructor].
  - apply bind_inv in H as (o & Ho & H). injection H as <-. destruct (Hm o Ho) as (Hk & Hs). exists [], [], [MO_other o], []. split; cbn [ms_objs ms_generics ms_ports body_gens body_params body_ports v_sub]; try rewrite app_nil_r; try reflexivity; try assumption.
    + constructor; [|constructor]. destruct o; try contradiction; exact I.
    + destruct o; try contradiction; reflexivity.
    + intros bp Hb. injection Hb as <-. reflexivity.
    + intros ds Hd. injection Hd as <-. reflexivity.
    + intros s Hv. apply obind_inv in Hv as (s0 & Hs0 & Hv). injection Hv as <-. destruct (Hs s0 Hs0) as (s' & Hs' & Hss). exists [s']. split; [|constructor; [exact Hss|constructor]]. cbn [map of_mobj]. rewrite flat_cons. destruct o; try contradiction; unfold m_sub; rewrite Hs'; reflexivity.
  - injection H as <-. exists [], [], [], []. split; cbn [ms_objs ms_generics ms_ports body_gens body_params body_ports v_sub]; try rewrite app_nil_r; try reflexivity; try (constructor; fail).
    + intros bp Hb. injection Hb as <-. reflexivity.
    + intros ds Hd. injection Hd as <-. reflexivity.
    + discriminate.
Qed.
Record steps_ok (l : list (mditem mdecl)) (st st' : mstate) (D GS : list iddef) (OS : list (mobj fobj)) (R : list sobj) : Prop := mk_steps {
  t_objs : ms_objs st' = ms_objs st ++ OS; t_wf : Forall wf_obj OS;
  t_conv : concatM conv_gitem (flat_map body_gens l) = Ok R; t_same : map bare_o (sobjs OS) = map bare_o R;
  t_gen : ms_generics st' = ms_generics st ++ GS; t_params : forall bp, flat (body_params A) l = Some bp -> omapM (m_object A true) GS = Some bp;
  t_ports : foldM add_decl (ms_ports st) D = Ok (ms_ports st'); t_decls : forall ds, flat (body_ports A) l = Some ds -> omapM (m_object A false) D = Some ds;
  t_subs : forall subs, flat v_sub l = Some subs -> exists subs', flat m_sub (map of_mobj OS) = Some subs' /\ Forall2 mod_same subs subs' }.
Lemma flat_two {X Y E} (f : X -> option (list Y)) (g : E -> option Y) x l d1 d2 : (forall r, f x = Some r -> omapM g d1 = Some r) -> (forall r, flat f l = Some r -> omapM g d2 = Some r) ->
  forall r, flat f (x :: l) = Some r -> omapM g (d1 ++ d2) = Some r.
Proof. intros H1 H2 r H. rewrite flat_cons in H. apply obind_inv in H as (a & Ha & H). apply obind_inv in H as (b & Hb & H). injection H as <-. rewrite omapM_app, (H1 a Ha). cbn [obind]. rewrite (H2 b Hb). reflexivity. Qed.
Lemma items_steps l : Forall (fun i => match i with MT_module m => msim m | _ => True end) l -> forall st st', foldM (run_mditem conv_mdecl) st l = Ok st' -> exists D GS OS R, steps_ok l st st' D GS OS R.
Proof.
  induction 1 as [|i l Hi H IH]; intros st st' E.
  - injection E as <-. exists [], [], [], []. split; try rewrite app_nil_r; try reflexivity; try (constructor; fail).
    + intros bp Hb. injection Hb as <-. reflexivity.
    + intros ds Hd. injection Hd as <-. reflexivity.
    + intros s Hs. injection Hs as <-. exists []. split; [reflexivity|constructor].
  - rewrite foldM_cons in E. apply bind_inv in E as (st1 & H1 & E). destruct (item_step i st st1 Hi H1) as (D & GS & OS & R & K). destruct (IH st1 st' E) as (D2 & GS2 & OS2 & R2 & K2). destruct K as [A1 A2 A3 A4 A5 A6 A7 A8 A9], K2 as [B1 B2 B3 B4 B5 B6 B7 B8 B9].
    exists (D ++ D2), (GS ++ GS2), (OS ++ OS2), (R ++ R2). split.
    + rewrite B1, A1, app_assoc. reflexivity.
    + apply Forall_app. split; assumption.
    + cbn [flat_map]. apply concat_app_ok; assumption.
    + rewrite sobjs_app, !map_app, A4, B4. reflexivity.
    + rewrite B5, A5, app_assoc. reflexivity.
    + exact (flat_two _ _ i l GS GS2 A6 B6).
    + rewrite (foldM_app _ _ _ _ _ A7). exact B7.
    + exact (flat_two _ _ i l D D2 A8 B8).
    + intros s Hs. rewrite flat_cons in Hs. apply obind_inv in Hs as (a & Ha & Hs). apply obind_inv in Hs as (b & Hb & Hs). injection Hs as <-. destruct (A9 a Ha) as (a' & Ha' & Sa). destruct (B9 b Hb) as (b' & Hb' & Sb).
      exists (a' ++ b'). rewrite map_app, flat_app, Ha'. cbn [obind]. rewrite Hb'. split; [reflexivity|]. apply Forall2_app; assumption.
Qed.
(** ** What the ports take away *)
Lemma not_port_stays names O : Forall wf_obj O -> sobjs (filter (not_port names) O) = filter (stays names) (sobjs O).
Proof.
  induction 1 as [|o O Ho H IH]; [reflexivity|]. unfold sobjs in *. cbn [filter map flat_map]. rewrite filter_app, <- IH. destruct o as [d|[d|s b x|m|m l]]; cbn [not_port of_mobj item_of app filter stays]; try contradiction; try reflexivity.
  - unfold mem. destruct (existsb (seqb (d_name d)) names); reflexivity.
  - destruct x; try contradiction; reflexivity.
Qed.
Lemma not_port_subs names O : flat m_sub (map of_mobj (filter (not_port names) O)) = flat m_sub (map of_mobj O).
Proof.
  induction O as [|o O IH]; [reflexivity|]. cbn [filter map]. rewrite flat_cons, <- IH. destruct o as [d|x]; cbn [not_port].
  - destruct (existsb (seqb (d_name d)) names); cbn [negb map of_mobj m_sub obind]; [|rewrite flat_cons; cbn [of_mobj m_sub obind]]; destruct (flat m_sub (map of_mobj (filter (not_port names) O))); reflexivity.
  - cbn [map]. rewrite flat_cons. reflexivity.
Qed.
Lemma stays_bare names l : forall l', map bare_o l = map bare_o l' -> map bare_o (filter (stays names) l) = map bare_o (filter (stays names) l').
Proof.
  induction l as [|o l IH]; intros [|o' l'] E; try discriminate; [reflexivity|]. apply map_cons_inv in E as (E & El). cbn [filter].
  assert (stays names o = stays names o') as -> by (destruct o, o'; cbn [bare_o] in E; try discriminate; try reflexivity; cbn [stays]; unfold bare in E; injection E as En; rewrite En; reflexivity).
  destruct (stays names o'); [cbn [map]; rewrite E, (IH l' El); reflexivity|exact (IH l' El)].
Qed.
Definition ids (l : list sobj) : list iddef := flat_map (fun o => match o with SO_id d => [d] | _ => [] end) l.
Definition mids (O : list (mobj fobj)) : list iddef := flat_map (fun o => match o with MO_id v => [v] | MO_other _ => [] end) O.
Lemma ids_bare l : forall l', map bare_o l = map bare_o l' -> map bare (ids l) = map bare (ids l').
Proof.
  induction l as [|o l IH]; intros [|o' l'] E; try discriminate; [reflexivity|]. apply map_cons_inv in E as (E & El). unfold ids in *. cbn [flat_map]. rewrite !map_app, (IH l' El). f_equal.
  destruct o, o'; cbn [bare_o] in E; try discriminate; try reflexivity. cbn [map]. injection E as E. f_equal. unfold bare. congruence.
Qed.
Lemma mids_ids O : Forall wf_obj O -> mids O = ids (sobjs O).
Proof. induction 1 as [|o O Ho H IH]; [reflexivity|]. unfold mids, ids, sobjs in *. cbn [flat_map map]. rewrite flat_map_app, <- IH. destruct o as [d|[d|s b x|m|m l]]; try contradiction; try reflexivity. destruct x; try contradiction; reflexivity. Qed.
Lemma same_direct a b : Forall2 place_same a b -> flat_map direct a = flat_map direct b /\ forall names, Forall2 place_same (filter (fun x => negb (is_direct names x)) a) (filter (fun x => negb (is_direct names x)) b).
Proof.
  induction 1 as [|x y a b Hxy H (IH1 & IH2)]; [split; [reflexivity|intros; constructor]|].
  assert (E : direct x = direct y).
  { destruct x as ((p & e) & i), y as ((p' & e') & j), Hxy as (E & Hi). cbn [fst snd] in *. injection E as <- <-. destruct p; [|reflexivity]. unfold SvFileSpec.direct. destruct i, j; cbn [SvFileSpec.item_same] in Hi; try discriminate; try reflexivity. injection Hi as <-. reflexivity. }
  split; [cbn [flat_map]; rewrite E, IH1; reflexivity|]. intros names. cbn [filter]. assert (is_direct names x = is_direct names y) as -> by (unfold SvFileSpec.is_direct; rewrite E; reflexivity).
  destruct (negb (is_direct names y)); [constructor; [exact Hxy|apply IH2]|apply IH2].
Qed.
(** The objects that stay, and the declared objects: [names] are those of the ports. *)
Lemma objs_stay (Hn : n <> 0) gs R g items O names : concatM conv_gitem gs = Ok R -> s_gens A N num test matches arith one_more n [] [] gs = Some g -> all_located A M N v_kleaf g = Some items ->
  Forall wf_obj O -> map bare_o (sobjs O) = map bare_o R ->
  omapM (m_object A false) (mids O) = Some (flat_map direct items) /\
  exists os items', a_els [] [] (flat_map item_of (map of_mobj (filter (not_port names) O))) = Some os /\ items_of os = Some items' /\ Forall2 place_same (filter (fun x => negb (is_direct names x)) items) items'.
Proof.
  intros HR Hg Hi HO Hb. destruct (body_sim Hn gs R g items HR Hg Hi) as (os & items' & Hos & Hits & Hs). destruct (body_filter names R os items' Hos Hits) as (Hobj & os' & Hos' & Hits'). destruct (same_direct _ _ Hs) as (Ed & Ef). split.
  - rewrite (mids_ids O HO). rewrite (bare_objects false _ _ (ids_bare _ _ Hb)), Ed. exact Hobj.
  - destruct (bare_items (filter (stays names) R) (filter (stays names) (sobjs O)) os' (stays_bare names _ _ (eq_sym Hb)) Hos') as (os2 & Hos2 & Hits2). exists os2. rewrite Hits' in Hits2.
    change (flat_map item_of (map of_mobj (filter (not_port names) O))) with (sobjs (filter (not_port names) O)). rewrite (not_port_stays names O HO). eexists. split; [exact Hos2|]. split; [exact Hits2|]. apply Ef.
Qed.
(** ** The ports *)
Lemma fill_id p d o : m_object A p d = Some o -> fill_type d = d.
Proof. intros H. unfold fill_type. destruct (d_type d) eqn:E; try reflexivity. unfold m_object in H. rewrite E in H. discriminate. Qed.
Lemma fill_ids p l : forall r, omapM (m_object A p) l = Some r -> map fill_type l = l.
Proof.
  induction l as [|d l IH]; intros r H; [reflexivity|]. cbn [omapM] in H. apply obind_inv in H as (o & Ho & H). fold (omapM (m_object A p)) in H. apply obind_inv in H as (r0 & Hr & H). cbn [map]. rewrite (fill_id p d o Ho), (IH r0 Hr). reflexivity.
Qed.
Lemma omapM_nil {X Y} (f : X -> option Y) l : omapM f l = Some [] -> l = [].
Proof. destruct l as [|x l]; [reflexivity|]. cbn [omapM]. intros H. apply obind_inv in H as (a & _ & H). apply obind_inv in H as (b & _ & H). discriminate. Qed.
Lemma bare_type d d' : bare d = bare d' -> bare (fill_type d) = bare (fill_type d').
Proof.
  intros E. assert (forall x, bare (fill_type x) = fill_type (bare x)) as K by (intros x; unfold fill_type; cbn [bare d_type]; destruct (d_type x); reflexivity). rewrite !K, E. reflexivity.
Qed.
Lemma bare_dirs l : forall prev l', map bare l = map bare l' -> map bare (fill_dirs prev l) = map bare (fill_dirs prev l').
Proof.
  induction l as [|d l IH]; intros prev [|d' l'] E; try discriminate; [reflexivity|]. apply map_cons_inv in E as (E & El). cbn [fill_dirs].
  assert (Ed : d_dir d = d_dir d') by (unfold bare in E; injection E; congruence). assert (Elat : d_latched d = d_latched d') by (unfold bare in E; injection E; congruence). rewrite Ed, Elat. pose proof (bare_type d d' E) as Et.
  destruct (is_unknown (d_dir d')); cbn [map]; rewrite (IH _ l' El); f_equal.
  - change (set_port (bare (fill_type d)) prev (d_latched d') = set_port (bare (fill_type d')) prev (d_latched d')). rewrite Et. reflexivity.
  - exact Et.
Qed.
Lemma dirs_names l : forall prev, map d_name (fill_dirs prev l) = map d_name l.
Proof. induction l as [|d l IH]; intros prev; [reflexivity|]. cbn [fill_dirs]. destruct (is_unknown (d_dir d)); cbn [map]; rewrite IH; f_equal; unfold fill_type; destruct (d_type d); reflexivity. Qed.
Lemma consume_id (O : list (mobj fobj)) P : (forall v, In v (mids O) -> mem (d_name v) (map d_name P) = false) -> consume P O = (P, O).
Proof.
  induction O as [|o O IH]; intros H; [reflexivity|]. destruct o as [v|x]; cbn [consume].
  - rewrite (update_none _ _ _ (mem_find _ _ (H v (or_introl eq_refl)))), IH; [reflexivity|]. intros y Hy. apply H. right. exact Hy.
  - rewrite IH; [reflexivity|exact H].
Qed.
Lemma consume_filter O P P' O' : consume (X := fobj) P O = (P', O') -> O' = filter (not_port (map d_name P)) O. Proof. intros H. exact (proj1 (proj2 (consume_ok O P P' O' H))). Qed.
Lemma ansi_length l : forall d t r, conv_ansi_list d t l = Ok r -> List.length r = List.length l.
Proof.
  induction l as [|p l IH]; intros d t r H; [injection H as <-; reflexivity|]. cbn [conv_ansi_list] in H. apply bind_inv in H as (((x & d') & b) & _ & H). apply bind_inv in H as (xs & Hx & H). injection H as <-. cbn [List.length]. rewrite (IH _ _ _ Hx). reflexivity.
Qed.
Lemma mapM_length {X Y} (f : X -> outcome Y) l : forall r, mapM f l = Ok r -> List.length r = List.length l.
Proof. induction l as [|x l IH]; intros r H; [injection H as <-; reflexivity|]. cbn [mapM] in H. fold (mapM f) in H. apply bind_inv in H as (y & _ & H). apply bind_inv in H as (ys & Hy & H). injection H as <-. cbn [List.length]. rewrite (IH _ Hy). reflexivity. Qed.
Lemma bare_combine {X} (ps : list iddef) : forall (l : list X) f, (forall d x, bare (f (d, x)) = bare d) -> List.length l = List.length ps -> map bare (map f (combine ps l)) = map bare ps.
Proof. induction ps as [|d ps IH]; intros [|x l] f Hf E; try discriminate; [reflexivity|]. cbn [combine map]. rewrite Hf. f_equal. apply IH; [exact Hf|]. injection E as E. exact E. Qed.
Lemma ansi_bare l P : conv_hports (HP_ansi l) = Ok P -> exists ps, conv_ansi_ports (map snd l) = Ok ps /\ map bare P = map bare ps.
Proof.
  intros H. cbn [conv_hports] in H. apply bind_inv in H as (ps & Hps & H). apply bind_inv in H as (ats & Ha & H). injection H as <-. exists ps. split; [exact Hps|]. apply bare_combine; [reflexivity|].
  unfold conv_ansi_ports in Hps. rewrite combine_length, map_length, (mapM_length _ _ _ Ha), (ansi_length _ _ _ _ Hps), map_length. apply Nat.min_id.
Qed.
Lemma bare_names l l' : map bare l = map bare l' -> map d_name l = map d_name l'.
Proof. intros E. assert (forall x, map d_name x = map d_name (map bare x)) as K by (intros x; rewrite map_map; apply map_ext; reflexivity). rewrite (K l), (K l'), E. reflexivity. Qed.
Lemma ansi_sim l P r : conv_hports (HP_ansi l) = Ok P -> plain_ports None (map snd l) = true -> forallb kept_ansi (spell_out V_INOUT None (map snd l)) = true -> omapM (v_ansi A) (spell_out V_INOUT None (map snd l)) = Some r ->
  omapM (m_object A false) (fill_dirs DIR_INOUT P) = Some r /\ map (ob_name A) r = map d_name P.
Proof.
  intros H Hp Hk Hr. destruct (ansi_bare l P H) as (ps & Hps & Hb). destruct (header_sim A _ _ Hp Hk Hr) as (xs & Hx & Hm). rewrite header_eq, Hps in Hx. injection Hx as <-. rewrite <- (bare_objects false _ _ (bare_dirs P DIR_INOUT ps Hb)) in Hm. split; [exact Hm|].
  rewrite (objects_names false _ _ Hm). apply dirs_names.
Qed.
Definition of_header (h : iddef) : Prop := d_value h = None /\ d_latched h = false /\ d_const h = false /\ d_static h = false.
Lemma header_names l : forall P names, conv_hports (HP_nonansi l) = Ok P -> omapM (header_name) l = Some names -> map d_name P = names /\ Forall of_header P /\ forallb no_star P = true.
Proof.
  cbn [conv_hports]. induction l as [|p l IH]; intros P names H Hn; [injection H as <-; injection Hn as <-; split; [reflexivity|split; [constructor|reflexivity]]|].
  rewrite concat_cons in H. apply bind_inv in H as (a & Ha & H). apply bind_inv in H as (b & Hb & H). injection H as <-. cbn [omapM] in Hn. apply obind_inv in Hn as (s & Hs & Hn). fold (omapM header_name) in Hn. apply obind_inv in Hn as (ns & Hns & Hn). injection Hn as <-.
  destruct (IH b ns Hb Hns) as (E & F & G). destruct p as [(doc & p)|]; [|discriminate]. destruct p as [[[i [m|] [|r ds]]|ds]|i e]; try discriminate. cbn [header_name] in Hs. apply obind_inv in Hs as (t & Ht & Hs). destruct (seqb t $".*") eqn:Est; [discriminate|]. injection Hs as ->.
  destruct i as [x|x]; [|discriminate]. cbn [v_ident] in Ht. destruct (seqb x $"void"); [discriminate|]. injection Ht as ->. apply bind_inv in Ha as (h & Hh & Ha). injection Ha as <-. cbn in Hh. injection Hh as <-. cbn [app map forallb]. rewrite E, G. split; [reflexivity|]. split; [constructor; [repeat split|exact F]|]. unfold no_star. cbn [d_name set_doc new_var new_iddef]. rewrite Est. reflexivity.
Qed.
Lemma port_flags nd ds : v_nadecl A nd = Some ds -> Forall (fun o => ob_dir A o <> DIR_UNKNOWN /\ ob_const A o = false /\ ob_static A o = false) ds.
Proof.
  assert (K : forall t dir var l r, dir <> DIR_UNKNOWN -> omapM (v_vitem A t dir var false false) l = Some r -> Forall (fun o => ob_dir A o <> DIR_UNKNOWN /\ ob_const A o = false /\ ob_static A o = false) r).
  { intros t dir var l. induction l as [|v l IH]; intros r Hd H; [injection H as <-; constructor|]. cbn [omapM] in H. apply obind_inv in H as (o & Ho & H). fold (omapM (v_vitem A t dir var false false)) in H. apply obind_inv in H as (r0 & Hr & H). injection H as <-. constructor; [|exact (IH r0 Hd Hr)].
    unfold v_vitem in Ho. apply obind_inv in Ho as (n0 & _ & Ho). apply obind_inv in Ho as (d0 & _ & Ho). apply obind_inv in Ho as (x0 & _ & Ho). injection Ho as <-. repeat split; [exact Hd]. }
  destruct nd; cbn [v_nadecl]; intros H; repeat (apply obind_inv in H as (? & _ & H)); (eapply K; [|exact H]); discriminate.
Qed.
Lemma all_flags l ds : flat (body_ports A) l = Some ds -> Forall (fun o => ob_dir A o <> DIR_UNKNOWN /\ ob_const A o = false /\ ob_static A o = false) ds.
Proof.
  revert ds. induction l as [|i l IH]; intros ds H; [injection H as <-; constructor|]. rewrite flat_cons in H. apply obind_inv in H as (a & Ha & H). apply obind_inv in H as (b & Hb & H). injection H as <-. apply Forall_app. split; [|exact (IH b Hb)].
  destruct i; cbn [body_ports] in Ha; try (injection Ha as <-; constructor). destruct (kept_nadecl n0); [exact (port_flags _ _ Ha)|discriminate].
Qed.
Lemma about_objects p s l : forall r, omapM (m_object A p) l = Some r -> omapM (m_object A p) (about s l) = Some (about_ A s r).
Proof.
  induction l as [|d l IH]; intros r H; [injection H as <-; reflexivity|]. cbn [omapM] in H. apply obind_inv in H as (o & Ho & H). fold (omapM (m_object A p)) in H. apply obind_inv in H as (r0 & Hr & H). injection H as <-. pose proof (IH r0 Hr) as E.
  unfold about, about_ in *. cbn [filter]. unfold named at 1. rewrite (object_name p d o Ho). destruct (seqb (d_name d) s); [|exact E]. cbn [omapM]. rewrite Ho. cbn [obind]. fold (omapM (m_object A p)). rewrite E. reflexivity.
Qed.
Lemma object_fields p d o : m_object A p d = Some o -> d_dir d = ob_dir A o /\ d_const d = ob_const A o /\ d_static d = ob_static A o /\ d_latched d = ob_var A o /\ m_typ A (default_base A p d) (d_type d) = Some (ob_type A o).
Proof. unfold m_object. intros H. apply obind_inv in H as (t & Ht & H). apply obind_inv in H as (v & _ & H). injection H as <-. repeat split. exact Ht. Qed.
Lemma decl_object h d o : of_header h -> m_object A false d = Some o -> ob_static A o = false -> d_name h = d_name d -> m_object A false (merge_decl h d) = Some o.
Proof.
  intros (H1 & H2 & H3 & H4) Ho Hs En. rewrite <- Ho. destruct (object_fields _ _ _ Ho) as (_ & _ & E & _). rewrite Hs in E. unfold m_object, default_base, merge_decl. cbn [d_name d_type d_value d_dir d_latched d_const d_static]. rewrite H1, H2, H3, H4, E, En. cbn [orb]. destruct (d_value d); reflexivity.
Qed.
Lemma var_object h d v o o' r : of_header h -> m_object A false d = Some o -> m_object A false v = Some o' -> d_name h = d_name d -> ob_static A o = false -> ob_const A o = false -> joined A o o' = Some r -> m_object A false (merge_var (merge_decl h d) v) = Some r.
Proof.
  intros (H1 & H2 & H3 & H4) Hd Hv En Hs Hc Hj. unfold joined in Hj. destruct (ob_var A o) eqn:Evar; [discriminate|]. destruct (ob_const A o') eqn:Ec; [discriminate|]. destruct (a_type A o) eqn:Et; [discriminate|]. destruct (a_type A o') eqn:Et'; [discriminate|]. destruct (same_sign A o o'); [|discriminate]. cbn [orb negb] in Hj. injection Hj as <-.
  destruct (object_fields _ _ _ Hd) as (Ed1 & Ed2 & Ed3 & Ed4 & Ed5). destruct (object_fields _ _ _ Hv) as (Ev1 & Ev2 & Ev3 & Ev4 & Ev5). pose proof (object_name _ _ _ Hd) as En2.
  assert (Vd : match d_value d with None => ob_value A o = None | Some e => exists x, meaning A e = Some x /\ ob_value A o = Some (ValOf A x) end).
  { unfold m_object in Hd. rewrite Ed5 in Hd. cbn [obind] in Hd. unfold a_type in Et. apply obind_inv in Hd as (w & Hw & Hd). injection Hd as <-. cbn [ob_value ob_type] in *. destruct (d_value d) as [e|]; [|injection Hw as <-; reflexivity]. destruct (ob_type A o) as [[]]; try discriminate; apply obind_inv in Hw as (x & Hx & Hw); injection Hw as <-; exists x; auto. }
  assert (Vv : match d_value v with None => ob_value A o' = None | Some e => exists x, meaning A e = Some x /\ ob_value A o' = Some (ValOf A x) end).
  { unfold m_object in Hv. rewrite Ev5 in Hv. cbn [obind] in Hv. unfold a_type in Et'. apply obind_inv in Hv as (w & Hw & Hv). injection Hv as <-. cbn [ob_value ob_type] in *. destruct (d_value v) as [e|]; [|injection Hw as <-; reflexivity]. destruct (ob_type A o') as [[]]; try discriminate; apply obind_inv in Hw as (x & Hx & Hw); injection Hw as <-; exists x; auto. }
  unfold m_object, default_base, merge_var, merge_decl. cbn [d_name d_type d_value d_dir d_latched d_const d_static]. rewrite H1, H2, H3, H4, Ed4, Ed2, Hc, En, En2, Hs. rewrite Evar. cbn [orb].
  assert (Eb : (if false || d_const v then FromValue else if d_latched v then Word $"logic" else Word $"wire") = default_base A false v) by reflexivity. cbn [orb] in Eb. rewrite Eb, Ev5. cbn [obind].
  assert (Ety : forall e x, meaning A e = Some x -> match Some e, ob_type A o' with None, _ => Some None | Some e, Typ IsType _ _ _ => x <~ m_typ A (FromValue) e ;; Some (Some (TypeVal A x)) | Some e, _ => x <~ meaning A e ;; Some (Some (ValOf A x)) end = Some (Some (ValOf A x))).
  { intros e x Hx. unfold a_type in Et'. destruct (ob_type A o') as [[]]; try discriminate; rewrite Hx; reflexivity. }
  destruct (d_value v) as [e|].
  - destruct Vv as (x & Hx & ->). rewrite (Ety e x Hx). cbn [obind]. rewrite Ev2, Ev3, Ev4, Ec, Ed1. reflexivity.
  - rewrite Vv. destruct (d_value d) as [e|].
    + destruct Vd as (x & Hx & ->). rewrite (Ety e x Hx). cbn [obind]. rewrite Ev2, Ev3, Ev4, Ec, Ed1. reflexivity.
    + rewrite Vd. cbn [obind]. rewrite Ev2, Ev3, Ev4, Ec, Ed1. reflexivity.
Qed.
Lemma mem_in s l : mem s l = true <-> In s l.
Proof. unfold mem. rewrite existsb_exists. split; [intros (x & Hx & E); apply seqb_eq in E; subst; exact Hx|intros H; exists s; split; [exact H|apply seqb_refl]]. Qed.
Lemma distinct_nodup l : distinct l = true -> NoDup l.
Proof. induction l as [|s l IH]; intros H; [constructor|]. cbn [distinct] in H. apply andb_prop in H as (H1 & H2). constructor; [|exact (IH H2)]. intros Hin. apply mem_in in Hin. rewrite Hin in H1. discriminate. Qed.
Lemma names_known ds names : forallb (fun d => mem d names) ds = true -> fold_left add_name ds names = names.
Proof. induction ds as [|d ds IH]; [reflexivity|]. cbn [forallb fold_left]. intros H. apply andb_prop in H as (H1 & H2). unfold add_name at 2. unfold mem in H1. rewrite H1. exact (IH H2). Qed.
Lemma star_names P D : forallb no_star P = true -> (forall d, In d D -> In (d_name d) (map d_name P)) -> forallb no_star D = true.
Proof. intros HP H. apply forallb_forall. intros d Hd. apply H in Hd. apply in_map_iff in Hd as (p & E & Hp). pose proof (proj1 (forallb_forall _ _) HP p Hp) as Q. unfold no_star in *. rewrite <- E. exact Q. Qed.
Lemma omapM_all {X Y Z} (f : X -> option Y) (g : Z -> option Y) (h : X -> Z) l : (forall x, In x l -> f x = g (h x)) -> omapM f l = omapM g (map h l).
Proof. induction l as [|x l IH]; intros H; [reflexivity|]. cbn [map omapM]. rewrite (H x (or_introl eq_refl)). fold (omapM f) (omapM g). rewrite IH; [reflexivity|]. intros y Hy. apply H. right. exact Hy. Qed.
Lemma omapM_in {X Y} (f : X -> option Y) l : forall r x, omapM f l = Some r -> In x l -> exists y, f x = Some y.
Proof. induction l as [|z l IH]; intros r x H []; cbn [omapM] in H; apply obind_inv in H as (y & Hy & H); fold (omapM f) in H; apply obind_inv in H as (ys & Hys & H); [subst; exists y; exact Hy|exact (IH ys x Hys H0)]. Qed.
Lemma one_object p l o : omapM (m_object A p) l = Some [o] -> exists d, l = [d] /\ m_object A p d = Some o.
Proof.
  destruct l as [|d l]; [discriminate|]. cbn [omapM]. intros H. apply obind_inv in H as (o0 & Ho & H). fold (omapM (m_object A p)) in H. apply obind_inv in H as (r & Hr & H). injection H as -> ->. exists d. rewrite (omapM_nil _ _ Hr). auto.
Qed.
Lemma nonansi_sim l P D ds O vs P1 P2 O2 r : conv_hports (HP_nonansi l) = Ok P -> foldM add_decl P D = Ok P1 -> omapM (m_object A false) D = Some ds ->
  Forall (fun o => ob_dir A o <> DIR_UNKNOWN /\ ob_const A o = false /\ ob_static A o = false) ds -> omapM (m_object A false) (mids O) = Some vs -> consume (X := fobj) P1 O = (P2, O2) -> v_ports A (HP_nonansi l) ds vs = Some r ->
  omapM (m_object A false) (fill_dirs DIR_INOUT P2) = Some r /\ map (ob_name A) r = map d_name P1.
Proof.
  intros HP HD Hds Hfl Hvs Hc Hr. cbn [v_ports] in Hr. apply obind_inv in Hr as (names & Hnames & Hr). destruct (distinct names) eqn:Hdist; [|discriminate]. destruct (forallb (fun d => mem (ob_name A d) names) ds) eqn:Hin; [|discriminate]. cbn [andb] in Hr.
  destruct (header_names l P names HP Hnames) as (En & Fh & Hst).
  assert (HinD : forall d, In d D -> In (d_name d) (map d_name P)).
  { intros d Hd. rewrite En. apply mem_in. pose proof (in_names false D ds d Hds Hd) as Q. apply in_map_iff in Q as (o & Eo & Ho). rewrite <- Eo. exact (proj1 (forallb_forall _ _) Hin o Ho). }
  destruct (foldM_decls D P P1 Hst (star_names P D Hst HinD) HD) as (Hst1 & En1 & Ef1).
  rewrite (names_known (map d_name D) (map d_name P)) in En1 by (apply forallb_forall; intros s Hs; apply in_map_iff in Hs as (d & <- & Hd); apply mem_in; exact (HinD d Hd)).
  destruct (consume_ok O P1 P2 O2 Hc) as (En2 & _ & Ef2). fold (mids O) in Ef2.
  assert (Enames : map d_name P2 = names) by congruence.
  assert (Hall : forall x, In x P2 -> m_object A false x = the_port A ds vs (d_name x) /\ directed x = true).
  { intros x Hx. assert (Hf : find_port (d_name x) P2 = Some x) by (apply find_in; [rewrite Enames; apply distinct_nodup; exact Hdist|exact Hx]).
    assert (Hxn : In (d_name x) names) by (rewrite <- Enames; apply in_map; exact Hx). destruct (omapM_in _ _ _ _ Hr Hxn) as (o & Ho). rewrite Ho.
    rewrite Ef2, Ef1 in Hf. unfold looks1, looks2 in Hf.
    assert (exists h, find_port (d_name x) P = Some h /\ of_header h /\ d_name h = d_name x) as (h & Hh & Hoh & Enh).
    { destruct (find_port (d_name x) P) as [h|] eqn:E; [|apply find_none_names in E; rewrite En in E; assert (mem (d_name x) names = true) by (apply mem_in; exact Hxn); unfold mem in *; congruence].
      exists h. unfold find_port in E. apply find_some in E as (Hi & E). apply seqb_eq in E. split; [reflexivity|]. split; [exact (proj1 (Forall_forall _ _) Fh h Hi)|exact E]. }
    rewrite Hh in Hf. unfold the_port in Ho. pose proof (about_objects false (d_name x) D ds Hds) as Qd. pose proof (about_objects false (d_name x) _ vs Hvs) as Qv.
    destruct (about_ A (d_name x) ds) as [|od [|? ?]] eqn:Ead; try discriminate. destruct (one_object _ _ _ Qd) as (d & Ed & Hd). rewrite Ed in Hf. cbn [fold_left look1] in Hf.
    assert (Hod : In od ds /\ ob_name A od = d_name x).
    { assert (In od (about_ A (d_name x) ds)) by (rewrite Ead; left; reflexivity). apply filter_In in H as (H1 & H2). apply seqb_eq in H2. auto. }
    destruct Hod as (Hod & Eod). destruct (proj1 (Forall_forall _ _) Hfl od Hod) as (Fd & Fc & Fs). assert (Enhd : d_name h = d_name d) by (rewrite Enh, <- Eod; exact (object_name _ _ _ Hd)).
    destruct (object_fields _ _ _ Hd) as (Edir & _).
    destruct (about_ A (d_name x) vs) as [|ov [|? ?]]; try discriminate.
    - rewrite (omapM_nil _ _ Qv) in Hf. cbn [fold_left] in Hf. injection Hf as <-. injection Ho as <-. split; [exact (decl_object h d od Hoh Hd Fs Enhd)|]. unfold directed. cbn [merge_decl d_dir]. rewrite Edir. destruct (ob_dir A od); congruence.
    - destruct (one_object _ _ _ Qv) as (v & Ev & Hv). rewrite Ev in Hf. cbn [fold_left look2] in Hf. injection Hf as <-. split; [exact (var_object h d v od ov o Hoh Hd Hv Enhd Fs Fc Ho)|]. unfold directed. cbn [merge_var merge_decl d_dir]. rewrite Edir. destruct (ob_dir A od); congruence. }
  assert (Hm : omapM (m_object A false) P2 = Some r) by (rewrite (omapM_all (m_object A false) (the_port A ds vs) d_name P2); [rewrite Enames; exact Hr|intros x Hx; exact (proj1 (Hall x Hx))]).
  rewrite fill_dirs_known by (apply forallb_forall; intros x Hx; exact (proj2 (Hall x Hx))). rewrite (fill_ids false P2 r Hm). split; [exact Hm|]. rewrite (objects_names false P2 r Hm). congruence.
Qed.
Lemma ports_sim p P D ds O vs P1 P2 O2 r : conv_hports p = Ok P -> foldM add_decl P D = Ok P1 -> omapM (m_object A false) D = Some ds ->
  Forall (fun o => ob_dir A o <> DIR_UNKNOWN /\ ob_const A o = false /\ ob_static A o = false) ds -> omapM (m_object A false) (mids O) = Some vs -> consume (X := fobj) P1 O = (P2, O2) -> v_ports A p ds vs = Some r ->
  omapM (m_object A false) (fill_dirs DIR_INOUT P2) = Some r /\ map (ob_name A) r = map d_name P1.
Proof.
  destruct p as [| |l|l]; [| |exact (nonansi_sim l P D ds O vs P1 P2 O2 r)|]; intros HP HD Hds Hfl Hvs Hc Hr.
  - cbn [v_ports] in Hr. destruct ds; [|discriminate]. injection Hr as <-. rewrite (omapM_nil _ _ Hds) in HD. injection HD as <-. injection HP as <-. rewrite consume_id in Hc by reflexivity. injection Hc as <- <-. split; reflexivity.
  - discriminate.
  - cbn [v_ports] in Hr. destruct ds; [|discriminate]. rewrite (omapM_nil _ _ Hds) in HD. injection HD as <-. apply obind_inv in Hr as (r0 & Hr0 & Hr). destruct (plain_ports None (map snd l)) eqn:Hp; [|discriminate]. destruct (forallb kept_ansi (spell_out V_INOUT None (map snd l))) eqn:Hk; [|discriminate]. cbn [andb] in Hr0.
    destruct (forallb _ vs) eqn:Hno in Hr; [|discriminate]. injection Hr as ->. destruct (ansi_sim l P r HP Hp Hk Hr0) as (Hm & En). rewrite consume_id in Hc.
    + injection Hc as <- <-. split; assumption.
    + intros v Hv. rewrite <- En. pose proof (in_names false _ _ v Hvs Hv) as Q. apply in_map_iff in Q as (o & Eo & Ho). rewrite <- Eo. apply negb_true_iff. exact (proj1 (forallb_forall _ _) Hno o Ho).
Qed.
(** ** Modules *)
Lemma params_sim h r g : v_plist A h = Some r -> match h with Some p => conv_plist p | None => Ok [] end = Ok g -> omapM (m_object A true) g = Some r.
Proof.
  destruct h as [p|]; cbn [v_plist]; intros H Hg; [|injection H as <-; injection Hg as <-; reflexivity]. destruct (tailed p) eqn:Ht; [discriminate|]. destruct (full_params p) eqn:Hf; [|discriminate]. cbn [orb negb] in H. unfold v_params in H. destruct (forallb kept_pone (list_ones p)) eqn:Hk; [|discriminate].
  destruct (plist_sim A p r Ht Hf Hk H) as (xs & Hx & Hm). rewrite Hg in Hx. injection Hx as ->. exact Hm.
Qed.
Lemma all_params_app h hp bp params : all_params A h hp bp = Some params -> params = hp ++ bp. Proof. unfold all_params. destruct h, bp; intros H; try discriminate; injection H as <-; reflexivity. Qed.
Lemma directed_list l : forall d t r, d <> DIR_UNKNOWN -> conv_ansi_list d t l = Ok r -> forallb directed r = true.
Proof.
  induction l as [|p l IH]; intros d t r Hd H; [injection H as <-; reflexivity|]. cbn [conv_ansi_list] in H. apply bind_inv in H as (((x & d') & b) & Hx & H). apply bind_inv in H as (xs & Hxs & H). injection H as <-.
  assert (d' <> DIR_UNKNOWN /\ d_dir x = d').
  { destruct p as [od t0 v|od i e]; cbn [conv_ansi] in Hx.
    - apply bind_inv in Hx as (bl & _ & Hx). apply bind_inv in Hx as (ds & _ & Hx). destruct (apply_dims (fst bl) ds) as (b0, ty). apply bind_inv in Hx as (y & Hy & Hx). injection Hx as <- <- <-. split; [destruct od as [[]|]; [discriminate..|exact Hd]|].
      unfold conv_vitem in Hy. apply bind_inv in Hy as (? & _ & Hy). apply bind_inv in Hy as (? & _ & Hy). injection Hy as <-. reflexivity.
    - apply bind_inv in Hx as (? & _ & Hx). apply bind_inv in Hx as (? & _ & Hx). injection Hx as <- <- <-. split; [destruct od as [[]|]; [discriminate..|exact Hd]|reflexivity]. }
  destruct H as (H1 & H2). cbn [forallb]. rewrite (IH d' b xs H1 Hxs), andb_true_r. unfold directed. rewrite H2. destruct d'; congruence.
Qed.
Lemma bare_directed l : forall l', map bare l = map bare l' -> forallb directed l = forallb directed l'.
Proof. induction l as [|d l IH]; intros [|d' l'] E; try discriminate; [reflexivity|]. apply map_cons_inv in E as (E & El). cbn [forallb]. rewrite (IH l' El). f_equal. unfold directed. assert (d_dir d = d_dir d') as -> by (unfold bare in E; injection E; congruence). reflexivity. Qed.
Lemma extern_sim p P r : conv_hports p = Ok P -> v_extern A p = Some r -> omapM (m_object A false) (map fill_type P) = Some r.
Proof.
  destruct p as [| |l|l]; cbn [v_extern]; intros H Hr; try discriminate; [injection H as <-; injection Hr as <-; reflexivity|].
  destruct l as [|((doc & at_) & [[d|] t v|d i e]) l]; try discriminate. destruct (ports_sim _ P [] [] [] [] P P [] r H eq_refl eq_refl (Forall_nil _) eq_refl eq_refl Hr) as (Hm & _).
  destruct (ansi_bare _ P H) as (ps & Hps & Hb). rewrite fill_dirs_known in Hm; [exact Hm|]. rewrite (bare_directed P ps Hb). unfold conv_ansi_ports in Hps. cbn [map snd] in Hps.
  apply (directed_list (AN_port (Some d) t v :: map snd l) DIR_IN None ps); [discriminate|]. rewrite <- Hps. reflexivity.
Qed.
Lemma module_sim (Hn : n <> 0) ext h p l : Forall (fun i => match i with MT_module m => msim m | _ => True end) l -> msim (MD ext h p l).
Proof.
  intros Hl o H. cbn [conv_mdecl] in H. apply bind_inv in H as (hg & Hh & H). apply bind_inv in H as (P & HP & H). unfold conv_header in Hh. apply bind_inv in Hh as (a & Ha & Hh). apply bind_inv in Hh as (g & Hg & Hh). injection Hh as <-. cbn [fst snd] in H.
  destruct ext.
  - injection H as <-. split; [exact I|]. intros s Hs. rewrite v_module_eq in Hs. apply obind_inv in Hs as (nm & Hnm & Hs). apply obind_inv in Hs as (hp & Hhp & Hs). destruct l; [|discriminate]. apply obind_inv in Hs as (r & Hr & Hs). injection Hs as <-.
    pose proof (params_sim _ _ _ Hhp Hg) as Hgm. exists (Mod A M N nm true hp r [] []). split; [|constructor; constructor]. unfold SvFileSpec.m_module. cbn [md_generics md_ports md_name]. rewrite (fill_ids true g hp Hgm), Hgm. cbn [obind]. rewrite (extern_sim p P r HP Hr). cbn [obind].
    replace (raw_text (mh_name h)) with nm; [reflexivity|]. destruct (mh_name h) as [x|x]; cbn [v_ident raw_text] in *; [|discriminate]. destruct (seqb x $"void"); [discriminate|]. injection Hnm as ->. reflexivity.
  - apply bind_inv in H as (st & Hst & H). destruct (consume (ms_ports st) (ms_objs st)) as (P2, O2) eqn:Hc. injection H as <-. split; [exact I|]. intros s Hs. rewrite v_module_eq in Hs. apply obind_inv in Hs as (nm & Hnm & Hs). apply obind_inv in Hs as (hp & Hhp & Hs).
    apply obind_inv in Hs as (bp & Hbp & Hs). apply obind_inv in Hs as (params & Hparams & Hs). apply obind_inv in Hs as (gen & Hgen & Hs). apply obind_inv in Hs as (items & Hitems & Hs). apply obind_inv in Hs as (ds & Hds & Hs). apply obind_inv in Hs as (ports & Hports & Hs). apply obind_inv in Hs as (subs & Hsubs & Hs). injection Hs as <-.
    destruct (items_steps l Hl _ _ Hst) as (D & GS & OS & R & [T1 T2 T3 T4 T5 T6 T7 T8 T9]). cbn [ms_generics ms_ports ms_objs app] in *.
    pose proof (params_sim _ _ _ Hhp Hg) as Hgm. assert (Hgs : omapM (m_object A true) (ms_generics st) = Some params) by (rewrite T5, (all_params_app _ _ _ _ Hparams), omapM_app, Hgm; cbn [obind]; rewrite (T6 bp Hbp); reflexivity).
    destruct (objs_stay Hn _ R gen items OS (map d_name (ms_ports st)) T3 Hgen Hitems T2 T4) as (Hvs & os & items' & Hos & Hits & Hsame). rewrite T1 in Hc.
    destruct (ports_sim p P D ds OS (flat_map direct items) (ms_ports st) P2 O2 ports HP T7 (T8 ds Hds) (all_flags l ds Hds) Hvs Hc Hports) as (Hpm & Hpn).
    destruct (T9 subs Hsubs) as (subs' & Hsubs' & Hss). pose proof (consume_filter _ _ _ _ Hc) as ->.
    exists (Mod A M N nm false params ports items' subs'). split.
    + rewrite m_module_eq. cbn [md_generics md_ports md_name]. rewrite (fill_ids true _ _ Hgs), Hgs. cbn [obind]. rewrite Hpm. cbn [obind]. rewrite Hos. cbn [obind]. rewrite Hits. cbn [obind]. rewrite not_port_subs, Hsubs'. cbn [obind].
      replace (raw_text (mh_name h)) with nm; [reflexivity|]. destruct (mh_name h) as [x|x]; cbn [v_ident raw_text] in *; [|discriminate]. destruct (seqb x $"void"); [discriminate|]. injection Hnm as ->. reflexivity.
    + constructor; [|exact Hss]. rewrite Hpn. exact Hsame.
Qed.
Theorem all_modules (Hn : n <> 0) : forall m, msim m.
Proof.
  fix IH 1. intros [ext h p l]. apply (module_sim Hn). induction l as [|i l IHl]; constructor; [|exact IHl]. destruct i; try exact I. apply IH.
Qed.
Theorem file_sim (Hn : n <> 0) f objs ms : conv_source f = Ok objs -> v_file A M N num test matches arith one_more n f = Some ms ->
  exists ms', m_file A M N num test matches arith one_more n objs = Some ms' /\ Forall2 mod_same ms ms'.
Proof.
  unfold conv_source, v_file, m_file. revert objs ms. induction f as [|d f IH]; intros objs ms H Hv; [injection H as <-; injection Hv as <-; exists []; split; [reflexivity|constructor]|].
  rewrite concat_cons in H. apply bind_inv in H as (a & Ha & H). apply bind_inv in H as (b & Hb & H). injection H as <-. cbn [omapM] in Hv. apply obind_inv in Hv as (s & Hs & Hv). apply obind_inv in Hv as (r & Hr & Hv). injection Hv as <-.
  destruct d as [m|]; [|discriminate]. apply bind_inv in Ha as (o & Ho & Ha). injection Ha as <-. destruct (all_modules Hn m o Ho) as (_ & Hm). destruct (Hm s Hs) as (s' & Hs' & Hss). destruct (IH b r Hb Hr) as (r' & Hr' & Hrr). exists (s' :: r'). split; [|constructor; assumption].
  cbn [app omapM]. rewrite Hs'. cbn [obind]. fold (omapM m_module). rewrite Hr'. reflexivity.
Qed.
End Sim.
