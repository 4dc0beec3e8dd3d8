From Verif Require Import Base BaseFacts AstModel LitModel SvExprModel StmModel SvTypeModel SvDeclModel SvDeclSpec SvInstProofs.

Lemma bind_inv {X Y} (a : outcome X) (f : X -> outcome Y) y : bind a f = Ok y -> exists x, a = Ok x /\ f x = Ok y.
Proof. destruct a as [x| | |]; cbn [bind]; try discriminate. intros H. exists x. auto. Qed.

(** ** Parameters *)
Lemma value_conv {S} (f : S -> outcome expr) v x : conv_opt f v = Ok x -> value_is f v x.
Proof.
  destruct v as [v|]; cbn [conv_opt]; intros H.
  - apply bind_inv in H as (e & He & H). injection H as <-. exact He.
  - injection H as <-. exact I.
Qed.
Lemma typed_ok local t x l r : type_is t x -> conv_typed x l = Ok r -> Forall2 defines (map (one_value local t) l) (map (fun d => set_const d local) r).
Proof.
  intros Ht H. unfold conv_typed in H. apply bind_inv in H as (xs & Hxs & H). apply mapM_ok_in in Hxs.
  assert (Hall : exists ts, r = map (fun p => set_type (fst p) (snd p)) (combine xs ts) /\ length ts = length xs /\ Forall (fun y => y = x) ts).
  { destruct xs as [|y xs]; [injection H as <-; exists []; repeat split; constructor|]. apply bind_inv in H as (r' & Hr & H). injection H as <-.
    apply mapM_ok_in in Hr. assert (E : exists ts, r' = map (fun p => set_type (fst p) (snd p)) (combine xs ts) /\ length ts = length xs /\ Forall (fun y => y = x) ts).
    { clear Hxs. induction Hr as [|z d xs r' Hz Hr IH]; [exists []; repeat split; constructor|]. destruct IH as (ts & -> & El & F). apply bind_inv in Hz as (t' & Hc & Hz). apply clone_e_same in Hc as ->. injection Hz as <-.
      exists (x :: ts). repeat split; [cbn; lia|constructor; auto]. }
    destruct E as (ts & -> & El & F). exists (x :: ts). repeat split; [cbn; lia|constructor; auto]. }
  destruct Hall as (ts & -> & El & F). clear H. revert ts El F. induction Hxs as [|p d l xs Hp Hxs IH]; intros ts El F.
  - destruct ts; [constructor|discriminate].
  - destruct ts as [|t1 ts]; [discriminate|]. inversion F as [|? ? E1 F']. subst. cbn [combine map]. constructor; [|apply IH; [cbn in El; lia|exact F']].
    destruct p as [i ds v]. cbn [conv_passign] in Hp. apply bind_inv in Hp as (e & He & Hp). apply bind_inv in Hp as (n & Hn & Hp). injection Hp as <-.
    cbn. repeat split; auto. apply value_conv. exact He.
Qed.
Lemma types_ok local l r : conv_types l = Ok r -> Forall2 defines (map (one_type local) l) (map (fun d => set_const d local) r).
Proof.
  intros H. apply mapM_ok_in in H. induction H as [|p d l r Hp H IH]; [constructor|]. cbn [map]. constructor; [|exact IH].
  destruct p as (i, t). cbn [fst snd] in Hp. apply bind_inv in Hp as (n & Hn & Hp). apply bind_inv in Hp as (v & Hv & Hp). injection Hp as <-. cbn. repeat split; auto.
  apply value_conv in Hv. destruct t, v; exact Hv.
Qed.
Lemma const_false d : d_const d = false -> set_const d false = d.
Proof. destruct d; cbn. intros ->. reflexivity. Qed.
Lemma typed_const x l r : conv_typed x l = Ok r -> Forall (fun d => d_const d = false) r.
Proof.
  intros H. unfold conv_typed in H. apply bind_inv in H as (xs & Hxs & H). apply mapM_ok_in in Hxs.
  assert (F : Forall (fun d => d_const d = false) xs).
  { clear H. induction Hxs as [|p d l xs Hp Hxs IH]; constructor; auto. destruct p as [i ds v]. cbn [conv_passign] in Hp. apply bind_inv in Hp as (e & _ & Hp). apply bind_inv in Hp as (n & _ & Hp). injection Hp as <-. reflexivity. }
  destruct xs as [|y xs]; [injection H as <-; constructor|]. apply bind_inv in H as (r' & Hr & H). injection H as <-. inversion F as [|? ? F1 F2]. subst. constructor; [exact F1|].
  apply mapM_ok_in in Hr. clear Hxs. induction Hr as [|z d xs r' Hz Hr IH]; [constructor|]. inversion F2 as [|? ? F3 F4]; subst. constructor.
  - apply bind_inv in Hz as (t' & _ & Hz). injection Hz as <-. exact F3.
  - apply IH; [constructor; auto|exact F4].
Qed.
Lemma types_const l r : conv_types l = Ok r -> Forall (fun d => d_const d = false) r.
Proof.
  intros H. apply mapM_ok_in in H. induction H as [|p d l r Hp H IH]; constructor; auto.
  apply bind_inv in Hp as (n & _ & Hp). apply bind_inv in Hp as (v & _ & Hp). injection Hp as <-. reflexivity.
Qed.
Lemma const_map r : Forall (fun d => d_const d = false) r -> map (fun d => set_const d false) r = r.
Proof. induction 1 as [|d r H _ IH]; [reflexivity|]. cbn [map]. rewrite IH, (const_false d H). reflexivity. Qed.
Lemma body_ok local b r : conv_pbody b = Ok r -> Forall2 defines (body_ones local b) (map (fun d => set_const d local) r).
Proof.
  destruct b as [l|t l]; cbn [conv_pbody body_ones]; intros H; [apply types_ok; exact H|]. apply bind_inv in H as (x & Hx & H). apply (typed_ok local (PT_of t) x l r Hx H).
Qed.
Lemma body_const b r : conv_pbody b = Ok r -> Forall (fun d => d_const d = false) r.
Proof.
  destruct b as [l|t l]; cbn [conv_pbody]; intros H; [exact (types_const l r H)|]. apply bind_inv in H as (x & Hx & H). exact (typed_const x l r H).
Qed.
Lemma pdecl_ok d r : conv_pdecl d = Ok r -> Forall2 defines (decl_ones d) r.
Proof.
  destruct d as [l|b|b|t l]; cbn [conv_pdecl decl_ones]; intros H.
  - rewrite <- (const_map r (types_const l r H)). exact (types_ok false l r H).
  - rewrite <- (const_map r (body_const b r H)). exact (body_ok false b r H).
  - apply bind_inv in H as (r' & H & E). injection E as <-. exact (body_ok true b r' H).
  - apply bind_inv in H as (x & Hx & H). rewrite <- (const_map r (typed_const x l r H)). exact (typed_ok false (PT_dtype t) x l r Hx H).
Qed.
Lemma passign_ok l r : mapM conv_passign l = Ok r -> Forall2 defines (map (one_value false (PT_of None)) l) r.
Proof.
  intros H. apply mapM_ok_in in H. induction H as [|p d l r Hp H IH]; [constructor|]. cbn [map]. constructor; [|exact IH].
  destruct p as [i ds v]. cbn [conv_passign] in Hp. apply bind_inv in Hp as (e & He & Hp). apply bind_inv in Hp as (n & Hn & Hp). injection Hp as <-. cbn. repeat split; auto. apply value_conv. exact He.
Qed.
Lemma concatM_ok {X Y Z} (f : X -> outcome (list Y)) (g : X -> list Z) (R : Z -> Y -> Prop) l r :
  (forall x a, f x = Ok a -> Forall2 R (g x) a) -> concatM f l = Ok r -> Forall2 R (flat_map g l) r.
Proof.
  intros Hf. revert r. induction l as [|x l IH]; intros r H; cbn in H.
  - injection H as <-. constructor.
  - apply bind_inv in H as (a & Ha & H). apply bind_inv in H as (r' & Hr & H). injection H as <-. cbn. apply Forall2_app; auto.
Qed.
Definition has_tail (p : plist) : bool := match p with PL_bare _ (_ :: _) => true | _ => false end.
Lemma plist_ok p r : has_tail p = false -> conv_plist p = Ok r -> Forall2 defines (list_ones p) r.
Proof.
  destruct p as [|l tail|l]; cbn [has_tail conv_plist list_ones]; intros Ht H.
  - injection H as <-. constructor.
  - destruct tail; [|discriminate]. cbn. rewrite app_nil_r. exact (passign_ok l r H).
  - exact (concatM_ok conv_pdecl decl_ones defines l r pdecl_ok H).
Qed.
(** Exactly the parameters after a plain list are lost. *)
Lemma plist_tail l tail r : conv_plist (PL_bare l tail) = Ok r -> Forall2 defines (map (one_value false (PT_of None)) l) r.
Proof. exact (passign_ok l r). Qed.

(** ** Variables and nets *)
Lemma data_each d r : conv_data d = Ok r -> Forall2 (fun v x => conv_data (data_one d v) = Ok [x]) (dd_list d) r.
Proof.
  unfold conv_data. intros H. apply bind_inv in H as (t & Ht & H). apply bind_inv in H as (l & Hl & H). injection H as <-.
  apply mapM_ok_in in Hl. induction Hl as [|v x vs xs Hv Hl IH]; [constructor|]. cbn [map]. constructor; [|exact IH].
  cbn [data_one dd_type dd_list dd_const dd_automatic]. rewrite Ht. cbn [bind]. unfold conv_decl_assignments. cbn [mapM]. rewrite Hv. reflexivity.
Qed.
Lemma net_each n r : nd_special n = false -> conv_net_decl n = Ok r -> Forall2 (fun v x => conv_net_decl (net_one n v) = Ok [x]) (nd_list n) r.
Proof.
  unfold conv_net_decl. cbn [net_one nd_special nd_type nd_net nd_list]. intros ->. intros H. apply bind_inv in H as (t & Ht & H). rewrite Ht. cbn [bind] in *.
  destruct (nd_list n) as [|v l]; [injection H as <-; constructor|]. apply bind_inv in H as (x & Hx & H). apply bind_inv in H as (r' & Hr & H). injection H as <-.
  constructor; [rewrite Hx; reflexivity|]. apply mapM_ok_in in Hr. clear Hx. induction Hr as [|v' y l r' Hv Hr IH]; [constructor|]. constructor; [|exact IH].
  apply bind_inv in Hv as (c & Hc & Hv). apply clone_e_same in Hc as ->. rewrite Hv. reflexivity.
Qed.

(** ** Types and dimensions *)
Lemma apply_dims_base b ds : (ds = [] \/ open_wire b = false) -> fst (apply_dims b ds) = b.
Proof. destruct ds as [|d ds]; [reflexivity|]. intros [H|H]; [discriminate|]. cbn [apply_dims]. rewrite H. reflexivity. Qed.
Lemma open_index t d : open_wire (index_dim t d) = false.
Proof. destruct d as [x|]; [|reflexivity]. cbn [index_dim]. unfold mk2. destruct t as [| | | | |y| | |], x as [| | | | |z| | |]; try reflexivity; destruct z; reflexivity. Qed.
Lemma open_indexes l : forall t, (l <> [] \/ open_wire t = false) -> open_wire (fold_left index_dim l t) = false.
Proof.
  induction l as [|d l IH]; intros t H; cbn [fold_left].
  - destruct H as [H|H]; [congruence|exact H].
  - apply IH. right. apply open_index.
Qed.
Lemma mk2_not_null a o b : mk2 a o b <> ESym symb_NULL. Proof. discriminate. Qed.
Lemma open_wire_width n w s : w <> null_sym -> open_wire (wire_t n w s) = false.
Proof. intros H. unfold wire_t, call_op, open_wire. destruct w as [| | | | |x| | |]; try reflexivity. destruct x; try reflexivity. unfold null_sym in H. congruence. Qed.
Lemma path_open p x : plain_path p = true -> conv_path conv p = Ok x -> open_wire x = false.
Proof.
  destruct p as [local h items]. cbn [plain_path conv_path]. intros Hp H.
  assert (H' : exists res, (forall y, res = Some y -> open_wire y = false) /\ (r <- conv_items conv res items ;; match r with Some x => Ok x | None => Ok ENull end) = Ok x).
  { destruct h; [destruct items; [discriminate|]| | | | |]; (eexists; split; [|exact H]); intros y E; destruct local; cbn in E; try discriminate; injection E as <-; reflexivity. }
  destruct H' as (res & Hres & H').
  clear H. apply bind_inv in H' as (r & Hr & E).
  assert (Hitems : forall its sel y, (forall z, sel = Some z -> open_wire z = false) ->
     match rev its with (_, Some _) :: _ => false | _ => true end = true -> conv_items conv sel its = Ok (Some y) -> open_wire y = false).
  { intros its. induction its as [|it its IH] using rev_ind; intros sel y Hsel Hrev Hc.
    - cbn in Hc. injection Hc as Hc. exact (Hsel y Hc).
    - rewrite rev_app_distr in Hrev. cbn in Hrev. destruct it as (i, o). destruct o as [g|]; [discriminate|].
      assert (Happ : forall l s, conv_items conv s (l ++ [(i, None)]) = Ok (Some y) -> exists s', conv_item conv s' (i, None) = Ok y).
      { induction l as [|it l IHl]; intros s0 Hs; cbn [app conv_items] in Hs.
        - apply bind_inv in Hs as (x0 & Hx0 & Hs). injection Hs as <-. exists s0. exact Hx0.
        - apply bind_inv in Hs as (x0 & Hx0 & Hs). apply (IHl (Some x0) Hs). }
      destruct (Happ its sel Hc) as (s' & Hs'). unfold conv_item in Hs'. cbn [fst snd] in Hs'. apply bind_inv in Hs' as (id & Hid & Hs'). injection Hs' as <-.
      unfold visit_ident in Hid. apply bind_inv in Hid as (s0 & _ & Hid). injection Hid as <-. unfold append_expr. destruct s'; reflexivity. }
  destruct r as [y|]; injection E as <-; [|reflexivity]. apply (Hitems items res y Hres); [|exact Hr]. exact Hp.
Qed.
Lemma range_not_null r x : two_bounds r = true -> conv_range r = Ok x -> x <> null_sym.
Proof. destruct r as [e|k a b]; [discriminate|]. intros _ H. cbn [conv_range] in H. apply bind_inv in H as (y & _ & H). apply bind_inv in H as (z & _ & H). injection H as <-. discriminate. Qed.
Lemma set_sign_open kw s : open_wire (set_sign (EId kw) s) = false.
Proof. destruct s; reflexivity. Qed.
Lemma sign_vector kw s : exists sg, conv_prim (P_vector kw) s = EOp PARAMETRIZATION [EId kw; null_sym; sg].
Proof. destruct s; eexists; reflexivity. Qed.
Lemma dims_of (f : vdim -> outcome (option expr)) b ds x : (l <- mapM f ds ;; Ok (snd (apply_dims b l))) = Ok x -> open_wire b = false -> open_wire x = false.
Proof.
  intros H Hb. apply bind_inv in H as (l & Hl & H). injection H as <-. destruct l as [|d l]; [exact Hb|]. cbn [apply_dims]. rewrite Hb. cbn [snd]. apply open_indexes. right. exact Hb.
Qed.
Lemma dtype_open t x : sized_dtype t = true -> conv_dtype t = Ok x -> open_wire x = false.
Proof.
  destruct t as [| | |i p sub|e|t|k s ds|ds|ds|p ds]; cbn [conv_dtype]; intros Hs H; try (injection H as <-; reflexivity).
  - apply bind_inv in H as (y & Hy & H). apply bind_inv in H as (z & Hz & H). unfold visit_ident in Hy. apply bind_inv in Hy as (s0 & _ & Hy). injection Hy as <-.
    destruct sub as [j|]; [apply bind_inv in H as (w & _ & H); injection H as <-; unfold op2, open_wire; destruct w as [| | | | |sy| | |]; try reflexivity; destruct sy; reflexivity|].
    injection H as <-. destruct p as [g|]; [discriminate|]. injection Hz as <-. reflexivity.
  - apply bind_inv in H as (y & _ & H). injection H as <-. reflexivity.
  - apply bind_inv in H as (y & _ & H). injection H as <-. reflexivity.
  - destruct k as [kw|kw|kw]; [|apply (dims_of _ _ ds x H); apply set_sign_open|apply (dims_of _ _ ds x H); reflexivity].
    destruct (sign_vector kw s) as (sg & E). rewrite E in H. apply bind_inv in H as (l & Hl & H). injection H as <-. cbn [sized_dtype] in Hs.
    destruct ds as [|d [|d2 ds]]; [discriminate| |].
    + destruct d as [| |t|r]; try discriminate. cbn [mapM] in Hl. apply bind_inv in Hl as (o & Ho & Hl). injection Hl as <-. apply bind_inv in Ho as (w & Hw & Ho). injection Ho as <-.
      cbn [apply_dims]. change (open_wire (EOp PARAMETRIZATION [EId kw; null_sym; sg])) with true. cbn [snd fold_left set_width]. pose proof (range_not_null r w Hs Hw) as Hn.
      unfold open_wire. destruct w as [| | | | |sy| | |]; try reflexivity. destruct sy; try reflexivity. unfold null_sym in Hn. congruence.
    + cbn [mapM] in Hl. apply bind_inv in Hl as (o & Ho & Hl). apply bind_inv in Hl as (l' & Hl' & Hl). injection Hl as <-. apply bind_inv in Hl' as (o2 & Ho2 & Hl'). apply bind_inv in Hl' as (l2 & _ & Hl'). injection Hl' as <-.
      cbn [apply_dims]. change (open_wire (EOp PARAMETRIZATION [EId kw; null_sym; sg])) with true. cbn [snd]. apply open_indexes. left. discriminate.
  - apply (dims_of _ _ ds x H). reflexivity.
  - apply (dims_of _ _ ds x H). reflexivity.
  - apply bind_inv in H as (y & Hy & H). apply (dims_of _ _ ds x H). exact (path_open p y Hs Hy).
Qed.
Lemma itype_open i n x : sized_itype i = true -> conv_itype i n = Ok x -> open_wire x = false.
Proof.
  destruct i as [s [|d ds]]; cbn [sized_itype conv_itype]; [discriminate|]. intros Hs H. apply bind_inv in H as (r & Hr & H). apply bind_inv in H as (l & Hl & H). injection H as <-.
  destruct ds as [|d2 ds].
  - injection Hl as <-. cbn [fold_left]. destruct d as [r0|]; [|discriminate]. cbn [conv_pdim] in Hr. apply bind_inv in Hr as (w & Hw & Hr). injection Hr as <-. apply open_wire_width. exact (range_not_null r0 w Hs Hw).
  - apply open_indexes. left. cbn [mapM] in Hl. apply bind_inv in Hl as (o & _ & Hl). apply bind_inv in Hl as (l' & _ & Hl). injection Hl as <-. discriminate.
Qed.
Lemma doi_open t n x : sized_doi t = true -> conv_doi t n = Ok x -> open_wire x = false.
Proof.
  destruct t as [[t|i]|]; cbn [sized_doi conv_doi]; [exact (dtype_open t x)|exact (itype_open i n x)|]. intros _ H. injection H as <-. reflexivity.
Qed.
Lemma nv_open t x b : sized_nv t = true -> conv_nvtype t = Ok (x, b) -> open_wire x = false.
Proof.
  destruct t as [[[i|]|t|kw t|t]|]; cbn [sized_nv conv_nvtype]; intros Hs H; try (injection H as <- <-; reflexivity); apply bind_inv in H as (y & Hy & H); injection H as <- <-.
  - exact (itype_open i None y Hs Hy).
  - exact (doi_open t _ y Hs Hy).
  - exact (doi_open t _ y Hs Hy).
  - exact (doi_open (Some t) _ y Hs Hy).
Qed.

(** ** Lists of names *)
Lemma idlist_each b lat d l r : open_wire b = false -> conv_idlist b lat d l = Ok r -> Forall2 (fun v x => conv_idlist b lat d [v] = Ok [x]) l r.
Proof.
  intros Hb H. destruct l as [|v l]; [injection H as <-; constructor|]. cbn [conv_idlist] in H. apply bind_inv in H as (ds & Hds & H).
  pose proof (apply_dims_base b ds (or_intror Hb)) as Eb. destruct (apply_dims b ds) as (b', t) eqn:Ea. cbn [fst] in Eb. subst b'.
  apply bind_inv in H as (x & Hx & H). apply bind_inv in H as (r' & Hr & H). injection H as <-. constructor.
  - cbn [conv_idlist mapM]. rewrite Hds. cbn [bind]. rewrite Ea, Hx. reflexivity.
  - apply mapM_ok_in in Hr. clear Hds Ea Hx. induction Hr as [|v' y l r' Hv Hr IH]; [constructor|]. constructor; [|exact IH].
    apply bind_inv in Hv as (c & Hc & Hv). apply clone_e_same in Hc as ->. apply bind_inv in Hv as (ds' & Hds' & Hv). cbn [conv_idlist mapM]. rewrite Hds'. cbn [bind].
    destruct (apply_dims b ds') as (b', t'). cbn [snd] in Hv. rewrite Hv. reflexivity.
Qed.
Lemma npt_nv t x : conv_npt t = Ok x -> exists l, conv_nvtype t = Ok (x, l).
Proof.
  intros H. assert (H' : exists r, conv_nvtype t = Ok r /\ fst r = x).
  { unfold conv_npt in H. destruct t as [[i|t|kw t|t]|]; try discriminate; apply bind_inv in H as (r & Hr & H); injection H as <-; exists r; auto. }
  destruct H' as ((y, l) & Hr & <-). exists l. exact Hr.
Qed.
Lemma nadecl_each n r : sized_decl n = true -> conv_nadecl n = Ok r -> Forall2 (fun v x => conv_nadecl (set_list n [v]) = Ok [x]) (names_of n) r.
Proof.
  assert (K : forall (f : expr * bool -> list vitem -> outcome (list iddef)), True) by auto.
  destruct n as [t l|t l|t l|i m l|t l]; cbn [sized_decl conv_nadecl set_list names_of]; intros Hs H.
  - apply bind_inv in H as (x & Hx & H). rewrite Hx. cbn [bind]. apply idlist_each; [|exact H]. apply npt_nv in Hx as (b & Hx). exact (nv_open t x b Hs Hx).
  - apply bind_inv in H as ((x, b) & Hx & H). rewrite Hx. cbn [bind fst snd] in *. apply idlist_each; [exact (nv_open t x b Hs Hx)|exact H].
  - apply bind_inv in H as ((x, b) & Hx & H). rewrite Hx. cbn [bind fst snd] in *. apply idlist_each; [exact (nv_open t x b Hs Hx)|exact H].
  - apply bind_inv in H as (x & Hx & H). apply bind_inv in H as (y & Hy & H). rewrite Hx. cbn [bind]. rewrite Hy. cbn [bind]. apply idlist_each; [|exact H].
    unfold visit_ident in Hx. apply bind_inv in Hx as (s0 & _ & Hx). injection Hx as <-. destruct m as [j|]; [|injection Hy as <-; reflexivity].
    apply bind_inv in Hy as (z & Hz & Hy). injection Hy as <-. unfold visit_ident in Hz. apply bind_inv in Hz as (s1 & _ & Hz). injection Hz as <-. reflexivity.
  - apply bind_inv in H as (x & Hx & H). rewrite Hx. cbn [bind]. apply idlist_each; [exact (doi_open t None x Hs Hx)|exact H].
Qed.

(** ** ANSI ports *)
Lemma header_eq l : header_ports l = (ps <- conv_ansi_ports l ;; Ok (fill_dirs DIR_INOUT ps)).
Proof. unfold header_ports, conv_module. cbn [foldM fst snd bind consume]. reflexivity. Qed.
Lemma dir_known d : is_unknown (visit_dir d) = false. Proof. destruct d; reflexivity. Qed.
Lemma ptype_open t b lat : sized (Some t) = true -> conv_ptype t = Ok (b, lat) -> open_wire b = false.
Proof.
  destruct t as [t|i m]; cbn [sized conv_ptype]; intros Hs H; [exact (nv_open (Some t) b lat Hs H)|]. apply bind_inv in H as (x & Hx & H).
  assert (Ex : exists s, x = EId s) by (destruct i as [i|]; [unfold visit_ident in Hx; apply bind_inv in Hx as (s0 & _ & Hx)|]; injection Hx as <-; eauto).
  destruct Ex as (s & ->). destruct m as [j|]; [|injection H as <- <-; reflexivity]. apply bind_inv in H as (y & Hy & H). injection H as <- <-.
  unfold visit_ident in Hy. apply bind_inv in Hy as (s1 & _ & Hy). injection Hy as <-. reflexivity.
Qed.
Lemma ptype_lat t b lat : is_var (Some t) = false -> conv_ptype t = Ok (b, lat) -> lat = false.
Proof.
  destruct t as [[i|t|kw t|t]|i m]; cbn [is_var conv_ptype conv_nvtype]; intros Hs H; try discriminate; apply bind_inv in H as (x & Hx & H); [injection H; auto..|].
  destruct m as [j|]; [apply bind_inv in H as (y & _ & H)|]; injection H; auto.
Qed.
Definition same_type (pt : option expr) (t : option ptype) : Prop :=
  match t with
  | None => pt = None \/ pt = Some (EId $"wire")
  | Some ty => exists b lat, conv_ptype ty = Ok (b, lat) /\ pt = Some b
  end.
Definition same_dir (pd : direction) (d : vdir) : Prop := (pd = DIR_UNKNOWN /\ d = V_INOUT) \/ pd = visit_dir d.
(** The direction a port gets in the end. *)
Lemma fill_one pd d x : same_dir pd d -> d_dir x = pd -> forall l, fill_dirs (visit_dir d) (x :: l) = set_port (fill_type x) (visit_dir d) (d_latched x) :: fill_dirs (visit_dir d) l.
Proof.
  intros Hd E l. cbn [fill_dirs]. rewrite E. destruct Hd as [[-> ->]| ->]; [reflexivity|]. rewrite dir_known. f_equal. unfold fill_type. destruct x as [n t v dr la c st sh al doc at']. cbn in E. subst dr. destruct t; reflexivity.
Qed.
Lemma fill_known prev d x : d_dir x = visit_dir d -> forall l, fill_dirs prev (x :: l) = fill_type x :: fill_dirs (visit_dir d) l.
Proof. intros E l. cbn [fill_dirs]. rewrite E, dir_known. reflexivity. Qed.
Lemma vitem_dir t v d lat x : conv_vitem t v d lat = Ok x -> d_dir x = d /\ d_latched x = lat /\ forall d', conv_vitem t v d' lat = Ok (set_port x d' lat).
Proof.
  unfold conv_vitem. intros H. apply bind_inv in H as (n & Hn & H). apply bind_inv in H as (e & He & H). injection H as <-. repeat split. intros d'. rewrite Hn, He. reflexivity.
Qed.
Lemma fill_set x d l : fill_type (set_port x d l) = set_port (fill_type x) d l.
Proof. destruct x as [n t v dr la c st sh al doc at']. unfold fill_type, set_port; cbn. destruct t; reflexivity. Qed.
Lemma header_one p x d b : conv_ansi DIR_UNKNOWN None p = Ok (x, d, b) -> header_ports [p] = Ok (fill_dirs DIR_INOUT [x]).
Proof. intros H. rewrite header_eq. unfold conv_ansi_ports. cbn [conv_ansi_list]. rewrite H. reflexivity. Qed.

Lemma ansi_step pd pt d t p x pd' pt' l : same_dir pd d -> same_type pt t -> plain_ports t (p :: l) = true -> conv_ansi pd pt p = Ok (x, pd', pt') ->
  exists p' d' t', (forall l, spell_out d t (p :: l) = p' :: spell_out d' t' l) /\ same_dir pd' d' /\ same_type pt' t' /\ plain_ports t' l = true /\
    (forall xs, exists y, fill_dirs (visit_dir d) (x :: xs) = y :: fill_dirs (visit_dir d') xs /\ header_ports [p'] = Ok [y]).
Proof.
  intros Hd Ht Hp H. destruct p as [od ot v|od i e].
  - cbn [plain_ports] in Hp. cbn [conv_ansi] in H.
    set (dir := match od with Some d => visit_dir d | None => pd end) in *.
    set (d' := match od with Some d' => d' | None => d end).
    set (t' := match od, ot with None, None => t | _, _ => ot end).
    assert (Hd' : same_dir dir d') by (unfold dir, d'; destruct od; [right; reflexivity|exact Hd]).
    apply bind_inv in H as ((b, lat) & Hb & H). apply bind_inv in H as (ds & Hds & H). cbn [fst snd] in H. destruct (apply_dims b ds) as (b', ty) eqn:Ea. apply bind_inv in H as (x' & Hx & H). injection H as <- <- <-.
    assert (Hp' : is_iface t' = false /\ (match vi_dims v with [] => true | _ => sized t' end) = true /\ plain_ports t' l = true /\ ((od = None /\ ot = None) -> is_var t' = false)).
    { unfold t'. destruct od as [d0|], ot as [t0|]; cbn [negb orb] in Hp; repeat (apply andb_prop in Hp as [Hp ?]); repeat match goal with H : negb _ = true |- _ => apply negb_true_iff in H end; repeat split; auto; intros [? ?]; discriminate. }
    destruct Hp' as (Hi & Hsz & Hrest & Hvar).
    (* the base type is the one the spelled out port has *)
    assert (Hbase : match t' with None => b = EId $"wire" /\ lat = false | Some ty => conv_ptype ty = Ok (b, lat) end).
    { unfold t'. destruct ot as [t0|]; [destruct od; exact Hb|]. destruct od as [d0|]; [injection Hb as <- <-; auto|]. unfold t' in Hvar. specialize (Hvar (conj eq_refl eq_refl)).
      destruct t as [t0|]; cbn [same_type] in Ht.
      - destruct Ht as (b0 & lat0 & Hc & ->). apply bind_inv in Hb as (c & Hcl & Hb). apply clone_e_same in Hcl as ->. injection Hb as <- <-. rewrite <- (ptype_lat t0 b0 lat0 Hvar Hc). exact Hc.
      - destruct Ht as [-> | ->]; [injection Hb as <- <-; auto|]. cbn in Hb. injection Hb as <- <-. auto. }
    assert (Hopen : ds = [] \/ open_wire b = false).
    { destruct (vi_dims v) as [|d0 dd]; [injection Hds as <-; left; reflexivity|]. right. destruct t' as [ty'|]; [exact (ptype_open ty' b lat Hsz Hbase)|]. destruct Hbase as [-> _]. reflexivity. }
    pose proof (apply_dims_base b ds Hopen) as Eb. rewrite Ea in Eb. cbn [fst] in Eb. subst b'.
    exists (AN_port (Some d') t' v), d', t'. split; [|split; [|split; [|split]]].
    + intros l'. unfold d', t'. destruct od, ot; reflexivity.
    + exact Hd'.
    + destruct t' as [ty'|]; [exists b, lat; auto|]. destruct Hbase as [-> _]. right. reflexivity.
    + exact Hrest.
    + intros xs. destruct (vitem_dir _ _ _ _ _ Hx) as (Ed & El & Hdir).
      assert (Hone : conv_ansi DIR_UNKNOWN None (AN_port (Some d') t' v) = Ok (set_port x' (visit_dir d') lat, visit_dir d', Some b)).
      { cbn [conv_ansi]. replace (match t' with Some t => conv_ptype t | None => Ok (EId $"wire", false) end) with (Ok (b, lat)) by (destruct t'; [congruence|destruct Hbase as [-> ->]; reflexivity]).
        cbn [bind]. rewrite Hds. cbn [bind fst snd]. rewrite Ea, Hdir. reflexivity. }
      exists (fill_type (set_port x' (visit_dir d') lat)). split.
      * unfold dir, d' in *. destruct od as [d0|].
        -- rewrite (fill_known _ d0) by exact Ed. f_equal. rewrite fill_set. rewrite <- Ed, <- El. unfold fill_type. destruct x' as [n0 t0 v0 dr la c0 st sh al doc at']. cbn. destruct t0; reflexivity.
        -- rewrite (fill_one pd d x' Hd Ed). rewrite fill_set, El. reflexivity.
      * rewrite (header_one _ _ _ _ Hone). cbn [fill_dirs]. cbn [set_port d_dir]. rewrite dir_known. reflexivity.
  - cbn [plain_ports] in Hp. cbn [conv_ansi] in H. apply bind_inv in H as (n & Hn & H). apply bind_inv in H as (v & Hv & H). injection H as <- <- <-.
    exists (AN_expr (Some (match od with Some x => x | None => d end)) i e), (match od with Some x => x | None => d end), None.
    split; [|split; [|split; [|split]]].
    + intros l'. reflexivity.
    + destruct od; [right; reflexivity|exact Hd].
    + left. reflexivity.
    + exact Hp.
    + intros xs. set (d' := match od with Some x => x | None => d end).
      assert (Hone : conv_ansi DIR_UNKNOWN None (AN_expr (Some d') i e) = Ok (set_port (new_var n type_auto v) (visit_dir d') false, visit_dir d', None)).
      { cbn [conv_ansi]. rewrite Hn. cbn [bind]. rewrite Hv. reflexivity. }
      exists (set_port (new_var n type_auto v) (visit_dir d') false). split.
      * unfold d'. destruct od as [d0|]; [apply fill_known; reflexivity|]. rewrite (fill_one pd d (set_port (new_var n type_auto v) pd false) Hd eq_refl). reflexivity.
      * rewrite (header_one _ _ _ _ Hone). cbn [fill_dirs]. cbn [set_port d_dir]. rewrite dir_known. reflexivity.
Qed.
Lemma ansi_each l : forall pd pt d t r, same_dir pd d -> same_type pt t -> plain_ports t l = true -> conv_ansi_list pd pt l = Ok r ->
  Forall2 (fun p x => header_ports [p] = Ok [x]) (spell_out d t l) (fill_dirs (visit_dir d) r).
Proof.
  induction l as [|p l IH]; intros pd pt d t r Hd Ht Hp H.
  - injection H as <-. constructor.
  - cbn [conv_ansi_list] in H. apply bind_inv in H as (((x, pd'), pt') & Hx & H). apply bind_inv in H as (xs & Hxs & H). injection H as <-.
    destruct (ansi_step pd pt d t p x pd' pt' l Hd Ht Hp Hx) as (p' & d' & t' & Hs & Hd' & Ht' & Hp' & Hf). rewrite Hs. destruct (Hf xs) as (y & -> & Hy). constructor; [exact Hy|]. exact (IH pd' pt' d' t' xs Hd' Ht' Hp' Hxs).
Qed.
Lemma header_each l r : plain_ports None l = true -> header_ports l = Ok r -> Forall2 (fun p x => header_ports [p] = Ok [x]) (spell_out V_INOUT None l) r.
Proof.
  intros Hp H. rewrite header_eq in H. apply bind_inv in H as (ps & Hps & H). injection H as <-. apply (ansi_each l DIR_UNKNOWN None V_INOUT None ps); auto; left; auto.
Qed.
