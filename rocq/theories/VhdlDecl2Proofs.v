From Verif Require Import Base BaseFacts AstModel StmModel LitModel LitSpec LitProofs SvExprModel SvExprSpec SvExprProofs SvTypeModel SvDeclModel SvInstProofs SvDeclProofs VhdlExprModel VhdlExprSpec VhdlExprProofs VhdlStmModel VhdlStmSpec VhdlStmProofs VhdlDeclModel VhdlDeclSpec VhdlDeclProofs.

(** ** Lists of identifiers *)
Definition opt_hconv (v : option hexpr) : outcome (option expr) := match v with Some v => x <- hconv v ;; Ok (Some x) | None => Ok None end.
Lemma mapM_pure {X Y} (f : X -> outcome Y) (g : X -> Y) l : (forall x, f x = Ok (g x)) -> mapM f l = Ok (map g l).
Proof. intros H. induction l as [|x l IH]; [reflexivity|]. change (mapM f (x :: l)) with (y <- f x ;; r <- mapM f l ;; Ok (y :: r)). rewrite H, IH. reflexivity. Qed.
Lemma extract_eq ns t v ty e : hconv t = Ok ty -> opt_hconv v = Ok e -> extract ns t v = Ok (map (fun n => new_iddef n ty e DIR_INTERNAL false) ns).
Proof.
  intros Ht Hv. unfold extract. rewrite Ht. cbn [bind]. change (bind (opt_hconv v) (fun e : option expr => match ns with
    | [] => Ok []
    | n :: ns' => r <- mapM (fun n => ty' <- clone_e ty ;; e' <- match e with Some x => y <- clone_e x ;; Ok (Some y) | None => Ok None end ;;
                          Ok (new_iddef n ty' e' DIR_INTERNAL false)) ns' ;; Ok (new_iddef n ty e DIR_INTERNAL false :: r) end) = Ok (map (fun n => new_iddef n ty e DIR_INTERNAL false) ns)).
  rewrite Hv. cbn [bind]. destruct ns as [|n ns]; [reflexivity|].
  assert (clone_e ty = Ok ty) as Gt by (exact (hconv_good t ty Ht)).
  assert (match e with Some x => y <- clone_e x ;; Ok (Some y) | None => Ok None end = Ok e) as Ge.
  { destruct v as [v|]; cbn [opt_hconv] in Hv; [|injection Hv as <-; reflexivity]. binv Hv. injection Hv as <-. rewrite (hconv_good v x Hx). reflexivity. }
  erewrite (mapM_pure _ (fun n => new_iddef n ty e DIR_INTERNAL false)); [reflexivity|]. intros m. rewrite Gt. cbn [bind]. rewrite Ge. reflexivity.
Qed.
Lemma extract_inv ns t v r : extract ns t v = Ok r -> exists ty e, hconv t = Ok ty /\ opt_hconv v = Ok e /\ r = map (fun n => new_iddef n ty e DIR_INTERNAL false) ns.
Proof.
  intros H. pose proof H as H0. unfold extract in H. binv H. binv H. exists x, x0. repeat split; try assumption.
  rewrite (extract_eq ns t v x x0 Hx Hx0) in H0. injection H0 as <-. reflexivity.
Qed.
Lemma concatM_single {S X Y} (f : S -> outcome (list Y)) (h : X -> S) (k : X -> Y) (l : list X) :
  (forall x, f (h x) = Ok [k x]) -> concatM f (map h l) = Ok (map k l).
Proof.
  intros H. induction l as [|x l IH]; [reflexivity|]. cbn [map concatM]. fold (concatM f (map h l)). rewrite H. cbn [bind]. rewrite IH. reflexivity.
Qed.
Lemma concatM_1 {X Y} (f : X -> outcome (list Y)) x r : f x = Ok r -> concatM f [x] = Ok r.
Proof. intros H. cbn. rewrite H. cbn. rewrite app_nil_r. reflexivity. Qed.
Lemma concatM_app {X Y} (f : X -> outcome (list Y)) a b r s : concatM f a = Ok r -> concatM f b = Ok s -> concatM f (a ++ b) = Ok (r ++ s).
Proof.
  revert r. induction a as [|x a IH]; intros r Ha Hb; [injection Ha as <-; exact Hb|].
  change (concatM f ((x :: a) ++ b)) with (y <- f x ;; z <- concatM f (a ++ b) ;; Ok (y ++ z)).
  change (concatM f (x :: a)) with (y <- f x ;; z <- concatM f a ;; Ok (y ++ z)) in Ha.
  binv Ha. binv Ha. injection Ha as <-. rewrite Hx. cbn [bind]. rewrite (IH _ Hx0 Hb). cbn [bind]. rewrite app_assoc. reflexivity.
Qed.
Lemma concatM_inv {X Y} (f : X -> outcome (list Y)) x l r : concatM f (x :: l) = Ok r -> exists a b, f x = Ok a /\ concatM f l = Ok b /\ r = a ++ b.
Proof.
  change (concatM f (x :: l)) with (y <- f x ;; z <- concatM f l ;; Ok (y ++ z)). intros H. binv H. binv H. injection H as <-. eauto.
Qed.
Lemma concatM_cons {X Y} (f : X -> outcome (list Y)) x l a b : f x = Ok a -> concatM f l = Ok b -> concatM f (x :: l) = Ok (a ++ b).
Proof. intros H K. change (concatM f (x :: l)) with (y <- f x ;; z <- concatM f l ;; Ok (y ++ z)). rewrite H, K. reflexivity. Qed.
Lemma extract_one n t v ty e : hconv t = Ok ty -> opt_hconv v = Ok e -> extract [n] t v = Ok [new_iddef n ty e DIR_INTERNAL false].
Proof. apply (extract_eq [n]). Qed.
Lemma mapM_map {S X Y} (f : S -> outcome Y) (h : X -> S) l : mapM f (map h l) = mapM (fun x => f (h x)) l.
Proof. induction l as [|x l IH]; [reflexivity|]. cbn [map]. change (mapM f (h x :: map h l)) with (y <- f (h x) ;; r <- mapM f (map h l) ;; Ok (y :: r)). rewrite IH. reflexivity. Qed.
Theorem decl_each ho d r : conv_decl ho d = Ok r -> concatM (conv_decl ho) (decl_ones d) = Ok r.
Proof.
  destruct d as [ns t v|ns t k v|sh ns t v|n [t|]| | | | | | | |l|]; intros H; try exact (concatM_1 _ _ _ H); cbn [decl_ones].
  - cbn [conv_decl] in H. binv H. injection H as <-. apply extract_inv in Hx as (ty & e & Ht & Hv & ->). rewrite map_map.
    apply concatM_single. intros n. cbn [conv_decl]. rewrite (extract_one n t v ty e Ht Hv). reflexivity.
  - cbn [conv_decl] in H. binv H. injection H as <-. apply extract_inv in Hx as (ty & e & Ht & Hv & ->). rewrite map_map.
    apply concatM_single. intros n. cbn [conv_decl]. rewrite (extract_one n t v ty e Ht Hv). reflexivity.
  - cbn [conv_decl] in H. binv H. injection H as <-. apply extract_inv in Hx as (ty & e & Ht & Hv & ->). rewrite map_map.
    apply concatM_single. intros n. cbn [conv_decl]. rewrite (extract_one n t v ty e Ht Hv). reflexivity.
  - destruct t as [| | | | | |l| | |]; try exact (concatM_1 _ _ _ H). apply concatM_1. cbn [conv_decl conv_tdef] in *. binv H. injection H as <-. binv Hx. injection Hx as <-.
    match goal with |- bind (bind ?a _) _ = _ => enough (a = Ok x0) as -> by reflexivity end.
    revert x0 Hx0. induction l as [|[ns t] l IH]; intros r H; [exact H|]. apply concatM_inv in H as (a & b & Ha & Hb & ->). cbn [flat_map fst snd] in *.
    apply concatM_app; [|apply IH; exact Hb]. apply extract_inv in Ha as (ty & e & Ht & Hv & ->). apply concatM_single. intros m. exact (extract_one m t None ty e Ht Hv).
  - cbn [conv_decl] in H. revert r H. induction l as [|n l IH]; intros r H; [exact H|].
    change (mapM conv_use (n :: l)) with (x <- conv_use n ;; y <- mapM conv_use l ;; Ok (x :: y)) in H. binv H. binv H. injection H as <-.
    cbn [map]. change (x :: x0) with ([x] ++ x0). apply concatM_cons; [|apply IH; exact Hx0]. cbn [conv_decl mapM]. rewrite Hx. reflexivity.
Qed.
Lemma iface_each i r : conv_iface i = Ok r -> conv_ifaces (iface_ones i) = Ok r.
Proof.
  unfold conv_ifaces. destruct i as [ns t v|k ns m t b v|ns m t v|ns t| | |]; intros H; try exact (concatM_1 _ _ _ H); cbn [iface_ones].
  - cbn [conv_iface] in H. binv H. injection H as <-. apply extract_inv in Hx as (ty & e & Ht & Hv & ->). rewrite map_map.
    apply concatM_single. intros n. cbn [conv_iface]. rewrite (extract_one n t v ty e Ht Hv). reflexivity.
  - cbn [conv_iface] in H. binv H. injection H as <-. apply extract_inv in Hx as (ty & e & Ht & Hv & ->). rewrite map_map.
    apply concatM_single. intros n. cbn [conv_iface]. rewrite (extract_one n t v ty e Ht Hv). reflexivity.
  - cbn [conv_iface] in H. binv H. injection H as <-. apply extract_inv in Hx as (ty & e & Ht & Hv & ->). rewrite map_map.
    apply concatM_single. intros n. cbn [conv_iface]. rewrite (extract_one n t v ty e Ht Hv). reflexivity.
  - injection H as <-. induction ns as [|n ns IH]; [reflexivity|]. cbn [map]. exact (concatM_cons conv_iface (IF_file [n] t) _ [] [] eq_refl IH).
Qed.
Theorem ifaces_each l r : conv_ifaces l = Ok r -> conv_ifaces (flat_map iface_ones l) = Ok r.
Proof.
  unfold conv_ifaces. revert r. induction l as [|i l IH]; intros r H; [exact H|]. apply concatM_inv in H as (a & b & Ha & Hb & ->).
  cbn [flat_map]. apply concatM_app; [apply iface_each; exact Ha|apply IH; exact Hb].
Qed.

(** ** Meaning *)
Ltac oinv H := lazymatch type of H with obind _ _ = _ => let x := fresh "v" in let Hx := fresh "Hv" in apply obind_inv in H as (x & Hx & H) end.
Section Meaning.
Context (A : halgebra).
Notation hv := (hvmeaning A). Notation hm := (hmeaning A).
Lemma hv_ok e v : hv e = Some v -> exists a, hconv e = Ok a /\ hm a = Some v.
Proof. intros H. destruct (hconv_sim A e v H) as (a & Ha & Hm & _). eauto. Qed.
Lemma range_all (r : hrange hexpr) : h_rng (hsim A) r. Proof. destruct r; cbn; auto using hconv_sim. Qed.
Lemma range_ok r v : hv_range A hv r = Some v -> exists a, conv_range hconv r = Ok a /\ hm a = Some v.
Proof. apply range_sim, range_all. Qed.
Lemma assoc_all (a : hassoc hexpr) : h_as (hsim A) a.
Proof.
  destruct a as [fp ac]. split; [destruct fp as [[n [m|]]|]; cbn; auto using hconv_sim|]. destruct ac as [[]|n []]; cbn; auto using hconv_sim.
Qed.
Lemma assoc_ok a v : hv_assoc A hv a = Some v -> exists x, conv_assoc hconv a = Ok x /\ hm_assoc A hm x = Some v.
Proof. apply assoc_sim, assoc_all. Qed.
Lemma list_ok {X Y Z} (f : X -> outcome Z) (g : X -> option Y) (m : Z -> option Y) l :
  (forall x v, g x = Some v -> exists a, f x = Ok a /\ m a = Some v) -> forall r, omapM g l = Some r -> exists xs, mapM f l = Ok xs /\ omapM m xs = Some r.
Proof.
  intros H. induction l as [|x l IH]; intros r E; [injection E as <-; exists []; split; reflexivity|].
  change (omapM g (x :: l)) with (y <~ g x ;; r <~ omapM g l ;; Some (y :: r)) in E. oinv E. oinv E. injection E as <-.
  destruct (H _ _ Hv) as (a & Ha & Hm). destruct (IH _ Hv0) as (xs & Hxs & Hms). exists (a :: xs). split.
  - change (mapM f (x :: l)) with (y <- f x ;; r <- mapM f l ;; Ok (y :: r)). rewrite Ha, Hxs. reflexivity.
  - change (omapM m (a :: xs)) with (y <~ m a ;; r <~ omapM m xs ;; Some (y :: r)). rewrite Hm, Hms. reflexivity.
Qed.
Lemma opt_ok v w : os A v = Some w -> exists e, opt_hconv v = Ok e /\ om A e = Some w.
Proof.
  destruct v as [v|]; cbn [os opt_hconv]; intros H; [|injection H as <-; exists None; split; reflexivity].
  oinv H. injection H as <-. destruct (hv_ok _ _ Hv) as (a & Ha & Hm). exists (Some a). rewrite Ha. cbn [om]. rewrite Hm. split; reflexivity.
Qed.
Lemma omapM_pure {X Y} (f : X -> option Y) (g : X -> Y) l : (forall x, f x = Some (g x)) -> omapM f l = Some (map g l).
Proof. intros H. induction l as [|x l IH]; [reflexivity|]. change (omapM f (x :: l)) with (y <~ f x ;; r <~ omapM f l ;; Some (y :: r)). rewrite H, IH. reflexivity. Qed.
Lemma omapM_map {S X Y} (f : S -> option Y) (h : X -> S) l : omapM f (map h l) = omapM (fun x => f (h x)) l.
Proof. induction l as [|x l IH]; [reflexivity|]. cbn [map]. change (omapM f (h x :: map h l)) with (y <~ f (h x) ;; r <~ omapM f (map h l) ;; Some (y :: r)). rewrite IH. reflexivity. Qed.
Lemma mode_back m : m_mode (conv_mode m) = Some match m with Some m => m | None => Md_in end.
Proof. destruct m as [[]|]; reflexivity. Qed.
(** Interface objects. *)
Lemma iface_sim dflt i ps : (dflt = Signal_obj \/ keyworded i = true) -> s_iface A dflt i = Some ps -> exists l, conv_iface i = Ok l /\ omapM (m_port A) l = Some ps.
Proof.
  intros D H. destruct i as [ns t v|k ns m t [|] v|ns m t v|ns t| | |]; try discriminate; cbn [s_iface] in H; oinv H; oinv H; injection H as <-;
    destruct (hv_ok _ _ Hv) as (ty & Ht & Mt); destruct (opt_ok _ _ Hv0) as (e & He & Me); cbn [conv_iface]; rewrite (extract_eq ns t v ty e Ht He); cbn [bind]; eexists; (split; [reflexivity|]);
    rewrite map_map, omapM_map; apply omapM_pure; intros n; unfold m_port; cbn [d_type d_value d_const d_dir d_latched d_name set_const set_dir set_latched new_iddef]; rewrite Mt; cbn [obind]; rewrite Me; cbn [obind]; try reflexivity.
  - rewrite mode_back. cbn [obind]. destruct k; [reflexivity|]. destruct D as [->|D]; [reflexivity|discriminate].
  - rewrite mode_back. reflexivity.
Qed.
Lemma ifaces_sim dflt l ps : (dflt = Signal_obj \/ forallb keyworded l = true) -> s_ifaces A dflt (Some l) = Some ps -> exists r, conv_ifaces l = Ok r /\ omapM (m_port A) r = Some ps.
Proof.
  unfold s_ifaces, conv_ifaces. intros D H. oinv H. injection H as <-. revert v Hv. induction l as [|i l IH]; intros v H.
  - injection H as <-. exists []. split; reflexivity.
  - change (omapM (s_iface A dflt) (i :: l)) with (y <~ s_iface A dflt i ;; r <~ omapM (s_iface A dflt) l ;; Some (y :: r)) in H. oinv H. oinv H. injection H as <-.
    destruct (iface_sim dflt i v0) as (a & Ha & Ma); [|exact Hv|].
    { destruct D as [D|D]; [left; exact D|right]. cbn [forallb] in D. apply andb_prop in D as (D & _). exact D. }
    destruct (IH) with (v := v1) as (b & Hb & Mb); [|exact Hv0|].
    { destruct D as [D|D]; [left; exact D|right]. cbn [forallb] in D. apply andb_prop in D as (_ & D). exact D. }
    exists (a ++ b). split; [apply concatM_cons; assumption|]. cbn [List.concat]. apply homapM_app; assumption.
Qed.
Lemma clause_sim dflt c ps : (dflt = Signal_obj \/ keyworded_clause c = true) -> s_ifaces A dflt c = Some ps -> exists r, conv_clause false c = Ok r /\ omapM (m_port A) r = Some ps.
Proof. destruct c as [l|]; cbn [conv_clause]; intros D H; [exact (ifaces_sim dflt l ps D H)|]. injection H as <-. exists []. split; reflexivity. Qed.
Theorem component_sim c i : keyworded_clause (cp_generics c) = true -> s_interface A (cp_name c) (cp_generics c) (cp_ports c) = Some i ->
  exists o, conv_component false c = Ok o /\ m_interface A o = Some i.
Proof.
  intros K H. unfold s_interface in H. oinv H. oinv H. injection H as <-.
  destruct (clause_sim Const_obj _ _ (or_intror K) Hv) as (g & Hg & Mg). destruct (clause_sim Signal_obj _ _ (or_introl eq_refl) Hv0) as (p & Hp & Mp).
  unfold conv_component. rewrite Hg. cbn [bind]. rewrite Hp. cbn [bind]. eexists. split; [reflexivity|]. cbn [m_interface]. rewrite Mg. cbn [obind]. rewrite Mp. reflexivity.
Qed.
Theorem entity_sim n g p ds ss i : keyworded_clause g = true -> s_interface A n g p = Some i -> (exists r, conv_decls false ds = Ok r) ->
  exists o, conv_lunit false (LU_entity n g p ds ss) = Ok [o] /\ m_interface A o = Some i.
Proof.
  intros K H (r & Hr). unfold s_interface in H. oinv H. oinv H. injection H as <-.
  destruct (clause_sim Const_obj _ _ (or_intror K) Hv) as (g' & Hg & Mg). destruct (clause_sim Signal_obj _ _ (or_introl eq_refl) Hv0) as (p' & Hp & Mp).
  cbn [conv_lunit]. rewrite Hg. cbn [bind]. rewrite Hp. cbn [bind]. rewrite Hr. cbn [bind]. eexists. split; [reflexivity|]. cbn [m_interface]. rewrite Mg. cbn [obind]. rewrite Mp. reflexivity.
Qed.
(** Instances. *)
Lemma map_sim m r : s_map A m = Some r -> exists l, conv_map m = Ok l /\ omapM (hm_assoc A hm) l = Some r.
Proof.
  destruct m as [l|]; cbn [s_map conv_map]; intros H; [|injection H as <-; exists []; split; reflexivity].
  exact (list_ok (conv_assoc hconv) (hv_assoc A hv) (hm_assoc A hm) l assoc_ok r H).
Qed.
Theorem vinst_sim l u gm pm i : s_vinst A l u gm pm = Some i -> exists o, conv_vinst l u gm pm = Ok o /\ m_vinst A o = Some i.
Proof.
  unfold s_vinst. intros H. oinv H. oinv H. oinv H. injection H as <-.
  destruct (hv_ok _ _ Hv) as (x & Hx & Mx). destruct (map_sim _ _ Hv0) as (g & Hg & Mg). destruct (map_sim _ _ Hv1) as (p & Hp & Mp).
  unfold conv_vinst. assert (conv_iunit u = Ok x) as -> by (destruct u; exact Hx). cbn [bind]. rewrite Hg. cbn [bind]. rewrite Hp. cbn [bind].
  eexists. split; [reflexivity|]. cbn [m_vinst ci_name ci_module ci_generics ci_ports]. rewrite Mx. cbn [obind]. rewrite Mg. cbn [obind]. rewrite Mp. reflexivity.
Qed.
(** Types. *)
Lemma open_none e v : hm e = Some v -> open_index e = None.
Proof.
  intros H. destruct e as [| | | | | | |o l|]; try reflexivity. destruct o; try reflexivity. destruct l as [|x [|y [|z l]]]; try reflexivity.
  cbn [open_index]. destruct y as [| | | | |[]| | |]; try reflexivity. cbn [hmeaning] in H. destruct (hm x); discriminate.
  cbn [open_index]. destruct y as [| | | | |[]| | |]; reflexivity.
Qed.
Theorem tdef_sim t m : s_tdef A t = Some m -> exists v, conv_tdef t = Ok v /\ m_tval A v = Some m.
Proof.
  destruct t as [l|r|r|r p l|ms e|l e|l| | |]; cbn [s_tdef conv_tdef]; intros H; try discriminate.
  - oinv H. injection H as <-.
    destruct (list_ok conv_elit (fun e => match e with El_id s => Some (inl s) | El_char t => c <~ hv_char t ;; Some (inr (h_char A c)) end)
       (fun p : option str * option expr => match p with (Some s, None) => Some (inl s) | (None, Some e) => x <~ hm e ;; Some (inr x) | _ => None end) l) with (r := v) as (xs & Hxs & Mxs); [|exact Hv|].
    + intros [s|t] w K; cbn [conv_elit]; [injection K as <-; eexists; split; reflexivity|]. oinv K. injection K as <-.
      destruct (nlit_sim A (NL_char t) (h_char A v0)) as (a & Ha & Ma & _); [cbn [hv_nlit]; rewrite Hv0; reflexivity|]. rewrite Ha. cbn [bind]. eexists. split; [reflexivity|]. cbn. rewrite Ma. reflexivity.
    + rewrite Hxs. cbn [bind]. eexists. split; [reflexivity|]. cbn [m_tval]. rewrite Mxs. reflexivity.
  - oinv H. injection H as <-. destruct (range_ok _ _ Hv) as (a & Ha & Ma). rewrite Ha. cbn [bind]. eexists. split; [reflexivity|]. unfold op1. cbn [m_tval]. rewrite Ma. reflexivity.
  - oinv H. injection H as <-. destruct (range_ok _ _ Hv) as (a & Ha & Ma). rewrite Ha. cbn [bind]. eexists. split; [reflexivity|]. unfold op1. cbn [m_tval]. rewrite Ma. reflexivity.
  - oinv H. oinv H. injection H as <-. destruct (range_ok _ _ Hv) as (a & Ha & Ma). rewrite Ha. cbn [bind].
    destruct (list_ok (fun u : str * (option (bool * str) * hexpr) => y <- conv_physical (snd u) ;; Ok (fst u, Some y))
       (fun u : str * (option (bool * str) * hexpr) =>
              match fst (snd u) with
              | Some (false, t) => a <~ hv_decimal A t ;; b <~ hv (snd (snd u)) ;; Some (fst u, h_unit A a b)
              | Some (true, _) => None
              | None => b <~ hv (snd (snd u)) ;; Some (fst u, b)
              end)
       (fun u : str * option expr => match snd u with Some e => y <~ hm e ;; Some (fst u, y) | None => None end) l) with (r := v0) as (xs & Hxs & Mxs); [|exact Hv0|].
    + intros (n & o & e) w K. cbn [fst snd] in *. unfold conv_physical. cbn [fst snd]. destruct o as [[[|] t]|]; [discriminate| |].
      * oinv K. oinv K. injection K as <-. destruct (hv_ok _ _ Hv2) as (b & Hb & Mb). destruct (decimal_sim A _ _ Hv1) as (c & Hc & Mc & _).
        rewrite Hb. cbn [bind]. rewrite Hc. cbn [bind]. eexists. split; [reflexivity|]. unfold op2. cbn [snd fst hmeaning]. rewrite Mc. cbn [obind]. rewrite Mb. reflexivity.
      * oinv K. injection K as <-. destruct (hv_ok _ _ Hv1) as (b & Hb & Mb). rewrite Hb. cbn [bind]. eexists. split; [reflexivity|]. cbn [snd fst]. rewrite Mb. reflexivity.
    + rewrite Hxs. cbn [bind]. eexists. split; [reflexivity|]. unfold op1. cbn [m_tval]. rewrite Ma. cbn [obind]. rewrite Mxs. reflexivity.
  - destruct ms as [|m0 ms]; [discriminate|]. oinv H. oinv H. injection H as <-. destruct (hv_ok _ _ Hv) as (x & Hx & Mx). rewrite Hx. cbn [bind].
    destruct (list_ok hconv hv hm (m0 :: ms)) with (r := v0) as (xs & Hxs & Mxs); [exact hv_ok|exact Hv0|].
    assert (forall l r, mapM hconv l = Ok r -> mapM (fun m => y <- hconv m ;; Ok (op2 RANGE y (ESym symb_OPEN))) l = Ok (map (fun y => op2 RANGE y (ESym symb_OPEN)) r)) as K.
    { intros l. induction l as [|z l IH]; intros r E; [injection E as <-; reflexivity|].
      change (mapM hconv (z :: l)) with (y <- hconv z ;; r <- mapM hconv l ;; Ok (y :: r)) in E. binv E. binv E. injection E as <-.
      change (mapM (fun m => y <- hconv m ;; Ok (op2 RANGE y (ESym symb_OPEN))) (z :: l)) with (y <- (y <- hconv z ;; Ok (op2 RANGE y (ESym symb_OPEN))) ;; r <- mapM (fun m => y <- hconv m ;; Ok (op2 RANGE y (ESym symb_OPEN))) l ;; Ok (y :: r)).
      rewrite Hx0. cbn [bind]. rewrite (IH _ Hx1). reflexivity. }
    rewrite (K _ _ Hxs). cbn [bind]. eexists. split; [reflexivity|]. cbn [m_tval]. unfold m_array. rewrite Mx. cbn [obind].
    assert (omapM open_index (map (fun y => op2 RANGE y (ESym symb_OPEN)) xs) = Some xs) as ->.
    { rewrite omapM_map. rewrite (omapM_pure _ (fun x => x)) by reflexivity. rewrite map_id. reflexivity. }
    rewrite Mxs. reflexivity.
  - destruct l as [|r0 l]; [discriminate|]. oinv H. oinv H. injection H as <-. destruct (hv_ok _ _ Hv) as (x & Hx & Mx). rewrite Hx. cbn [bind].
    destruct (list_ok (conv_range hconv) (hv_range A hv) hm (r0 :: l)) with (r := v0) as (xs & Hxs & Mxs); [exact range_ok|exact Hv0|].
    unfold conv_array_constraint. rewrite Hxs. cbn [bind]. eexists. split; [reflexivity|]. unfold call_op. cbn [m_tval]. unfold m_array. rewrite Mx. cbn [obind].
    destruct xs as [|y xs]; [apply mapM_ok_in in Hxs; inversion Hxs|].
    assert (omapM open_index (y :: xs) = None) as ->.
    { change (omapM hm (y :: xs)) with (z <~ hm y ;; r <~ omapM hm xs ;; Some (z :: r)) in Mxs. oinv Mxs. 
      change (omapM open_index (y :: xs)) with (z <~ open_index y ;; r <~ omapM open_index xs ;; Some (z :: r)). rewrite (open_none _ _ Hv1). reflexivity. }
    rewrite Mxs. reflexivity.
  - oinv H. injection H as <-.
    assert (exists r, concatM (fun p : list str * hexpr => extract (fst p) (snd p) None) l = Ok r /\
      omapM (fun d => match d_value d with None => x <~ hm (d_type d) ;; Some (d_name d, x) | Some _ => None end) r = Some (List.concat v)) as (r & Hr & Mr).
    { revert v Hv. induction l as [|[ns t] l IH]; intros v H; [injection H as <-; exists []; split; reflexivity|].
      change (omapM (fun p : list str * hexpr => x <~ hv (snd p) ;; Some (map (fun n => (n, x)) (fst p))) ((ns, t) :: l)) with
        (y <~ (x <~ hv t ;; Some (map (fun n => (n, x)) ns)) ;; r <~ omapM (fun p : list str * hexpr => x <~ hv (snd p) ;; Some (map (fun n => (n, x)) (fst p))) l ;; Some (y :: r)) in H.
      oinv H. oinv H. injection H as <-. oinv Hv. injection Hv as <-. destruct (IH _ Hv0) as (b & Hb & Mb). destruct (hv_ok _ _ Hv1) as (ty & Ht & Mt).
      eexists. split; [apply concatM_cons; [exact (extract_eq ns t None ty None Ht eq_refl)|exact Hb]|]. cbn [List.concat]. apply homapM_app; [|exact Mb].
      rewrite omapM_map. apply omapM_pure. intros n. cbn [d_value d_type d_name new_iddef]. rewrite Mt. reflexivity. }
    rewrite Hr. cbn [bind]. eexists. split; [reflexivity|]. cbn [m_tval]. rewrite Mr. reflexivity.
Qed.
Theorem tdecl_sim ho d x : s_tdecl A d = Some x -> exists o, conv_decl ho d = Ok [o] /\ m_tdecl A o = Some x.
Proof.
  destruct d as [| | |n [t|]|n t| | | | | | | |]; cbn [s_tdecl conv_decl]; intros H; try discriminate.
  - oinv H. injection H as <-. destruct (tdef_sim _ _ Hv) as (w & Hw & Mw). rewrite Hw. cbn [bind]. eexists. split; [reflexivity|]. cbn [m_tdecl]. rewrite Mw. reflexivity.
  - injection H as <-. eexists. split; reflexivity.
  - oinv H. injection H as <-. destruct (hv_ok _ _ Hv) as (w & Hw & Mw). rewrite Hw. cbn [bind]. eexists. split; [reflexivity|]. cbn [m_tdecl]. rewrite Mw. reflexivity.
Qed.
(** Subprograms. *)
Lemma params_sim body dflt ps l : (dflt = Signal_obj \/ keyworded_clause ps = true) -> s_ifaces A dflt ps = Some l ->
  exists r, conv_params body ps = Ok r /\ match r with Some l => omapM (m_port A) l | None => Some [] end = Some l.
Proof.
  destruct ps as [ps|]; cbn [conv_params]; intros D H.
  - destruct (ifaces_sim dflt ps l D H) as (r & Hr & Mr). rewrite Hr. cbn [bind]. eexists. split; [reflexivity|exact Mr].
  - injection H as <-. destruct body; eexists; split; reflexivity.
Qed.
Theorem subprog_sim body dflt s objs p : (dflt = Signal_obj \/ keyworded_clause (sp_params s) = true) -> s_profile A dflt s = Some p ->
  exists o, conv_subprog body s objs = Ok o /\ m_profile A o = Some p /\ match o with O_func _ _ _ _ d _ b => d = negb body /\ b = objs | _ => False end.
Proof.
  destruct s as [d ps|pu d ps ret]; cbn [s_profile conv_subprog sp_params]; intros D H.
  - oinv H. injection H as <-. destruct (params_sim body dflt ps v D Hv) as (r & Hr & Mr). rewrite Hr. cbn [bind]. eexists. split; [reflexivity|]. cbn [m_profile om obind]. rewrite Mr. split; [reflexivity|split; reflexivity].
  - oinv H. oinv H. injection H as <-. destruct (hv_ok _ _ Hv) as (x & Hx & Mx). destruct (params_sim body dflt ps v0 D Hv0) as (r & Hr & Mr). rewrite Hx. cbn [bind]. rewrite Hr. cbn [bind].
    eexists. split; [reflexivity|]. cbn [m_profile om]. rewrite Mx. cbn [obind]. rewrite Mr. cbn [obind]. split; [|split; reflexivity]. destruct pu as [[]|]; reflexivity.
Qed.
End Meaning.
