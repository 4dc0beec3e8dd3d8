(** The choice of ANTLR between two trees does not change what a design file means. *)
From Verif Require Import Base AstModel StmModel LitModel SvExprModel SvExprSpec VhdlExprModel VhdlExprSpec VhdlExprProofs VhdlStmModel VhdlStmSpec VhdlStmProofs VhdlDeclModel VhdlDeclSpec VhdlElabProofs VhdlHierProofs VhdlFileSpec.
From Verif Require Import VhdlSyntaxModel VhdlNormProofs VhdlStmSyntaxModel VhdlStmNormProofs VhdlUnitSyntaxModel.

Section Norm.
Context (A : halgebra) (M : hmachine A) (n : nat).
Notation hv := (hvmeaning A).
Lemma rrange_kept r : hv_range A hv (norm_rrange r) = hv_range A hv r.
Proof. destruct r; cbn [norm_rrange hv_range]; rewrite !hv_norm; reflexivity. Qed.
Lemma sub_kept t : hv (norm_sub t) = hv t.
Proof.
  destruct t; try apply hv_norm. cbn [norm_sub hvmeaning]. destruct ri as [[f|]|]; rewrite ?hv_norm; (destruct c as [[r|l b]|]; [|reflexivity|reflexivity]); cbn [hv_constr]; rewrite rrange_kept; reflexivity.
Qed.
Lemma drange_kept r : hv_range A hv (norm_drange r) = hv_range A hv r.
Proof. destruct r as [e|a d b]; [|apply range_kept]. destruct e; try apply range_kept. apply sub_kept. Qed.
Lemma os_kept v : os A (option_map norm v) = os A v.
Proof. destruct v; [|reflexivity]. cbn [option_map os]. rewrite hv_norm. reflexivity. Qed.
Lemma os_sub v : os A (option_map norm_sub v) = os A v.
Proof. destruct v; [|reflexivity]. cbn [option_map os]. rewrite sub_kept. reflexivity. Qed.
Lemma assoc_kept a : hv_assoc A hv (norm_assoc a) = hv_assoc A hv a.
Proof. change (norm_assoc a) with (n_assoc a). apply assoc_norm. apply b_as. apply norm_good. Qed.
Lemma iface_kept d i : s_iface A d (norm_iface i) = s_iface A d i.
Proof. destruct i as [ns t v|k ns m t b v|ns m t v|ns t| | |]; try reflexivity; cbn [norm_iface s_iface]; [|destruct b; [reflexivity|]|]; rewrite sub_kept, os_kept; reflexivity. Qed.
Lemma clause_kept d c : s_ifaces A d (norm_clause c) = s_ifaces A d c.
Proof. destruct c as [l|]; [|reflexivity]. cbn [norm_clause option_map s_ifaces]. rewrite (omap_ext (s_iface A d) (s_iface A d) norm_iface) by (intros; apply iface_kept). reflexivity. Qed.
Lemma keyworded_kept c : keyworded_clause (norm_clause c) = keyworded_clause c.
Proof. destruct c as [l|]; [|reflexivity]. cbn [norm_clause option_map keyworded_clause]. induction l as [|i l IH]; [reflexivity|]. cbn [map forallb]. rewrite IH. destruct i; reflexivity. Qed.
Lemma interface_kept m g p : s_unit_interface A m (norm_clause g) (norm_clause p) = s_unit_interface A m g p.
Proof. unfold s_unit_interface, s_interface. rewrite keyworded_kept, !clause_kept. reflexivity. Qed.
Lemma sub_spec_kept s : s_sub A (norm_spec s) = s_sub A s.
Proof. destruct s as [d ps|p d ps t]; unfold s_sub; cbn [norm_spec sp_params s_profile]; rewrite keyworded_kept, clause_kept, ?hv_norm; reflexivity. Qed.
Lemma tdef_kept t : s_tdef A (norm_tdef t) = s_tdef A t.
Proof.
  destruct t; try reflexivity; cbn [norm_tdef s_tdef].
  - rewrite rrange_kept. reflexivity.
  - rewrite sub_kept, names_kept. destruct marks; reflexivity.
  - rewrite sub_kept, (omap_ext (hv_range A hv) (hv_range A hv) norm_drange) by (intros; apply drange_kept). destruct l; reflexivity.
  - rewrite (omap_ext _ (fun p : list str * hexpr => x <~ hv (snd p) ;; Some (map (fun n => (n, x)) (fst p))) (fun p => (fst p, norm_sub (snd p)))); [reflexivity|]. intros [ns x] _. cbn [fst snd]. rewrite sub_kept. reflexivity.
Qed.
Lemma path_kept e : s_path (norm e) = s_path e.
Proof. induction e; try reflexivity; cbn [norm s_path]; rewrite ?IHe; reflexivity. Qed.
Lemma paths_kept l : omapM s_path (map norm l) = omapM s_path l.
Proof. apply omap_ext. intros. apply path_kept. Qed.
Lemma decl_kept d : s_decl A M n (norm_decl d) = s_decl A M n d.
Proof.
  assert (O : forall ns k t v, s_objects A M ns k (norm_sub t) (option_map norm v) = s_objects A M ns k t v) by (intros; unfold s_objects; rewrite sub_kept, os_kept; reflexivity).
  induction d as [d K] using decl_ind'.
  assert (G : forall ds, Forall (fun d => s_decl A M n (norm_decl d) = s_decl A M n d) ds -> omapM (s_decl A M n) (map norm_decl ds) = omapM (s_decl A M n) ds).
  { intros ds F. apply omap_ext. intros x I. exact (proj1 (Forall_forall _ _) F x I). }
  destruct d as [ns t v|ns t k v|sh ns t v|m t|m t|m t e s|s|s ds ss|m g ds|m ds|c|l|x]; cbn [d_kids] in K; cbn [norm_decl s_decl].
  - apply O.
  - destruct k; [reflexivity|apply O].
  - apply O.
  - destruct t as [t|]; [|reflexivity]. cbn [option_map s_tdecl]. rewrite tdef_kept. reflexivity.
  - cbn [s_tdecl]. rewrite sub_kept. reflexivity.
  - destruct s; [reflexivity|]. rewrite os_sub, hv_norm. reflexivity.
  - rewrite sub_spec_kept. reflexivity.
  - rewrite sub_spec_kept, (G ds K), (omap_ext (hv_stm A M n) (hv_stm A M n) norm_stm) by (intros; apply stm_kept). reflexivity.
  - destruct g; [reflexivity|]. rewrite (G ds K). reflexivity.
  - rewrite (G ds K). reflexivity.
  - cbn [cp_name cp_generics cp_ports]. rewrite interface_kept. reflexivity.
  - rewrite paths_kept. reflexivity.
  - reflexivity.
Qed.
Lemma decls_kept l : s_decls A M n (map norm_decl l) = s_decls A M n l.
Proof. unfold s_decls. rewrite (omap_ext (s_decl A M n) (s_decl A M n) norm_decl) by (intros; apply decl_kept). reflexivity. Qed.

(** ** Concurrent statements *)
Lemma simple_kept l s : s_simple A M n l (norm_csimple s) = s_simple A M n l s.
Proof.
  destruct s as [se ds ss e|m|c r s|c]; cbn [norm_csimple s_simple].
  - rewrite decls_kept, (omap_ext (hv_stm A M n) (hv_stm A M n) norm_stm) by (intros; apply stm_kept). destruct se as [| |l0]; cbn [norm_sens hv_sens]; rewrite ?names_kept; reflexivity.
  - rewrite pcall_kept. reflexivity.
  - pose proof (stm_kept A M n (HS None (J_assert c r s))) as E. unfold kept in E. cbn [norm_stm norm_item] in E. rewrite E. reflexivity.
  - rewrite conc_kept. reflexivity.
Qed.
Lemma map_kept m : s_map A (option_map (map norm_assoc) m) = s_map A m.
Proof. destruct m as [l|]; [|reflexivity]. cbn [option_map s_map]. apply omap_ext. intros. apply assoc_kept. Qed.
Lemma vinst_kept l u g p : s_vinst A l (norm_iunit u) (option_map (map norm_assoc) g) (option_map (map norm_assoc) p) = s_vinst A l u g p.
Proof. unfold s_vinst. rewrite !map_kept. assert (E : unit_name (norm_iunit u) = norm (unit_name u)) by (destruct u; reflexivity). rewrite E, hv_norm. reflexivity. Qed.
Definition norm_leaf (l : leaf) : leaf := match l with Lf_decl d => Lf_decl (norm_decl d) | Lf_stm s => Lf_stm (norm_cstm s) end.
Lemma leaf_kept l : s_leaf A M n (norm_leaf l) = s_leaf A M n l.
Proof.
  destruct l as [d|s]; cbn [norm_leaf s_leaf]; [rewrite decl_kept; reflexivity|]. destruct s as [| | | | |l p s]; try reflexivity; cbn [norm_cstm].
  - rewrite vinst_kept. reflexivity.
  - destruct p; [reflexivity|]. rewrite simple_kept. reflexivity.
Qed.
Section Elab.
Context (N : Type) (test : VhdlDeclSpec.env N -> HV A -> bool) (range : VhdlDeclSpec.env N -> HV A -> list N) (matches : VhdlDeclSpec.env N -> HV A -> HV A -> bool).
Notation elab := (s_elab A N test range matches).
Definition nits (l : list (item N leaf)) : list (item N leaf) := map (fun it => (fst it, norm_leaf (snd it))) l.
Lemma omap_nits {X Y : Type} (f : Y -> option (list (item N leaf))) (g : X -> option (list (item N leaf))) (h : X -> Y) l : (forall x, In x l -> f (h x) = option_map nits (g x)) ->
  omapM f (map h l) = option_map (map nits) (omapM g l).
Proof.
  induction l as [|x l IH]; intros H; [reflexivity|]. cbn [map omapM]. rewrite H by (left; reflexivity). destruct (g x); [|reflexivity]. cbn [option_map obind]. rewrite IH by (intros; apply H; right; assumption). destruct (omapM g l); reflexivity.
Qed.
Lemma nits_concat l : List.concat (map nits l) = nits (List.concat l).
Proof. unfold nits. symmetry. apply concat_map. Qed.
Definition elab_kept (s : cstm) : Prop := forall p e, elab (norm_cstm s) p e = option_map nits (elab s p e).
Lemma body_kept p e b : g_all elab_kept b -> s_body N p e (fun s => elab s p e) (norm_gbody norm_cstm b) = option_map nits (s_body N p e (fun s => elab s p e) b).
Proof.
  destruct b as [k ds ss]. cbn [g_all norm_gbody s_body]. intros K.
  rewrite (omap_nits (fun s => elab s p e) (fun s => elab s p e) norm_cstm) by (intros x I; exact (proj1 (Forall_forall _ _) K x I p e)).
  destruct (omapM _ ss) as [r|]; [|reflexivity]. cbn [option_map obind]. rewrite nits_concat. unfold nits. rewrite map_app, !map_map. reflexivity.
Qed.
Lemma unlabelled_kept a (x y : option (list (item N leaf))) : x = option_map nits y -> unlabelled a x = option_map nits (unlabelled a y).
Proof. intros ->. destruct a; reflexivity. Qed.
Lemma choose_kept e w cs : s_choose A N matches e w (map norm_choice cs) = s_choose A N matches e w cs.
Proof. induction cs as [|[|r] cs IH]; [reflexivity|reflexivity|]. cbn [map norm_choice s_choose]. rewrite range_kept, IH. reflexivity. Qed.
Theorem elab_all s : elab_kept s.
Proof.
  induction s as [s K] using cstm_ind'. intros p e. destruct s as [l g gs ps ds ss m|l u g0 p0|l i r b m|l a c b es el m|l c alts m|l po s]; cbn [c_kids] in K; cbn [norm_cstm s_elab].
  - exact (body_kept (p ++ [(l, None)]) e (GB true ds ss) K).
  - reflexivity.
  - rewrite drange_kept. destruct (hv_range A hv r) as [v|]; [|reflexivity]. cbn [obind]. rewrite <- (map_id (range e v)) at 1.
    rewrite (omap_nits _ (fun n => s_body N (p ++ [(l, Some n)]) ((i, n) :: e) (fun s => elab s (p ++ [(l, Some n)]) ((i, n) :: e)) b)) by (intros; apply body_kept, K). destruct (omapM _ (range e v)); [|reflexivity]. cbn [option_map obind]. rewrite nits_concat. reflexivity.
  - destruct K as (K1 & K2 & K3). cbn zeta. rewrite hv_norm. destruct (hv c) as [v|]; [|reflexivity]. cbn [obind]. destruct (test e v); [apply unlabelled_kept, body_kept, K1|]. clear v c.
    induction K2 as [|[[a' c] b'] es Kb Kl IH]; cbn [map].
    + destruct el as [[a' b']|]; [|reflexivity]. cbn [option_map fst snd]. apply unlabelled_kept, body_kept, K3.
    + cbn [fst snd] in *. rewrite hv_norm. destruct (hv c) as [v|]; [|reflexivity]. cbn [obind]. destruct (test e v); [apply unlabelled_kept, body_kept, Kb|exact IH].
  - cbn zeta. rewrite hv_norm. destruct (hv c) as [w|]; [|reflexivity]. cbn [obind].
    induction K as [|[[a' cs] b'] es Kb Kl IH]; cbn [map]; [reflexivity|]. cbn [fst snd] in *. rewrite choose_kept. destruct (s_choose A N matches e w cs) as [[]|]; [| |reflexivity]; cbn [obind]; [apply unlabelled_kept, body_kept, Kb|exact IH].
  - reflexivity.
Qed.
Lemma items_kept l : omapM (s_item A M n N) (nits l) = omapM (s_item A M n N) l.
Proof. apply omap_ext. intros [pe x] _. unfold s_item. cbn [fst snd]. rewrite leaf_kept. reflexivity. Qed.
Notation s_unit := (s_unit A M n N test range matches).
Lemma unit_same u : s_unit (norm_lunit u) = s_unit u.
Proof.
  destruct u as [m g p ds ss|m e ds ss|m g ds|m ds|m|m|m]; try reflexivity; cbn [norm_lunit VhdlFileSpec.s_unit].
  - destruct ss; [|reflexivity]. cbn [map]. rewrite interface_kept, decls_kept. reflexivity.
  - rewrite hv_norm. destruct (hv e) as [v|]; [|reflexivity]. cbn [obind]. unfold s_elabs. rewrite (omap_nits (fun s => elab s [] []) (fun s => elab s [] []) norm_cstm) by (intros; apply elab_all).
    destruct (omapM _ ss) as [r|]; [|reflexivity]. cbn [option_map obind]. rewrite nits_concat.
    assert (E : map (fun d => ([], [], Lf_decl d)) (map norm_decl ds) ++ nits (List.concat r) = nits (map (fun d => ([], [], Lf_decl d)) ds ++ List.concat r)) by (unfold nits; rewrite map_app, !map_map; reflexivity).
    rewrite E, items_kept. reflexivity.
  - destruct g; [reflexivity|]. rewrite decls_kept. reflexivity.
  - rewrite decls_kept. reflexivity.
Qed.
Theorem file_kept l : s_file A M n N test range matches (map norm_dunit l) = s_file A M n N test range matches l.
Proof.
  unfold s_file. rewrite (omap_ext _ (s_dunit A M n N test range matches) norm_dunit); [reflexivity|]. intros [cs u] _. unfold s_dunit, norm_dunit. cbn [fst snd]. rewrite unit_same.
  rewrite (omap_ext (s_context A M N) (s_context A M N) norm_citem); [reflexivity|]. intros c _. destruct c; try reflexivity. cbn [norm_citem s_context]. rewrite paths_kept. reflexivity.
Qed.
End Elab.
End Norm.
