(** Proofs about types and declarations of Verilog. *)
From Verif Require Import Base BaseFacts AstModel LitModel SvExprModel SvExprSpec SvExprProofs StmModel SvTypeModel SvDeclModel SvDeclSpec SvInstSpec SvInstProofs SvDeclProofs SvGenModel SvTypeSpec.

Lemma is_op_same o : is_op o o = true. Proof. unfold is_op. destruct (op_eq_dec o o); congruence. Qed.

Section Sim.
Context (A : algebra).
Notation mean := (meaning A).
Notation tdim := (m_tdim A).

(** *** Names *)
Definition namelike (x : expr) : Prop :=
  match x with
  | EId s => word s = false
  | EOp o l => is_op o INDEX = false /\ is_op o TYPE_OF = false /\ (is_op o PARAMETRIZATION = true -> match l with EId kw :: _ => word kw = false | _ => True end)
  | _ => False
  end.
Lemma namelike_typ b x : namelike x -> m_typ A b x = m_named A x.
Proof.
  destruct x as [s| | | | | | |o l|]; cbn [namelike]; try contradiction; intros H.
  - cbn [m_typ]. rewrite H. reflexivity.
  - destruct H as (H1 & H2 & H3). cbn [m_typ]. rewrite H1, H2. destruct (is_op o PARAMETRIZATION); [|reflexivity]. specialize (H3 eq_refl).
    destruct l as [|x l]; [reflexivity|]. destruct x; try reflexivity. destruct l as [|y [|z [|]]]; try reflexivity; rewrite H3; reflexivity.
Qed.
Lemma append_namelike sel s : (forall y, sel = Some y -> namelike y) -> word s = false -> namelike (append_expr sel DOUBLE_COLON (EId s)).
Proof. intros H Hs. destruct sel as [y|]; cbn [append_expr]; [|exact Hs]. unfold op2. cbn. repeat split. discriminate. Qed.
Lemma items_namelike items : forallb (fun it : ident * option (pva vexpr) => no_word (fst it)) items = true -> forall sel y, (forall x, sel = Some x -> namelike x) ->
  conv_items conv sel items = Ok (Some y) -> namelike y.
Proof.
  induction items as [|[i p] items IH]; intros Hw sel y Hs H; cbn [conv_items] in H.
  - injection H as ->. apply Hs. reflexivity.
  - apply bind_inv in H as (x & Hx & H). cbn [forallb fst] in Hw. apply andb_prop in Hw as (Hi & Hw).
    apply (IH Hw (Some x) y); [|exact H]. intros z [= <-]. unfold conv_item in Hx. cbn [fst snd] in Hx.
    destruct i as [s|]; [|discriminate Hi]. cbn [visit_ident ident_str bind no_word] in *.
    assert (Hsw : word s = false) by (destruct (word s); [discriminate Hi|reflexivity]).
    pose proof (append_namelike sel s Hs Hsw) as Hn. destruct p as [p|]; [|injection Hx as <-; exact Hn].
    apply bind_inv in Hx as (l & _ & Hx). injection Hx as <-. cbn. repeat split. intros _. destruct sel; cbn [append_expr]; [exact I|exact Hsw].
Qed.
Lemma named_sim b p v : v_named A p = Some v -> exists x, conv_path conv p = Ok x /\ m_typ A b x = Some (plain (Named A v)) /\ clone_e x = Ok x.
Proof.
  destruct p as [local h items]. cbn [v_named]. destruct (forallb (fun it => no_word (fst it)) items) eqn:Hw; [|discriminate]. intros H.
  destruct (conv_sim A (VPath (VPathOf local h items)) v H) as (x & Hx & Hm & _). cbn [conv] in Hx. exists x. split; [exact Hx|].
  split; [|exact (clone_mean A x v Hm)].
  assert (N : namelike x).
  { unfold conv_path in Hx.
    match type of Hx with context [conv_items conv ?r items] => set (res := r) in * end.
    assert (Hr : forall y, res = Some y -> namelike y).
    { intros y Hy. assert (Hl : forall z, (if local then Some (EId $"local") else None) = Some z -> namelike z) by (intros z Hz; destruct local; [injection Hz as <-; reflexivity|discriminate]).
      unfold res in Hy. destruct h; [exact (Hl y Hy)|..]; injection Hy as <-; try (apply append_namelike; [exact Hl|reflexivity]). cbn. repeat split. discriminate. }
    assert (Hx' : (r <- conv_items conv res items ;; match r with Some x => Ok x | None => Ok ENull end) = Ok x) by (destruct h, items; try exact Hx; discriminate).
    apply bind_inv in Hx' as (r & Hi & Hx'). destruct r as [y|]; [|injection Hx' as <-; discriminate Hm]. injection Hx' as ->.
    exact (items_namelike items Hw res x Hr Hi). }
  rewrite (namelike_typ b x N). unfold m_named. rewrite Hm. reflexivity.
Qed.

(** *** Dimensions *)
Lemma size_like e v x : size_ok e = true -> vmeaning A e = Some v -> conv e = Ok x -> type_like x = false.
Proof.
  revert v x. induction e; intros v x Hs Hv Hx; cbn [size_ok] in Hs; try discriminate.
  - destruct (lit_sim A l v Hv) as (a & Ha & _ & _). cbn [conv] in Hx. rewrite Hx in Ha. clear Ha. cbn [vmeaning] in Hv.
    destruct l as [t|t|t|t|t| | |]; cbn [visit_lit] in Hx; try discriminate Hv; try (injection Hx as <-; reflexivity).
    + destruct (number_sim A t v Hv) as (w & s & b & E & _). rewrite E in Hx. injection Hx as <-. reflexivity.
    + unfold visit_string in Hx. apply bind_inv in Hx as (s & _ & Hx). injection Hx as <-. reflexivity.
  - destruct p as [[] [] [|[i [|]] [|]]]; try discriminate. destruct i as [s|]; [|discriminate]. change (Ok (EId s) = Ok x) in Hx. injection Hx as <-. cbn [type_like]. cbn [no_word] in Hs. destruct (word s); [discriminate|reflexivity].
  - destruct typ_max; [discriminate|]. cbn [vmeaning] in Hv. cbn [conv] in Hx. exact (IHe v x Hs Hv Hx).
  - cbn [conv] in Hx. apply bind_inv in Hx as (xa & Ha & Hx). apply bind_inv in Hx as (xb & Hb & Hx). injection Hx as <-.
    unfold visit_ident in Hb. apply bind_inv in Hb as (s & _ & Hb). injection Hb as <-.
    cbn [vmeaning] in Hv. apply obind_inv in Hv as (va & Hva & _). destruct (conv_sim A e va Hva) as (a' & Ha' & Hm & _). rewrite Ha in Ha'. injection Ha' as <-.
    destruct xa; try reflexivity. discriminate Hm.
  - destruct dt; [discriminate|]. cbn [conv] in Hx. apply bind_inv in Hx as (l & _ & Hx). injection Hx as <-. reflexivity.
  - cbn [conv] in Hx. apply bind_inv in Hx as (xa & Ha & Hx). injection Hx as <-. destruct o; reflexivity.
  - cbn [conv] in Hx. apply bind_inv in Hx as (xa & Ha & Hx). apply bind_inv in Hx as (xb & Hb & Hx). injection Hx as <-. unfold mk2.
    destruct ((match xa with ENull => [] | _ => [xa] end) ++ (match xb with ENull => [] | _ => [xb] end)); destruct o; reflexivity.
  - cbn [conv] in Hx. apply bind_inv in Hx as (xa & Ha & Hx). apply bind_inv in Hx as (xb & Hb & Hx). apply bind_inv in Hx as (xc & Hc & Hx). injection Hx as <-. reflexivity.
Qed.
Lemma m_dim_clone a d : m_dim A a = Some d -> clone_e a = Ok a.
Proof.
  intros H. unfold m_dim in H. destruct a as [| | | | | | |o l|]; try (apply obind_inv in H as (x & Hx & _); exact (clone_mean A _ x Hx)).
  destruct l as [|a [|b [|]]]; try (apply obind_inv in H as (x & Hx & _); exact (clone_mean A _ x Hx)).
  destruct (m_slicing o).
  - apply obind_inv in H as (x & Hx & H). apply obind_inv in H as (y & Hy & H). cbn [clone_e]. rewrite (mapM_id clone_e [a; b]); [reflexivity|].
    repeat constructor; [exact (clone_mean A a x Hx)|exact (clone_mean A b y Hy)].
  - apply obind_inv in H as (x & Hx & _). exact (clone_mean A _ x Hx).
Qed.
(** What is known about a dimension of the AST. *)
Definition dim_is (f : expr -> option (typ A)) (a : expr) (d : dim A) : Prop := tdim f a = Some d /\ a <> ENull /\ clone_e a = Ok a.
Lemma range_sim f r d : range_ok r = true -> v_dim A r = Some d -> exists a, conv_range r = Ok a /\ dim_is f a (Dim A d) /\ (two_bounds r = true -> is_null a = false).
Proof.
  intros Hr H. destruct (dim_sim A r d H) as (a & Ha & Hm & Hn). exists a. split; [exact Ha|].
  assert (Hl : type_like a = false).
  { destruct r as [e|k x y]; cbn [range_ok conv_range v_dim] in *.
    - apply obind_inv in H as (v & Hv & _). exact (size_like e v a Hr Hv Ha).
    - apply bind_inv in Ha as (p & _ & Ha). apply bind_inv in Ha as (q & _ & Ha). injection Ha as <-. unfold mk2.
      destruct ((match p with ENull => [] | _ => [p] end) ++ (match q with ENull => [] | _ => [q] end)); destruct k; reflexivity. }
  split.
  - split; [|split; [exact Hn|exact (m_dim_clone a d Hm)]]. unfold m_tdim. rewrite Hl, Hm. reflexivity.
  - intros H2. destruct r as [e|k x y]; [discriminate|]. cbn [conv_range] in Ha. apply bind_inv in Ha as (p & _ & Ha). apply bind_inv in Ha as (q & _ & Ha). injection Ha as <-. reflexivity.
Qed.
Lemma tdim_type f x t : type_like x = true -> f x = Some t -> tdim f x = Some (Key A t).
Proof. intros H1 H2. unfold m_tdim. rewrite H1, H2. reflexivity. Qed.

(** *** Types *)
Definition typ_is (b : base A) (x : expr) (t : typ A) : Prop := m_typ A b x = Some t /\ clone_e x = Ok x.
Lemma typ_not_null b x t : typ_is b x t -> x <> ENull. Proof. intros (H & _) ->. discriminate H. Qed.
Lemma m_sign_ok s : m_sign (mk_signing s) = Some s. Proof. destruct s as [[]|]; reflexivity. Qed.
Lemma clone_sign s : clone_e (mk_signing s) = Ok (mk_signing s). Proof. destruct s as [[]|]; reflexivity. Qed.
Lemma word_typ b s : word s = true -> typ_is b (EId s) (plain (Word s)).
Proof. intros H. split; [|reflexivity]. cbn [m_typ]. rewrite H. reflexivity. Qed.
Lemma vector_eq b kw w s : word kw = true -> m_typ A b (EOp PARAMETRIZATION [EId kw; w; s]) = m_vector A (m_typ A b) kw w s.
Proof. intros H. cbn [m_typ]. rewrite H. reflexivity. Qed.
Lemma vector_bit b kw s : word kw = true -> typ_is b (EOp PARAMETRIZATION [EId kw; null_sym; mk_signing s]) (Typ (Word kw) s [] []).
Proof.
  intros H. split.
  - rewrite (vector_eq b kw _ _ H). unfold m_vector. rewrite m_sign_ok. reflexivity.
  - cbn [clone_e]. rewrite (mapM_id clone_e); [reflexivity|]. repeat constructor. apply clone_sign.
Qed.
Lemma vector_width b kw w d s : word kw = true -> is_null w = false -> dim_is (m_typ A b) w d ->
  typ_is b (EOp PARAMETRIZATION [EId kw; w; mk_signing s]) (Typ (Word kw) s [d] []).
Proof.
  intros H Hn (Hd & _ & Hc). split.
  - rewrite (vector_eq b kw _ _ H). unfold m_vector. rewrite m_sign_ok. cbn [obind]. rewrite Hn, Hd. reflexivity.
  - cbn [clone_e]. rewrite (mapM_id clone_e); [reflexivity|]. repeat constructor; [exact Hc|apply clone_sign].
Qed.
Lemma prim_vector kw s : conv_prim (P_vector kw) s = EOp PARAMETRIZATION [EId kw; null_sym; mk_signing s].
Proof. destruct s; reflexivity. Qed.
Lemma atom_sim b kw s : word kw = true -> typ_is b (conv_prim (P_atom kw) s) (Typ (Word kw) s [] []).
Proof.
  intros H. destruct s as [s|]; [|exact (word_typ b kw H)]. split; [|destruct s; reflexivity].
  destruct s; cbn [conv_prim set_sign call_op mk_signing m_typ is_op op_eq_dec]; unfold call_op; cbn [m_typ]; rewrite H; reflexivity.
Qed.
Lemma v_word_inv kw b : v_word A kw = Some b -> b = Word kw /\ word kw = true.
Proof. unfold v_word. destruct (word kw); [|discriminate]. intros [= <-]. auto. Qed.
Lemma type_of_type b x t : type_like x = true -> typ_is b x t -> typ_is b (op1 TYPE_OF x) (plain (TypeOfType A t)).
Proof.
  intros Hl (Hm & Hc). split.
  - unfold op1. cbn [m_typ]. rewrite Hl, Hm. reflexivity.
  - cbn [op1 clone_e]. rewrite (mapM_id clone_e [x]); [reflexivity|]. repeat constructor. exact Hc.
Qed.
Lemma dtype_sim b t T : kept_dtype t = true -> v_dtype A t = Some T -> exists x, conv_dtype t = Ok x /\ typ_is b x T /\ (wordy t = true -> type_like x = true).
Proof.
  revert T. pattern t. revert t. fix IH 1. intros t T Hk H. destruct t as [| | |i p sub|e|t|k s ds|ds|ds|p ds]; cbn [kept_dtype] in Hk; try discriminate.
  - injection H as <-. eexists. repeat split.
  - injection H as <-. eexists. repeat split.
  - injection H as <-. eexists. repeat split.
  - cbn [v_dtype] in H. apply obind_inv in H as (v & Hv & H). injection H as <-. destruct (conv_sim A e v Hv) as (x & Hx & Hm & _). exists (op1 TYPE_OF x).
    cbn [conv_dtype]. rewrite Hx. split; [reflexivity|]. split; [|reflexivity]. split.
    + unfold op1. cbn [m_typ]. rewrite (size_like e v x Hk Hv Hx), Hm. reflexivity.
    + cbn [op1 clone_e]. rewrite (mapM_id clone_e [x]); [reflexivity|]. repeat constructor. exact (clone_mean A x v Hm).
  - cbn [v_dtype] in H. apply obind_inv in H as (y & Hy & H). injection H as <-. apply andb_prop in Hk as (Hk & Hw).
    destruct (IH t y Hk Hy) as (x & Hx & Ht & Hl). exists (op1 TYPE_OF x). cbn [conv_dtype]. rewrite Hx. split; [reflexivity|]. split; [|reflexivity].
    exact (type_of_type b x y (Hl Hw) Ht).
  - destruct ds as [|d ds].
    + destruct k as [kw|kw|kw]; cbn [v_dtype omapM obind] in H.
      * apply obind_inv in H as (w & Hw & H). injection H as <-. apply v_word_inv in Hw as (-> & Hw).
        eexists. split; [reflexivity|]. rewrite prim_vector. cbn [apply_dims snd]. split; [exact (vector_bit b kw s Hw)|]. intros _. cbn. exact Hw.
      * apply obind_inv in H as (w & Hw & H). injection H as <-. apply v_word_inv in Hw as (-> & Hw).
        eexists. split; [reflexivity|]. cbn [apply_dims snd]. split; [exact (atom_sim b kw s Hw)|]. intros _. destruct s as [[]|]; exact Hw.
      * destruct s; [discriminate|]. apply obind_inv in H as (w & Hw & H). injection H as <-. apply v_word_inv in Hw as (-> & Hw).
        eexists. split; [reflexivity|]. cbn [apply_dims snd]. split; [exact (word_typ b kw Hw)|]. intros _. exact Hw.
    + destruct k as [kw|kw|kw], d as [| | |r], ds as [|]; try discriminate. cbn [v_dtype] in H. apply obind_inv in H as (w & Hw & H). apply v_word_inv in Hw as (-> & Hw).
      cbn [omapM] in H. apply obind_inv in H as (l & Hl & H). apply obind_inv in Hl as (d & Hd & Hl). apply obind_inv in Hd as (d' & Hd & Hd'). injection Hd' as <-. injection Hl as <-. injection H as <-.
      assert (Hr : range_ok r = true) by (destruct r; [discriminate|reflexivity]).
      destruct (range_sim (m_typ A b) r d' Hr Hd) as (a & Ha & Hdim & Hnn). specialize (Hnn Hk).
      eexists. split; [cbn [conv_dtype mapM]; rewrite Ha; reflexivity|]. rewrite prim_vector. cbn [bind].
      change (snd (apply_dims (EOp PARAMETRIZATION [EId kw; null_sym; mk_signing s]) [Some a])) with (EOp PARAMETRIZATION [EId kw; a; mk_signing s]).
      split; [exact (vector_width b kw a (Dim A d') s Hw Hnn Hdim)|]. intros _. exact Hw.
  - destruct ds; [|discriminate]. cbn [v_dtype omapM obind] in H. apply obind_inv in H as (v & Hv & H). injection H as <-. destruct (named_sim b p v Hv) as (x & Hx & Hm & Hc).
    exists x. split; [cbn [conv_dtype]; rewrite Hx; reflexivity|]. split; [split; assumption|discriminate].
Qed.
(** Dimensions after the name. *)
Lemma vdim_sim b d d' : kept_vdim d = true -> v_vdim A d = Some d' ->
  exists a, conv_vdim d = Ok a /\ match a with Some x => dim_is (m_typ A b) x d' | None => d' = Unsized A end.
Proof.
  destruct d as [| |t|r]; cbn [kept_vdim v_vdim conv_vdim]; intros Hk H; try discriminate.
  - injection H as <-. exists None. auto.
  - apply obind_inv in H as (t' & Ht & H). injection H as <-. apply andb_prop in Hk as (Hk & Hw). destruct (dtype_sim b t t' Hk Ht) as (x & Hx & Hm & Hl).
    exists (Some x). rewrite Hx. split; [reflexivity|]. split; [exact (tdim_type _ x t' (Hl Hw) (proj1 Hm))|]. split; [exact (typ_not_null b x t' Hm)|exact (proj2 Hm)].
  - apply obind_inv in H as (d & Hd & H). injection H as <-. destruct (range_sim (m_typ A b) r d Hk Hd) as (a & Ha & Hm & _). exists (Some a). rewrite Ha. auto.
Qed.
Lemma vdims_sim b ds : forall ds', forallb kept_vdim ds = true -> omapM (v_vdim A) ds = Some ds' ->
  exists l, conv_vdims ds = Ok l /\ Forall2 (fun a d => match a with Some x => dim_is (m_typ A b) x d | None => d = Unsized A end) l ds'.
Proof.
  induction ds as [|d ds IH]; intros ds' Hk H.
  - injection H as <-. exists []. split; [reflexivity|constructor].
  - cbn [forallb] in Hk. apply andb_prop in Hk as (Hd & Hk). cbn [omapM] in H. apply obind_inv in H as (d' & Hd' & H). apply obind_inv in H as (r & Hr & H). injection H as <-.
    destruct (vdim_sim b d d' Hd Hd') as (a & Ha & Hm). destruct (IH r Hk Hr) as (l & Hl & Hf). exists (a :: l). split; [|constructor; assumption].
    unfold conv_vdims in *. cbn [mapM]. rewrite Ha. cbn [bind]. fold (mapM conv_vdim). rewrite Hl. reflexivity.
Qed.
Lemma mk2_nn a o c : a <> ENull -> c <> ENull -> mk2 a o c = EOp o [a; c].
Proof. intros H1 H2. unfold mk2. destruct a; try congruence; destruct c; try congruence; reflexivity. Qed.
Lemma add_add t (d e : list (dim A)) : add_dims A (add_dims A t d) e = add_dims A t (d ++ e).
Proof. destruct t. cbn [add_dims]. rewrite app_assoc. reflexivity. Qed.
Lemma add_nil (t : typ A) : add_dims A t [] = t. Proof. destruct t. cbn. rewrite app_nil_r. reflexivity. Qed.
Lemma index_sim b t T a d : typ_is b t T -> match a with Some x => dim_is (m_typ A b) x d | None => d = Unsized A end -> typ_is b (index_dim t a) (add_dims A T [d]).
Proof.
  intros (Hm & Hc) H. destruct a as [x|]; cbn [index_dim].
  - destruct H as (Hd & Hn & Hx). rewrite (mk2_nn t INDEX x); [|exact (typ_not_null b t T (conj Hm Hc))|exact Hn]. split.
    + cbn [m_typ]. rewrite is_op_same, Hm. cbn [obind]. rewrite Hd. reflexivity.
    + cbn [clone_e]. rewrite (mapM_id clone_e [t; x]); [reflexivity|]. repeat constructor; assumption.
  - subst d. split.
    + unfold op1. cbn [m_typ]. rewrite is_op_same, Hm. reflexivity.
    + cbn [op1 clone_e]. rewrite (mapM_id clone_e [t]); [reflexivity|]. repeat constructor. assumption.
Qed.
Lemma indexes_sim b l ds : Forall2 (fun a d => match a with Some x => dim_is (m_typ A b) x d | None => d = Unsized A end) l ds ->
  forall t T, typ_is b t T -> typ_is b (fold_left index_dim l t) (add_dims A T ds).
Proof.
  induction 1 as [|a d l ds Ha H IH]; intros t T Ht; cbn [fold_left]; [rewrite add_nil; exact Ht|].
  specialize (IH _ _ (index_sim b t T a d Ht Ha)). rewrite add_add in IH. exact IH.
Qed.
Lemma apply_sim b t T l ds : (l = [] \/ open_wire t = false) -> Forall2 (fun a d => match a with Some x => dim_is (m_typ A b) x d | None => d = Unsized A end) l ds ->
  typ_is b t T -> typ_is b (snd (apply_dims t l)) (add_dims A T ds) /\ fst (apply_dims t l) = t.
Proof.
  intros Ho Hl Ht. split; [|exact (apply_dims_base t l Ho)]. replace (snd (apply_dims t l)) with (fold_left index_dim l t); [exact (indexes_sim b l ds Hl t T Ht)|].
  destruct l as [|a l]; [reflexivity|]. destruct Ho as [Ho|Ho]; [discriminate|]. cbn [apply_dims]. rewrite Ho. reflexivity.
Qed.
(** Unpacked dimensions of nets. *)
Lemma udims_typ b l : forall ds, forallb range_ok l = true -> omapM (fun r => x <~ v_dim A r ;; Some (Dim A x)) l = Some ds ->
  forall t T, typ_is b t T -> exists t', apply_udims t l = Ok t' /\ typ_is b t' (add_dims A T ds).
Proof.
  induction l as [|r l IH]; intros ds Hk H t T Ht.
  - injection H as <-. exists t. split; [reflexivity|]. rewrite add_nil. exact Ht.
  - cbn [forallb] in Hk. apply andb_prop in Hk as (Hr & Hk). cbn [omapM] in H. apply obind_inv in H as (d & Hd & H). apply obind_inv in Hd as (d' & Hd & Hd'). injection Hd' as <-.
    apply obind_inv in H as (ds' & Hds & H). injection H as <-. destruct (range_sim (m_typ A b) r d' Hr Hd) as (a & Ha & Hm & _).
    pose proof (index_sim b t T (Some a) (Dim A d') Ht Hm) as Hi. destruct (IH ds' Hk Hds _ _ Hi) as (t' & Ht' & Hs). exists t'.
    rewrite add_add in Hs. split; [|exact Hs]. cbn [apply_udims]. rewrite Ha. cbn [bind]. exact Ht'.
Qed.
Lemma mapM_keep {X Y E} (k : X -> bool) (f : X -> option Y) (g : X -> outcome E) (h : E -> option Y) :
  (forall x y, k x = true -> f x = Some y -> exists e, g x = Ok e /\ h e = Some y) ->
  forall l r, forallb k l = true -> omapM f l = Some r -> exists es, mapM g l = Ok es /\ omapM h es = Some r.
Proof.
  intros Hs. induction l as [|x l IH]; intros r Hk H.
  - injection H as <-. exists []. auto.
  - cbn [forallb] in Hk. apply andb_prop in Hk as (Hx & Hk). cbn [omapM] in H. apply obind_inv in H as (y & Hy & H). apply obind_inv in H as (r' & Hr & H). injection H as <-.
    destruct (Hs x y Hx Hy) as (e & He & Hm). destruct (IH r' Hk Hr) as (es & Hes & Hms). exists (e :: es). split.
    + cbn [mapM]. rewrite He. cbn [bind]. fold (mapM g). rewrite Hes. reflexivity.
    + cbn [omapM]. rewrite Hm. cbn [obind]. fold (omapM h). rewrite Hms. reflexivity.
Qed.
Lemma mapM_eq {X Y} (f g : X -> outcome Y) : (forall x, f x = g x) -> forall l, mapM f l = mapM g l.
Proof. intros Hs. induction l as [|x l IH]; [reflexivity|]. cbn [mapM]. rewrite Hs. fold (mapM f). fold (mapM g). rewrite IH. reflexivity. Qed.
Lemma omapM_map {S X Y} (f : S -> option Y) (h : X -> S) l : omapM f (map h l) = omapM (fun x => f (h x)) l.
Proof. induction l as [|x l IH]; [reflexivity|]. cbn. destruct (f (h x)); [|reflexivity]. cbn [obind]. fold (omapM f). rewrite IH. reflexivity. Qed.

(** *** Types of declarations *)
Lemma net_word kw : isin kw net_words = true -> word kw = true.
Proof. unfold word, isin. intros H. rewrite existsb_app, H. reflexivity. Qed.
Definition net_of (r : role) : option expr := match r with R_net kw => Some (EId kw) | _ => None end.
Definition dflt (r : role) : base A := match r with R_net _ | R_port => Word $"wire" | R_var => Word $"logic" | R_param => FromValue end.
Lemma two_ok r : two_bounds r = true -> range_ok r = true. Proof. destruct r; [discriminate|reflexivity]. Qed.
Lemma itype_sim b kw s w l T net : (match net with Some n => n | None => EId $"wire" end) = EId kw -> word kw = true -> two_bounds w = true ->
  (l <~ omapM (v_pdim A) [Some w] ;; Some (Typ (Word kw) s l [])) = Some T -> l = [Some w] -> exists x, conv_itype (I_type s l) net = Ok x /\ typ_is b x T.
Proof.
  intros Hn Hw H2 H ->. cbn [omapM v_pdim obind] in H. apply obind_inv in H as (l & Hl & H). apply obind_inv in Hl as (d & Hd & Hl). injection Hl as <-. injection H as <-.
  apply obind_inv in Hd as (d' & Hd & Hd'). injection Hd' as <-.
  destruct (range_sim (m_typ A b) w d' (two_ok w H2) Hd) as (a & Ha & Hm & Hnn). specialize (Hnn H2). unfold conv_itype. cbn [conv_pdim mapM bind]. rewrite Ha. cbn [bind fold_left]. eexists. split; [reflexivity|].
  unfold wire_t. rewrite Hn. unfold call_op. exact (vector_width b kw a (Dim A d') s Hw Hnn Hm).
Qed.
Lemma doi_sim r t T : kept_doi r t = true -> v_doi A r t = Some T -> exists x, conv_doi t (net_of r) = Ok x /\ typ_is (dflt r) x T.
Proof.
  intros Hk H. unfold v_doi in H. destruct (role_ok r) eqn:Hr; [|discriminate].
  assert (Hauto : forall B, dflt r = B -> typ_is (dflt r) type_auto (plain B)) by (intros B <-; split; reflexivity).
  assert (Hsign : forall b s, typ_is b (wire_t None null_sym s) (Typ (Word $"wire") s [] [])) by (intros b s; exact (vector_bit b $"wire" s eq_refl)).
  destruct t as [[t|[s ds]]|].
  - destruct r; cbn [kept_doi] in Hk; try discriminate; exact (let '(ex_intro _ x (conj Hx (conj Ht _))) := dtype_sim _ t T Hk H in ex_intro _ x (conj Hx Ht)).
  - destruct ds as [|[w|] [|]]; cbn [kept_doi] in Hk; destruct r; try discriminate.
    + apply seqb_eq in Hk as ->. injection H as <-. eexists. split; [reflexivity|]. apply Hsign.
    + injection H as <-. eexists. split; [reflexivity|]. apply Hsign.
    + exact (itype_sim (dflt (R_net kw)) kw s w _ T (Some (EId kw)) eq_refl (net_word kw Hr) Hk H eq_refl).
    + exact (itype_sim (dflt R_port) $"wire" s w _ T None eq_refl eq_refl Hk H eq_refl).
  - injection H as <-. exists type_auto. split; [destruct r; reflexivity|]. apply Hauto. destruct r; try reflexivity. cbn [kept_doi] in Hk. apply seqb_eq in Hk as ->. reflexivity.
Qed.
Definition not_type (t : typ A) : Prop := match t with Typ IsType _ _ _ => False | _ => True end.
Lemma add_not_type t ds : not_type t -> not_type (add_dims A t ds). Proof. destruct t as [[]]; auto. Qed.
Lemma dtype_not_type t T : v_dtype A t = Some T -> not_type T.
Proof.
  destruct t as [| | |i p sub|e|t|[kw|kw|kw] s ds|ds|ds|p ds]; cbn [v_dtype]; intros H; try discriminate; try (injection H as <-; exact I).
  - apply obind_inv in H as (v & _ & H). injection H as <-. exact I.
  - apply obind_inv in H as (v & _ & H). injection H as <-. exact I.
  - apply obind_inv in H as (v & Hv & H). apply obind_inv in H as (l & _ & H). injection H as <-. apply v_word_inv in Hv as (-> & _). exact I.
  - destruct ds; [|discriminate]. apply obind_inv in H as (v & Hv & H). injection H as <-. apply v_word_inv in Hv as (-> & _). exact I.
  - destruct s; [discriminate|]. destruct ds; [|discriminate]. apply obind_inv in H as (v & Hv & H). injection H as <-. apply v_word_inv in Hv as (-> & _). exact I.
  - apply obind_inv in H as (v & _ & H). apply obind_inv in H as (l & _ & H). injection H as <-. exact I.
Qed.
Lemma doi_not_type r t T : v_doi A r t = Some T -> not_type T.
Proof.
  unfold v_doi. destruct (role_ok r); [|discriminate]. destruct t as [[t|[s [|d ds]]]|]; intros H.
  - destruct r; try discriminate; exact (dtype_not_type t T H).
  - injection H as <-. destruct r; exact I.
  - apply obind_inv in H as (l & _ & H). injection H as <-. destruct r; exact I.
  - injection H as <-. destruct r; exact I.
Qed.
Lemma nvtype_sim t T lat : kept_nvtype t = true -> v_nvtype A t = Some (T, lat) ->
  exists x, conv_nvtype t = Ok (x, lat) /\ typ_is (if lat then Word $"logic" else Word $"wire") x T /\ not_type T.
Proof.
  intros Hk H. destruct t as [[i|t|kw t|t]|]; cbn [kept_nvtype v_nvtype] in *; try discriminate.
  - apply obind_inv in H as (T' & HT & H). injection H as <- <-. destruct (doi_sim R_var t T' Hk HT) as (x & Hx & Ht). exists x. cbn [conv_nvtype]. cbn [net_of] in Hx. rewrite Hx. split; [reflexivity|]. split; [exact Ht|exact (doi_not_type _ _ _ HT)].
  - apply obind_inv in H as (T' & HT & H). injection H as <- <-. destruct (doi_sim (R_net kw) t T' Hk HT) as (x & Hx & Ht). exists x. cbn [conv_nvtype]. cbn [net_of] in Hx. rewrite Hx. split; [reflexivity|]. split; [exact Ht|exact (doi_not_type _ _ _ HT)].
  - apply obind_inv in H as (T' & HT & H). injection H as <- <-. destruct (doi_sim R_port (Some t) T' Hk HT) as (x & Hx & Ht). exists x. cbn [conv_nvtype]. cbn [net_of] in Hx. rewrite Hx. split; [reflexivity|]. split; [exact Ht|exact (doi_not_type _ _ _ HT)].
  - apply obind_inv in H as (T' & HT & H). injection H as <- <-. injection HT as <-. exists type_auto. repeat split.
Qed.

(** *** Objects *)
Definition val_is (v : option (value A)) (x : option expr) : Prop :=
  match v, x with Some (ValOf _ v), Some e => mean e = Some v | None, None => True | _, _ => False end.
Lemma val_sim e v : v_val A e = Some v -> exists x, conv_opt conv e = Ok x /\ val_is v x.
Proof.
  destruct e as [e|]; cbn [v_val conv_opt]; intros H.
  - apply obind_inv in H as (w & Hw & H). injection H as <-. destruct (conv_sim A e w Hw) as (x & -> & Hm & _). exists (Some x). split; [reflexivity|exact Hm].
  - injection H as <-. exists None. split; [reflexivity|exact I].
Qed.
Lemma object_ok p d T v : typ_is (default_base A p d) (d_type d) T -> not_type T -> val_is v (d_value d) ->
  m_object A p d = Some (mk_object A (d_name d) T v (d_dir d) (d_latched d) (d_const d) (d_static d)).
Proof.
  intros (Ht & _) Hn Hv. unfold m_object. rewrite Ht. cbn [obind].
  destruct (d_value d) as [e|], v as [[w|w]|]; cbn [val_is] in Hv; try contradiction; [|reflexivity].
  destruct T as [[]]; cbn [not_type] in Hn; try contradiction; rewrite Hv; reflexivity.
Qed.
Lemma ident_name i n : v_ident i = Some n -> ident_str i = Ok n.
Proof. destruct i as [s|]; [|discriminate]. intros H. unfold v_ident in H. destruct (seqb s _); [discriminate|]. injection H as <-. reflexivity. Qed.
Definition final (d : direction) (lat : bool) (c st : bool) (x : iddef) : iddef := set_flags (set_port x d lat) c st.
Lemma default_lat dir (lat : bool) : (if lat then Word $"logic" else Word $"wire") = default_base A false (final dir lat false false (new_var [] ENull None)).
Proof. destruct lat; reflexivity. Qed.
Lemma vitem_sim b t T v o dir lat c st sz : kept_vitem sz v = true -> (sz = true -> open_wire t = false) -> not_type T ->
  b = default_base A false (final dir lat c st (new_var [] ENull None)) -> typ_is b t T -> v_vitem A T dir lat c st v = Some o ->
  exists ds x, conv_vdims (vi_dims v) = Ok ds /\ conv_vitem (snd (apply_dims t ds)) v dir lat = Ok x /\ fst (apply_dims t ds) = t /\ m_object A false (set_flags x c st) = Some o.
Proof.
  intros Hk Hsz HnT Hb Ht H. unfold v_vitem in H. apply obind_inv in H as (n & Hn & H). apply obind_inv in H as (ds & Hds & H). apply obind_inv in H as (w & Hw & H). injection H as <-.
  unfold kept_vitem in Hk. apply andb_prop in Hk as (Hk & Ho). destruct (vdims_sim b (vi_dims v) ds Hk Hds) as (l & Hl & Hf).
  assert (Hopen : l = [] \/ open_wire t = false).
  { apply orb_prop in Ho as [Ho|Ho]; [right; exact (Hsz Ho)|]. left. destruct (vi_dims v); [|discriminate]. injection Hl as <-. reflexivity. }
  destruct (apply_sim b t T l ds Hopen Hf Ht) as (Ht' & Hfst). destruct (val_sim (vi_value v) w Hw) as (x & Hx & Hv).
  exists l. eexists. split; [exact Hl|]. split; [unfold conv_vitem; rewrite (ident_name _ _ Hn), Hx; cbn [bind]; reflexivity|]. split; [exact Hfst|].
  rewrite (object_ok false _ (add_dims A T ds) w); [reflexivity| |exact (add_not_type T ds HnT)|exact Hv].
  subst b. exact Ht'.
Qed.

(** *** Lists *)
Lemma data_sim d r : kept_data d = true -> v_data A d = Some r -> exists xs, conv_data d = Ok xs /\ omapM (m_object A false) xs = Some r.
Proof.
  unfold kept_data, v_data. intros Hk H. destruct (dd_type d) as [[t|]|] eqn:Et; try discriminate. apply andb_prop in Hk as (Hk & Hl).
  apply obind_inv in H as (T & HT & H). unfold v_doi in HT. cbn [role_ok] in HT.
  set (b := default_base A false (final DIR_INTERNAL false (dd_const d) (negb (dd_automatic d)) (new_var [] ENull None))).
  destruct (dtype_sim b t T Hk HT) as (x & Hx & Ht & _).
  destruct (mapM_keep (kept_vitem (sized_dtype t)) (v_vitem A T DIR_INTERNAL false (dd_const d) (negb (dd_automatic d))) (fun v => c <- clone_e x ;; ds <- conv_vdims (vi_dims v) ;; conv_vitem (snd (apply_dims c ds)) v DIR_INTERNAL false)
             (fun e => m_object A false (set_flags e (dd_const d) (negb (dd_automatic d)))) ) with (2 := Hl) (3 := H) as (es & Hes & Hms).
  { intros v o Hv Ho. destruct (vitem_sim b x T v o DIR_INTERNAL false (dd_const d) (negb (dd_automatic d)) (sized_dtype t) Hv (fun Hs => dtype_open t x Hs Hx) (dtype_not_type t T HT) eq_refl Ht Ho) as (ds & y & Hds & Hy & _ & Hm).
    exists y. rewrite (proj2 Ht). cbn [bind]. rewrite Hds. cbn [bind]. rewrite Hy. auto. }
  exists (map (fun e => set_flags e (dd_const d) (negb (dd_automatic d))) es). split; [|rewrite omapM_map; exact Hms].
  unfold conv_data. rewrite Et. cbn [conv_doi]. rewrite Hx. cbn [bind]. unfold conv_decl_assignments. rewrite Hes. reflexivity.
Qed.
Lemma net_decl_sim n r : kept_net_decl n = true -> v_net_decl A n = Some r -> exists xs, conv_net_decl n = Ok xs /\ omapM (m_object A false) xs = Some r.
Proof.
  unfold kept_net_decl, v_net_decl, conv_net_decl. intros Hk H. destruct (nd_special n); [discriminate|]. destruct (nd_net n) as [kw|]; [|discriminate].
  apply andb_prop in Hk as (Hk & Hl). apply obind_inv in H as (T & HT & H). destruct (doi_sim (R_net kw) _ T Hk HT) as (t & Ht & Hty). cbn [net_of] in Ht. rewrite Ht. cbn [bind].
  set (one := fun (v : nitem) (t : expr) => nm <- ident_str (ni_name v) ;; x <- conv_opt conv (ni_value v) ;; t' <- apply_udims t (ni_dims v) ;; Ok (new_var nm t' x)).
  destruct (mapM_keep (fun v => forallb range_ok (ni_dims v)) (v_nitem A T) (fun v => one v t) (m_object A false)) with (2 := Hl) (3 := H) as (es & Hes & Hms).
  { intros v o Hv Ho. unfold v_nitem in Ho. apply obind_inv in Ho as (nm & Hn & Ho). apply obind_inv in Ho as (ds & Hds & Ho). apply obind_inv in Ho as (w & Hw & Ho). injection Ho as <-.
    destruct (val_sim (ni_value v) w Hw) as (x & Hx & Hvx). destruct (udims_typ (dflt (R_net kw)) (ni_dims v) ds Hv Hds t T Hty) as (t' & Ht' & Hs).
    exists (new_var nm t' x). unfold one. rewrite (ident_name _ _ Hn), Hx. cbn [bind]. rewrite Ht'. split; [reflexivity|].
    rewrite (object_ok false _ (add_dims A T ds) w); [reflexivity|exact Hs|exact (add_not_type T ds (doi_not_type _ _ _ HT))|exact Hvx]. }
  exists es. split; [|exact Hms]. destruct (nd_list n) as [|v l]; [exact Hes|].
  cbn [mapM] in Hes. apply bind_inv in Hes as (e & He & Hes). apply bind_inv in Hes as (es' & Hes' & Hes). injection Hes as <-. fold (mapM (fun v => one v t)) in Hes'.
  change (x <- one v t ;; r0 <- mapM (fun v' => c <- clone_e t ;; one v' c) l ;; Ok (x :: r0) = Ok (e :: es')). rewrite He. cbn [bind].
  rewrite (mapM_eq _ (fun v => one v t)), Hes'; [reflexivity|]. intros v'. rewrite (proj2 Hty). reflexivity.
Qed.
Lemma genvar_sim l r : omapM (v_genvar A) l = Some r -> exists xs, mapM conv_genvar l = Ok xs /\ omapM (m_object A false) xs = Some r.
Proof.
  intros H. refine (mapM_keep (fun _ => true) (v_genvar A) conv_genvar (m_object A false) _ l r _ H); [|apply forallb_forall; reflexivity].
  intros i o _ Ho. unfold v_genvar in Ho. apply obind_inv in Ho as (n & Hn & Ho). injection Ho as <-. unfold conv_genvar. rewrite (ident_name _ _ Hn). eexists. split; reflexivity.
Qed.
Lemma idlist_sim (b : base A) t T (lat : bool) dir sz l r : forallb (kept_vitem sz) l = true -> (sz = true -> open_wire t = false) -> not_type T ->
  b = (if lat then Word $"logic" else Word $"wire") -> typ_is b t T -> omapM (v_vitem A T dir lat false false) l = Some r ->
  exists xs, conv_idlist t lat dir l = Ok xs /\ omapM (m_object A false) xs = Some r.
Proof.
  intros Hl Hsz HnT Hb Ht H.
  destruct (mapM_keep (kept_vitem sz) (v_vitem A T dir lat false false) (fun v => ds <- conv_vdims (vi_dims v) ;; conv_vitem (snd (apply_dims t ds)) v dir lat) (m_object A false)) with (2 := Hl) (3 := H) as (es & Hes & Hms).
  { intros v o Hv Ho. destruct (vitem_sim b t T v o dir lat false false sz Hv Hsz HnT (eq_trans Hb (default_lat dir lat)) Ht Ho) as (ds & y & Hds & Hy & _ & Hm).
    exists y. rewrite Hds. cbn [bind]. rewrite Hy. split; [reflexivity|].
    replace (set_flags y false false) with y in Hm; [exact Hm|]. unfold conv_vitem in Hy. apply bind_inv in Hy as (n & _ & Hy). apply bind_inv in Hy as (e & _ & Hy). injection Hy as <-. reflexivity. }
  exists es. split; [|exact Hms]. destruct l as [|v l]; [exact Hes|]. cbn [forallb] in Hl. apply andb_prop in Hl as (Hv & Hl).
  cbn [omapM] in H. apply obind_inv in H as (o & Ho & _).
  destruct (vitem_sim b t T v o dir lat false false sz Hv Hsz HnT (eq_trans Hb (default_lat dir lat)) Ht Ho) as (ds & y & Hds & Hy & Hfst & _).
  cbn [mapM] in Hes. apply bind_inv in Hes as (e & He & Hes). apply bind_inv in Hes as (es' & Hes' & Hes). injection Hes as <-. fold (mapM (fun v => ds <- conv_vdims (vi_dims v) ;; conv_vitem (snd (apply_dims t ds)) v dir lat)) in Hes'. rewrite Hds in He. cbn [bind] in He.
  cbn [conv_idlist]. rewrite Hds. cbn [bind]. destruct (apply_dims t ds) as (b', ty). cbn [fst snd] in *. subst b'. rewrite He. cbn [bind].
  rewrite (mapM_eq _ (fun v => ds <- conv_vdims (vi_dims v) ;; conv_vitem (snd (apply_dims t ds)) v dir lat)), Hes'; [reflexivity|]. intros v'. rewrite (proj2 Ht). reflexivity.
Qed.

(** *** Declarations of ports *)
Lemma and3 a b c : a && b && c = true -> a = true /\ b = true /\ c = true. Proof. intros H. apply andb_prop in H as [H ?]. apply andb_prop in H as [? ?]. auto. Qed.
Lemma npt_of t : match t with Some (N_var _) => false | _ => true end = true -> conv_npt t = (x <- conv_nvtype t ;; Ok (fst x)).
Proof. intros Hv. destruct t as [[[i|]|t|kw t|t]|]; try discriminate; cbn; try reflexivity; destruct (conv_doi _ _) || destruct (conv_itype _ _); reflexivity. Qed.
Lemma nvtype_var t T lat : v_nvtype A t = Some (T, lat) -> match t with Some (N_var _) => false | _ => true end = true -> lat = false.
Proof. destruct t as [[i|t|kw t|t]|]; cbn [v_nvtype]; intros H Hv; try discriminate; apply obind_inv in H as (x & _ & H); injection H as _ <-; reflexivity. Qed.
Lemma nadecl_sim n r : kept_nadecl n = true -> v_nadecl A n = Some r -> exists xs, conv_nadecl n = Ok xs /\ omapM (m_object A false) xs = Some r.
Proof.
  destruct n as [t l|t l|t l|i m l|t l]; cbn [kept_nadecl v_nadecl conv_nadecl]; intros Hk H.
  - apply and3 in Hk as (Hk & Hl & Hv). apply obind_inv in H as ((T & lat) & HT & H). cbn [fst snd] in H. destruct (nvtype_sim t T lat Hk HT) as (x & Hx & Ht & Hn).
    rewrite (npt_of t Hv), Hx. cbn [bind fst]. rewrite (nvtype_var t T lat HT Hv) in *. exact (idlist_sim _ x T false DIR_INOUT (sized_nv t) l r Hl (fun Hs => nv_open t x _ Hs Hx) Hn eq_refl Ht H).
  - apply andb_prop in Hk as (Hk & Hl). apply obind_inv in H as ((T & lat) & HT & H). cbn [fst snd] in H. destruct (nvtype_sim t T lat Hk HT) as (x & Hx & Ht & Hn).
    rewrite Hx. cbn [bind fst snd]. exact (idlist_sim _ x T lat DIR_IN (sized_nv t) l r Hl (fun Hs => nv_open t x _ Hs Hx) Hn eq_refl Ht H).
  - apply andb_prop in Hk as (Hk & Hl). apply obind_inv in H as ((T & lat) & HT & H). cbn [fst snd] in H. destruct (nvtype_sim t T lat Hk HT) as (x & Hx & Ht & Hn).
    rewrite Hx. cbn [bind fst snd]. exact (idlist_sim _ x T lat DIR_OUT (sized_nv t) l r Hl (fun Hs => nv_open t x _ Hs Hx) Hn eq_refl Ht H).
  - apply obind_inv in H as (s & Hs & H). destruct (no_word i) eqn:Hw; [|discriminate]. destruct (ident_sim i s Hs) as (Hi & Hv). rewrite Hi. cbn [bind].
    assert (Hws : word s = false). { destruct i as [s'|]; [|discriminate]. cbn [no_word] in Hw. apply negb_true_iff in Hw. unfold v_ident in Hs. destruct (seqb s' _) in Hs; [discriminate|]. injection Hs as <-. exact Hw. }
    assert (Hms : mean (EId s) = Some (a_name A s)) by (cbn [meaning]; rewrite Hv; reflexivity).
    apply obind_inv in H as (t & Ht & H). destruct m as [j|].
    + apply obind_inv in Ht as (k & Hk' & Ht). injection Ht as <-. destruct (ident_sim j k Hk') as (Hj & Hkv). rewrite Hj. cbn [bind].
      refine (idlist_sim (Word $"wire") (op2 DOT (EId s) (EId k)) (plain (Named A (a_member A (a_name A s) k))) false DIR_LINKAGE true l r Hk _ I eq_refl _ H); [reflexivity|].
      split; [|reflexivity]. change (m_named A (op2 DOT (EId s) (EId k)) = Some (plain (Named A (a_member A (a_name A s) k)))). unfold m_named. replace (mean (op2 DOT (EId s) (EId k))) with (Some (a_member A (a_name A s) k)); [reflexivity|]. cbn [op2 meaning]. rewrite Hv. reflexivity.
    + injection Ht as <-. cbn [bind]. refine (idlist_sim (Word $"wire") (EId s) (plain (Named A (a_name A s))) false DIR_LINKAGE true l r Hk _ I eq_refl _ H); [reflexivity|].
      split; [|reflexivity]. cbn [m_typ]. rewrite Hws. unfold m_named. rewrite Hms. reflexivity.
  - destruct t as [[d|]|]; try discriminate. apply andb_prop in Hk as (Hk & Hl). apply obind_inv in H as (T & HT & H). unfold v_doi in HT. cbn [role_ok] in HT.
    destruct (dtype_sim (Word $"wire") d T Hk HT) as (x & Hx & Ht & _). cbn [conv_doi]. rewrite Hx. cbn [bind].
    exact (idlist_sim _ x T false DIR_LINKAGE (sized_dtype d) l r Hl (fun Hs => dtype_open d x Hs Hx) (dtype_not_type d T HT) eq_refl Ht H).
Qed.
(** *** ANSI ports *)
Lemma dir_same d : v_dir d = visit_dir d. Proof. destruct d; reflexivity. Qed.
Lemma ansi_parts d t v o : kept_ansi (AN_port (Some d) t v) = true -> v_ansi A (AN_port (Some d) t v) = Some o ->
  exists b lat ds x, match t with None => b = EId $"wire" /\ lat = false | Some t => conv_ptype t = Ok (b, lat) end /\ clone_e b = Ok b /\
    conv_vdims (vi_dims v) = Ok ds /\ conv_vitem (snd (apply_dims b ds)) v (visit_dir d) lat = Ok x /\ m_object A false x = Some o.
Proof.
  intros Hk H.
  assert (G : forall T (lat : bool) b sz, (sz = true -> open_wire b = false) -> not_type T -> kept_vitem sz v = true -> typ_is (if lat then Word $"logic" else Word $"wire") b T -> v_vitem A T (v_dir d) lat false false v = Some o ->
    exists ds x, conv_vdims (vi_dims v) = Ok ds /\ conv_vitem (snd (apply_dims b ds)) v (visit_dir d) lat = Ok x /\ m_object A false x = Some o).
  { intros T lat b sz Hs Hn Hkv Ht Hv. rewrite dir_same in Hv.
    destruct (vitem_sim _ b T v o (visit_dir d) lat false false sz Hkv Hs Hn (default_lat _ lat) Ht Hv) as (ds & x & Hds & Hx & _ & Hm). exists ds, x. split; [exact Hds|]. split; [exact Hx|].
    unfold conv_vitem in Hx. apply bind_inv in Hx as (n & _ & Hx). apply bind_inv in Hx as (e & _ & Hx). injection Hx as <-. exact Hm. }
  destruct t as [[t|i m]|]; [|discriminate|].
  - cbn [kept_ansi v_ansi] in *. apply andb_prop in Hk as (Hk & Hkv). apply obind_inv in H as ((T & lat) & HT & H). cbn [fst snd] in H. destruct (nvtype_sim (Some t) T lat Hk HT) as (b & Hb & Ht & Hn).
    destruct (G T lat b (sized_nv (Some t)) (fun Hs => nv_open (Some t) b lat Hs Hb) Hn Hkv Ht H) as (ds & x & Hds & Hx & Hm). exists b, lat, ds, x. repeat split; auto. exact (proj2 Ht).
  - cbn [kept_ansi v_ansi v_nvtype v_doi role_ok silent obind fst snd] in *.
    destruct (G (plain (Word $"wire")) false (EId $"wire") true (fun _ => eq_refl) I) as (ds & x & Hds & Hx & Hm); [unfold kept_vitem; rewrite Hk; reflexivity|split; reflexivity|exact H|]. exists (EId $"wire"), false, ds, x. repeat split; auto.
Qed.
Lemma ansi_list_sim l : forall pd pt d t r, same_dir pd d -> same_type pt t -> plain_ports t l = true -> forallb kept_ansi (spell_out d t l) = true -> omapM (v_ansi A) (spell_out d t l) = Some r ->
  exists xs, conv_ansi_list pd pt l = Ok xs /\ omapM (m_object A false) (fill_dirs (visit_dir d) xs) = Some r.
Proof.
  induction l as [|p l IH]; intros pd pt d t r Hd Ht Hp Hk H; [injection H as <-; exists []; auto|].
  set (d1 := match p with AN_port (Some d') _ _ | AN_expr (Some d') _ _ => d' | _ => d end).
  set (t1 := match p with AN_port None None _ => t | AN_port _ t' _ => t' | AN_expr _ _ _ => None end).
  destruct p as [od ot v|od i e]; [|cbn [spell_out forallb] in Hk; discriminate].
  assert (Es : spell_out d t (AN_port od ot v :: l) = AN_port (Some d1) t1 v :: spell_out d1 t1 l) by (unfold d1, t1; destruct od, ot; reflexivity).
  rewrite Es in Hk, H. cbn [forallb] in Hk. apply andb_prop in Hk as (Hk & Hkl). cbn [omapM] in H. apply obind_inv in H as (o & Ho & H). apply obind_inv in H as (r' & Hr & H). injection H as <-.
  destruct (ansi_parts d1 t1 v o Hk Ho) as (b & lat & ds & x & Hb & Hc & Hds & Hx & Hm).
  assert (Hconv : exists x0, conv_ansi pd pt (AN_port od ot v) = Ok (x0, (match od with Some d' => visit_dir d' | None => pd end), Some (fst (apply_dims b ds)))).
  { cbn [conv_ansi]. unfold t1 in Hb. destruct (vitem_dir _ _ _ _ _ Hx) as (_ & _ & Hany).
    assert (Hbl : match ot with Some t0 => conv_ptype t0 | None => match (match od with Some _ => None | None => pt end) with Some b0 => c <- clone_e b0 ;; Ok (c, false) | None => Ok (EId $"wire", false) end end = Ok (b, lat)).
    { destruct od as [d0|], ot as [t0|]; try exact Hb.
      - destruct Hb as (-> & ->). reflexivity.
      - destruct t as [t0|]; cbn [same_type] in Ht.
        + destruct Ht as (b0 & lat0 & Hc0 & ->). rewrite Hc0 in Hb. injection Hb as -> ->. rewrite Hc. cbn [bind]. f_equal. f_equal. cbn [plain_ports] in Hp. apply andb_prop in Hp as (Hp & _). apply andb_prop in Hp as (Hp & _). apply andb_prop in Hp as (_ & Hp). cbn [negb orb] in Hp. apply negb_true_iff in Hp. symmetry. exact (ptype_lat t0 b lat Hp Hc0).
        + destruct Hb as (-> & ->). destruct Ht as [-> | ->]; reflexivity. }
    rewrite Hbl. cbn [bind]. rewrite Hds. cbn [bind fst snd]. destruct (apply_dims b ds) as (b', ty) eqn:Ea. cbn [snd fst] in *. rewrite Hany. cbn [bind]. eexists. reflexivity. }
  destruct Hconv as (x0 & Hx0).
  destruct (ansi_step pd pt d t _ x0 _ _ l Hd Ht Hp Hx0) as (p' & d' & t' & Hs & Hd' & Ht' & Hp' & Hf).
  pose proof (Hs l) as E1. rewrite Es in E1. injection E1 as <- E1.
  (* the state after the port *)
  assert (Est : d' = d1 /\ t' = t1).
  { pose proof (Hs [AN_port None None (mk_vitem (IdPlain []) [] None)]) as E2. rewrite (ltac:(unfold d1, t1; destruct od, ot; reflexivity) : spell_out d t (AN_port od ot v :: [AN_port None None (mk_vitem (IdPlain []) [] None)]) = AN_port (Some d1) t1 v :: spell_out d1 t1 [AN_port None None (mk_vitem (IdPlain []) [] None)]) in E2.
    cbn [spell_out] in E2. injection E2 as E2 E3. auto. }
  destruct Est as (-> & ->).
  destruct (IH _ _ d1 t1 r' Hd' Ht' Hp' Hkl Hr) as (xs & Hxs & Hms). exists (x0 :: xs). split; [cbn [conv_ansi_list]; rewrite Hx0; cbn [bind]; rewrite Hxs; reflexivity|].
  destruct (Hf xs) as (y & -> & Hy).
  assert (Hone : conv_ansi DIR_UNKNOWN None (AN_port (Some d1) t1 v) = Ok (x, visit_dir d1, Some (fst (apply_dims b ds)))).
  { cbn [conv_ansi]. replace (match t1 with Some t => conv_ptype t | None => Ok (EId $"wire", false) end) with (Ok (b, lat)) by (destruct t1; [congruence|destruct Hb as [-> ->]; reflexivity]).
    cbn [bind]. rewrite Hds. cbn [bind fst snd]. destruct (apply_dims b ds) as (b', ty). cbn [snd fst] in *. rewrite Hx. reflexivity. }
  rewrite (header_one _ _ _ _ Hone) in Hy. destruct (vitem_dir _ _ _ _ _ Hx) as (Ed & _). rewrite (fill_known _ d1) in Hy by exact Ed. injection Hy as <-.
  cbn [omapM]. replace (fill_type x) with x; [rewrite Hm; cbn [obind]; fold (omapM (m_object A false)); rewrite Hms; reflexivity|].
  unfold fill_type. destruct (d_type x) eqn:E; try reflexivity. unfold m_object in Hm. rewrite E in Hm. discriminate.
Qed.
Lemma header_sim l r : plain_ports None l = true -> forallb kept_ansi (spell_out V_INOUT None l) = true -> omapM (v_ansi A) (spell_out V_INOUT None l) = Some r ->
  exists xs, header_ports l = Ok xs /\ omapM (m_object A false) xs = Some r.
Proof.
  intros Hp Hk H. destruct (ansi_list_sim l DIR_UNKNOWN None V_INOUT None r (or_introl (conj eq_refl eq_refl)) (or_introl eq_refl) Hp Hk H) as (xs & Hxs & Hm).
  exists (fill_dirs DIR_INOUT xs). split; [|exact Hm]. rewrite header_eq. unfold conv_ansi_ports. rewrite Hxs. reflexivity.
Qed.

(** *** Parameters *)
Definition param_of (local : bool) (y : iddef) (t : expr) : iddef := if local then set_const (set_type y t) true else set_type y t.
(** The type of a parameter. *)
Definition ptyp_is (pt : ptyp) (t : expr) (T : typ A) : Prop :=
  typ_is FromValue t T /\ not_type T /\
  match pt with PT_type => False | PT_of d => v_doi A R_param d = Some T | PT_dtype d => v_dtype A d = Some T end.
Lemma passign_sim local pt t T p o : ptyp_is pt t T -> kept_pone (one_value local pt p) = true -> v_pone A (one_value local pt p) = Some o ->
  exists y, conv_passign p = Ok y /\ m_object A true (param_of local y t) = Some o.
Proof.
  destruct p as [i ds v]. cbn [one_value kept_pone v_pone conv_passign]. intros (Ht & Hn & Hpt) Hk H. apply and3 in Hk as (_ & Hds & _). destruct ds; [|discriminate].
  apply obind_inv in H as (n & Hi & H). apply obind_inv in H as (ty & Hty & H).
  assert (ty = T) as -> by (destruct pt; [contradiction|congruence..]).
  cbn [omapM obind] in H. apply obind_inv in H as (x & Hx & H). injection H as <-. rewrite (ident_name _ _ Hi).
  assert (E : exists e, conv_opt conv_pexp v = Ok e /\ val_is x e).
  { destruct v as [[e|d]|]; cbn [conv_opt conv_pexp].
    - destruct pt; [contradiction|..]; apply obind_inv in Hx as (w & Hw & Hx); injection Hx as <-; destruct (conv_sim A e w Hw) as (e' & -> & Hm & _); exists (Some e'); split; try reflexivity; exact Hm.
    - destruct pt; [contradiction|discriminate..].
    - injection Hx as <-. exists None. split; [reflexivity|exact I]. }
  destruct E as (e & -> & He). cbn [bind]. eexists. split; [reflexivity|]. rewrite add_nil.
  destruct local; (rewrite (object_ok true _ T x); [reflexivity|exact Ht|exact Hn|exact He]).
Qed.
Lemma conv_typed_eq t l : clone_e t = Ok t -> conv_typed t l = (xs <- mapM conv_passign l ;; Ok (map (fun y => set_type y t) xs)).
Proof.
  intros Hc. unfold conv_typed. destruct (mapM conv_passign l) as [[|x xs]| | |]; cbn [bind map]; try reflexivity.
  rewrite (mapM_eq _ (fun y => Ok (set_type y t))); [|intros y; rewrite Hc; reflexivity].
  assert (E : forall l, mapM (fun y => Ok (set_type y t)) l = Ok (map (fun y => set_type y t) l)).
  { induction l0 as [|y l0 IH]; [reflexivity|]. cbn [mapM bind map]. fold (mapM (fun y => Ok (set_type y t))). rewrite IH. reflexivity. }
  rewrite E. reflexivity.
Qed.
Lemma forallb_map {X Y} (f : Y -> bool) (g : X -> Y) l : forallb f (map g l) = forallb (fun x => f (g x)) l.
Proof. induction l as [|x l IH]; [reflexivity|]. cbn. rewrite IH. reflexivity. Qed.
Definition localise (local : bool) (l : list iddef) : list iddef := if local then map (fun d => set_const d true) l else l.
Lemma typed_sim local pt t T l r : ptyp_is pt t T -> forallb kept_pone (map (one_value local pt) l) = true -> omapM (v_pone A) (map (one_value local pt) l) = Some r ->
  exists xs, conv_typed t l = Ok xs /\ omapM (m_object A true) (localise local xs) = Some r.
Proof.
  intros Hp Hk H. rewrite forallb_map in Hk. rewrite omapM_map in H.
  destruct (mapM_keep _ _ conv_passign (fun y => m_object A true (param_of local y t)) (fun p o Hkp Hv => passign_sim local pt t T p o Hp Hkp Hv) l r Hk H) as (ys & Hys & Hm).
  exists (map (fun y => set_type y t) ys). rewrite (conv_typed_eq t l (proj2 (proj1 Hp))), Hys. split; [reflexivity|].
  destruct local; cbn [localise]; rewrite ?omapM_map; exact Hm.
Qed.
Lemma types_sim local l r : forallb kept_pone (map (one_type local) l) = true -> omapM (v_pone A) (map (one_type local) l) = Some r ->
  exists xs, conv_types l = Ok xs /\ omapM (m_object A true) (localise local xs) = Some r.
Proof.
  intros Hk H. rewrite forallb_map in Hk. rewrite omapM_map in H.
  destruct (mapM_keep (fun x => kept_pone (one_type local x)) (fun x => v_pone A (one_type local x)) (fun p => n <- ident_str (fst p) ;; v <- conv_opt conv_dtype (snd p) ;; Ok (new_var n (ESym symb_T) v))
     (fun y => m_object A true (if local then set_const y true else y))) with (2 := Hk) (3 := H) as (ys & Hys & Hm).
  - intros (i & d) o Hkp Ho. unfold one_type in *. cbn [fst snd kept_pone v_pone] in *. apply obind_inv in Ho as (n & Hi & Ho). cbn [omapM obind] in Ho. apply obind_inv in Ho as (x & Hx & Ho). injection Ho as <-.
    rewrite (ident_name _ _ Hi). destruct d as [d|].
    + apply obind_inv in Hx as (y & Hy & Hx). injection Hx as <-. cbn [andb] in Hkp. destruct (dtype_sim FromValue d y Hkp Hy) as (e & He & (Ht & _) & _).
      cbn [conv_opt]. rewrite He. cbn [bind]. eexists. split; [reflexivity|]. unfold m_object. destruct local; cbn [set_const new_var new_iddef d_type d_value m_typ obind plain]; rewrite Ht; reflexivity.
    + injection Hx as <-. cbn [conv_opt bind]. eexists. split; [reflexivity|]. destruct local; reflexivity.
  - exists ys. split; [exact Hys|]. destruct local; cbn [localise]; rewrite ?omapM_map; exact Hm.
Qed.
Lemma first_ptyp {X} local pt (l : list X) (f : X -> pone) r : full l = true -> (forall x, exists i ds v, f x = POne local pt i ds v) -> forallb kept_pone (map f l) = true -> omapM (v_pone A) (map f l) = Some r ->
  match pt with PT_type => True | PT_of d => kept_doi R_param d = true /\ exists T, v_doi A R_param d = Some T | PT_dtype d => kept_dtype d = true /\ exists T, v_dtype A d = Some T end.
Proof.
  intros Hf Hx Hk H. destruct l as [|x l]; [discriminate|]. destruct (Hx x) as (i & ds & v & E). cbn [map forallb omapM] in *. rewrite E in *. apply andb_prop in Hk as (Hk & _). apply obind_inv in H as (o & Ho & _).
  cbn [kept_pone v_pone] in *. apply and3 in Hk as (Hk & _). apply obind_inv in Ho as (n & _ & Ho). apply obind_inv in Ho as (T & HT & _). destruct pt; [exact I|split; [exact Hk|exists T; exact HT]..].
Qed.
Lemma value_shape local pt p : exists i ds v, one_value local pt p = POne local pt i ds v. Proof. destruct p as [i ds v]. exists i, ds, v. reflexivity. Qed.
Lemma body_sim local b r : full_body b = true -> forallb kept_pone (body_ones local b) = true -> omapM (v_pone A) (body_ones local b) = Some r ->
  exists xs, conv_pbody b = Ok xs /\ omapM (m_object A true) (localise local xs) = Some r.
Proof.
  destruct b as [l|t l]; cbn [full_body body_ones conv_pbody]; intros Hf Hk H; [exact (types_sim local l r Hk H)|].
  destruct (first_ptyp local (PT_of t) l (one_value local (PT_of t)) r Hf (value_shape local _) Hk H) as (Hkt & T & HT).
  destruct (doi_sim R_param t T Hkt HT) as (x & Hx & Ht). cbn [net_of dflt] in *. rewrite Hx. cbn [bind].
  exact (typed_sim local (PT_of t) x T l r (conj Ht (conj (doi_not_type _ _ _ HT) HT)) Hk H).
Qed.
Lemma pdecl_sim d r : match d with PD_types l => full l | PD_param b | PD_local b => full_body b | PD_typed _ l => full l end = true -> forallb kept_pone (decl_ones d) = true -> omapM (v_pone A) (decl_ones d) = Some r ->
  exists xs, conv_pdecl d = Ok xs /\ omapM (m_object A true) xs = Some r.
Proof.
  destruct d as [l|b|b|t l]; cbn [decl_ones conv_pdecl]; intros Hf Hk H.
  - exact (types_sim false l r Hk H).
  - exact (body_sim false b r Hf Hk H).
  - destruct (body_sim true b r Hf Hk H) as (xs & Hxs & Hm). unfold conv_local. rewrite Hxs. cbn [bind]. eexists. split; [reflexivity|exact Hm].
  - destruct (first_ptyp false (PT_dtype t) l (one_value false (PT_dtype t)) r Hf (value_shape false _) Hk H) as (Hkt & T & HT).
    destruct (dtype_sim FromValue t T Hkt HT) as (x & Hx & Ht & _). rewrite Hx. cbn [bind].
    exact (typed_sim false (PT_dtype t) x T l r (conj Ht (conj (dtype_not_type _ _ HT) HT)) Hk H).
Qed.
Lemma omapM_app {X Y} (f : X -> option Y) l1 l2 : omapM f (l1 ++ l2) = (a <~ omapM f l1 ;; b <~ omapM f l2 ;; Some (a ++ b)).
Proof.
  induction l1 as [|x l IH]; cbn [omapM app obind]; [destruct (omapM f l2); reflexivity|]. destruct (f x); [|reflexivity]. cbn [obind]. fold (omapM f). rewrite IH.
  destruct (omapM f l); [|reflexivity]. cbn [obind]. destruct (omapM f l2); reflexivity.
Qed.
Lemma plist_sim p r : has_tail p = false -> full_params p = true -> forallb kept_pone (list_ones p) = true -> omapM (v_pone A) (list_ones p) = Some r ->
  exists xs, conv_plist p = Ok xs /\ omapM (m_object A true) xs = Some r.
Proof.
  destruct p as [|l tail|l]; cbn [has_tail full_params list_ones conv_plist]; intros Ht Hf Hk H.
  - injection H as <-. exists []. auto.
  - destruct tail; [|discriminate]. cbn [flat_map] in *. rewrite app_nil_r in *.
    destruct (typed_sim false (PT_of None) type_auto (plain FromValue) l r) as (xs & Hxs & Hm); auto; [repeat split|].
    rewrite (conv_typed_eq type_auto l eq_refl) in Hxs. apply bind_inv in Hxs as (ys & Hys & E). injection E as <-. exists ys. split; [exact Hys|].
    assert (Es : map (fun y => set_type y type_auto) ys = ys); [|rewrite Es in Hm; exact Hm].
    clear - Hys. revert ys Hys. induction l as [|p l IH]; intros ys H; [injection H as <-; reflexivity|].
    cbn [mapM] in H. apply bind_inv in H as (y & Hy & H). apply bind_inv in H as (ys' & Hys & H). injection H as <-. cbn [map]. rewrite (IH ys' Hys). f_equal.
    destruct p as [i ds v]. cbn [conv_passign] in Hy. apply bind_inv in Hy as (e & _ & Hy). apply bind_inv in Hy as (n & _ & Hy). injection Hy as <-. reflexivity.
  - clear Ht. revert r Hf Hk H. induction l as [|d l IH]; intros r Hf Hk H; [injection H as <-; exists []; auto|].
    cbn [forallb flat_map] in Hf, Hk, H. apply andb_prop in Hf as (Hf & Hfl). rewrite forallb_app in Hk. apply andb_prop in Hk as (Hk & Hkl). rewrite omapM_app in H. apply obind_inv in H as (r1 & H1 & H). apply obind_inv in H as (r2 & H2 & H). injection H as <-.
    destruct (pdecl_sim d r1 Hf Hk H1) as (xs & Hxs & Hm). destruct (IH r2 Hfl Hkl H2) as (ys & Hys & Hmy). exists (xs ++ ys). cbn [concatM]. rewrite Hxs. cbn [bind]. fold (concatM conv_pdecl). rewrite Hys. split; [reflexivity|].
    rewrite omapM_app, Hm, Hmy. reflexivity.
Qed.
End Sim.
