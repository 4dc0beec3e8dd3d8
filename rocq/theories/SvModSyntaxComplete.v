(** Every file is parsed into its tree. *)
From Verif Require Import Base BaseFacts LitModel AstModel StmModel SvExprModel SvStmModel SvTypeModel SvDeclModel SvTfModel SvGenModel SvFileModel.
From Verif Require Import SvSyntaxModel SvSyntaxSpec SvSyntaxProofs SvSyntaxComplete SvStmSyntaxModel SvStmSyntaxSpec SvLvalueProofs SvStmSyntaxComplete SvModSyntaxModel SvModSyntaxSpec.

(** ** Expressions and statements in a module *)
Definition calm2 (r : list stk) : Prop := match r with X (KRp | KColon | KComma | KRs) :: _ => True | X _ :: _ => False | _ => True end.
Lemma x_expr_ok2 e r : proper e -> calm2 r -> x_expr (xs e ++ r) = Ok (e, r).
Proof.
  intros P C. unfold x_expr, x_with, xs. rewrite xsplit_app. destruct (xsplit r) as [a b] eqn:E. pose proof (xsplit_inv r a b E) as ->.
  rewrite (enough (fun n => p_expr n 0 (show e ++ a)) _ (e, a)); [reflexivity|apply k_expr|apply (enough_fuel (4 * length (show e ++ a) + 4)); lia|].
  assert (H : head_prec a = 0 /\ clean a) by (destruct a as [|t a]; [split; [reflexivity|exact I]|cbn [map app calm2] in C; destruct t; try contradiction; split; [reflexivity|exact I|reflexivity|exact I|reflexivity|exact I|reflexivity|exact I]]).
  destruct H. eapply parse_complete; [apply le_n|exact P|lia|lia|unfold follow; lia|assumption|apply loop_end; assumption].
Qed.
Lemma ysplit_app l ts : ysplit (map Y l ++ ts) = let '(a, b) := ysplit ts in (l ++ a, b).
Proof. induction l as [|t l IH]; cbn [map app ysplit]; [destruct (ysplit ts); reflexivity|]. rewrite IH. destruct (ysplit ts). reflexivity. Qed.
Lemma ysplit_inv ts : forall a b, ysplit ts = (a, b) -> ts = map Y a ++ b.
Proof.
  induction ts as [|t ts IH]; cbn [ysplit]; [intros a b E; injection E as <- <-; reflexivity|]. destruct t; try (intros a b E; injection E as <- <-; reflexivity).
  destruct (ysplit ts) as [a b]. intros a' b' E. injection E as <- <-. cbn [map app]. rewrite (IH a b eq_refl) at 1. reflexivity.
Qed.
Lemma y_with_ok {A : Type} p (x : A) ts r : (forall a b, r = map Y a ++ b -> p (ts ++ a) = Ok (x, a)) -> y_with p (map Y ts ++ r) = Ok (x, r).
Proof. intros H. unfold y_with. rewrite ysplit_app. destruct (ysplit r) as [a b] eqn:E. pose proof (ysplit_inv r a b E) as R. rewrite (H a b R). cbn [bind]. rewrite R. reflexivity. Qed.
Definition ycalm (r : list mtk) : Prop := match r with yx (KRp | KColon | KComma | KRs) :: _ => True | yx _ :: _ => False | _ => True end.
Lemma y_expr_ok e r : proper e -> ycalm r -> y_expr (ys e ++ r) = Ok (e, r).
Proof.
  intros P C. unfold y_expr, ys. apply y_with_ok. intros a b ->. apply x_expr_ok2; [exact P|].
  destruct a as [|t a]; [exact I|]. cbn [map app ycalm] in C. exact C.
Qed.
Lemma y_paren_ok e r : proper e -> y_paren (ypar e ++ r) = Ok (e, r).
Proof. intros P. unfold y_paren, ypar. apply y_with_ok. intros a b _. apply lp_expr_ok, P. Qed.
Definition no_ycolon (r : list mtk) : Prop := match r with yx KColon :: _ => False | _ => True end.
Lemma ycolon_no a b : no_ycolon (map Y a ++ b) -> no_colon a.
Proof. destruct a as [|t a]; [intros _; exact I|]. cbn [map app no_ycolon no_colon]. exact (fun H => H). Qed.
Lemma y_name_ok n r : no_ycolon r -> y_name (yname n ++ r) = Ok (n, r).
Proof. intros C. unfold y_name, yname. apply y_with_ok. intros a b ->. apply p_name_ok. exact (ycolon_no a b C). Qed.
Definition yrest (o : bool) (r : list mtk) : Prop := no_ycolon r /\ (o = true -> match r with Y (Kw k_else) :: _ => False | _ => True end).
Lemma yrest_rest o a b : yrest o (map Y a ++ b) -> rest_ok o a.
Proof. intros [C E]. split; [exact (ycolon_no a b C)|]. intros O. specialize (E O). destruct a as [|t a]; [exact I|]. exact E. Qed.
Lemma y_stm_ok b s ts r : w_stm b s ts -> yrest (open_if s) r -> y_stm (map Y ts ++ r) = Ok (s, r).
Proof.
  intros W R. unfold y_stm. apply y_with_ok. intros a c ->. destruct (complete b) as (H & _). apply (H s ts W); [exact (yrest_rest _ _ _ R)|].
  unfold stm_fuel. rewrite app_length. lia.
Qed.
Lemma y_assigns_ok l ts r : w_inits l ts -> y_assigns (map Y ts ++ Y Semi :: r) = Ok (l, r).
Proof.
  intros W. unfold y_assigns. replace (map Y ts ++ Y Semi :: r) with (map Y (ts ++ [Semi]) ++ r) by (rewrite map_app, <- app_assoc; reflexivity).
  apply y_with_ok. intros a b _. rewrite <- app_assoc. apply p_inits_ok; [exact W|]. rewrite !app_length. lia.
Qed.
Lemma y_labels_ok l r : l <> [] -> all_of proper l -> y_labels (map Y (label_toks l) ++ yx KColon :: r) = Ok (l, r).
Proof.
  intros N P. unfold y_labels. replace (map Y (label_toks l) ++ yx KColon :: r) with (map Y (label_toks l ++ [X KColon]) ++ r) by (rewrite map_app, <- app_assoc; reflexivity).
  apply y_with_ok. intros a b _. rewrite <- app_assoc. apply p_labels_ok; [exact N|exact P|]. rewrite !app_length. lia.
Qed.
Lemma m_id_ok i r : m_id (idt i :: r) = Ok (i, r).
Proof. destruct i; reflexivity. Qed.
Lemma starts_idt i r : starts_id (idt i :: r) = true.
Proof. destruct i; reflexivity. Qed.
Lemma starts_ids r : starts_id r = true -> exists i q, r = idt i :: q.
Proof. destruct r as [|[[[]| | | | | | | | ]| | | | |] r]; try discriminate; intros _; [exists (IdPlain s), r|exists (IdEsc s), r]; reflexivity. Qed.

(** ** Lists *)
Section Commas.
Context {A : Type} (more : list mtk -> bool) (p : list mtk -> outcome (A * list mtk)) (w : A -> list mtk -> Prop) (after : list mtk -> Prop).
Context (Hp : forall x ts r, w x ts -> after r -> p (ts ++ r) = Ok (x, r)).
Context (Hc : forall x ts r, w x ts -> after (yx KComma :: ts ++ r) /\ more (ts ++ r) = true).
Definition last_of (r : list mtk) : Prop := match r with yx KComma :: q => more q = false | _ => True end.
Lemma commas_first l ts : w_commas w l ts -> exists x t q, w x t /\ ts = t ++ q.
Proof. induction 1 as [x t H|x l t ts H _ _]; [exists x, t, []; split; [exact H|rewrite app_nil_r; reflexivity]|exists x, t, (yx KComma :: ts); split; [exact H|reflexivity]]. Qed.
Lemma m_list_ok l ts : w_commas w l ts -> forall r n, after r -> last_of r -> length ts < n -> m_list more p n (ts ++ r) = Ok (l, r).
Proof.
  induction 1 as [x t H|x l t ts H W IH]; intros r [|n] A1 L N; try lia; cbn [m_list].
  - rewrite (Hp x t r H A1). cbn [bind]. destruct r as [|[[[]| | | | | | | | ]| | | | |] q]; try reflexivity. cbn [last_of] in L. rewrite L. reflexivity.
  - rewrite <- app_assoc. cbn [app]. destruct (commas_first _ _ W) as (y & t' & q & Hy & ->). rewrite <- app_assoc. destruct (Hc y t' (q ++ r) Hy) as [C M1].
    rewrite (Hp x t _ H C). cbn [bind]. rewrite M1, app_assoc. rewrite (IH r n A1 L); [reflexivity|]. rewrite app_length in N. cbn [length] in N. rewrite app_length in *. lia.
Qed.
End Commas.
Lemma commas_ok {A : Type} (p : list mtk -> outcome (A * list mtk)) (w : A -> list mtk -> Prop) (after : list mtk -> Prop) l ts r :
  (forall x ts r, w x ts -> after r -> p (ts ++ r) = Ok (x, r)) -> (forall q, after (yx KComma :: q)) -> w_commas w l ts -> after r ->
  match r with yx KComma :: _ => False | _ => True end -> commas p (ts ++ r) = Ok (l, r).
Proof.
  intros Hp Hc W A1 L. unfold commas. apply (m_list_ok SvModSyntaxModel.always p w after Hp) with (1 := fun x ts r _ => conj (Hc (ts ++ r)) eq_refl); [exact W|exact A1| |rewrite app_length; lia].
  destruct r as [|[[[]| | | | | | | | ]| | | | |] q]; try exact I. contradiction.
Qed.

(** ** Dimensions and types *)
Definition no_ls (r : list mtk) : Prop := match r with yx KLs :: _ => False | _ => True end.
Lemma m_dims_ok l : Forall rng_ok l -> forall r n, no_ls r -> length (dim_toks l) < n -> m_dims n (dim_toks l ++ r) = Ok (l, r).
Proof.
  induction 1 as [|d l H _ IH]; intros r [|n] R N; try lia.
  - cbn [dim_toks flat_map app m_dims]. destruct r as [|[[[]| | | | | | | | ]| | | | |] q]; try reflexivity. contradiction.
  - unfold dim_toks in *. cbn [flat_map app m_dims]. cbn [flat_map app length] in N. rewrite !app_length in N. cbn [length] in N. destruct d as [e|k a b]; cbn [rng_toks rng_ok] in *.
    + rewrite <- !app_assoc. rewrite (y_expr_ok e _ H); [|exact I]. cbn [bind app]. rewrite (IH r n R); [reflexivity|lia].
    + destruct k; try contradiction. destruct H as [Ha Hb]. rewrite <- !app_assoc. cbn [app]. rewrite (y_expr_ok a _ Ha); [|exact I]. cbn [bind app]. rewrite ?app_comm_cons, <- ?app_assoc. cbn [app]. rewrite (y_expr_ok b _ Hb); [|exact I].
      cbn [bind app]. rewrite (IH r n R); [reflexivity|]. lia.
Qed.
Lemma dims_ok l r : Forall rng_ok l -> no_ls r -> dims (dim_toks l ++ r) = Ok (l, r).
Proof. intros H R. apply m_dims_ok; [exact H|exact R|rewrite app_length; lia]. Qed.
Lemma type_like e : like_type e = may_be_type e.
Proof. reflexivity. Qed.
Lemma vdims_of_ok l : Forall size_ok l -> vdims_of l = Ok (map VD_range l).
Proof.
  induction 1 as [|d l H _ IH]; [reflexivity|]. cbn [vdims_of map]. rewrite IH. destruct H as [_ H]. destruct d as [e|k a b]; [|reflexivity]. rewrite <- type_like in H. destruct e; try discriminate H; rewrite ?H; reflexivity.
Qed.
Lemma size_rng l : Forall size_ok l -> Forall rng_ok l.
Proof. apply Forall_impl. intros d H. apply H. Qed.
Lemma vdims_ok l r : Forall size_ok l -> no_ls r -> vdims (dim_toks l ++ r) = Ok (map VD_range l, r).
Proof. intros H R. unfold vdims. rewrite (dims_ok l r (size_rng l H) R). cbn [bind]. rewrite (vdims_of_ok l H). reflexivity. Qed.
Lemma id_ls r : starts_id r = true -> no_ls r.
Proof. intros H. apply starts_ids in H as (i & q & ->). destruct i; exact I. Qed.
Lemma m_sign_ok s ds r : starts_id r = true -> m_sign (sign_toks s ++ dim_toks ds ++ r) = (s, dim_toks ds ++ r).
Proof. intros H. destruct s as [[]|]; try reflexivity. cbn [sign_toks app]. destruct ds; [|reflexivity]. cbn [dim_toks flat_map app]. apply starts_ids in H as (i & q & ->). destruct i; reflexivity. Qed.
Lemma m_type_some t ts r : w_type t ts -> starts_id r = true -> m_type (ts ++ r) = Ok (Some t, r).
Proof.
  intros W R. pose proof (id_ls r R) as L. destruct W as [w s ds H|w s ds H|w ds H|s ds N H].
  - cbn [app m_type]. unfold m_prim. rewrite <- app_assoc, (m_sign_ok s ds r R), (vdims_ok ds r H L). reflexivity.
  - cbn [app m_type]. unfold m_prim. rewrite <- app_assoc, (m_sign_ok s ds r R), (vdims_ok ds r H L). reflexivity.
  - cbn [app m_type]. rewrite (vdims_ok ds r H L). reflexivity.
  - assert (m_type ((sign_toks s ++ dim_toks ds) ++ r) = m_implicit ((sign_toks s ++ dim_toks ds) ++ r)) as ->.
    { destruct s as [[]|]; try reflexivity. destruct ds; [destruct N; congruence|reflexivity]. }
    unfold m_implicit. rewrite <- app_assoc, (m_sign_ok s ds r R), (dims_ok ds r H L). reflexivity.
Qed.
Lemma m_type_ok t ts r : w_otype t ts -> starts_id r = true -> m_type (ts ++ r) = Ok (t, r).
Proof. intros [|t0 ts0 W] R; [|exact (m_type_some t0 ts0 r W R)]. cbn [app]. apply starts_ids in R as (i & q & ->). destruct i; reflexivity. Qed.
Lemma w_type_first t ts r : w_type t ts -> exists x q, ts ++ r = x :: q /\ starts_id (x :: q) = false /\ m_dir (x :: q) = (None, x :: q) /\ (forall w, x <> Net w) /\ x <> M m_parameter /\ x <> M m_localparam.
Proof.
  assert (K : forall x q, match x with Vec _ | Atom _ | Nonint _ | M m_signed | M m_unsigned | yx KLs => True | _ => False end ->
     starts_id (x :: q) = false /\ m_dir (x :: q) = (None, x :: q) /\ (forall w, x <> Net w) /\ x <> M m_parameter /\ x <> M m_localparam).
  { intros x q H. destruct x as [[[]| | | | | | | | ]|[]| | | |]; try contradiction; repeat split; try reflexivity; discriminate. }
  intros [w s ds H|w s ds H|w ds H|s ds N H]; [| | |destruct s as [[]|]; [| |destruct ds as [|d ds]; [destruct N; congruence|]]]; eexists; eexists; (split; [reflexivity|apply K; exact I]).
Qed.
Lemma m_nvtype_ok t ts r : w_nvtype t ts -> starts_id r = true -> m_nvtype (ts ++ r) = Ok (t, r).
Proof.
  intros W R. destruct W as [|w t ts W|t ts W].
  - cbn [app]. apply starts_ids in R as (i & q & ->). destruct i; reflexivity.
  - cbn [app m_nvtype]. rewrite (m_type_ok t ts r W R). reflexivity.
  - destruct (w_type_first t ts r W) as (x & q & E & _ & _ & N & _). pose proof (m_type_some t ts r W R) as H. rewrite E in *. unfold m_nvtype. destruct x; try (exfalso; exact (N _ eq_refl)); rewrite H; reflexivity.
Qed.

(** ** Parameters *)
Definition item_end (r : list mtk) : Prop := match r with yx KComma :: _ | yx KRp :: _ | Y Semi :: _ => True | _ => False end.
Lemma end_calm r : item_end r -> ycalm r /\ no_ls r.
Proof. destruct r as [|[[[]| | | | | | | | ]| | | | |] q]; intros H; try contradiction; split; exact I. Qed.
Lemma m_value_ok v r : opt_proper v -> item_end r -> m_value (value_toks v ++ r) = Ok (v, r).
Proof.
  intros P E. destruct v as [e|]; cbn [value_toks app m_value].
  - rewrite (y_expr_ok e r P (proj1 (end_calm r E))). reflexivity.
  - destruct r as [|[[[]| | | | | | | | ]| | | | |] q]; try contradiction; reflexivity.
Qed.
Lemma value_ls v r : item_end r -> no_ls (value_toks v ++ r).
Proof. intros E. destruct v; [exact I|]. exact (proj2 (end_calm r E)). Qed.
Lemma m_passign_ok x ts r : w_passign x ts -> item_end r -> m_passign (ts ++ r) = Ok (x, r).
Proof.
  intros [i ds v D P] E. unfold m_passign. cbn [app]. rewrite m_id_ok. cbn [bind]. rewrite <- app_assoc, (dims_ok ds _ D (value_ls v r E)). cbn [bind]. rewrite (m_value_ok v r P E). destruct v; reflexivity.
Qed.
Lemma m_passigns_ok l ts r : w_commas w_passign l ts -> item_end r -> match r with yx KComma :: q => starts_id q = false | _ => True end -> m_passigns (ts ++ r) = Ok (l, r).
Proof.
  intros W E L. unfold m_passigns. apply (m_list_ok starts_id m_passign w_passign item_end m_passign_ok); [|exact W|exact E|exact L|rewrite app_length; lia].
  intros x t q [i ds v _ _]. split; [exact I|apply starts_idt].
Qed.
Lemma commas_id {A : Type} (w : A -> list mtk -> Prop) l ts r : (forall x ts r, w x ts -> starts_id (ts ++ r) = true) -> w_commas w l ts -> starts_id (ts ++ r) = true.
Proof. intros H W. destruct (commas_first _ _ _ W) as (x & t & q & Hx & ->). rewrite <- app_assoc. exact (H x t _ Hx). Qed.
Lemma passign_id x ts r : w_passign x ts -> starts_id (ts ++ r) = true.
Proof. intros [i ds v _ _]. apply starts_idt. Qed.
Definition decl_end (r : list mtk) : Prop := match r with yx KComma :: q => starts_id q = false | yx KRp :: _ | Y Semi :: _ => True | _ => False end.
Lemma decl_item r : decl_end r -> item_end r /\ match r with yx KComma :: q => starts_id q = false | _ => True end.
Proof. destruct r as [|[[[]| | | | | | | | ]| | | | |] q]; intros H; try contradiction; split; try exact I; exact H. Qed.
Lemma m_pbody_ok b ts r : w_pbody b ts -> decl_end r -> m_pbody (ts ++ r) = Ok (b, r).
Proof.
  intros [t l tt ts' T W] E. destruct (decl_item r E) as [E1 E2]. unfold m_pbody. rewrite <- app_assoc, (m_type_ok t tt _ T (commas_id _ _ _ r passign_id W)). cbn [bind]. rewrite (m_passigns_ok l ts' r W E1 E2). reflexivity.
Qed.
Lemma m_pdecl_ok d ts r : w_pdecl d ts -> decl_end r -> m_pdecl (ts ++ r) = Ok (d, r).
Proof.
  intros [b ts' W|b ts' W|t l tt ts' T W] E.
  - cbn [app m_pdecl]. rewrite (m_pbody_ok b ts' r W E). reflexivity.
  - cbn [app m_pdecl]. rewrite (m_pbody_ok b ts' r W E). reflexivity.
  - destruct (decl_item r E) as [E1 E2]. rewrite <- app_assoc. pose proof (m_type_some _ tt (ts' ++ r) T (commas_id _ _ _ r passign_id W)) as H. destruct (w_type_first _ tt (ts' ++ r) T) as (x & q & Eq & _ & _ & _ & N1 & N2). rewrite Eq in *.
    assert (m_pdecl (x :: q) = '(t, r) <- m_type (x :: q) ;; match t with Some (DI_type t) => '(l, r1) <- m_passigns r ;; Ok (PD_typed t l, r1) | _ => no_parse end) as -> by (destruct x as [| [] | | | |]; try reflexivity; congruence).
    rewrite H. cbn [bind]. rewrite (m_passigns_ok l ts' r W E1 E2). reflexivity.
Qed.
Lemma pdecl_noid x ts r : w_pdecl x ts -> starts_id (ts ++ r) = false.
Proof. intros [b ts' W|b ts' W|t l tt ts' T W]; try reflexivity. rewrite <- app_assoc. destruct (w_type_first _ tt (ts' ++ r) T) as (y & q & -> & H & _). exact H. Qed.
Lemma m_pdecls_ok l ts r : w_commas w_pdecl l ts -> commas m_pdecl (ts ++ yx KRp :: r) = Ok (l, yx KRp :: r).
Proof.
  intros W. unfold commas. apply (m_list_ok SvModSyntaxModel.always m_pdecl w_pdecl decl_end m_pdecl_ok); [|exact W|exact I|exact I|rewrite app_length; lia].
  intros x t q H. split; [exact (pdecl_noid x t q H)|reflexivity].
Qed.
Lemma commas_noid l ts r : w_commas w_pdecl l ts -> starts_id (ts ++ r) = false.
Proof. intros W. destruct (commas_first _ _ _ W) as (x & t & q & Hx & ->). rewrite <- app_assoc. exact (pdecl_noid x t _ Hx). Qed.
(** The first token of a list. *)
Lemma m_plist_gen q : match q with yx KRp :: _ => False | _ => True end -> m_plist (Y Hash :: yx KLp :: q) =
  if starts_id q then
    '(l, r1) <- m_passigns q ;;
    match r1 with yx KComma :: r2 => '(t, r3) <- commas m_pdecl r2 ;; m_rp (Some (PL_bare l t)) r3 | _ => m_rp (Some (PL_bare l [])) r1 end
  else '(l, r1) <- commas m_pdecl q ;; m_rp (Some (PL_decls l)) r1.
Proof. intros H. destruct q as [|[[[]| | | | | | | | ]| | | | |] q]; try contradiction; reflexivity. Qed.
Lemma id_no_rp q : starts_id q = true -> match q with yx KRp :: _ => False | _ => True end.
Proof. intros H. apply starts_ids in H as (i & q' & ->). destruct i; exact I. Qed.
Lemma pdecl_no_rp l ts r : w_commas w_pdecl l ts -> match ts ++ r with yx KRp :: _ => False | _ => True end.
Proof.
  intros W. destruct (commas_first _ _ _ W) as (x & t & q & [b ts' _|b ts' _|t0 l0 tt ts' T _] & ->); try exact I. rewrite <- !app_assoc. destruct T as [w s ds H|w s ds H|w ds H|s ds N H]; try exact I.
  destruct s as [[]|]; try exact I. destruct ds; [destruct N; congruence|exact I].
Qed.
Definition no_hash (r : list mtk) : Prop := match r with Y Hash :: _ => False | _ => True end.
Lemma m_plist_ok p ts r : w_plist p ts -> no_hash r -> m_plist (ts ++ r) = Ok (p, r).
Proof.
  intros W N. destruct W as [| |l ts W|l ds ts ts' W D|l ts D].
  - destruct r as [|[[[]| | | | | | | | ]| | | | |] q]; try reflexivity; contradiction.
  - reflexivity.
  - cbn [app]. rewrite <- app_assoc. pose proof (commas_id _ _ _ ([yx KRp] ++ r) passign_id W) as S. rewrite (m_plist_gen _ (id_no_rp _ S)), S. cbn [app]. rewrite (m_passigns_ok l ts (yx KRp :: r) W I I). reflexivity.
  - cbn [app]. rewrite <- app_assoc. cbn [app]. rewrite <- app_assoc. cbn [app]. pose proof (commas_id _ _ _ (yx KComma :: ts' ++ yx KRp :: r) passign_id W) as S. rewrite (m_plist_gen _ (id_no_rp _ S)), S.
    rewrite (m_passigns_ok l ts (yx KComma :: ts' ++ yx KRp :: r) W I (commas_noid ds ts' _ D)). cbn [bind]. rewrite (m_pdecls_ok ds ts' r D). reflexivity.
  - cbn [app]. rewrite <- app_assoc. cbn [app]. rewrite (m_plist_gen _ (pdecl_no_rp l ts _ D)), (commas_noid l ts _ D), (m_pdecls_ok l ts r D). reflexivity.
Qed.

(** ** Ports *)
Lemma m_vitem_ok v ts r : w_vitem v ts -> item_end r -> m_vitem (ts ++ r) = Ok (v, r).
Proof.
  intros [i ds v0 D P] E. unfold m_vitem. cbn [app]. rewrite m_id_ok. cbn [bind]. rewrite <- app_assoc, (vdims_ok ds _ D (value_ls v0 r E)). cbn [bind]. rewrite (m_value_ok v0 r P E). reflexivity.
Qed.
Lemma m_iditem_ok v ts r : w_iditem v ts -> item_end r -> m_iditem (ts ++ r) = Ok (v, r).
Proof.
  intros [[i ds v0 D P] V] E. cbn [vi_value] in V. subst v0. cbn [value_toks]. rewrite app_nil_r. unfold m_iditem. cbn [app]. rewrite m_id_ok. cbn [bind]. rewrite (vdims_ok ds _ D (proj2 (end_calm r E))). reflexivity.
Qed.
Lemma vitem_id x ts r : w_vitem x ts -> starts_id (ts ++ r) = true.
Proof. intros [i ds v _ _]. apply starts_idt. Qed.
Lemma iditem_id x ts r : w_iditem x ts -> starts_id (ts ++ r) = true.
Proof. intros [H _]. exact (vitem_id x ts r H). Qed.
Lemma w_nvtype_dir t tt r : w_nvtype t tt -> starts_id r = true -> m_dir (tt ++ r) = (None, tt ++ r).
Proof.
  intros [|w t0 ts W|t0 ts W] S; [|reflexivity|].
  - apply starts_ids in S as (i & q & ->). destruct i; reflexivity.
  - destruct (w_type_first t0 ts r W) as (x & q & -> & _ & H & _). exact H.
Qed.
Lemma m_ansi_ok x ts r : w_ansi x ts -> item_end r -> m_ansi (ts ++ r) = Ok (x, r).
Proof.
  intros [d t v tt ts' D T V] E. unfold m_ansi. rewrite <- !app_assoc. pose proof (vitem_id v ts' r V) as S.
  assert (m_dir (dir_toks d ++ tt ++ ts' ++ r) = (d, tt ++ ts' ++ r)) as -> by (destruct d as [[]|]; try reflexivity; [congruence|exact (w_nvtype_dir t tt _ T S)]).
  rewrite (m_nvtype_ok t tt _ T S). cbn [bind]. rewrite (m_vitem_ok v ts' r V E). destruct t; reflexivity.
Qed.
Lemma m_naport_ok x ts r : w_naport x ts -> item_end r -> m_naport (ts ++ r) = Ok (x, r).
Proof. intros [i] _. unfold m_naport. cbn [app]. rewrite m_id_ok. reflexivity. Qed.
Definition no_paren (r : list mtk) : Prop := match r with yx KLp :: _ => False | _ => True end.
Lemma m_ports_gen q : match q with yx KRp :: _ | yx KDot :: _ => False | _ => True end -> m_ports (yx KLp :: q) =
  if starts_id q then '(l, r1) <- commas m_naport q ;; m_rp (HP_nonansi l) r1 else '(l, r1) <- commas m_ansi q ;; m_rp (HP_ansi l) r1.
Proof. intros H. destruct q as [|[[[]| | | | | | | | ]| | | | |] q]; try contradiction; reflexivity. Qed.
Lemma headed_noid p ts r : w_ansi p ts -> headed p -> starts_id (ts ++ r) = false /\ match ts ++ r with yx KRp :: _ | yx KDot :: _ => False | _ => True end.
Proof.
  intros [d t v tt ts' D T V] H. rewrite <- !app_assoc. destruct d as [[]|]; try (split; [reflexivity|exact I]); [congruence|]. cbn [dir_toks app].
  destruct T as [|w t0 ts0 W|t0 ts0 W]; [destruct H|split; [reflexivity|exact I]|]. destruct (w_type_first t0 ts0 (ts' ++ r) W) as (x & q & E & S & _). split; [rewrite E; exact S|].
  destruct W as [w s ds _|w s ds _|w ds _|s ds N _]; try exact I. destruct s as [[]|]; try exact I. destruct ds; [destruct N; congruence|exact I].
Qed.
Lemma m_ports_ok p ts r : w_ports p ts -> no_paren r -> m_ports (ts ++ r) = Ok (p, r).
Proof.
  intros W N. destruct W as [| | |l ts W|p l ts H W].
  - destruct r as [|[[[]| | | | | | | | ]| | | | |] q]; try reflexivity; contradiction.
  - reflexivity.
  - reflexivity.
  - cbn [app]. rewrite <- app_assoc. cbn [app]. assert (S : forall x t q, w_naport x t -> starts_id (t ++ q) = true) by (intros x t q [i]; apply starts_idt). pose proof (commas_id _ _ _ (yx KRp :: r) S W) as S1. rewrite m_ports_gen, S1.
    + rewrite (commas_ok m_naport w_naport item_end l ts (yx KRp :: r) m_naport_ok (fun _ => I) W I I). reflexivity.
    + apply starts_ids in S1 as (i & q & ->). destruct i; exact I.
  - cbn [app]. rewrite <- app_assoc. cbn [app].
    assert (S : starts_id (ts ++ yx KRp :: r) = false /\ match ts ++ yx KRp :: r with yx KRp :: _ | yx KDot :: _ => False | _ => True end).
    { inversion W; subst; [apply (headed_noid p); assumption|]. rewrite <- app_assoc. apply (headed_noid p); assumption. }
    destruct S as [S1 S2]. rewrite (m_ports_gen _ S2), S1. rewrite (commas_ok m_ansi w_ansi item_end _ ts (yx KRp :: r) m_ansi_ok (fun _ => I) W I I). reflexivity.
Qed.
Definition nadecl_dir (n : nadecl) : vdir := match n with ND_inout _ _ => V_INOUT | ND_input _ _ => V_INPUT | ND_output _ _ => V_OUTPUT | _ => V_REF end.
Lemma m_nadecl_ok n ts r : w_nadecl n ts -> exists q, ts = dir_toks (Some (nadecl_dir n)) ++ q /\ m_nadecl (nadecl_dir n) (q ++ r) = Ok (n, r).
Proof.
  intros [t l tt ts' T W|t l tt ts' T W|t l tt ts' T W]; eexists; (split; [reflexivity|]); unfold m_nadecl; cbn [nadecl_dir]; rewrite <- !app_assoc; cbn [app].
  - rewrite (m_nvtype_ok t tt _ T (commas_id _ _ _ _ iditem_id W)). cbn [bind]. rewrite (commas_ok m_iditem w_iditem item_end l ts' (Y Semi :: r) m_iditem_ok (fun _ => I) W I I). reflexivity.
  - rewrite (m_nvtype_ok t tt _ T (commas_id _ _ _ _ vitem_id W)). cbn [bind]. rewrite (commas_ok m_vitem w_vitem item_end l ts' (Y Semi :: r) m_vitem_ok (fun _ => I) W I I). reflexivity.
  - rewrite (m_nvtype_ok t tt _ T (commas_id _ _ _ _ iditem_id W)). cbn [bind]. rewrite (commas_ok m_iditem w_iditem item_end l ts' (Y Semi :: r) m_iditem_ok (fun _ => I) W I I). reflexivity.
Qed.

(** ** Instances *)
Lemma ys_first e r : proper e -> exists t q, ys e ++ r = yx t :: q /\ starter t.
Proof. intros P. destruct (xs_first e P) as (t & q & E & S & _). exists t, (map Y q ++ r). unfold ys. rewrite E. split; [reflexivity|exact S]. Qed.
Lemma m_opt_rp_ok v r : opt_proper v -> m_opt_rp (opt_ys v ++ yx KRp :: r) = Ok (v, r).
Proof.
  intros P. destruct v as [e|]; [|reflexivity]. cbn [opt_ys opt_proper] in *. pose proof (y_expr_ok e (yx KRp :: r) P I) as H. destruct (ys_first e (yx KRp :: r) P) as (t & q & E & S). rewrite E in *.
  assert (m_opt_rp (yx t :: q) = '(e, r) <- y_expr (yx t :: q) ;; m_rp (Some e) r) as -> by (destruct t; try reflexivity; contradiction). rewrite H. reflexivity.
Qed.
Lemma m_npar_ok x ts r : w_npar x ts -> item_end r -> m_npar (ts ++ r) = Ok (x, r).
Proof. intros [i v P] _. cbn [app m_npar]. rewrite m_id_ok. cbn [bind]. rewrite <- app_assoc. cbn [app]. rewrite (m_opt_rp_ok v r P). destruct v; reflexivity. Qed.
Lemma m_opar_ok x ts r : w_opar x ts -> item_end r -> m_opar (ts ++ r) = Ok (x, r).
Proof. intros [e P] E. unfold m_opar. rewrite (y_expr_ok e r P (proj1 (end_calm r E))). reflexivity. Qed.
Lemma m_gvalues_gen q : match q with yx KRp :: _ | yx KDot :: _ => False | _ => True end -> m_gvalues (Y Hash :: yx KLp :: q) = '(l, r1) <- commas m_opar q ;; m_rp (Some (GV_ordered l)) r1.
Proof. intros H. destruct q as [|[[[]| | | | | | | | ]| | | | |] q]; try contradiction; reflexivity. Qed.
Lemma m_gvalues_ok g ts r : w_gvalues g ts -> no_hash r -> m_gvalues (ts ++ r) = Ok (g, r).
Proof.
  intros W N. destruct W as [| |l ts W|l ts W].
  - destruct r as [|[[[]| | | | | | | | ]| | | | |] q]; try reflexivity; contradiction.
  - reflexivity.
  - cbn [app]. rewrite <- app_assoc. cbn [app]. rewrite m_gvalues_gen.
    + rewrite (commas_ok m_opar w_opar item_end l ts (yx KRp :: r) m_opar_ok (fun _ => I) W I I). reflexivity.
    + destruct (commas_first _ _ _ W) as (x & t & q & [e P] & ->). rewrite <- app_assoc. destruct (ys_first e (q ++ yx KRp :: r) P) as (t1 & q' & -> & S). destruct t1; try exact I; contradiction.
  - cbn [app]. rewrite <- app_assoc. cbn [app]. pose proof (commas_ok m_npar w_npar item_end l ts (yx KRp :: r) m_npar_ok (fun _ => I) W I I) as H.
    destruct (commas_first _ _ _ W) as (x & t & q & [i v P] & ->). cbn [app m_gvalues] in *. rewrite H. reflexivity.
Qed.
Lemma m_nconn_ok x ts r : w_nconn x ts -> item_end r -> m_nconn (ts ++ r) = Ok (x, r).
Proof.
  intros [|i|i v P] E.
  - reflexivity.
  - cbn [app]. assert (m_nconn (yx KDot :: idt i :: r) = '(j, r1) <- m_id (idt i :: r) ;; match r1 with yx KLp :: r2 => '(e, r3) <- m_opt_rp r2 ;; Ok (NC_conn j e, r3) | _ => Ok (NC_name j, r1) end) as -> by (destruct i; reflexivity).
    rewrite m_id_ok. cbn [bind]. destruct r as [|[[[]| | | | | | | | ]| | | | |] q]; try contradiction; reflexivity.
  - cbn [app]. rewrite <- app_assoc. cbn [app]. set (q := opt_ys v ++ yx KRp :: r). assert (m_nconn (yx KDot :: idt i :: yx KLp :: q) = '(e, r3) <- m_opt_rp q ;; Ok (NC_conn i e, r3)) as -> by (destruct i; reflexivity).
    unfold q. rewrite (m_opt_rp_ok v r P). reflexivity.
Qed.
Definition conn_end (r : list mtk) : Prop := match r with yx KComma :: _ | yx KRp :: _ => True | _ => False end.
Lemma conn_item r : conn_end r -> item_end r.
Proof. destruct r as [|[[[]| | | | | | | | ]| | | | |] q]; intros H; try contradiction; exact I. Qed.
Lemma m_oconn_ok x ts r : w_oconn x ts -> conn_end r -> m_oconn (ts ++ r) = Ok (x, r).
Proof.
  intros [v P] E. destruct v as [e|]; cbn [opt_ys opt_proper] in *.
  - pose proof (y_expr_ok e r P (proj1 (end_calm r (conn_item r E)))) as H. destruct (ys_first e r P) as (t & q & Eq & S). rewrite Eq in *.
    assert (m_oconn (yx t :: q) = '(e, r) <- y_expr (yx t :: q) ;; Ok (Some e, r)) as -> by (destruct t; try reflexivity; contradiction). rewrite H. reflexivity.
  - cbn [app]. destruct r as [|[[[]| | | | | | | | ]| | | | |] q]; try contradiction; reflexivity.
Qed.
Lemma m_conns_ok c ts r : w_conns c ts -> m_conns (ts ++ yx KRp :: r) = Ok (c, r).
Proof.
  intros [l ts' W|l ts' W].
  - pose proof (commas_ok m_oconn w_oconn conn_end l ts' (yx KRp :: r) m_oconn_ok (fun _ => I) W I I) as H.
    assert (D : match ts' ++ yx KRp :: r with yx KDot :: _ => False | _ => True end).
    { inversion W as [x t O|x l0 t t' O W']; subst; destruct O as [[e|] P]; cbn [opt_ys opt_proper app] in *; try exact I; rewrite <- ?app_assoc; [destruct (ys_first e (yx KRp :: r) P) as (t1 & q1 & -> & S)|destruct (ys_first e ((yx KComma :: t') ++ yx KRp :: r) P) as (t1 & q1 & -> & S)]; destruct t1; try exact I; contradiction. }
    unfold m_conns. destruct (ts' ++ yx KRp :: r) as [|[[[]| | | | | | | | ]| | | | |] q] eqn:Eq; try contradiction; rewrite H; reflexivity.
  - pose proof (commas_ok m_nconn w_nconn item_end l ts' (yx KRp :: r) m_nconn_ok (fun _ => I) W I I) as H.
    destruct (commas_first _ _ _ W) as (x & t & q & [|i|i v P] & ->); cbn [app m_conns] in *; rewrite H; reflexivity.
Qed.
Lemma m_hinst_ok x ts r : w_hinst x ts -> item_end r -> m_hinst (ts ++ r) = Ok (x, r).
Proof.
  intros [i ds c ts' D W] _. unfold m_hinst. cbn [app]. rewrite m_id_ok. cbn [bind]. rewrite <- app_assoc. cbn [app]. rewrite <- app_assoc. cbn [app]. rewrite (dims_ok ds); [|exact D|exact I]. cbn [bind]. rewrite (m_conns_ok c ts' r W). reflexivity.
Qed.
Lemma m_inst_ok x ts r : w_inst x ts -> m_inst (ts ++ r) = Ok (if like_udp x then GL_skipped else GL_inst x, r).
Proof.
  intros [i g l gs ts' G W]. unfold m_inst. cbn [app]. rewrite m_id_ok. cbn [bind]. rewrite <- !app_assoc. cbn [app]. rewrite (m_gvalues_ok g gs); [|exact G|].
  - cbn [bind]. rewrite (commas_ok m_hinst w_hinst item_end l ts' (Y Semi :: r) m_hinst_ok (fun _ => I) W I I). reflexivity.
  - destruct (commas_first _ _ _ W) as (h & t & q & [j ds c tc D C] & ->). cbn [app]. destruct j; exact I.
Qed.
(** Which instantiations are read as those of primitives. *)
Lemma lval_form o : proper o -> some (lval_of o) = true <-> exists d, lv_proper d /\ lv_toks d = show o.
Proof.
  intros P. split.
  - destruct (lval_of o) as [d|] eqn:E; [|discriminate]. intros _. exists d. destruct (lval_hier o P d E) as [T Q]. auto.
  - intros (d & D & E). destruct (show_lval d D) as (e & Pe & _ & Se & L). assert (e = o) as -> by (pose proof (parse_show e Pe) as A; pose proof (parse_show o P) as B; congruence). rewrite L. reflexivity.
Qed.
Lemma all_some (l : list (option vexpr)) : forallb some l = true <-> exists l', l = map Some l'.
Proof.
  split.
  - induction l as [|[x|] l IH]; [exists []; reflexivity| |discriminate]. cbn [forallb some andb]. intros H. destruct (IH H) as [l' ->]. exists (x :: l'). reflexivity.
  - intros [l' ->]. induction l' as [|x l' IH]; [reflexivity|exact IH].
Qed.
Lemma terminals_form h ts : w_hinst h ts -> (terminals h = true <-> exists o c l d, hi_conns h = CO_ordered (Some o :: Some c :: map Some l) /\ lv_proper d /\ lv_toks d = show o).
Proof.
  intros [i ds c ts' D W]. unfold terminals. cbn [hi_conns]. destruct c as [[|[o|] l]|l]; try (split; [discriminate|intros (? & ? & ? & ? & H & _); discriminate H]).
  assert (P : proper o) by (inversion W as [? ? C|]; subst; inversion C as [x t O|x l0 t t' O _]; subst; inversion O; assumption).
  destruct l as [|c l]; [rewrite Bool.andb_false_r; split; [discriminate|intros (? & ? & ? & ? & H & _); discriminate H]|]. cbn [length Nat.eqb negb]. rewrite Bool.andb_true_r, Bool.andb_true_iff, (lval_form o P), all_some. split.
  - intros [(d & Hd & E) [l' L]]. destruct l' as [|y l']; [discriminate L|]. injection L as -> ->. exists o, y, l', d. auto.
  - intros (o' & y & l' & d & H & Hd & E). injection H as -> -> ->. split; [exists d; auto|exists (y :: l'); reflexivity].
Qed.
Lemma commas_all {A : Type} (w : A -> list mtk -> Prop) l ts : w_commas w l ts -> Forall (fun x => exists t, w x t) l.
Proof. induction 1 as [x t H|x l t ts H _ IH]; constructor; try constructor; eauto. Qed.
Lemma udp_form x ts : w_inst x ts -> like_udp x = true <-> primitive_form x.
Proof.
  intros [i g l gs ts' G W]. unfold like_udp, primitive_form. cbn [in_params in_list]. apply commas_all in W.
  assert (F : forallb terminals l = true <-> Forall (fun h => exists o c l d, hi_conns h = CO_ordered (Some o :: Some c :: map Some l) /\ lv_proper d /\ lv_toks d = show o) l).
  { clear G. induction W as [|h l (t & H) _ IH]; [split; constructor|]. cbn [forallb]. rewrite Bool.andb_true_iff, IH, (terminals_form h t H). split; [intros [A B]; constructor; assumption|intros A; inversion A; auto]. }
  destruct g as [[v|v]|]; try (split; [discriminate|intros [(? & H & _) _]; discriminate H]). rewrite Bool.andb_true_iff, Bool.orb_true_iff, !Nat.eqb_eq, F. split.
  - intros [H K]. split; [exists v; auto|exact K].
  - intros [(v' & E & H) K]. injection E as <-. auto.
Qed.

(** ** Items *)
Lemma m_nitem_ok v ts r : w_nitem v ts -> item_end r -> m_nitem (ts ++ r) = Ok (v, r).
Proof.
  intros [i ds v0 D P] E. unfold m_nitem. cbn [app]. rewrite m_id_ok. cbn [bind]. rewrite <- app_assoc, (dims_ok ds _ D (value_ls v0 r E)). cbn [bind]. rewrite (m_value_ok v0 r P E). reflexivity.
Qed.
Lemma nitem_id x ts r : w_nitem x ts -> starts_id (ts ++ r) = true.
Proof. intros [i ds v _ _]. apply starts_idt. Qed.
Lemma m_ident_ok x ts r : w_ident x ts -> item_end r -> m_id (ts ++ r) = Ok (x, r).
Proof. intros -> _. apply m_id_ok. Qed.
Lemma inst_first x ts r : w_inst x ts -> exists i q, ts ++ r = idt i :: q /\ match q with yx KColon :: _ => False | _ => True end.
Proof.
  intros [i g l gs ts' G W]. exists i, (gs ++ ts' ++ Y Semi :: r). cbn [app]. rewrite <- !app_assoc. split; [reflexivity|]. destruct G; try exact I. cbn [app].
  destruct (commas_first _ _ _ W) as (h & t & q & [j ds c tc D C] & ->). cbn [app]. destruct j; exact I.
Qed.
Lemma m_leaf_inst i q : m_leaf (idt i :: q) = m_inst (idt i :: q).
Proof. destruct i; reflexivity. Qed.
Section Gen.
Context (same : bool).
Lemma m_leaf_ok l ts r : w_leaf same l ts -> yrest (gopen (GI_leaf l)) r -> m_leaf (ts ++ r) = Ok (l, r).
Proof.
  intros W R. destruct W as [|b ts0 W|b ts0 W|l0 ts0 W|l0 ts0 W|w t l0 tt ts0 T W|t l0 tt ts0 D T W|k s ts0 W N|s ts0 W|i ts0 W N]; cbn [app m_leaf gopen] in *.
  - reflexivity.
  - rewrite <- app_assoc. cbn [app]. rewrite (m_pbody_ok b ts0 (Y Semi :: r) W I). reflexivity.
  - rewrite <- app_assoc. cbn [app]. rewrite (m_pbody_ok b ts0 (Y Semi :: r) W I). reflexivity.
  - rewrite <- app_assoc. cbn [app]. rewrite (commas_ok m_id w_ident item_end l0 ts0 (Y Semi :: r) m_ident_ok (fun _ => I) W I I). reflexivity.
  - rewrite <- app_assoc. cbn [app]. rewrite (y_assigns_ok l0 ts0 r W). reflexivity.
  - rewrite <- !app_assoc. cbn [app]. rewrite (m_type_ok t tt _ T (commas_id _ _ _ _ nitem_id W)). cbn [bind]. rewrite (commas_ok m_nitem w_nitem item_end l0 ts0 (Y Semi :: r) m_nitem_ok (fun _ => I) W I I). reflexivity.
  - rewrite <- !app_assoc. cbn [app]. assert (m_leaf (tt ++ ts0 ++ Y Semi :: r) = m_data (tt ++ ts0 ++ Y Semi :: r)) as -> by (destruct T; try reflexivity; contradiction).
    unfold m_data. rewrite (m_type_some t tt _ T (commas_id _ _ _ _ vitem_id W)). cbn [bind]. rewrite (commas_ok m_vitem w_vitem item_end l0 ts0 (Y Semi :: r) m_vitem_ok (fun _ => I) W I I). reflexivity.
  - assert (K : m_always k (map Y ts0 ++ r) = Ok (GL_always k [] s, r)) by (unfold m_always; rewrite (y_stm_ok same s ts0 r W R); destruct s; [exfalso; exact (N _ eq_refl)|reflexivity]).
    destruct k; exact K.
  - rewrite (y_stm_ok same s ts0 r W R). reflexivity.
  - pose proof (m_inst_ok i ts0 r W) as H. destruct (like_udp i) eqn:U; [apply (udp_form i ts0 W) in U; contradiction|]. destruct (inst_first i ts0 r W) as (j & q & E & _). rewrite E in *. rewrite m_leaf_inst. exact H.
Qed.
Lemma m_leaf_gen l ts r f : w_leaf same l ts -> m_gen (S f) (ts ++ r) = '(l, r) <- m_leaf (ts ++ r) ;; Ok (GI_leaf l, r).
Proof.
  intros W. destruct W as [|b ts0 W|b ts0 W|l0 ts0 W|l0 ts0 W|w t l0 tt ts0 T W|t l0 tt ts0 D T W|k s ts0 W N|s ts0 W|i ts0 W N]; try reflexivity.
  - destruct T; try reflexivity. contradiction.
  - destruct k; reflexivity.
  - destruct (inst_first i ts0 r W) as (j & q & -> & C). destruct j; destruct q as [|[[[]| | | | | | | | ]| | | | |] q]; try contradiction; reflexivity.
Qed.
Definition gstart (t : mtk) : Prop :=
  match t with
  | Y Semi | M (m_parameter | m_localparam | m_genvar | m_assign | m_generate) | Net _ | Vec _ | Atom _ | Nonint _ | yx (KId _ | KEscId _) => True
  | Y (Kw (k_always | k_always_comb | k_always_latch | k_always_ff | k_initial | k_for | k_if | k_case | k_begin)) => True
  | _ => False
  end.
Lemma gstart_rest t q : gstart t -> (forall o, yrest o (t :: q)) /\ ends_gen (t :: q) = false.
Proof. destruct t as [[[]| | | | | | | | []]|[]| | | |]; intros H; try contradiction; split; try reflexivity; split; try exact I; intros _; exact I. Qed.
Lemma idt_start i : gstart (idt i).
Proof. destruct i; exact I. Qed.
Lemma w_leaf_first l ts : w_leaf same l ts -> exists t q, ts = t :: q /\ gstart t.
Proof.
  intros [|b ts' W|b ts' W|l' ts' W|l' ts' W|w t l' tt ts' T W|t l' tt ts' D T W|k s ts' W N|s ts' W|i ts' W N]; try (eexists; eexists; split; [reflexivity|exact I]).
  - destruct T; try contradiction; eexists; eexists; (split; [reflexivity|exact I]).
  - eexists; eexists; split; [reflexivity|destruct k; exact I].
  - destruct W as [i g l0 gs ts' G W]. eexists; eexists; split; [reflexivity|apply idt_start].
Qed.
Lemma w_gen_first g ts : w_gen same g ts -> exists t q, ts = t :: q /\ gstart t.
Proof.
  destruct 1 as [l ts W|p n m l ts E W| | | | |]; try (eexists; eexists; split; [reflexivity|exact I]); [exact (w_leaf_first l ts W)|].
  destruct p as [i|]; eexists; eexists; (split; [reflexivity|]); [apply idt_start|exact I].
Qed.
Lemma w_gen_start g ts r : w_gen same g ts -> (forall o, yrest o (ts ++ r)) /\ ends_gen (ts ++ r) = false /\ 0 < length ts.
Proof. intros W. destruct (w_gen_first g ts W) as (t & q & -> & S). destruct (gstart_rest t (q ++ r) S) as [A B]. split; [exact A|split; [exact B|cbn [length]; lia]]. Qed.
Lemma ends_rest r o : ends_gen r = true -> yrest o r.
Proof. destruct r as [|[[[]| | | | | | | | []]|[]| | | |] q]; intros H; try discriminate H; split; try exact I; intros _; exact I. Qed.
Lemma w_gens_start l ts r o : w_gens same l ts -> yrest o r -> yrest o (ts ++ r).
Proof. intros [|g l' t t' W _] R; [exact R|]. rewrite <- app_assoc. apply (w_gen_start g t (t' ++ r) W). Qed.
Lemma label_rest es r o : es <> [] -> all_of proper es -> yrest o (map Y (label_toks es) ++ r).
Proof. intros N P. destruct (label_first es N P) as (t & q & -> & S). cbn [map app]. split; [destruct t; try exact I; contradiction|intros _; exact I]. Qed.
Lemma w_gcases_start l ts r o : w_gcases same l ts -> yrest o (ts ++ Y (Kw k_endcase) :: r).
Proof. intros [|es g l' t t' N P W _|g l' c t t' C W _]; [split; [exact I|intros _; exact I]| |split; [exact I|intros _; exact I]]. rewrite <- app_assoc. apply label_rest; assumption. Qed.
Lemma m_ginit_ok i ts r : w_ginit i ts -> m_ginit (ts ++ Y Semi :: r) = Ok (i, r).
Proof.
  intros [g j e P]. assert (K : '(j0, r1) <- m_id (idt j :: Y (Asg A_ASSIGN) :: ys e ++ Y Semi :: r) ;; match r1 with Y (Asg A_ASSIGN) :: r2 => '(e, r3) <- y_expr r2 ;; m_semi (mk_ginit g j0 e []) r3 | _ => no_parse end = Ok (mk_ginit g j e [], r)).
  { rewrite m_id_ok. cbn [bind]. rewrite (y_expr_ok e (Y Semi :: r) P I). reflexivity. }
  unfold m_ginit. destruct g; cbn [app]; [exact K|]. destruct j; exact K.
Qed.
Lemma m_gstep_ok s ts r : w_gstep s ts -> m_gstep (ts ++ yx KRp :: r) = Ok (s, r).
Proof.
  intros [i o e P|b i|b i]; cbn [app].
  - assert (K : y_expr (ys e ++ yx KRp :: r) = Ok (e, yx KRp :: r)) by (apply y_expr_ok; [exact P|exact I]). destruct i; cbn [m_gstep idt id_stk id_tok m_id bind]; rewrite K; reflexivity.
  - destruct b, i; reflexivity.
  - destruct b, i; reflexivity.
Qed.
Lemma m_pre_ok p q : m_pre (pre_toks p ++ Y (Kw k_begin) :: q) = Some (p, q).
Proof. destruct p as [[]|]; reflexivity. Qed.

Definition gen_c (g : gitem) (ts : list mtk) (_ : w_gen same g ts) := forall r f, yrest (gopen g) r -> 2 * length ts + 1 <= f -> m_gen f (ts ++ r) = Ok (g, r).
Definition gens_c (l : list gitem) (ts : list mtk) (_ : w_gens same l ts) := forall r f, ends_gen r = true -> 2 * length ts + 2 <= f -> m_gens f (ts ++ r) = Ok (l, r).
Definition gcases_c (l : list (list vexpr * gitem)) (ts : list mtk) (_ : w_gcases same l ts) := forall r f, 2 * length ts + 2 <= f -> m_gcases f (ts ++ Y (Kw k_endcase) :: r) = Ok (l, r).
Lemma rest_any o r : yrest true r -> yrest o r.
Proof. intros [A B]. split; [exact A|intros _; exact (B eq_refl)]. Qed.
Lemma yelse {A : Type} (r : list mtk) (x : list mtk -> A) (y : A) : yrest true r -> match r with Y (Kw k_else) :: r3 => x r3 | _ => y end = y.
Proof. intros [_ N]. specialize (N eq_refl). destruct r as [|[[[]| | | | | | | | []]| | | | |] q]; try reflexivity; contradiction. Qed.
Lemma ylen e : 0 < length (ypar e).
Proof. unfold ypar, par. cbn [map length]. lia. Qed.
Lemma ylabels es : es <> [] -> all_of proper es -> 0 < length (map Y (label_toks es)).
Proof. intros N P. destruct (label_first es N P) as (t & q & -> & _). cbn [map length]. lia. Qed.
Lemma m_gen_case f e q : m_gen (S f) (Y (Kw k_case) :: ypar e ++ q) = '(e, r1) <- y_paren (ypar e ++ q) ;; '(l, r2) <- m_gcases f r1 ;; match l with [] => no_parse | _ => Ok (GI_case [] e l, r2) end.
Proof. reflexivity. Qed.
Lemma m_gcases_labels f t q : starter t -> m_gcases (S f) (yx t :: q) = '(es, r) <- y_labels (yx t :: q) ;; '(g, r1) <- m_gen f r ;; '(l, r2) <- m_gcases f r1 ;; Ok ((es, g) :: l, r2).
Proof. intros H. destruct t; try contradiction; reflexivity. Qed.
Lemma gen_complete : (forall g ts w, gen_c g ts w) /\ (forall l ts w, gens_c l ts w) /\ (forall l ts w, gcases_c l ts w).
Proof.
  apply w_gen_mutind; unfold gen_c, gens_c, gcases_c.
  - intros l ts W r [|f] R F; [lia|]. rewrite (m_leaf_gen l ts r f W), (m_leaf_ok l ts r W R). reflexivity.
  - intros p n m l ts E W IH r [|f] R F; [lia|]. rewrite <- app_assoc. cbn [app]. cbn [m_gen]. rewrite m_pre_ok, <- !app_assoc. cbn [app]. rewrite !app_length in F. cbn [length] in F. rewrite !app_length in F. cbn [length] in F.
    rewrite (y_name_ok n); [|apply (w_gens_start l ts _ true W); split; [exact I|intros _; exact I]]. cbn [bind]. rewrite (IH (Y (Kw k_end) :: yname m ++ r) f eq_refl); [|lia]. cbn [bind]. rewrite (y_name_ok m r (proj1 R)). reflexivity.
  - intros l ts W IH r [|f] R F; [lia|]. cbn [app m_gen m_pre]. rewrite <- app_assoc. cbn [app length] in *. rewrite app_length in F. cbn [length] in F. rewrite (IH (M m_endgenerate :: r) f eq_refl); [reflexivity|lia].
  - intros i c s b is ss ts I1 P S W IH r [|f] R F; [lia|]. cbn [app m_gen m_pre]. repeat (rewrite <- app_assoc; cbn [app]). cbn [length] in F. rewrite !app_length in F. cbn [length] in F. rewrite !app_length in F. cbn [length] in F. rewrite !app_length in F. cbn [length] in F.
    rewrite (m_ginit_ok i is _ I1). cbn [bind]. rewrite (y_expr_ok c (Y Semi :: ss ++ yx KRp :: ts ++ r) P I). cbn [bind]. rewrite (m_gstep_ok s ss _ S). cbn [bind]. rewrite (IH r f R); [reflexivity|lia].
  - intros c t ts P W IH r [|f] R F; [lia|]. cbn [gopen] in R. cbn [app m_gen m_pre]. rewrite <- app_assoc, (y_paren_ok c _ P). cbn [bind length] in *. rewrite app_length in F. pose proof (ylen c). rewrite (IH r f (rest_any _ r R)); [|lia]. cbn [bind]. apply yelse, R.
  - intros c t e ts es P W IH O W2 IH2 r [|f] R F; [lia|]. cbn [gopen] in R. cbn [app m_gen m_pre]. repeat (rewrite <- app_assoc; cbn [app]). rewrite (y_paren_ok c _ P). cbn [bind length] in *. rewrite !app_length in F. cbn [length] in F. pose proof (ylen c).
    rewrite (IH _ f); [|rewrite O; split; [exact I|discriminate]|lia]. cbn [bind]. rewrite (IH2 r f R); [reflexivity|lia].
  - intros e l ts P N W IH r [|f] R F; [lia|]. cbn [app]. repeat (rewrite <- app_assoc; cbn [app]). rewrite m_gen_case, (y_paren_ok e _ P). cbn [bind length] in *. rewrite !app_length in F. cbn [length] in F. pose proof (ylen e). rewrite (IH r f); [|lia]. cbn [bind]. destruct l; [congruence|reflexivity].
  - intros r [|f] R F; [lia|]. cbn [app m_gens]. rewrite R. reflexivity.
  - intros g l ts ts' W IH W2 IH2 r [|f] R F; [lia|]. rewrite <- app_assoc. cbn [m_gens]. destruct (w_gen_start g ts (ts' ++ r) W) as (_ & B & L). rewrite B. rewrite app_length in F.
    rewrite (IH _ f); [|apply (w_gens_start l ts' r _ W2), ends_rest, R|lia]. cbn [bind]. rewrite (IH2 r f R); [reflexivity|lia].
  - intros r [|f] F; [lia|]. reflexivity.
  - intros es g l ts ts' N P W IH W2 IH2 r [|f] F; [lia|]. rewrite <- app_assoc. cbn [app]. rewrite <- app_assoc. pose proof (y_labels_ok es (ts ++ ts' ++ Y (Kw k_endcase) :: r) N P) as H. pose proof (ylabels es N P) as Lp. rewrite app_length in F. cbn [length] in F. rewrite app_length in F.
    destruct (label_first es N P) as (t & q & Eq & S). rewrite Eq in *. cbn [map app] in *. rewrite (m_gcases_labels f t _ S), H. cbn [bind].
    rewrite (IH _ f); [|apply (w_gcases_start l ts' r _ W2)|cbn [length] in F; lia]. cbn [bind]. rewrite (IH2 r f); [reflexivity|cbn [length] in F; lia].
  - intros g l colon ts ts' C W IH W2 IH2 r [|f] F; [lia|]. cbn [app m_gcases]. rewrite <- !app_assoc. cbn [length] in F. rewrite !app_length in F.
    assert (skip_ycolon (colon ++ ts ++ ts' ++ Y (Kw k_endcase) :: r) = ts ++ ts' ++ Y (Kw k_endcase) :: r) as ->.
    { destruct C as [<-|[<-|[]]]; [|reflexivity]. cbn [app]. destruct (w_gen_start g ts (ts' ++ Y (Kw k_endcase) :: r) W) as (A & _). destruct (A true) as [NC _]. destruct (ts ++ ts' ++ Y (Kw k_endcase) :: r) as [|[[[]| | | | | | | | ]| | | | |] q]; try reflexivity; contradiction. }
    rewrite (IH _ f); [|apply (w_gcases_start l ts' r _ W2)|lia]. cbn [bind]. rewrite (IH2 r f); [reflexivity|lia].
Qed.

(** ** Modules *)
Lemma m_header_ok h p ts r : w_header (h, p) ts -> m_header (ts ++ r) = Ok ((h, p), r).
Proof.
  intros W. inversion W as [k i g p0 gs ps K G P E1 E2]; subst. cbn [app]. rewrite <- !app_assoc. cbn [app m_header]. assert (is_module k = true) as -> by (destruct K as [<-|[<-|[]]]; reflexivity).
  rewrite m_id_ok. cbn [bind]. rewrite (m_plist_ok g gs); [|exact G|destruct P; exact I]. cbn [bind]. rewrite (m_ports_ok p ps); [|exact P|exact I]. reflexivity.
Qed.
Definition module_c (m : mdecl) (ts : list mtk) (_ : w_module same m ts) := forall r f, no_ycolon r -> 2 * length ts + 1 <= f -> m_decl f (ts ++ r) = Ok (m, r).
Definition items_c (l : list (mditem mdecl)) (ts : list mtk) (_ : w_items same l ts) := forall r f, 2 * length ts + 2 <= f -> m_items f (ts ++ M m_endmodule :: r) = Ok (l, M m_endmodule :: r).
Lemma m_top_ok i ts r : w_top same i ts -> (forall o, yrest o r) -> m_top (ts ++ r) = Ok (i, r).
Proof.
  destruct gen_complete as (GC & GS & _). intros [l ts' W|g ts' N W] R.
  - unfold m_top. cbn [app m_pre]. rewrite <- app_assoc. cbn [app]. pose proof (GC _ _ (w_g_region same l ts' W) r (gen_fuel (M m_generate :: ts' ++ M m_endgenerate :: r)) (R _)) as H.
    cbn [app] in H. rewrite <- app_assoc in H. cbn [app] in H. rewrite H; [reflexivity|]. unfold gen_fuel. cbn [length]. rewrite !app_length. cbn [length]. lia.
  - unfold m_top. assert (m_pre (ts' ++ r) = None) as ->.
    { destruct W as [l1 ts1 W| | | | | |]; try contradiction; try reflexivity. destruct W as [|b ts0 W|b ts0 W|l0 ts0 W|l0 ts0 W|w t l0 tt ts0 T W|t l0 tt ts0 D T W|k s ts0 W K|s ts0 W|j ts0 W K]; try reflexivity.
      - destruct T; try reflexivity; contradiction.
      - destruct k; reflexivity.
      - destruct (inst_first j ts0 r W) as (i1 & q & -> & C). destruct i1; destruct q as [|[[[]| | | | | | | | ]| | | | |] q]; try contradiction; reflexivity. }
    rewrite (GC g ts' W r); [|apply R|unfold gen_fuel; rewrite app_length; lia]. cbn [bind]. destruct g; try reflexivity; contradiction.
Qed.
Lemma w_header_first hp ts : w_header hp ts -> exists k q, ts = M k :: q /\ In k [m_module; m_macromodule].
Proof. intros [k i g p0 gs ps K G P]. eexists; eexists; split; [reflexivity|exact K]. Qed.
Lemma w_module_first m ts : w_module same m ts -> exists k q, ts = M k :: q /\ In k [m_module; m_macromodule; m_extern].
Proof.
  destruct 1 as [h p l n hs ts H W E|h p hs H N]; [|eexists; eexists; split; [reflexivity|right; right; left; reflexivity]].
  destruct (w_header_first _ _ H) as (k & q & -> & K). eexists; eexists; split; [reflexivity|]. destruct K as [<-|[<-|[]]]; [left|right; left]; reflexivity.
Qed.
Lemma w_top_first i ts : w_top same i ts -> exists t q, ts = t :: q /\ gstart t.
Proof. intros [l ts' W|g ts' N W]; [eexists; eexists; split; [reflexivity|exact I]|exact (w_gen_first g ts' W)]. Qed.
Lemma items_rest l ts r : w_items same l ts -> forall o, yrest o (ts ++ M m_endmodule :: r).
Proof.
  intros [|i l' t t' W _|n l' t t' W _|m l' t t' W _] o.
  - split; [exact I|intros _; exact I].
  - destruct (w_top_first i t W) as (x & q & -> & S). rewrite <- app_assoc. exact (proj1 (gstart_rest x _ S) o).
  - destruct W; (split; [exact I|intros _; exact I]).
  - destruct (w_module_first m t W) as (k & q & -> & _). split; [exact I|intros _; exact I].
Qed.
Lemma m_items_top f x q : gstart x -> m_items (S f) (x :: q) = '(i, r1) <- m_top (x :: q) ;; '(l, r2) <- m_items f r1 ;; Ok (i :: l, r2).
Proof. intros S. destruct x as [[[]| | | | | | | | []]|[]| | | |]; try contradiction; reflexivity. Qed.
Lemma m_items_module f k q : In k [m_module; m_macromodule; m_extern] -> m_items (S f) (M k :: q) = '(m, r1) <- m_decl f (M k :: q) ;; '(l, r2) <- m_items f r1 ;; Ok (MT_module m :: l, r2).
Proof. intros [<-|[<-|[<-|[]]]]; reflexivity. Qed.
Lemma m_items_port f d q : d <> V_REF -> m_items (S f) (dir_toks (Some d) ++ q) = '(n, r1) <- m_nadecl d q ;; '(l, r2) <- m_items f r1 ;; Ok (MT_ports [] [] n :: l, r2).
Proof. destruct d; try reflexivity. congruence. Qed.
Lemma module_complete : (forall m ts w, module_c m ts w) /\ (forall l ts w, items_c l ts w).
Proof.
  apply w_module_mutind; unfold module_c, items_c.
  - intros h p l n hs ts H W IH E r [|f] C F; [lia|]. destruct (w_header_first _ _ H) as (k & q & Eq & K). repeat (rewrite <- app_assoc; cbn [app]).
    assert (m_decl (S f) (hs ++ ts ++ M m_endmodule :: yname n ++ r) = '(hp, r1) <- m_header (hs ++ ts ++ M m_endmodule :: yname n ++ r) ;; '(l, r2) <- m_items f r1 ;; match r2 with M m_endmodule :: r3 => '(_, r4) <- y_name r3 ;; Ok (MD false (fst hp) (snd hp) l, r4) | _ => no_parse end) as ->.
    { rewrite Eq. cbn [app]. destruct K as [<-|[<-|[]]]; reflexivity. }
    rewrite (m_header_ok h p hs _ H). cbn [bind fst snd]. rewrite !app_length in F. cbn [length] in F. assert (0 < length hs) by (rewrite Eq; cbn [length]; lia). rewrite (IH _ f); [|lia]. cbn [bind]. rewrite (y_name_ok n r C). reflexivity.
  - intros h p hs H N r [|f] C F; [lia|]. cbn [app m_decl]. rewrite (m_header_ok h p hs r H). cbn [bind fst snd]. destruct p; try reflexivity. congruence.
  - intros r [|f] F; [lia|]. reflexivity.
  - intros i l ts ts' W W2 IH r [|f] F; [lia|]. rewrite <- app_assoc. rewrite app_length in F. pose proof (m_top_ok i ts (ts' ++ M m_endmodule :: r) W (fun o => items_rest l ts' r W2 o)) as H.
    destruct (w_top_first i ts W) as (x & q & -> & S). cbn [app length] in *. rewrite (m_items_top f x _ S), H. cbn [bind]. rewrite (IH r f); [reflexivity|lia].
  - intros n l ts ts' W W2 IH r [|f] F; [lia|]. rewrite <- app_assoc. rewrite app_length in F. destruct (m_nadecl_ok n ts (ts' ++ M m_endmodule :: r) W) as (q & -> & H). rewrite <- app_assoc.
    rewrite m_items_port; [|destruct W; discriminate]. rewrite H. cbn [bind]. assert (0 < length (dir_toks (Some (nadecl_dir n)) ++ q)) by (destruct W; cbn [nadecl_dir dir_toks app length]; lia). rewrite (IH r f); [reflexivity|lia].
  - intros m l ts ts' W IH W2 IH2 r [|f] F; [lia|]. rewrite <- app_assoc. rewrite app_length in F. assert (H : m_decl f (ts ++ ts' ++ M m_endmodule :: r) = Ok (m, ts' ++ M m_endmodule :: r)) by (apply IH; [exact (proj1 (items_rest l ts' r W2 true))|lia]).
    destruct (w_module_first m ts W) as (k & q & -> & K). cbn [app length] in *. rewrite (m_items_module f k _ K), H. cbn [bind]. rewrite (IH2 r f); [reflexivity|lia].
Qed.
Lemma w_file_colon l ts : w_file same l ts -> no_ycolon ts.
Proof. intros [|m l' t t' W _]; [exact I|]. destruct (w_module_first m t W) as (k & q & -> & _). exact I. Qed.
Lemma m_source_ok l ts : w_file same l ts -> forall f, 2 * length ts + 2 <= f -> m_source f ts = Ok l.
Proof.
  induction 1 as [|m l ts ts' W W2 IH]; intros [|f] F; try lia; [reflexivity|]. rewrite app_length in F. destruct module_complete as (MC & _).
  assert (H : m_decl f (ts ++ ts') = Ok (m, ts')) by (apply (MC m ts W); [exact (w_file_colon l ts' W2)|lia]). destruct (w_module_first m ts W) as (k & q & -> & _). cbn [app length] in *.
  cbn [m_source]. rewrite H. cbn [bind]. rewrite (IH f); [reflexivity|lia].
Qed.
Theorem parse_file_written l ts : w_file same l ts -> parse_source ts = Ok l.
Proof. intros W. apply m_source_ok; [exact W|]. unfold gen_fuel. lia. Qed.
End Gen.
