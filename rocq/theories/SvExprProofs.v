From Verif Require Import Base BaseFacts AstModel LitModel LitSpec LitProofs SvExprModel SvExprSpec.

(** ** Induction over expressions *)
Definition Forall_fix {A} (P : A -> Prop) (f : forall x, P x) : forall l, Forall P l :=
  fix go l := match l with [] => Forall_nil P | x :: l' => Forall_cons x (f x) (go l') end.
Section Kids.
Context (P : vexpr -> Prop).
Definition k_arg (a : argc vexpr) : Prop := match a with AExpr e => P e | ANamed _ (Some e) => P e | _ => True end.
Definition k_args (a : option (list (argc vexpr))) : Prop := match a with Some l => Forall k_arg l | None => True end.
Definition k_pval (v : pval vexpr) : Prop := match v with PV_expr e => P e | PV_type _ => True end.
Definition k_opval (p : ident * option (pval vexpr)) : Prop := match snd p with Some v => k_pval v | None => True end.
Definition k_pva (v : pva vexpr) : Prop := match v with PVA_ordered l => Forall k_pval l | PVA_named l => Forall k_opval l end.
Definition k_item (it : ident * option (pva vexpr)) : Prop := match snd it with Some v => k_pva v | None => True end.
Definition k_path (p : vpath vexpr) : Prop := match p with VPathOf _ _ l => Forall k_item l end.
Definition k_key (k : pkey vexpr) : Prop := match k with K_expr e => P e | K_path p => k_path p | _ => True end.
Definition k_range (r : option (rangekind * vexpr * vexpr)) : Prop := match r with Some (_, a, b) => P a /\ P b | None => True end.
Definition kids (e : vexpr) : Prop :=
  match e with
  | VLit _ | VTypeRef _ | VUnsupported | VLvPattern _ | VLvStream => True
  | VPath p => k_path p
  | VPar e _ => P e
  | VCast p e | VBitSelect p e => P p /\ P e
  | VDot p _ => P p
  | VRange p _ a b => P p /\ P a /\ P b
  | VConcat l | VPattern l | VLvConcat l | VPatternRepl _ l => Forall P l
  | VRepl n c => P n /\ P c
  | VTfCall _ _ args => k_args args
  | VCall p _ args _ => P p /\ k_args args
  | VMethod p _ | VCallWith p _ _ | VUnary _ p | VIncDec _ _ p => P p
  | VPatternKeys l => Forall (fun kv => k_key (fst kv) /\ P (snd kv)) l
  | VBinary _ a b => P a /\ P b
  | VTernary c a b => P c /\ P a /\ P b
  | VTripleAnd a b => P a /\ P b
  | VLvHier p sel _ r => k_path p /\ Forall P sel /\ k_range r
  end.
Section Build.
Context (f : forall e, P e).
Definition b_arg (a : argc vexpr) : k_arg a :=
  match a with AComma => I | AExpr e => f e | ANamed _ (Some e) => f e | ANamed _ None => I end.
Definition b_args (a : option (list (argc vexpr))) : k_args a := match a with Some l => Forall_fix k_arg b_arg l | None => I end.
Definition b_pval (v : pval vexpr) : k_pval v := match v with PV_expr e => f e | PV_type _ => I end.
Definition b_opval (p : ident * option (pval vexpr)) : k_opval p :=
  match p return k_opval p with (_, Some v) => b_pval v | (_, None) => I end.
Definition b_pva (v : pva vexpr) : k_pva v :=
  match v with PVA_ordered l => Forall_fix k_pval b_pval l | PVA_named l => Forall_fix k_opval b_opval l end.
Definition b_item (it : ident * option (pva vexpr)) : k_item it :=
  match it return k_item it with (_, Some v) => b_pva v | (_, None) => I end.
Definition b_path (p : vpath vexpr) : k_path p := match p with VPathOf _ _ l => Forall_fix k_item b_item l end.
Definition b_key (k : pkey vexpr) : k_key k :=
  match k return k_key k with K_expr e => f e | K_path p => b_path p | K_default => I | K_id _ => I | K_type => I end.
End Build.
End Kids.
Section Ind.
Context (P : vexpr -> Prop) (H : forall e, kids P e -> P e).
Fixpoint vexpr_ind' (e : vexpr) : P e :=
  H e (match e return kids P e with
       | VLit _ | VTypeRef _ | VUnsupported | VLvPattern _ | VLvStream => I
       | VPath p => b_path P vexpr_ind' p
       | VPar e _ => vexpr_ind' e
       | VCast p e => conj (vexpr_ind' p) (vexpr_ind' e)
       | VBitSelect p e => conj (vexpr_ind' p) (vexpr_ind' e)
       | VDot p _ => vexpr_ind' p
       | VRange p _ a b => conj (vexpr_ind' p) (conj (vexpr_ind' a) (vexpr_ind' b))
       | VConcat l | VPattern l | VLvConcat l | VPatternRepl _ l => Forall_fix P vexpr_ind' l
       | VRepl n c => conj (vexpr_ind' n) (vexpr_ind' c)
       | VTfCall _ _ args => b_args P vexpr_ind' args
       | VCall p _ args _ => conj (vexpr_ind' p) (b_args P vexpr_ind' args)
       | VMethod p _ | VCallWith p _ _ | VUnary _ p | VIncDec _ _ p => vexpr_ind' p
       | VPatternKeys l => Forall_fix _ (fun kv => match kv return k_key P (fst kv) /\ P (snd kv) with (k, v) => conj (b_key P vexpr_ind' k) (vexpr_ind' v) end) l
       | VBinary _ a b => conj (vexpr_ind' a) (vexpr_ind' b)
       | VTernary c a b => conj (vexpr_ind' c) (conj (vexpr_ind' a) (vexpr_ind' b))
       | VTripleAnd a b => conj (vexpr_ind' a) (vexpr_ind' b)
       | VLvHier p sel _ r =>
           conj (b_path P vexpr_ind' p) (conj (Forall_fix P vexpr_ind' sel)
             (match r return k_range P r with
              | Some (_, a, b) => conj (vexpr_ind' a) (vexpr_ind' b) | None => I end))
       end).
End Ind.

Section Sim.
Context (A : algebra).
Notation mean := (meaning A).
Notation vmean := (vmeaning A).

Lemma obind_inv {X Y} (a : option X) (f : X -> option Y) y : obind a f = Some y -> exists x, a = Some x /\ f x = Some y.
Proof. destruct a as [x|]; [intros H; exists x; auto|discriminate]. Qed.
Lemma mean_notnull a v : mean a = Some v -> (match a with ENull => [] | _ => [a] end) = [a].
Proof. destruct a; try reflexivity. discriminate. Qed.
Lemma mk2_ok a o b va vb : mean a = Some va -> mean b = Some vb -> mk2 a o b = EOp o [a; b].
Proof. intros Ha Hb. unfold mk2. rewrite (mean_notnull a va Ha), (mean_notnull b vb Hb). reflexivity. Qed.
Lemma mean_notvoid a v : mean a = Some v -> is_void a = false.
Proof. destruct a; try reflexivity. cbn [meaning is_void]. destruct (seqb s $"void"); [discriminate|reflexivity]. Qed.
Lemma mean_notassoc o x y v : mean (EOp o [x; y]) = Some v -> o <> MAP_ASSOCIATION /\ m_slicing o = None.
Proof.
  intros H. split.
  - intros ->. cbn in H. discriminate.
  - destruct o; try reflexivity; cbn in H; discriminate.
Qed.
Lemma mean_index a i va vi : mean a = Some va -> mean i = Some vi -> mean (EOp INDEX [a; i]) = Some (a_binary A Index va vi).
Proof.
  intros Ha Hi. cbn [meaning]. rewrite Ha. cbn [obind]. destruct i as [| | | | | | |o l|]; try (rewrite Hi; reflexivity).
  destruct l as [|y [|z [|w l]]]; try (rewrite Hi; reflexivity).
  destruct (mean_notassoc o y z vi Hi) as (_ & ->). rewrite Hi. reflexivity.
Qed.
Lemma mean_slice a k x y va vx vy : mean a = Some va -> mean x = Some vx -> mean y = Some vy ->
  mean (EOp INDEX [a; EOp (visit_rangekind k) [x; y]]) = Some (a_slice A (v_slicing k) va vx vy).
Proof. intros Ha Hx Hy. destruct k; cbn [meaning visit_rangekind m_slicing v_slicing]; rewrite Ha; cbn [obind]; rewrite Hx, Hy; reflexivity. Qed.
Lemma mean_binop o x y vx vy : o <> B_BI_DIR_ARROW -> mean x = Some vx -> mean y = Some vy ->
  mean (EOp (visit_binop o) [x; y]) = Some (a_binary A (v_binop o) vx vy).
Proof. intros Ho Hx Hy. destruct o; try congruence; cbn [meaning visit_binop m_binop v_binop]; cbn [obind]; rewrite Hx, Hy; reflexivity. Qed.
Lemma mean_concat x y vx vy : mean x = Some vx -> mean y = Some vy -> mean (EOp CONCAT [x; y]) = Some (a_binary A Concat vx vy).
Proof. intros Hx Hy. cbn [meaning m_binop obind]. rewrite Hx, Hy. reflexivity. Qed.
Lemma mean_unop o x vx : mean x = Some vx -> mean (op1 (visit_unop o) x) = Some (a_unary A (v_unop o) vx).
Proof. intros Hx. destruct o; cbn [op1 visit_unop meaning m_unop v_unop]; rewrite Hx; reflexivity. Qed.
Lemma mean_step p i x vx : mean x = Some vx -> mean (op1 (visit_incdec p i) x) = Some (a_step A p i vx).
Proof. intros Hx. destruct p, i; cbn [op1 visit_incdec meaning m_unop m_step]; rewrite Hx; reflexivity. Qed.
Lemma mean_id s : seqb s $"void" = false -> mean (EId s) = Some (a_name A s).
Proof. intros H. cbn [meaning]. rewrite H. reflexivity. Qed.

Definition sim (e : vexpr) : Prop :=
  forall v, vmean e = Some v -> exists a, conv e = Ok a /\ mean a = Some v /\ (null_like e = false -> is_null a = false).

Lemma ident_sim i s : v_ident i = Some s -> visit_ident i = Ok (EId s) /\ seqb s $"void" = false.
Proof.
  destruct i as [t|t]; cbn [v_ident visit_ident ident_str bind]; [|discriminate]. destruct (seqb t $"void") eqn:E; [discriminate|]. intros H. injection H as ->. auto.
Qed.

(** Literals. *)
Lemma base_of_In c b : base_of c = Some b -> In c (letters b).
Proof.
  unfold base_of. intros H. destruct (mem_c c $"bB") eqn:E1; [injection H as <-; apply mem_c_In; exact E1|].
  destruct (mem_c c $"oO") eqn:E2; [injection H as <-; apply mem_c_In; exact E2|].
  destruct (mem_c c $"dD") eqn:E3; [injection H as <-; apply mem_c_In; exact E3|].
  destruct (mem_c c $"hH") eqn:E4; [injection H as <-; apply mem_c_In; exact E4|discriminate].
Qed.
Lemma decimalb_ok s : decimalb s = true -> decimal s.
Proof.
  unfold decimalb, decimal. intros H. apply andb_true_iff in H as (H1 & H2). split.
  - intros ->. discriminate.
  - rewrite forallb_forall in H2. apply Forall_forall. intros c Hc. specialize (H2 c Hc). apply orb_true_iff in H2 as [H2|H2]; [left; exact H2|right; apply ceqb_eq; exact H2].
Qed.
Lemma v_based_inv size t v : v_based A size t = Some v ->
  exists l, vlit_ok l /\ t = spell_based l /\ vl_size l = size /\ v = a_number A (width size) (radix (vl_base l)) (plain (vl_digits l)).
Proof.
  destruct t as [|q [|c ds]]; cbn [v_based]; try discriminate. intros H. apply obind_inv in H as (b & Hb & H).
  destruct (ceqb q "'" && _ && _) eqn:E; [|discriminate]. apply andb_true_iff in E as (E & E3). apply andb_true_iff in E as (E1 & E2).
  apply ceqb_eq in E1. injection H as <-. subst q. exists (mkVlit size None c b ds).
  split; [|split; [reflexivity|split; reflexivity]]. unfold vlit_ok. cbn. split; [|split; [exact I|split; [apply base_of_In; exact Hb|]]].
  - destruct size as [s|]; [|exact I]. apply andb_true_iff in E3 as (E3 & E4). split; [apply decimalb_ok; exact E3|apply Z.leb_le; exact E4].
  - rewrite forallb_forall in E2. apply Forall_forall. exact E2.
Qed.
Lemma cut_at_app c s : let '(a, b) := cut_at c s in s = a ++ b.
Proof. induction s as [|d s IH]; [reflexivity|]. cbn. destruct (ceqb d c); [reflexivity|]. destruct (cut_at c s) as (a, b). cbn. f_equal. exact IH. Qed.
Lemma number_sim t v : v_number A t = Some v -> exists w s b, visit_integral t = Ok (EInt w (Digits s b)) /\ v = a_number A w b s.
Proof.
  destruct t as [t|size t|t]; cbn [v_number]; intros H.
  - pose proof (cut_at_app "'" t) as Hc. destruct (cut_at "'" t) as (s, r). apply v_based_inv in H as (l & Hok & -> & Hs & ->).
    rewrite Hc. do 3 eexists. split; [exact (proj1 (sized_law l s Hok Hs))|reflexivity].
  - apply v_based_inv in H as (l & Hok & -> & Hs & ->). subst size. do 3 eexists. split; [exact (based_tok_law l Hok)|reflexivity].
  - destruct (decimalb t) eqn:E; [|discriminate]. injection H as <-. do 3 eexists. split; [exact (unsigned_law t (decimalb_ok t E))|reflexivity].
Qed.
Lemma lit_sim l v : v_lit A l = Some v -> exists a, visit_lit l = Ok a /\ mean a = Some v /\ (l <> L_NULL -> is_null a = false).
Proof.
  destruct l as [t|t|t|t|t| | |]; cbn [v_lit visit_lit]; intros H; try discriminate.
  - apply number_sim in H as (w & s & b & -> & ->). exists (EInt w (Digits s b)). repeat split.
  - injection H as <-. eexists. repeat split.
  - destruct t as [|q s]; [discriminate|]. destruct (rev s) as [|r s'] eqn:E; [discriminate|].
    destruct (ceqb q dq && ceqb r dq) eqn:E2; [|discriminate]. injection H as <-. apply andb_true_iff in E2 as (E2 & E3).
    apply ceqb_eq in E2, E3. subst. assert (s = rev s' ++ [dq]) as -> by (rewrite <- (rev_involutive s), E; reflexivity).
    rewrite (sv_string_law (rev s')). eexists. repeat split.
  - injection H as <-. eexists. repeat split. intros N. contradiction.
  - injection H as <-. eexists. repeat split.
  - injection H as <-. eexists. repeat split.
Qed.

(** Argument lists. *)
Lemma arg_pos (ab : expr -> bool) a v : mean a = Some v -> ab a = false -> m_arg A ab mean a = Some (None, Some v).
Proof.
  intros H Hab. unfold m_arg. destruct a as [| | | | | | |o l|]; try (rewrite Hab, H; reflexivity).
  destruct (op_eq_dec o MAP_ASSOCIATION) as [->|Ho].
  - destruct l as [|x [|y [|z l]]]; try (cbn in H; discriminate).
    cbn in H. destruct (mean x); discriminate.
  - rewrite Hab, H. destruct o; try reflexivity. contradiction.
Qed.
Lemma arg_named ab k a v : mean a = Some v -> ab a = false -> m_arg A ab mean (EOp MAP_ASSOCIATION [EId k; a]) = Some (Some k, Some v).
Proof. intros H Hab. cbn [m_arg]. rewrite Hab, H. reflexivity. Qed.
Lemma mk2_key k a : a <> ENull -> mk2 (EId k) MAP_ASSOCIATION a = EOp MAP_ASSOCIATION [EId k; a].
Proof. intros H. unfold mk2. destruct a; try reflexivity. contradiction. Qed.
Lemma mean_not_ENull a v : mean a = Some v -> a <> ENull.
Proof. intros H ->. discriminate. Qed.

Lemma complete_cons x y l : complete (x :: y :: l) = complete (y :: l).
Proof. destruct x; reflexivity. Qed.
Lemma args_sim l : Forall (k_arg sim) l ->
  (forall a r, v_args A vmean (Some a) l = Some r -> (l = [] \/ complete l = true) ->
     exists xs r', r = a :: r' /\ conv_args conv false l = Ok xs /\ omapM (m_arg A is_void mean) xs = Some r') /\
  (forall r, v_args A vmean None l = Some r -> complete l = true ->
     exists xs, conv_args conv true l = Ok xs /\ omapM (m_arg A is_void mean) xs = Some r).
Proof.
  induction 1 as [|x l Hx H (IH1 & IH2)]; [split|].
  - intros a r E _. injection E as <-. exists [], []. repeat split.
  - intros r E C. discriminate.
  - assert (forall E C, x = AComma -> complete (x :: l) = true -> v_args A vmean None l = Some E -> C = true ->
      exists xs, conv_args conv true l = Ok xs /\ omapM (m_arg A is_void mean) xs = Some E) as Hcomma.
    { intros E C -> Hc HE _. apply IH2; [exact HE|]. destruct l as [|y l]; [discriminate|]. rewrite complete_cons in Hc. exact Hc. }
    assert (complete (x :: l) = true -> l = [] \/ complete l = true) as Hrest.
    { intros Hc. destruct l as [|y l]; [left; reflexivity|right]. rewrite complete_cons in Hc. exact Hc. }
    split.
    + intros a r E [N|C]; [discriminate|]. destruct x as [|e|n [e|]]; cbn [v_args] in E; try discriminate.
      apply obind_inv in E as (r' & E & E'). injection E' as <-.
      destruct (Hcomma r' true eq_refl C E eq_refl) as (xs & E1 & E2). cbn [conv_args]. rewrite E1. cbn [bind].
      exists xs, r'. repeat split; auto.
    + intros r E C. destruct x as [|e|n [e|]]; cbn [v_args] in E.
      * apply obind_inv in E as (r' & E & E'). injection E' as <-.
        destruct (Hcomma r' true eq_refl C E eq_refl) as (xs & E1 & E2). cbn [conv_args]. rewrite E1. cbn [bind].
        eexists. split; [reflexivity|]. change (omapM (m_arg A is_void mean) (EId $"void" :: xs)) with
          (y <~ m_arg A is_void mean (EId $"void") ;; r <~ omapM (m_arg A is_void mean) xs ;; Some (y :: r)).
        rewrite E2. reflexivity.
      * apply obind_inv in E as (v & E & E'). destruct (Hx v E) as (a & Ha & Hm & _).
        destruct (IH1 _ _ E' (Hrest C)) as (xs & r' & -> & E1 & E2). cbn [conv_args]. rewrite Ha. cbn [bind]. rewrite E1. cbn [bind].
        eexists. split; [reflexivity|]. cbn [omapM]. rewrite (arg_pos is_void a v Hm (mean_notvoid a v Hm)). cbn [obind]. rewrite E2. reflexivity.
      * apply obind_inv in E as (k & Ek & E). apply obind_inv in E as (v & E & E'). destruct (Hx v E) as (a & Ha & Hm & _).
        destruct (ident_sim n k Ek) as (Hk & _).
        destruct (IH1 _ _ E' (Hrest C)) as (xs & r' & -> & E1 & E2). cbn [conv_args]. rewrite Hk. cbn [bind]. rewrite Ha. cbn [bind]. rewrite E1. cbn [bind].
        eexists. split; [reflexivity|]. rewrite mk2_key by (eapply mean_not_ENull; exact Hm). cbn [omapM].
        rewrite (arg_named is_void k a v Hm (mean_notvoid a v Hm)). cbn [obind]. rewrite E2. reflexivity.
      * apply obind_inv in E as (k & Ek & E). destruct (ident_sim n k Ek) as (Hk & _).
        destruct (IH1 _ _ E (Hrest C)) as (xs & r' & -> & E1 & E2). cbn [conv_args]. rewrite Hk. cbn [bind]. rewrite E1. cbn [bind].
        eexists. split; [reflexivity|]. change (mk2 (EId k) MAP_ASSOCIATION (EId $"void")) with (EOp MAP_ASSOCIATION [EId k; EId $"void"]).
        cbn [omapM]. change (m_arg A is_void mean (EOp MAP_ASSOCIATION [EId k; EId $"void"])) with (Some (Some k, @None (V A))). cbn [obind]. rewrite E2. reflexivity.
Qed.
Lemma arglist_sim l r : Forall (k_arg sim) l -> v_arglist A vmean l = Some r ->
  exists xs, conv_args conv true l = Ok xs /\ omapM (m_arg A is_void mean) xs = Some r.
Proof. intros H. unfold v_arglist. destruct (complete l) eqn:C; [|discriminate]. intros E. exact (proj2 (args_sim l H) r E C). Qed.

(** Parameter values. *)
Lemma pval_sim p v : k_pval sim p -> v_pval A vmean p = Some v -> exists a, conv_pval conv p = Ok a /\ mean a = Some v /\ is_null a = false.
Proof.
  destruct p as [e|t]; cbn [v_pval conv_pval k_pval]; [|discriminate]. intros H. destruct (null_like e) eqn:N; [discriminate|].
  intros E. destruct (H v E) as (a & Ha & Hm & Hn). exists a. repeat split; auto.
Qed.
Lemma pva_sim p r : k_pva sim p -> v_pva A vmean p = Some r ->
  exists xs, conv_pva conv p = Ok xs /\ omapM (m_arg A is_null mean) xs = Some r.
Proof.
  destruct p as [l|l]; cbn [k_pva v_pva conv_pva]; intros H; revert r.
  - induction H as [|p l Hp H IH]; intros r E.
    + injection E as <-. exists []. split; reflexivity.
    + cbn [omapM] in E. apply obind_inv in E as (y & Ey & E). apply obind_inv in E as (r' & Er & E). injection E as <-.
      apply obind_inv in Ey as (v & Ev & Ey). injection Ey as <-. destruct (pval_sim p v Hp Ev) as (a & Ha & Hm & Hn).
      destruct (IH r' Er) as (xs & Hxs & Hr). cbn [mapM]. rewrite Ha. cbn [bind]. rewrite Hxs. cbn [bind].
      eexists. split; [reflexivity|]. cbn [omapM]. rewrite (arg_pos is_null a v Hm Hn). cbn [obind]. rewrite Hr. reflexivity.
  - induction H as [|p l Hp H IH]; intros r E.
    + injection E as <-. exists []. split; reflexivity.
    + cbn [omapM] in E. apply obind_inv in E as (y & Ey & E). apply obind_inv in E as (r' & Er & E). injection E as <-.
      apply obind_inv in Ey as (k & Ek & Ey). destruct (ident_sim _ k Ek) as (Hk & _).
      destruct (IH r' Er) as (xs & Hxs & Hr). destruct p as (i, [p|]); cbn [fst snd] in *.
      * apply obind_inv in Ey as (v & Ev & Ey). injection Ey as <-. destruct (pval_sim p v Hp Ev) as (a & Ha & Hm & Hn).
        cbn [mapM fst snd]. rewrite Hk. cbn [bind]. rewrite Ha. cbn [bind]. rewrite Hxs. cbn [bind].
        eexists. split; [reflexivity|]. rewrite mk2_key by (eapply mean_not_ENull; exact Hm). cbn [omapM].
        rewrite (arg_named is_null k a v Hm Hn). cbn [obind]. rewrite Hr. reflexivity.
      * injection Ey as <-. cbn [mapM fst snd]. rewrite Hk. cbn [bind]. rewrite Hxs. cbn [bind].
        eexists. split; [reflexivity|]. change (mk2 (EId k) MAP_ASSOCIATION (ESym symb_NULL)) with (EOp MAP_ASSOCIATION [EId k; ESym symb_NULL]).
        cbn [omapM m_arg is_null obind]. rewrite Hr. reflexivity.
Qed.

(** Paths. *)
Definition osim (x : option expr) (v : option (V A)) : Prop :=
  match x, v with Some a, Some w => mean a = Some w /\ is_null a = false | None, None => True | _, _ => False end.
Lemma scope_sim x v s : osim x v -> seqb s $"void" = false ->
  mean (append_expr x DOUBLE_COLON (EId s)) = Some (match v with Some w => a_scope A w s | None => a_name A s end) /\
  is_null (append_expr x DOUBLE_COLON (EId s)) = false.
Proof.
  intros H Hs. destruct x as [a|], v as [w|]; cbn in H; try contradiction; cbn [append_expr].
  - destruct H as (H & _). split; [|reflexivity]. unfold op2. cbn [meaning]. rewrite H. reflexivity.
  - split; [exact (mean_id s Hs)|reflexivity].
Qed.
Lemma item_sim it x v w : k_item sim it -> osim x v -> v_item A vmean v it = Some w ->
  exists a, conv_item conv x it = Ok a /\ mean a = Some w /\ is_null a = false.
Proof.
  intros Hk Hx E. unfold v_item in E. apply obind_inv in E as (s & Es & E). destruct (ident_sim _ s Es) as (Hi & Hs).
  unfold conv_item. rewrite Hi. cbn [bind]. destruct (scope_sim x v s Hx Hs) as (Hm & Hn).
  destruct it as (i, [p|]); cbn [snd k_item] in *.
  - apply obind_inv in E as (l & El & E). injection E as <-. destruct (pva_sim p l Hk El) as (xs & -> & Hxs). cbn [bind].
    eexists. split; [reflexivity|]. split; [|reflexivity]. cbn [call_op meaning]. rewrite Hm. cbn [obind]. rewrite Hxs. reflexivity.
  - injection E as <-. eexists. split; [reflexivity|]. split; assumption.
Qed.
Lemma items_sim l : Forall (k_item sim) l -> forall x v w, osim x v -> v_items A vmean v l = Some w ->
  exists y, conv_items conv x l = Ok y /\ osim y w /\ (l <> [] \/ x <> None -> y <> None).
Proof.
  induction 1 as [|it l Hi H IH]; intros x v w Hx E.
  - injection E as <-. exists x. repeat split; auto. intros [N|N]; [contradiction|exact N].
  - cbn [v_items] in E. apply obind_inv in E as (u & Eu & E). destruct (item_sim it x v u Hi Hx Eu) as (a & Ha & Hm & Hn).
    destruct (IH (Some a) (Some u) w (conj Hm Hn) E) as (y & Hy & Ho & Hs). cbn [conv_items]. rewrite Ha. cbn [bind].
    exists y. repeat split; auto. intros _. apply Hs. right. discriminate.
Qed.
Lemma path_sim p v : k_path sim p -> v_path A vmean p = Some v -> exists a, conv_path conv p = Ok a /\ mean a = Some v /\ is_null a = false.
Proof.
  destruct p as [local h items]. cbn [k_path]. intros Hk E. unfold v_path in E. unfold conv_path.
  set (x0 := if local then Some (EId $"local") else None) in *.
  set (v0 := if local then Some (a_name A $"local") else None) in *.
  assert (osim x0 v0) as H0 by (destruct local; cbn; auto).
  assert (forall s, seqb s $"void" = false -> osim (Some (append_expr x0 DOUBLE_COLON (EId s))) (Some (match v0 with Some x => a_scope A x s | None => a_name A s end))) as Hu
    by (intros s Hs; exact (scope_sim x0 v0 s H0 Hs)).
  match type of E with context [match h with H_none => v0 | _ => _ end] => set (v1 := match h with H_none => v0 | _ => _ end) in * end.
  assert (exists x1, osim x1 v1 /\ x1 = match h with
     | H_none => x0 | H_root => Some (append_expr x0 DOUBLE_COLON (EId $"$root")) | H_unit => Some (append_expr x0 DOUBLE_COLON (EId $"$unit"))
     | H_this => Some (append_expr x0 DOUBLE_COLON (EId $"this")) | H_super => Some (append_expr x0 DOUBLE_COLON (EId $"super"))
     | H_this_super => Some (op2 DOT (append_expr x0 DOUBLE_COLON (EId $"this")) (EId $"super")) end) as (x1 & H1 & E1).
  { eexists. split; [|reflexivity]. unfold v1. destruct h; try (apply Hu; reflexivity); [exact H0|].
    pose proof (Hu $"this" eq_refl) as Ht. cbn [osim] in *. destruct Ht as (Ht & _). split; [|reflexivity]. unfold op2. cbn [meaning]. rewrite Ht. reflexivity. }
  rewrite <- E1.
  assert (obind (v_items A vmean v1 items) (fun r => r) = Some v) as E' by (destruct h, items; try exact E; discriminate).
  apply obind_inv in E' as (w & Ew & ->). destruct (items_sim items Hk x1 v1 (Some v) H1 Ew) as (y & Hy & Ho & _).
  assert (match h, items with H_none, [] => False | _, _ => True end) as Hne by (destruct h, items; try exact I; discriminate).
  destruct y as [a|]; [|destruct Ho]. exists a.
  split; [|exact Ho]. rewrite Hy. cbn [bind]. destruct h, items; try reflexivity; contradiction.
Qed.
Lemma selects_sim l : Forall sim l -> forall a v w, mean a = Some v -> is_null a = false -> v_selects A vmean v l = Some w ->
  exists b, conv_selects conv a l = Ok b /\ mean b = Some w /\ is_null b = false.
Proof.
  induction 1 as [|e l He H IH]; intros a v w Ha Hn E.
  - injection E as <-. exists a. repeat split; auto.
  - cbn [v_selects] in E. apply obind_inv in E as (i & Ei & E). destruct (He i Ei) as (x & Hx & Hm & _).
    cbn [conv_selects]. rewrite Hx. cbn [bind]. rewrite (mk2_ok a INDEX x v i Ha Hm).
    apply (IH _ _ _ (mean_index a x v i Ha Hm) eq_refl E).
Qed.
Lemma list_sim l : Forall sim l -> forall r, omapM vmean l = Some r -> exists xs, mapM conv l = Ok xs /\ Forall2 (fun a v => mean a = Some v) xs r.
Proof.
  induction 1 as [|e l He H IH]; intros r E.
  - injection E as <-. exists []. split; [reflexivity|constructor].
  - cbn [omapM] in E. apply obind_inv in E as (v & Ev & E). apply obind_inv in E as (r' & Er & E). injection E as <-.
    destruct (He v Ev) as (a & Ha & Hm & _). destruct (IH r' Er) as (xs & Hxs & HF). cbn [mapM]. rewrite Ha. cbn [bind]. rewrite Hxs. cbn [bind].
    eexists. split; [reflexivity|]. constructor; assumption.
Qed.
Lemma reduce_sim : forall xs r a v, Forall2 (fun a v => mean a = Some v) xs r -> mean a = Some v ->
  mean (fold_left (fun acc p => mk2 acc CONCAT p) xs a) = Some (fold_left (a_binary A Concat) r v).
Proof.
  intros xs r a v H. revert a v. induction H as [|x w xs r Hx H IH]; intros a v Ha; [exact Ha|]. cbn [fold_left].
  apply IH. rewrite (mk2_ok a CONCAT x v w Ha Hx). apply mean_concat; assumption.
Qed.
Lemma concat_sim xs r v : Forall2 (fun a v => mean a = Some v) xs r -> concat A r = Some v -> mean (reduce xs CONCAT) = Some v.
Proof. intros H. destruct H as [|x w xs r Hx H]; [discriminate|]. intros E. injection E as <-. exact (reduce_sim xs r x w H Hx). Qed.
Lemma reduce_null xs x y : is_null (reduce (x :: y :: xs) CONCAT) = false.
Proof.
  cbn [reduce fold_left]. generalize (mk2 x CONCAT y) (eq_refl : is_null (mk2 x CONCAT y) = false).
  induction xs as [|z xs IH]; intros e He; [exact He|]. cbn [fold_left]. apply IH. reflexivity.
Qed.
Lemma concat_list_sim l v : Forall sim l -> (r <~ omapM vmean l ;; concat A r) = Some v ->
  exists a, (r <- mapM conv l ;; Ok (reduce r CONCAT)) = Ok a /\ mean a = Some v /\
    ((match l with [x] => null_like x | _ => false end) = false -> is_null a = false).
Proof.
  intros H E. apply obind_inv in E as (r & Er & E). destruct (list_sim l H r Er) as (xs & Hxs & HF). rewrite Hxs. cbn [bind].
  eexists. split; [reflexivity|]. split; [exact (concat_sim xs r v HF E)|]. intros Hn.
  destruct l as [|x [|y l]].
  - cbn in Er. injection Er as <-. discriminate.
  - inversion H as [|? ? Hx _]; subst. cbn [omapM] in Er. apply obind_inv in Er as (w & Ew & _). destruct (Hx w Ew) as (a & Ha & _ & Hna).
    cbn [mapM] in Hxs. rewrite Ha in Hxs. cbn in Hxs. injection Hxs as <-. exact (Hna Hn).
  - cbn [omapM] in Er. apply obind_inv in Er as (w & _ & Er). apply obind_inv in Er as (q & Er & Eq). injection Eq as <-.
    apply obind_inv in Er as (w' & _ & Er). apply obind_inv in Er as (q' & _ & Eq). injection Eq as <-.
    inversion HF as [|? ? ? ? _ HF']; subst. inversion HF' as [|? ? ? ? _ _]; subst. apply reduce_null.
Qed.
Lemma key_sim k v : k_key sim k -> v_key A vmean k = Some v -> exists a, conv_key conv k = Ok a /\ mean a = Some v.
Proof.
  destruct k as [|i|e| |p]; cbn [k_key v_key conv_key]; intros H E; try discriminate.
  - injection E as <-. eexists. split; reflexivity.
  - apply obind_inv in E as (s & Es & E). injection E as <-. destruct (ident_sim i s Es) as (-> & Hs). eexists. split; [reflexivity|]. apply mean_id. exact Hs.
  - destruct (H v E) as (a & Ha & Hm & _). eauto.
  - destruct (path_sim p v H E) as (a & Ha & Hm & _). eauto.
Qed.
Lemma elem_plain a v : mean a = Some v -> m_elem A mean a = Some (None, v).
Proof.
  intros H. unfold m_elem. destruct a as [| | | | | | |o l|]; try (rewrite H; reflexivity).
  destruct (op_eq_dec o MAP_ASSOCIATION) as [->|Ho].
  - destruct l as [|x [|y [|z l]]]; try (cbn in H; discriminate). cbn in H. destruct (mean x); discriminate.
  - destruct o; try (rewrite H; reflexivity). contradiction.
Qed.
Lemma pattern_sim l r : Forall sim l -> omapM (fun e => x <~ vmean e ;; Some (None, x)) l = Some r ->
  exists xs, mapM conv l = Ok xs /\ omapM (m_elem A mean) xs = Some r.
Proof.
  intros H. revert r. induction H as [|e l He H IH]; intros r E.
  - injection E as <-. exists []. split; reflexivity.
  - cbn [omapM] in E. apply obind_inv in E as (y & Ey & E). apply obind_inv in E as (r' & Er & E). injection E as <-.
    apply obind_inv in Ey as (v & Ev & Ey). injection Ey as <-.
    destruct (He v Ev) as (a & Ha & Hm & _). destruct (IH r' Er) as (xs & Hxs & HF). cbn [mapM]. rewrite Ha. cbn [bind]. rewrite Hxs. cbn [bind].
    eexists. split; [reflexivity|]. cbn [omapM]. rewrite (elem_plain a v Hm). cbn [obind]. rewrite HF. reflexivity.
Qed.
Lemma pattern_keys_sim (l : list (pkey vexpr * vexpr)) r : Forall (fun kv => k_key sim (fst kv) /\ sim (snd kv)) l ->
  omapM (fun kv => k <~ v_key A vmean (fst kv) ;; x <~ vmean (snd kv) ;; Some (Some k, x)) l = Some r ->
  exists ks xs, mapM (fun kv => conv_key conv (fst kv)) l = Ok ks /\ mapM (fun kv => conv (snd kv)) l = Ok xs /\
    omapM (m_elem A mean) (map (fun kx => mk2 (fst kx) MAP_ASSOCIATION (snd kx)) (combine ks xs)) = Some r.
Proof.
  intros H. revert r. induction H as [|kv l (Hk & He) H IH]; intros r E.
  - injection E as <-. exists [], []. repeat split.
  - cbn [omapM] in E. apply obind_inv in E as (y & Ey & E). apply obind_inv in E as (r' & Er & E). injection E as <-.
    apply obind_inv in Ey as (k & Ek & Ey). apply obind_inv in Ey as (v & Ev & Ey). injection Ey as <-.
    destruct (key_sim _ k Hk Ek) as (b & Hb & Hmb). destruct (He v Ev) as (a & Ha & Hm & _).
    destruct (IH r' Er) as (ks & xs & Hks & Hxs & HF). cbn [mapM]. rewrite Ha, Hb. cbn [bind]. rewrite Hks, Hxs. cbn [bind].
    do 2 eexists. split; [reflexivity|]. split; [reflexivity|]. cbn [combine map fst snd omapM].
    rewrite (mk2_ok b MAP_ASSOCIATION a k v Hmb Hm). cbn [m_elem]. rewrite Hmb, Hm. cbn [obind]. rewrite HF. reflexivity.
Qed.

Theorem conv_sim e : sim e.
Proof.
  apply vexpr_ind'. clear e. intros e K v E. destruct e; cbn [kids] in K; cbn [vmeaning] in E; try discriminate.
  - destruct (lit_sim l v E) as (a & Ha & Hm & Hn). exists a. cbn [conv]. repeat split; auto. intros N. apply Hn. intros ->. discriminate.
  - destruct (path_sim p v K E) as (a & Ha & Hm & Hn). exists a. cbn [conv]. repeat split; auto.
  - destruct typ_max; [discriminate|]. destruct (K v E) as (a & Ha & Hm & Hn). exists a. cbn [conv]. repeat split; auto.
  - destruct K as (K1 & K2). apply obind_inv in E as (x & Ex & E). apply obind_inv in E as (i & Ei & E). injection E as <-.
    destruct (K1 x Ex) as (a & Ha & Hma & _). destruct (K2 i Ei) as (b & Hb & Hmb & _). cbn [conv]. rewrite Ha. cbn [bind]. rewrite Hb. cbn [bind].
    eexists. split; [reflexivity|]. pose proof (mk2_ok a INDEX b x i Hma Hmb) as M.
    destruct a; try (rewrite M; split; [apply mean_index; assumption|reflexivity]). discriminate.
  - apply obind_inv in E as (x & Ex & E). apply obind_inv in E as (s & Es & E). injection E as <-. destruct (ident_sim i s Es) as (Hi & Hs).
    destruct (K x Ex) as (a & Ha & Hma & _). cbn [conv]. rewrite Ha. cbn [bind]. rewrite Hi. cbn [bind].
    eexists. split; [reflexivity|]. pose proof (mk2_ok a DOT (EId s) x _ Hma (mean_id s Hs)) as M.
    destruct a; try (rewrite M; split; [cbn [meaning] in *; rewrite Hma; reflexivity|reflexivity]). discriminate.
  - destruct K as (K1 & K2 & K3). apply obind_inv in E as (x & Ex & E). apply obind_inv in E as (y & Ey & E). apply obind_inv in E as (z & Ez & E). injection E as <-.
    destruct (K1 x Ex) as (a & Ha & Hma & _). destruct (K2 y Ey) as (b & Hb & Hmb & _). destruct (K3 z Ez) as (c & Hc & Hmc & _).
    cbn [conv]. rewrite Ha. cbn [bind]. rewrite Hb. cbn [bind]. rewrite Hc. cbn [bind]. rewrite (mk2_ok b _ c y z Hmb Hmc).
    eexists. split; [reflexivity|]. pose proof (mean_slice a k b c x y z Hma Hmb Hmc) as M.
    assert (forall q, mk2 a INDEX (EOp q [b; c]) = EOp INDEX [a; EOp q [b; c]]) as Mk by (intros q; unfold mk2; rewrite (mean_notnull a x Hma); reflexivity).
    rewrite Mk. destruct a; try (split; [exact M|reflexivity]). discriminate.
  - destruct (concat_list_sim l v K E) as (a & Ha & Hm & Hn). exists a. cbn [conv]. repeat split; auto.
  - destruct K as (K1 & K2). apply obind_inv in E as (x & Ex & E). apply obind_inv in E as (i & Ei & E). injection E as <-.
    destruct (K1 x Ex) as (a & Ha & Hma & _). destruct (K2 i Ei) as (b & Hb & Hmb & _). cbn [conv]. rewrite Ha. cbn [bind]. rewrite Hb. cbn [bind].
    eexists. split; [reflexivity|]. rewrite (mk2_ok a REPL_CONCAT b x i Hma Hmb). split; [|reflexivity]. cbn [meaning m_binop obind]. rewrite Hma, Hmb. reflexivity.
  - destruct dt; [discriminate|]. apply obind_inv in E as (s & Es & E). apply obind_inv in E as (r & Er & E). injection E as <-.
    destruct (ident_sim _ s Es) as (Hi & Hs). cbn in Hi. injection Hi as ->.
    assert (exists xs, conv_opt_args conv args = Ok xs /\ omapM (m_arg A is_void mean) xs = Some r) as (xs & Hxs & Hr).
    { destruct args as [l|]; cbn [k_args] in K; [exact (arglist_sim l r K Er)|]. injection Er as <-. exists []. split; reflexivity. }
    cbn [conv]. rewrite Hxs. cbn [bind]. eexists. split; [reflexivity|]. split; [|reflexivity].
    cbn [opt_l app call_op meaning]. rewrite Hs. cbn [obind]. rewrite Hr. reflexivity.
  - destruct method; [discriminate|]. destruct args as [l|]; [|discriminate]. destruct with_; [discriminate|]. destruct K as (K1 & K2).
    apply obind_inv in E as (x & Ex & E). apply obind_inv in E as (r & Er & E). injection E as <-.
    destruct (K1 x Ex) as (a & Ha & Hma & _). destruct (arglist_sim l r K2 Er) as (xs & Hxs & Hr). cbn [conv]. rewrite Ha. cbn [bind]. rewrite Hxs. cbn [bind].
    eexists. split; [reflexivity|]. split; [|reflexivity]. cbn [call_op meaning]. rewrite Hma. cbn [obind]. rewrite Hr. reflexivity.
  - apply obind_inv in E as (r & Er & E). injection E as <-. destruct (pattern_sim l r K Er) as (xs & Hxs & Hr). cbn [conv]. rewrite Hxs. cbn [bind].
    eexists. split; [reflexivity|]. split; [|reflexivity]. cbn [meaning]. rewrite Hr. reflexivity.
  - apply obind_inv in E as (r & Er & E). injection E as <-. destruct (pattern_keys_sim l r K Er) as (ks & xs & Hks & Hxs & Hr).
    cbn [conv]. rewrite Hxs. cbn [bind]. rewrite Hks. cbn [bind].
    eexists. split; [reflexivity|]. split; [|reflexivity]. cbn [meaning]. rewrite Hr. reflexivity.
  - apply obind_inv in E as (x & Ex & E). injection E as <-. destruct (K x Ex) as (a & Ha & Hma & _). cbn [conv]. rewrite Ha. cbn [bind].
    eexists. split; [reflexivity|]. split; [apply mean_unop; exact Hma|reflexivity].
  - apply obind_inv in E as (x & Ex & E). injection E as <-. destruct (K x Ex) as (a & Ha & Hma & _). cbn [conv]. rewrite Ha. cbn [bind].
    eexists. split; [reflexivity|]. split; [apply mean_step; exact Hma|reflexivity].
  - destruct K as (K1 & K2). assert (o <> B_BI_DIR_ARROW) as Ho by (intros ->; discriminate).
    assert ((x <~ vmean e1 ;; y <~ vmean e2 ;; Some (a_binary A (v_binop o) x y)) = Some v) as E' by (destruct o; try exact E; discriminate). clear E.
    apply obind_inv in E' as (x & Ex & E). apply obind_inv in E as (y & Ey & E). injection E as <-.
    destruct (K1 x Ex) as (a' & Ha & Hma & _). destruct (K2 y Ey) as (b' & Hb & Hmb & _). cbn [conv]. rewrite Ha. cbn [bind]. rewrite Hb. cbn [bind].
    eexists. split; [reflexivity|]. rewrite (mk2_ok a' _ b' x y Hma Hmb). split; [apply mean_binop; assumption|reflexivity].
  - destruct K as (K1 & K2 & K3). apply obind_inv in E as (z & Ez & E). apply obind_inv in E as (x & Ex & E). apply obind_inv in E as (y & Ey & E). injection E as <-.
    destruct (K1 z Ez) as (c & Hc & Hmc & _). destruct (K2 x Ex) as (a & Ha & Hma & _). destruct (K3 y Ey) as (b & Hb & Hmb & _).
    cbn [conv]. rewrite Hc. cbn [bind]. rewrite Ha. cbn [bind]. rewrite Hb. cbn [bind].
    eexists. split; [reflexivity|]. pose proof (mean_not_ENull b y Hmb) as N.
    assert (ternary c a (match b with ENull => None | _ => Some b end) = EOp TERNARY [c; a; b]) as -> by (destruct b; try reflexivity; contradiction).
    split; [|reflexivity]. cbn [meaning]. rewrite Hmc, Hma, Hmb. reflexivity.
  - cbn [conv]. destruct l as [|x [|y l]].
    + discriminate.
    + inversion K as [|? ? Hx _]; subst. cbn [omapM] in E. destruct (vmean x) as [w|] eqn:Ew; [|discriminate]. cbn in E. injection E as <-. exact (Hx w Ew).
    + destruct (concat_list_sim (x :: y :: l) v K E) as (a & Ha & Hm & Hn). exists a. repeat split; auto.
  - destruct dots; [|discriminate]. destruct K as (K1 & K2 & K3). apply obind_inv in E as (x & Ex & E). apply obind_inv in E as (y & Ey & E).
    destruct (path_sim p x K1 Ex) as (a & Ha & Hma & Hna). destruct (selects_sim sel K2 a x y Hma Hna Ey) as (b & Hb & Hmb & Hnb).
    cbn [conv]. rewrite Ha. cbn [bind]. rewrite Hb. cbn [bind]. destruct r as [((k, s), t)|].
    + destruct K3 as (K3 & K4). apply obind_inv in E as (vs & Es & E). apply obind_inv in E as (vt & Et & E). injection E as <-.
      destruct (K3 vs Es) as (s' & Hs & Hms & _). destruct (K4 vt Et) as (t' & Ht & Hmt & _). rewrite Hs. cbn [bind]. rewrite Ht. cbn [bind].
      eexists. split; [reflexivity|]. rewrite (mk2_ok s' _ t' vs vt Hms Hmt).
      assert (forall q, mk2 b INDEX (EOp q [s'; t']) = EOp INDEX [b; EOp q [s'; t']]) as -> by (intros q; unfold mk2; rewrite (mean_notnull b y Hmb); reflexivity).
      split; [apply mean_slice; assumption|reflexivity].
    + injection E as <-. exists b. repeat split; auto.
Qed.
End Sim.
