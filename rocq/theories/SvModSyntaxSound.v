(** Only files are parsed, and the parser always comes to an end. *)
From Verif Require Import Base BaseFacts LitModel AstModel StmModel SvExprModel SvStmModel SvTypeModel SvDeclModel SvTfModel SvGenModel SvFileModel.
From Verif Require Import SvSyntaxModel SvSyntaxSpec SvSyntaxProofs SvSyntaxComplete SvStmSyntaxModel SvStmSyntaxSpec SvLvalueProofs SvStmSyntaxComplete SvStmSyntaxSound SvModSyntaxModel SvModSyntaxSpec SvModSyntaxComplete SvModReadSpec.

Definition n3 (ts : list mtk) : Prop := ~ In (yx KAnd3) ts.
Lemma n3_app a b : n3 (a ++ b) -> n3 b.
Proof. intros N H. apply N, in_or_app. right. exact H. Qed.
Lemma n3_cons t b : n3 (t :: b) -> n3 b.
Proof. intros N H. apply N. right. exact H. Qed.
Lemma n3_Y a b : n3 (map Y a ++ b) -> no3 a.
Proof. intros N H. apply N, in_or_app. left. exact (in_map Y _ _ H). Qed.
(** As in SvStmSyntaxSound.v. *)
Definition gets {A : Type} (k : nat) (W : A -> list mtk -> Prop) (u : list mtk) (o : outcome (A * list mtk)) : Prop :=
  match o with
  | Ok (a, r) => length r + k <= length u /\ (n3 u -> exists q, u = q ++ r /\ W a q)
  | Throw _ => True
  | _ => False
  end.
Lemma gets_bind {A B : Type} k (W : A -> list mtk -> Prop) u m j (W' : B -> list mtk -> Prop) ts f :
  gets k W u m -> (forall a q r, length r + k <= length u -> (n3 u -> u = q ++ r /\ W a q) -> m = Ok (a, r) -> gets j W' ts (f (a, r))) -> gets j W' ts (bind m f).
Proof.
  intros H F. destruct m as [[a r]| | |]; cbn [bind]; try exact H; try exact I. destruct H as [L H]. apply (F a (firstn (length u - length r) u) r); [exact L| |reflexivity].
  intros N. destruct (H N) as (q & -> & Q). rewrite app_length, Nat.add_sub, firstn_app, Nat.sub_diag, firstn_all. cbn [firstn]. rewrite app_nil_r. auto.
Qed.
Lemma gets_weak {A : Type} k k' (W W' : A -> list mtk -> Prop) u o : gets k W u o -> k' <= k -> (forall a q, W a q -> W' a q) -> gets k' W' u o.
Proof. destruct o as [[a r]| | |]; cbn [gets]; auto. intros [L H] K I. split; [lia|]. intros N. destruct (H N) as (q & E & Q). eauto. Qed.
Ltac use ::= repeat match goal with
  | H : n3 ?l -> _ /\ _, N : n3 ?l |- _ => let E := fresh "E" in let W := fresh "W" in destruct (H N) as [E W]; clear H; rewrite E in N; apply n3_app in N; try (subst l)
  | W : ?q = _ /\ _ |- _ => let E := fresh "E" in destruct W as [E W]; subst q
  | N : n3 (_ :: _) |- _ => apply n3_cons in N
  | N : n3 (_ ++ _) |- _ => apply n3_app in N
  end.
Ltac next L ::= eapply (gets_bind _ _ _ _ _ _ _ _ L); let a := fresh "a" in let q := fresh "q" in let r := fresh "r" in let LE := fresh "LE" in let H := fresh "H" in let EQ := fresh "EQ" in
  intros a q r LE H EQ; cbn beta iota.
Ltac xtok r := destruct r as [|[[[]| | | | | | | |]| | | | |] r]; try exact I.
Ltac lens ::= cbn [length] in *; rewrite ?app_length in *; cbn [length] in *; lia.
Ltac ands := repeat match goal with H : _ && _ = true |- _ => apply Bool.andb_true_iff in H as [? H] end.
Ltac fits := match goal with W : ?t = true -> ?P, H : ?t = true |- ?P => exact (W H) | |- _ => assumption | |- _ => auto end.

(** ** Expressions and statements *)
Lemma g_with {A : Type} k (W : A -> list stk -> Prop) p ts : (forall u, reads k W u (p u)) -> gets k (fun a q => exists q', q = map Y q' /\ W a q') ts (y_with p ts).
Proof.
  intros R. unfold y_with. destruct (ysplit ts) as [ys rest] eqn:E. apply ysplit_inv in E. subst ts. specialize (R ys). destruct (p ys) as [[x r]| | |]; cbn [bind]; try exact R. destruct R as [L R]. split; [rewrite !app_length, !map_length; lia|].
  intros N. destruct (R (n3_Y _ _ N)) as (q & -> & Q). exists (map Y q). split; [rewrite map_app, <- app_assoc; reflexivity|eauto].
Qed.
Lemma g_expr ts : gets 1 (fun e q => q = ys e /\ proper e) ts (y_expr ts).
Proof. apply (gets_weak 1 1 _ _ _ _ (g_with 1 _ x_expr ts r_expr)); [lia|]. intros a q (q' & -> & -> & P). auto. Qed.
Lemma g_paren ts : gets 1 (fun e q => q = ypar e /\ proper e) ts (y_paren ts).
Proof. apply (gets_weak 1 1 _ _ _ _ (g_with 1 _ lp_expr ts r_lp)); [lia|]. intros a q (q' & -> & -> & P). auto. Qed.
Lemma g_name ts : gets 0 (fun n q => q = yname n /\ True) ts (y_name ts).
Proof. apply (gets_weak 0 0 _ _ _ _ (g_with 0 _ p_name ts r_name)); [lia|]. intros a q (q' & -> & -> & P). auto. Qed.
Lemma g_stm ts : gets 1 (fun s q => exists q', q = map Y q' /\ w_stm false s q') ts (y_stm ts).
Proof. apply g_with. intros u. destruct (sound (stm_fuel u)) as (S & _). apply S. unfold stm_fuel. lia. Qed.
Lemma g_assigns ts : gets 1 (fun l q => exists q', q = map Y q' ++ [Y Semi] /\ w_inits l q') ts (y_assigns ts).
Proof.
  apply (gets_weak 1 1 _ _ _ _ (g_with 1 _ (fun u => p_inits (S (length u)) u) ts (fun u => r_inits (length u) u (le_n _)))); [lia|]. intros a q (q' & -> & q2 & -> & W). exists q2. rewrite map_app. auto.
Qed.
Lemma g_labels ts : gets 1 (fun l q => q = map Y (label_toks l) ++ [yx KColon] /\ l <> [] /\ all_of proper l) ts (y_labels ts).
Proof.
  apply (gets_weak 1 1 _ _ _ _ (g_with 1 _ (fun u => p_labels (S (length u)) u) ts (fun u => r_labels (length u) u (le_n _)))); [lia|]. intros a q (q' & -> & -> & W). rewrite map_app. auto.
Qed.
Lemma g_id ts : gets 1 (fun i q => q = [idt i] /\ True) ts (m_id ts).
Proof. unfold m_id. xtok ts; (split; [lens|]); intros _; [exists [idt (IdPlain s)]|exists [idt (IdEsc s)]]; auto. Qed.
Lemma g_value ts : gets 0 (fun v q => q = value_toks v /\ opt_proper v) ts (m_value ts).
Proof.
  assert (B : gets 0 (fun v q => q = value_toks v /\ opt_proper v) ts (Ok (None, ts))) by (split; [lia|]; intros _; exists []; cbn; auto).
  unfold m_value. destruct ts as [|[[| |[]| | | | | |]| | | | |] ts]; try exact B. clear B. next (g_expr ts). split; [lens|]. intros N. use. exists (value_toks (Some a)). cbn. auto.
Qed.
Lemma g_rp {A : Type} (x : A) ts : gets 1 (fun y q => y = x /\ q = [yx KRp]) ts (m_rp x ts).
Proof. unfold m_rp. xtok ts. split; [lens|]. intros _. exists [yx KRp]. auto. Qed.
Lemma g_semi {A : Type} (x : A) ts : gets 1 (fun y q => y = x /\ q = [Y Semi]) ts (m_semi x ts).
Proof. unfold m_semi. destruct ts as [|[[]| | | | |] ts]; try exact I. split; [lens|]. intros _. exists [Y Semi]. auto. Qed.
(** [rp] and [semi] at the end *)
Ltac fin := match goal with |- gets _ _ _ (m_rp ?x ?r) => destruct r as [|[[[]| | | | | | | |]| | | | |] r]; try exact I | |- gets _ _ _ (m_semi ?x ?r) => destruct r as [|[[]| | | | |] r]; try exact I end.

(** ** Lists *)
Section Lists.
Context {A : Type} (k : nat) (more : list mtk -> bool) (p : list mtk -> outcome (A * list mtk)) (t : A -> bool) (w : A -> list mtk -> Prop).
Context (Hp : forall ts, gets k (fun a q => t a = true -> w a q) ts (p ts)).
Lemma g_list n : forall ts, length ts <= n -> gets k (fun l q => forallb t l = true -> w_commas w l q) ts (m_list more p (S n) ts).
Proof.
  induction n as [|n IH]; intros ts L; cbn [m_list]; next (Hp ts);
    (assert (B : gets k (fun l q => forallb t l = true -> w_commas w l q) ts (Ok ([a], r))) by (split; [lia|]; intros N; use; exists q; split; [reflexivity|]; cbn [forallb]; intros T; ands; apply wc_one; fits)).
  - destruct r as [|x r]; [exact B|]. lens.
  - destruct r as [|[[[]| | | | | | | |]| | | | |] r]; try exact B. destruct (more r); [|exact B]. clear B.
    change (gets k (fun l q => forallb t l = true -> w_commas w l q) ts ('(l, r2) <- m_list more p (S n) r ;; Ok (a :: l, r2))).
    next (IH r ltac:(lens)). split; [lens|]. intros N. use. exists (q ++ yx KComma :: q0). split; [eqs|]. cbn [forallb]. intros T. ands. apply wc_more; fits.
Qed.
End Lists.
Lemma g_commas {A : Type} k (p : list mtk -> outcome (A * list mtk)) (t : A -> bool) (w : A -> list mtk -> Prop) ts : (forall ts, gets k (fun a q => t a = true -> w a q) ts (p ts)) -> gets k (fun l q => forallb t l = true -> w_commas w l q) ts (commas p ts).
Proof. intros H. exact (g_list k SvModSyntaxModel.always p t w H (length ts) ts (le_n _)). Qed.
(** without a condition *)
Definition yes {A : Type} (_ : A) : bool := true.
Lemma all_yes {A : Type} (l : list A) : forallb yes l = true.
Proof. induction l; [reflexivity|assumption]. Qed.
Lemma g_commas1 {A : Type} k (p : list mtk -> outcome (A * list mtk)) (w : A -> list mtk -> Prop) ts : (forall ts, gets k w ts (p ts)) -> gets k (w_commas w) ts (commas p ts).
Proof.
  intros H. apply (gets_weak k k (fun l q => forallb yes l = true -> w_commas w l q)); [|lia|intros l q W; exact (W (all_yes l))].
  apply g_commas. intros u. apply (gets_weak k k _ _ _ _ (H u)); auto.
Qed.

(** ** Dimensions and types *)
Lemma g_dims_ n : forall ts, length ts <= n -> gets 0 (fun l q => q = dim_toks l /\ Forall rng_ok l) ts (m_dims (S n) ts).
Proof.
  induction n as [|n IH]; intros ts L; cbn [m_dims];
    (assert (B : gets 0 (fun l q => q = dim_toks l /\ Forall rng_ok l) ts (Ok ([], ts))) by (split; [lia|]; intros _; exists []; repeat split; constructor)).
  - destruct ts; [exact B|lens].
  - destruct ts as [|[[[]| | | | | | | |]| | | | |] ts]; try exact B. clear B. next (g_expr ts). xtok r.
    + change (gets 0 (fun l q => q = dim_toks l /\ Forall rng_ok l) (yx KLs :: ts) ('(l, r3) <- m_dims (S n) r ;; Ok (RG_one a :: l, r3))). next (IH r ltac:(lens)). split; [lens|]. intros N. use.
      exists (dim_toks (RG_one a :: a0)). split; [cbn [dim_toks flat_map rng_toks]; eqs|]. split; [reflexivity|constructor; assumption].
    + next (g_expr r). xtok r0. change (gets 0 (fun l q => q = dim_toks l /\ Forall rng_ok l) (yx KLs :: ts) ('(l, r3) <- m_dims (S n) r0 ;; Ok (RG_two R_COLON a a0 :: l, r3))). next (IH r0 ltac:(lens)). split; [lens|]. intros N. use.
      exists (dim_toks (RG_two R_COLON a a0 :: a1)). split; [cbn [dim_toks flat_map rng_toks]; eqs|]. split; [reflexivity|constructor; [split|]; assumption].
Qed.
Lemma g_dims ts : gets 0 (fun l q => q = dim_toks l /\ Forall rng_ok l) ts (dims ts).
Proof. exact (g_dims_ (length ts) ts (le_n _)). Qed.
Definition w_sizes (ds : list vdim) (q : list mtk) : Prop := forallb tidy_dim ds = true -> exists l, ds = map VD_range l /\ Forall size_ok l /\ q = dim_toks l.
Lemma vdims_sizes l : Forall rng_ok l -> forall ds, vdims_of l = Ok ds -> forallb tidy_dim ds = true -> ds = map VD_range l /\ Forall size_ok l.
Proof.
  induction 1 as [|r l R _ IH]; cbn [vdims_of]; intros ds H T; [injection H as <-; split; [reflexivity|constructor]|].
  match type of H with bind ?m _ = _ => destruct m as [d| | |] eqn:E; cbn [bind] in H; try discriminate H end. destruct (vdims_of l) as [ds'| | |]; cbn [bind] in H; try discriminate H. injection H as <-. cbn [forallb] in T. ands. destruct (IH ds' eq_refl T) as [-> F].
  assert (K : d = VD_range r /\ size_ok r); [|destruct K as [-> K]; split; [reflexivity|constructor; assumption]].
  destruct r as [e|k a b]; [|injection E as <-; split; [reflexivity|split; [exact R|exact I]]]. destruct e; try (injection E as <-; split; [reflexivity|split; [exact R|reflexivity]]); try (injection E as <-; discriminate);
    (match type of E with (if ?c then _ else _) = _ => destruct c eqn:C; [discriminate E|] end; injection E as <-; split; [reflexivity|split; [exact R|exact C]]).
Qed.
Lemma vdims_runs l : match vdims_of l with Ok _ | Throw _ => True | _ => False end.
Proof.
  induction l as [|r l IH]; cbn [vdims_of]; [exact I|]. assert (B : forall d, match (ds <- vdims_of l ;; Ok (d :: ds)) with Ok _ | Throw _ => True | _ => False end) by (intros d; destruct (vdims_of l); exact IH).
  destruct r as [e|k a b]; [|exact (B _)]. destruct e; try exact (B _); (destruct (like_type _); [exact I|exact (B _)]).
Qed.
Lemma g_vdims ts : gets 0 w_sizes ts (vdims ts).
Proof.
  unfold vdims. next (g_dims ts). pose proof (vdims_runs a) as V. destruct (vdims_of a) as [ds| | |] eqn:E; cbn [bind]; try exact I; try contradiction. split; [lia|]. intros N. use. exists (dim_toks a). split; [reflexivity|].
  intros T. destruct (vdims_sizes a W ds E T) as [-> F]. exists a. auto.
Qed.
Lemma sign_read ts : exists s r, m_sign ts = (s, r) /\ ts = sign_toks s ++ r.
Proof. destruct ts as [|[|[]| | | |] ts]; cbn [m_sign]; eexists; eexists; (split; [reflexivity|reflexivity]). Qed.
Definition w_ot (t : option doi) (q : list mtk) : Prop := tidy_otype t = true -> w_otype t q.
Lemma g_prim k x r : (forall s ds, Forall size_ok ds -> w_type (DI_type (D_prim k s (map VD_range ds))) (x :: sign_toks s ++ dim_toks ds)) -> gets 1 w_ot (x :: r) (m_prim k r).
Proof.
  intros K. unfold m_prim. destruct (sign_read r) as (s & r' & -> & ->). next (g_vdims r'). split; [lens|]. intros N. use. exists (x :: sign_toks s ++ q). split; [eqs|]. intros T. destruct (W T) as (l & -> & F & ->). constructor. apply K, F.
Qed.
Lemma m_dims_some f r l r' : m_dims (S f) (yx KLs :: r) = Ok (l, r') -> l <> [].
Proof.
  cbn [m_dims]. intros EQ. destruct (y_expr r) as [[e r0]| | |]; cbn [bind] in EQ; try discriminate EQ. destruct r0 as [|[[[]| | | | | | | |]| | | | |] r0]; try discriminate EQ.
  - destruct (m_dims f r0) as [[? ?]| | |]; try discriminate EQ. injection EQ as <- <-. discriminate.
  - destruct (y_expr r0) as [[? r1]| | |]; cbn [bind] in EQ; try discriminate EQ. destruct r1 as [|[[[]| | | | | | | |]| | | | |] r1]; try discriminate EQ. destruct (m_dims f r1) as [[? ?]| | |]; try discriminate EQ. injection EQ as <- <-. discriminate.
Qed.
Lemma g_implicit t ts : match t with M m_signed | M m_unsigned | yx KLs => True | _ => False end -> gets 0 w_ot (t :: ts) (m_implicit (t :: ts)).
Proof.
  intros S. unfold m_implicit. destruct (sign_read (t :: ts)) as (s & r & E & E2). rewrite E, E2. next (g_dims r). split; [lens|]. intros N. use. exists (sign_toks s ++ dim_toks a). split; [eqs|]. intros _. constructor. constructor; [|exact W].
  destruct s; [left; discriminate|]. right. intros ->. cbn [sign_toks app dim_toks flat_map] in *. subst r0. destruct t as [[[]| | | | | | | |]|[]| | | |]; try contradiction; try discriminate E.
  exact (m_dims_some (length (yx KLs :: ts)) ts _ _ EQ eq_refl).
Qed.
Lemma g_type ts : gets 0 w_ot ts (m_type ts).
Proof.
  assert (B : gets 0 w_ot ts (Ok (None, ts))) by (split; [lia|]; intros _; exists []; split; [reflexivity|intros _; constructor]).
  unfold m_type. destruct ts as [|x ts]; [exact B|]. destruct x as [y|m|w|w|w|w]; try exact B.
  - destruct y as [[]| | | | | | | |]; try exact B. apply g_implicit. exact I.
  - destruct m; try exact B; apply g_implicit; exact I.
  - apply (gets_weak 1 0 _ _ _ _ (g_prim (P_vector w) (Vec w) ts (w_t_vector w))); [lia|auto].
  - apply (gets_weak 1 0 _ _ _ _ (g_prim (P_atom w) (Atom w) ts (w_t_atom w))); [lia|auto].
  - next (g_vdims ts). split; [lens|]. intros N. use. exists (Nonint w :: q). split; [eqs|]. intros T. destruct (W T) as (l & -> & F & ->). constructor. constructor. exact F.
Qed.
Lemma g_nvtype ts : gets 0 (fun t q => tidy_nvtype t = true -> w_nvtype t q) ts (m_nvtype ts).
Proof.
  assert (B : gets 0 (fun t q => tidy_nvtype t = true -> w_nvtype t q) ts ('(t, r) <- m_type ts ;; Ok (match t with Some t => Some (N_plain t) | None => None end, r))).
  { next (g_type ts). split; [lia|]. intros N. use. exists q. split; [reflexivity|]. destruct a as [t|]; intros T; specialize (W T); inversion W; subst; constructor. assumption. }
  unfold m_nvtype. destruct ts as [|x ts]; [exact B|]. destruct x; try exact B. clear B. next (g_type ts). split; [lens|]. intros N. use. exists (Net w :: q). split; [eqs|]. intros T. constructor. exact (W T).
Qed.

(** ** Parameters *)
Lemma g_passign ts : gets 1 w_passign ts (m_passign ts).
Proof.
  unfold m_passign. next (g_id ts). next (g_dims r). next (g_value r0). split; [lia|]. intros N. use. exists (idt a :: dim_toks a0 ++ value_toks a1). split; [eqs|].
  destruct a1 as [e|]; [apply (w_pa a a0 (Some e))|apply (w_pa a a0 None)]; assumption.
Qed.
Lemma g_passigns ts : gets 1 (w_commas w_passign) ts (m_passigns ts).
Proof.
  apply (gets_weak 1 1 (fun l q => forallb yes l = true -> w_commas w_passign l q)); [|lia|intros l q W; exact (W (all_yes l))].
  apply (g_list 1 starts_id m_passign yes w_passign); [|apply le_n]. intros u. apply (gets_weak 1 1 _ _ _ _ (g_passign u)); auto.
Qed.
Lemma g_pbody ts : gets 1 (fun b q => tidy_pbody b = true -> w_pbody b q) ts (m_pbody ts).
Proof. unfold m_pbody. next (g_type ts). next (g_passigns r). split; [lia|]. intros N. use. exists (q ++ q0). split; [eqs|]. intros T. constructor; [exact (W T)|assumption]. Qed.
Lemma g_pdecl ts : gets 1 (fun b q => tidy_pdecl b = true -> w_pdecl b q) ts (m_pdecl ts).
Proof.
  assert (B : gets 1 (fun b q => tidy_pdecl b = true -> w_pdecl b q) ts ('(t, r) <- m_type ts ;; match t with Some (DI_type t) => '(l, r1) <- m_passigns r ;; Ok (PD_typed t l, r1) | _ => no_parse end)).
  { next (g_type ts). destruct a as [[t|]|]; try exact I. next (g_passigns r). split; [lia|]. intros N. use. exists (q ++ q0). split; [eqs|]. intros T. specialize (W T). inversion W; subst. constructor; assumption. }
  unfold m_pdecl. destruct ts as [|[| [] | | | |] ts]; try exact B; clear B; next (g_pbody ts); (split; [lens|]); intros N; use; [exists (M m_parameter :: q)|exists (M m_localparam :: q)]; (split; [eqs|]); intros T; constructor; exact (W T).
Qed.
Lemma g_pdecls ts : gets 1 (fun l q => forallb tidy_pdecl l = true -> w_commas w_pdecl l q) ts (commas m_pdecl ts).
Proof. apply g_commas, g_pdecl. Qed.
Lemma g_plist ts : gets 0 (fun p q => tidy_plist p = true -> w_plist p q) ts (m_plist ts).
Proof.
  assert (B : gets 0 (fun p q => tidy_plist p = true -> w_plist p q) ts (Ok (None, ts))) by (split; [lia|]; intros _; exists []; split; [reflexivity|intros _; constructor]).
  destruct ts as [|x ts]; [exact B|]. destruct x as [y| | | | |]; try exact B. destruct y; try exact B. destruct ts as [|[[[]| | | | | | | |]| | | | |] ts]; try exact B. clear B.
  assert (C : match ts with yx KRp :: _ => True | _ => False end \/ match ts with yx KRp :: _ => False | _ => True end) by (destruct ts as [|[[[]| | | | | | | |]| | | | |] ts]; auto).
  destruct C as [C|C].
  - destruct ts as [|[[[]| | | | | | | |]| | | | |] ts]; try contradiction. split; [lens|]. intros _. exists [Y Hash; yx KLp; yx KRp]. split; [reflexivity|intros _; constructor].
  - rewrite (m_plist_gen ts C). destruct (starts_id ts).
    + next (g_passigns ts). assert (D : gets 0 (fun p q => tidy_plist p = true -> w_plist p q) (Y Hash :: yx KLp :: ts) (m_rp (Some (PL_bare a [])) r)).
      { fin. split; [lens|]. intros N. use. exists (Y Hash :: yx KLp :: q ++ [yx KRp]). split; [eqs|]. intros _. constructor. exact W. }
      destruct r as [|[[[]| | | | | | | |]| | | | |] r]; try exact D. clear D. next (g_pdecls r). fin. split; [lens|]. intros N. use. exists (Y Hash :: yx KLp :: q ++ yx KComma :: q0 ++ [yx KRp]). split; [eqs|]. intros T. constructor; [exact W|exact (W0 T)].
    + next (g_pdecls ts). fin. split; [lens|]. intros N. use. exists (Y Hash :: yx KLp :: q ++ [yx KRp]). split; [eqs|]. intros T. constructor. exact (W T).
Qed.

(** ** Ports *)
Lemma dir_read ts : exists d r, m_dir ts = (d, r) /\ ts = dir_toks d ++ r /\ d <> Some V_REF.
Proof. destruct ts as [|[|[]| | | |] ts]; cbn [m_dir]; eexists; eexists; (split; [reflexivity|split; [reflexivity|discriminate]]). Qed.
Lemma g_vitem ts : gets 1 (fun v q => tidy_item v = true -> w_vitem v q) ts (m_vitem ts).
Proof.
  unfold m_vitem. next (g_id ts). next (g_vdims r). next (g_value r0). split; [lia|]. intros N. use. exists (idt a :: q0 ++ value_toks a1). split; [eqs|]. intros T. destruct (W0 T) as (l & -> & F & ->). constructor; assumption.
Qed.
Lemma g_iditem ts : gets 1 (fun v q => tidy_item v = true -> w_iditem v q) ts (m_iditem ts).
Proof.
  unfold m_iditem. next (g_id ts). next (g_vdims r). split; [lia|]. intros N. use. exists (idt a :: q0). split; [eqs|]. intros T. destruct (W0 T) as (l & -> & F & ->). split; [|reflexivity].
  pose proof (w_vi a l None F I) as V. cbn [value_toks] in V. rewrite app_nil_r in V. exact V.
Qed.
Lemma g_ansi ts : gets 1 (fun v q => tidy_ansi v = true -> w_ansi v q) ts (m_ansi ts).
Proof.
  unfold m_ansi. destruct (dir_read ts) as (d & r & -> & -> & D). next (g_nvtype r). next (g_vitem r0). split; [lens|]. intros N. use. exists (dir_toks d ++ q ++ q0). split; [eqs|]. unfold tidy_ansi. cbn [snd]. intros T.
  destruct a as [t|]; ands; [apply (w_an d (Some t))|apply (w_an d None)]; auto.
Qed.
Lemma type_none ts r : m_type ts = Ok (None, r) -> r = ts.
Proof.
  assert (P : forall k u, m_prim k u <> Ok (None, r)) by (intros k u; unfold m_prim; destruct (m_sign u); destruct (vdims l) as [[? ?]| | |]; discriminate).
  assert (Q : forall u, m_implicit u <> Ok (None, r)) by (intros u; unfold m_implicit; destruct (m_sign u); destruct (dims l) as [[? ?]| | |]; discriminate).
  unfold m_type. destruct ts as [|x ts]; [intros H; injection H as <-; reflexivity|]. destruct x as [y|m|w|w|w|w]; try (intros H; injection H as <-; reflexivity).
  - destruct y as [[]| | | | | | | |]; intros H; try (injection H as <-; reflexivity). destruct (Q _ H).
  - destruct m; intros H; try (injection H as <-; reflexivity); destruct (Q _ H).
  - intros H. destruct (P _ _ H).
  - intros H. destruct (P _ _ H).
  - destruct (vdims ts) as [[? ?]| | |]; discriminate.
Qed.
Lemma nvtype_none ts r : m_nvtype ts = Ok (None, r) -> r = ts.
Proof.
  assert (B : ('(t, r) <- m_type ts ;; Ok (match t with Some t => Some (N_plain t) | None => None end, r)) = Ok (None, r) -> r = ts).
  { destruct (m_type ts) as [[[t|] r']| | |] eqn:E; cbn [bind]; try discriminate. intros H. injection H as <-. exact (type_none _ _ E). }
  unfold m_nvtype. destruct ts as [|x ts]; [exact B|]. destruct x; try exact B. destruct (m_type ts) as [[? ?]| | |]; discriminate.
Qed.
Lemma ansi_headed ts p r : m_ansi ts = Ok (p, r) -> starts_id ts = false -> headed p.
Proof.
  unfold m_ansi. intros H S. destruct (m_dir ts) as [d r0] eqn:D. destruct (m_nvtype r0) as [[t r1]| | |] eqn:T; cbn [bind] in H; try discriminate H. destruct (m_vitem r1) as [[v r2]| | |] eqn:V; cbn [bind] in H; try discriminate H. injection H as <- <-. cbn [headed].
  destruct d as [d|]; [exact I|]. destruct t as [t|]; [exact I|]. apply nvtype_none in T. subst r1.
  assert (r0 = ts) as -> by (destruct ts as [|[|[]| | | |] ts]; cbn [m_dir] in D; try discriminate D; injection D as <-; reflexivity).
  unfold m_vitem in V. destruct ts as [|[[[]| | | | | | | |]| | | | |] ts]; try discriminate V; discriminate S.
Qed.
Lemma list_head {A : Type} more (p : list mtk -> outcome (A * list mtk)) n ts l r : m_list more p (S n) ts = Ok (l, r) -> exists x r' l', p ts = Ok (x, r') /\ l = x :: l'.
Proof.
  cbn [m_list]. destruct (p ts) as [[x r']| | |]; cbn [bind]; try discriminate. intros H. exists x, r'.
  destruct r' as [|[[[]| | | | | | | |]| | | | |] r']; try (injection H as <- <-; exists []; auto). destruct (more r'); [|injection H as <- <-; exists []; auto].
  destruct (m_list more p n r') as [[l' r2]| | |]; try discriminate H. injection H as <- <-. exists l'. auto.
Qed.
Lemma g_naport ts : gets 1 w_naport ts (m_naport ts).
Proof. unfold m_naport. next (g_id ts). split; [lia|]. intros N. use. exists [idt a]. split; [reflexivity|constructor]. Qed.
Lemma g_ports ts : gets 0 (fun p q => tidy_ports p = true -> w_ports p q) ts (m_ports ts).
Proof.
  set (W0 := fun p q => tidy_ports p = true -> w_ports p q).
  assert (B : gets 0 W0 ts (Ok (HP_none, ts))) by (split; [lia|]; intros _; exists []; split; [reflexivity|intros _; constructor]).
  destruct ts as [|x ts]; [exact B|]. destruct x as [y| | | | |]; try exact B. destruct y as [y| | | | | | | |]; try exact B. destruct y; try exact B. clear B.
  assert (G : gets 0 W0 (yx KLp :: ts) (if starts_id ts then '(l, r1) <- commas m_naport ts ;; m_rp (HP_nonansi l) r1 else '(l, r1) <- commas m_ansi ts ;; m_rp (HP_ansi l) r1)).
  { destruct (starts_id ts) eqn:S.
    - next (g_commas1 1 m_naport w_naport ts g_naport). fin. split; [lens|]. intros N. use. exists (yx KLp :: q ++ [yx KRp]). split; [eqs|]. intros _. constructor. exact W.
    - next (g_commas 1 m_ansi tidy_ansi w_ansi ts g_ansi). fin. split; [lens|]. intros N. use. exists (yx KLp :: q ++ [yx KRp]). split; [eqs|]. intros T. specialize (W T).
      unfold commas in EQ. destruct (list_head _ _ _ _ _ _ EQ) as (p & r' & l & P & ->). constructor; [exact (ansi_headed _ _ _ P S)|exact W]. }
  unfold m_ports. destruct ts as [|x ts]; [exact G|]. destruct x as [y| | | | |]; try exact G. destruct y as [y| | | | | | | |]; try exact G. destruct y; try exact G.
  - split; [lens|]. intros _. exists [yx KLp; yx KRp]. split; [reflexivity|intros _; constructor].
  - destruct ts as [|x ts]; [exact G|]. destruct x as [y| | | | |]; try exact G. destruct y as [y| | | | | | | |]; try exact G. destruct y; try exact G. destruct o; try exact G.
    destruct ts as [|x ts]; [exact G|]. destruct x as [y| | | | |]; try exact G. destruct y as [y| | | | | | | |]; try exact G. destruct y; try exact G.
    split; [lens|]. intros _. exists [yx KLp; yx KDot; yx (KOp S_MUL); yx KRp]. split; [reflexivity|intros _; constructor].
Qed.
Lemma g_nadecl d ts : gets 1 (fun n q => tidy_nadecl n = true -> w_nadecl n (dir_toks (Some d) ++ q)) ts (m_nadecl d ts).
Proof.
  unfold m_nadecl. next (g_nvtype ts). destruct d; [| | |exact I].
  - next (g_commas 1 m_iditem tidy_item w_iditem r g_iditem). fin. split; [lens|]. intros N. use. exists (q ++ q0 ++ [Y Semi]). split; [eqs|]. cbn [tidy_nadecl]. intros T. ands. constructor; auto.
  - next (g_commas 1 m_vitem tidy_item w_vitem r g_vitem). fin. split; [lens|]. intros N. use. exists (q ++ q0 ++ [Y Semi]). split; [eqs|]. cbn [tidy_nadecl]. intros T. ands. constructor; auto.
  - next (g_commas 1 m_iditem tidy_item w_iditem r g_iditem). fin. split; [lens|]. intros N. use. exists (q ++ q0 ++ [Y Semi]). split; [eqs|]. cbn [tidy_nadecl]. intros T. ands. constructor; auto.
Qed.

(** ** Instances *)
Lemma g_opt_rp ts : gets 1 (fun v q => q = opt_ys v ++ [yx KRp] /\ opt_proper v) ts (m_opt_rp ts).
Proof.
  assert (B : gets 1 (fun v q => q = opt_ys v ++ [yx KRp] /\ opt_proper v) ts ('(e, r) <- y_expr ts ;; m_rp (Some e) r)).
  { next (g_expr ts). fin. split; [lens|]. intros N. use. exists (ys a ++ [yx KRp]). split; [eqs|]. auto. }
  unfold m_opt_rp. destruct ts as [|[[[]| | | | | | | |]| | | | |] ts]; try exact B. split; [lens|]. intros _. exists [yx KRp]. cbn. auto.
Qed.
Lemma g_npar ts : gets 1 w_npar ts (m_npar ts).
Proof.
  unfold m_npar. xtok ts. next (g_id ts). xtok r. next (g_opt_rp r). split; [lens|]. intros N. use. exists (yx KDot :: idt a :: yx KLp :: opt_ys a0 ++ [yx KRp]). split; [eqs|]. destruct a0 as [e|]; [apply (w_np a (Some e))|apply (w_np a None)]; assumption.
Qed.
Lemma g_opar ts : gets 1 w_opar ts (m_opar ts).
Proof. unfold m_opar. next (g_expr ts). split; [lia|]. intros N. use. exists (ys a). split; [reflexivity|constructor; exact W]. Qed.
Lemma g_gvalues ts : gets 0 w_gvalues ts (m_gvalues ts).
Proof.
  assert (B : gets 0 w_gvalues ts (Ok (None, ts))) by (split; [lia|]; intros _; exists []; split; [reflexivity|constructor]).
  unfold m_gvalues. destruct ts as [|x ts]; [exact B|]. destruct x as [y| | | | |]; try exact B. destruct y; try exact B. destruct ts as [|[[[]| | | | | | | |]| | | | |] ts]; try exact B. clear B.
  assert (C : gets 0 w_gvalues (Y Hash :: yx KLp :: ts) ('(l, r1) <- commas m_opar ts ;; m_rp (Some (GV_ordered l)) r1)).
  { next (g_commas1 1 m_opar w_opar ts g_opar). fin. split; [lens|]. intros N. use. exists (Y Hash :: yx KLp :: q ++ [yx KRp]). split; [eqs|]. constructor. exact W. }
  destruct ts as [|[[[]| | | | | | | |]| | | | |] ts]; try exact C; clear C.
  - split; [lens|]. intros _. exists [Y Hash; yx KLp; yx KRp]. split; [reflexivity|constructor].
  - next (g_commas1 1 m_npar w_npar (yx KDot :: ts) g_npar). fin. split; [lens|]. intros N. apply n3_cons, n3_cons in N. destruct (H N) as [E W]. exists (Y Hash :: yx KLp :: q ++ [yx KRp]). split; [rewrite E; eqs|]. constructor. exact W.
Qed.
Lemma g_nconn ts : gets 1 w_nconn ts (m_nconn ts).
Proof.
  assert (B : forall r, gets 1 w_nconn (yx KDot :: r) ('(i, r1) <- m_id r ;; match r1 with yx KLp :: r2 => '(e, r3) <- m_opt_rp r2 ;; Ok (NC_conn i e, r3) | _ => Ok (NC_name i, r1) end)).
  { intros r. next (g_id r). assert (C : gets 1 w_nconn (yx KDot :: r) (Ok (NC_name a, r0))) by (split; [lens|]; intros N; use; exists [yx KDot; idt a]; split; [eqs|constructor]).
    destruct r0 as [|[[[]| | | | | | | |]| | | | |] r0]; try exact C. next (g_opt_rp r0). split; [lens|]. intros N. use. exists (yx KDot :: idt a :: yx KLp :: opt_ys a0 ++ [yx KRp]). split; [eqs|]. constructor. assumption. }
  unfold m_nconn. xtok ts. destruct ts as [|x ts]; [exact (B _)|]. destruct x as [y| | | | |]; try exact (B _). destruct y as [y| | | | | | | |]; try exact (B _). destruct y; try exact (B _). destruct o; try exact (B _).
  split; [lens|]. intros _. exists [yx KDot; yx (KOp S_MUL)]. split; [reflexivity|constructor].
Qed.
Lemma g_oconn ts : gets 0 w_oconn ts (m_oconn ts).
Proof.
  assert (B : gets 0 w_oconn ts ('(e, r) <- y_expr ts ;; Ok (Some e, r))) by (next (g_expr ts); split; [lia|]; intros N; use; exists (ys a); split; [reflexivity|apply (w_oc (Some a)); exact W]).
  assert (C : gets 0 w_oconn ts (Ok (None, ts))) by (split; [lia|]; intros _; exists []; split; [reflexivity|apply (w_oc None); exact I]).
  unfold m_oconn. destruct ts as [|[[[]| | | | | | | |]| | | | |] ts]; try exact B; exact C.
Qed.
Lemma g_conns ts : gets 1 (fun c q => exists q', q = q' ++ [yx KRp] /\ w_conns c q') ts (m_conns ts).
Proof.
  set (W0 := fun c q => exists q', q = q' ++ [yx KRp] /\ w_conns c q').
  assert (B : gets 1 W0 ts ('(l, r) <- commas m_oconn ts ;; m_rp (CO_ordered l) r)).
  { next (g_commas1 0 m_oconn w_oconn ts g_oconn). fin. split; [lens|]. intros N. use. exists (q ++ [yx KRp]). split; [eqs|]. exists q. split; [reflexivity|constructor; exact W]. }
  assert (C : gets 1 W0 ts ('(l, r) <- commas m_nconn ts ;; m_rp (CO_named l) r)).
  { next (g_commas1 1 m_nconn w_nconn ts g_nconn). fin. split; [lens|]. intros N. use. exists (q ++ [yx KRp]). split; [eqs|]. exists q. split; [reflexivity|constructor; exact W]. }
  unfold m_conns. destruct ts as [|x ts]; [exact B|]. destruct x as [y| | | | |]; try exact B. destruct y as [y| | | | | | | |]; try exact B. destruct y; try exact B. exact C.
Qed.
Lemma g_hinst ts : gets 1 w_hinst ts (m_hinst ts).
Proof.
  unfold m_hinst. next (g_id ts). next (g_dims r). xtok r0. next (g_conns r0). split; [lens|]. intros N. use. destruct W1 as (q' & -> & W1). exists (idt a :: dim_toks a0 ++ yx KLp :: q' ++ [yx KRp]). split; [eqs|]. constructor; assumption.
Qed.
Lemma g_inst ts : gets 1 (fun l q => tidy_leaf l = true -> w_leaf false l q) ts (m_inst ts).
Proof.
  unfold m_inst. next (g_id ts). next (g_gvalues r). next (g_commas1 1 m_hinst w_hinst r0 g_hinst). fin. split; [lens|]. intros N. use. exists (idt a :: q0 ++ q1 ++ [Y Semi]). split; [eqs|].
  pose proof (w_in a a0 a1 q0 q1 W0 W1) as WI. destruct (like_udp (mk_inst a a0 a1)) eqn:U; [discriminate|]. intros _. apply w_l_inst; [exact WI|]. intros P. apply (udp_form _ _ WI) in P. congruence.
Qed.

(** ** Items *)
Definition w_lf (l : gleaf) (q : list mtk) : Prop := tidy_leaf l = true -> w_leaf false l q.
Lemma g_nitem ts : gets 1 w_nitem ts (m_nitem ts).
Proof. unfold m_nitem. next (g_id ts). next (g_dims r). next (g_value r0). split; [lia|]. intros N. use. exists (idt a :: dim_toks a0 ++ value_toks a1). split; [eqs|]. constructor; assumption. Qed.
Lemma g_ident ts : gets 1 w_ident ts (m_id ts).
Proof. apply (gets_weak 1 1 _ _ _ _ (g_id ts)); [lia|]. intros a q [-> _]. reflexivity. Qed.
Lemma type_of ts t r : m_type ts = Ok (t, r) -> match ts with Vec _ :: _ | Atom _ :: _ | Nonint _ :: _ => True | _ => False end -> exists d, t = Some (DI_type d).
Proof.
  assert (P : forall k u, m_prim k u = Ok (t, r) -> exists d, t = Some (DI_type d)) by (intros k u; unfold m_prim; destruct (m_sign u); destruct (vdims l) as [[? ?]| | |]; try discriminate; intros H; injection H as <- <-; eauto).
  unfold m_type. destruct ts as [|[| | | | |] ts]; intros H S; try contradiction; try exact (P _ _ H). destruct (vdims ts) as [[? ?]| | |]; try discriminate H. injection H as <- <-. eauto.
Qed.
Lemma g_data ts : match ts with Vec _ :: _ | Atom _ :: _ | Nonint _ :: _ => True | _ => False end -> gets 1 w_lf ts (m_data ts).
Proof.
  intros S. unfold m_data. next (g_type ts). destruct (type_of _ _ _ EQ S) as (d & ->). next (g_commas 1 m_vitem tidy_item w_vitem r g_vitem). fin. split; [lens|]. intros N. use. exists (q ++ q0 ++ [Y Semi]). split; [eqs|].
  intros T. cbn [tidy_leaf dd_type dd_list] in T. ands. specialize (W ltac:(assumption)). inversion W; subst. apply w_l_data; [exact I|assumption|auto].
Qed.
Lemma g_always k ts : gets 1 w_lf (Y (Kw (always_kw k)) :: ts) (m_always k ts).
Proof.
  unfold m_always. next (g_stm ts). assert (B : (forall at_, a <> TNull at_) -> gets 1 w_lf (Y (Kw (always_kw k)) :: ts) (Ok (GL_always k [] a, r))).
  { intros NN. split; [lens|]. intros N. use. destruct W as (q' & -> & W). exists (Y (Kw (always_kw k)) :: map Y q'). split; [eqs|]. intros _. constructor; assumption. }
  destruct a; [exact I|]. apply B. discriminate.
Qed.
Lemma g_leaf ts : gets 1 w_lf ts (m_leaf ts).
Proof.
  unfold m_leaf. destruct ts as [|x ts]; [exact I|]. destruct x as [y|m|w|w|w|w]; try (apply g_data; exact Logic.I).
  - destruct y as [t| | | | | | | |k]; try exact I; [exact (g_inst _)| |].
    + split; [lens|]. intros _. exists [Y Semi]. split; [reflexivity|intros _; constructor].
    + destruct k; try exact I; [exact (g_always K_always ts)|exact (g_always K_comb ts)|exact (g_always K_latch ts)|exact (g_always K_ff ts)|].
      next (g_stm ts). split; [lens|]. intros N. use. destruct W as (q' & -> & W). exists (Y (Kw k_initial) :: map Y q'). split; [eqs|]. intros _. constructor. exact W.
  - destruct m; try exact I.
    + next (g_pbody ts). fin. split; [lens|]. intros N. use. exists (M m_parameter :: q ++ [Y Semi]). split; [eqs|]. intros T. constructor. exact (W T).
    + next (g_pbody ts). fin. split; [lens|]. intros N. use. exists (M m_localparam :: q ++ [Y Semi]). split; [eqs|]. intros T. constructor. exact (W T).
    + next (g_assigns ts). split; [lens|]. intros N. use. destruct W as (q' & -> & W). exists (M m_assign :: map Y q' ++ [Y Semi]). split; [eqs|]. intros _. constructor. exact W.
    + next (g_commas1 1 m_id w_ident ts g_ident). fin. split; [lens|]. intros N. use. exists (M m_genvar :: q ++ [Y Semi]). split; [eqs|]. intros _. constructor. exact W.
  - next (g_type ts). next (g_commas1 1 m_nitem w_nitem r g_nitem). fin. split; [lens|]. intros N. use. exists (Net w :: q ++ q0 ++ [Y Semi]). split; [eqs|]. intros T. constructor; [exact (W T)|assumption].
Qed.
Lemma g_ginit ts : gets 1 (fun i q => exists q', q = q' ++ [Y Semi] /\ w_ginit i q') ts (m_ginit ts).
Proof.
  set (W0 := fun i q => exists q', q = q' ++ [Y Semi] /\ w_ginit i q').
  assert (B : forall (g : bool) r, ts = (if g then [M m_genvar] else []) ++ r -> gets 1 W0 ts ('(i, r1) <- m_id r ;; match r1 with Y (Asg A_ASSIGN) :: r2 => '(e, r3) <- y_expr r2 ;; m_semi (mk_ginit g i e []) r3 | _ => no_parse end)).
  { intros g r ->. next (g_id r). destruct r0 as [|[[| |[]| | | | | |]| | | | |] r0]; try exact I. next (g_expr r0). fin. split; [lens|]. intros N. use. exists (((if g then [M m_genvar] else []) ++ idt a :: Y (Asg A_ASSIGN) :: ys a0) ++ [Y Semi]). split; [eqs|].
    eexists. split; [reflexivity|]. constructor. assumption. }
  unfold m_ginit. destruct ts as [|x ts]; [exact (B false _ eq_refl)|]. destruct x as [|m| | | |]; try exact (B false _ eq_refl). destruct m; try exact (B false _ eq_refl). exact (B true _ eq_refl).
Qed.
Lemma g_gstep ts : gets 1 (fun i q => exists q', q = q' ++ [yx KRp] /\ w_gstep i q') ts (m_gstep ts).
Proof.
  set (W0 := fun i q => exists q', q = q' ++ [yx KRp] /\ w_gstep i q').
  assert (B : gets 1 W0 ts ('(i, r) <- m_id ts ;; match r with Y Inc :: r1 => m_rp (GS_incdec false true i) r1 | Y Dec :: r1 => m_rp (GS_incdec false false i) r1 | Y (Asg o) :: r1 => '(e, r2) <- y_expr r1 ;; m_rp (GS_assign i o e) r2 | _ => no_parse end)).
  { next (g_id ts). destruct r as [|[[]| | | | |] r]; try exact I.
    - next (g_expr r). fin. split; [lens|]. intros N. use. exists ((idt a :: Y (Asg o) :: ys a0) ++ [yx KRp]). split; [eqs|]. eexists. split; [reflexivity|]. constructor. assumption.
    - fin. split; [lens|]. intros N. use. exists ([idt a; Y (inc_tok true)] ++ [yx KRp]). split; [eqs|]. eexists. split; [reflexivity|]. constructor.
    - fin. split; [lens|]. intros N. use. exists ([idt a; Y (inc_tok false)] ++ [yx KRp]). split; [eqs|]. eexists. split; [reflexivity|]. constructor. }
  unfold m_gstep. destruct ts as [|x ts]; [exact B|]. destruct x as [y| | | | |]; try exact B. destruct y; try exact B; clear B; next (g_id ts); fin; (split; [lens|]); intros N; use; [exists ([Y (inc_tok true); idt a] ++ [yx KRp])|exists ([Y (inc_tok false); idt a] ++ [yx KRp])];
    (split; [eqs|]); eexists; (split; [reflexivity|]); constructor.
Qed.
Lemma pre_read ts p r : m_pre ts = Some (p, r) -> ts = pre_toks p ++ Y (Kw k_begin) :: r.
Proof.
  unfold m_pre. destruct ts as [|x ts]; [discriminate|]. destruct x as [y| | | | |]; try discriminate. destruct y as [y| | | | | | | |k]; try discriminate.
  - destruct y; try discriminate; (destruct ts as [|[[[]| | | | | | | |]| | | | |] ts]; try discriminate); (destruct ts as [|[[| | | | | | | |[]]| | | | |] ts]; try discriminate); intros H; injection H as <- <-; reflexivity.
  - destruct k; try discriminate. intros H. injection H as <- <-. reflexivity.
Qed.

(** ** An else is never left behind an if. *)
Definition no_yelse (r : list mtk) : Prop := match r with Y (Kw k_else) :: _ => False | _ => True end.
Lemma ysplit_rest ts : forall a b, ysplit ts = (a, b) -> match b with Y _ :: _ => False | _ => True end.
Proof. induction ts as [|t ts IH]; cbn [ysplit]; [intros a b H; injection H as <- <-; exact I|]. destruct t; try (intros a b H; injection H as <- <-; exact I). destruct (ysplit ts) as [a b]. intros a' b' H. injection H as <- <-. exact (IH a b eq_refl). Qed.
Lemma stm_else ts s r : y_stm ts = Ok (s, r) -> open_if s = true -> no_yelse r.
Proof.
  unfold y_stm, y_with. destruct (ysplit ts) as [a b] eqn:E. pose proof (ysplit_rest _ _ _ E) as B. destruct (p_stm (stm_fuel a) a) as [[s' r']| | |] eqn:P; cbn [bind]; try discriminate. intros H O. injection H as <- <-.
  destruct (open_rest (stm_fuel a)) as (OS & _). specialize (OS _ _ _ P O). destruct r' as [|t r']; [destruct b as [|[] b]; try exact I; contradiction|]. exact OS.
Qed.
Lemma leaf_closed ts l r : m_leaf ts = Ok (l, r) -> gopen (GI_leaf l) = true -> no_yelse r.
Proof.
  assert (A : forall k u, m_always k u = Ok (l, r) -> gopen (GI_leaf l) = true -> no_yelse r).
  { intros k u H O. unfold m_always in H. destruct (y_stm u) as [[s r0]| | |] eqn:E; cbn [bind] in H; try discriminate H. destruct s; try discriminate H. injection H as <- <-. exact (stm_else _ _ _ E O). }
  assert (S : forall (x : gleaf) u, m_semi x u = Ok (l, r) -> l = x) by (intros x u H; unfold m_semi in H; destruct u as [|[[]| | | | |] u]; try discriminate H; injection H as <- <-; reflexivity).
  assert (D : forall u, m_data u = Ok (l, r) -> gopen (GI_leaf l) = true -> no_yelse r).
  { intros u H O. unfold m_data in H. destruct (m_type u) as [[? ?]| | |]; cbn [bind] in H; try discriminate H. destruct (commas m_vitem l0) as [[? ?]| | |]; cbn [bind] in H; try discriminate H. apply S in H. subst l. discriminate O. }
  assert (J : forall u, m_inst u = Ok (l, r) -> gopen (GI_leaf l) = true -> no_yelse r).
  { intros u H O. unfold m_inst in H. destruct (m_id u) as [[? ?]| | |]; cbn [bind] in H; try discriminate H. destruct (m_gvalues l0) as [[? ?]| | |]; cbn [bind] in H; try discriminate H. destruct (commas m_hinst l1) as [[? ?]| | |]; cbn [bind] in H; try discriminate H. apply S in H. subst l. destruct (like_udp _); discriminate O. }
  intros H O. unfold m_leaf in H. destruct ts as [|x ts]; [discriminate H|]. destruct x as [y|m|w|w|w|w]; try exact (D _ H O).
  - destruct y as [t| | | | | | | |k]; try discriminate H; [exact (J _ H O)|injection H as <- <-; discriminate O|].
    destruct k; try discriminate H; try exact (A _ _ H O). destruct (y_stm ts) as [[s r0]| | |] eqn:E; cbn [bind] in H; try discriminate H. injection H as <- <-. exact (stm_else _ _ _ E O).
  - destruct m; try discriminate H; (match type of H with bind ?m _ = _ => destruct m as [[? ?]| | |]; cbn [bind] in H; try discriminate H end); try (apply S in H; subst l; discriminate O). injection H as <- <-. discriminate O.
  - destruct (m_type ts) as [[? ?]| | |]; cbn [bind] in H; try discriminate H. destruct (commas m_nitem l0) as [[? ?]| | |]; cbn [bind] in H; try discriminate H. apply S in H. subst l. discriminate O.
Qed.
Lemma gopen_rest f : forall ts g r, m_gen f ts = Ok (g, r) -> gopen g = true -> no_yelse r.
Proof.
  induction f as [|f IH]; intros ts g r H O; [discriminate H|]. cbn [m_gen] in H. destruct (m_pre ts) as [[p u]|].
  { destruct (y_name u) as [[? ?]| | |]; cbn [bind] in H; try discriminate H. destruct (m_gens f l) as [[? ?]| | |]; cbn [bind] in H; try discriminate H. destruct l1 as [|[[| | | | | | | |[]]| | | | |] l1]; try discriminate H.
    destruct (y_name l1) as [[? ?]| | |]; cbn [bind] in H; try discriminate H. injection H as <- <-. discriminate O. }
  assert (B : (' (l, r0) <- m_leaf ts;; Ok (GI_leaf l, r0)) = Ok (g, r) -> no_yelse r).
  { clear H. intros H. destruct (m_leaf ts) as [[? ?]| | |] eqn:E; cbn [bind] in H; try discriminate H. injection H as <- <-. exact (leaf_closed _ _ _ E O). }
  destruct ts as [|x ts]; [exact (B H)|]. destruct x as [y|m| | | |]; try exact (B H).
  - destruct y as [t| | | | | | | |k]; try exact (B H). destruct k; try exact (B H); clear B.
    + destruct (y_paren ts) as [[? ?]| | |]; cbn [bind] in H; try discriminate H. destruct (m_gen f l) as [[? ?]| | |] eqn:E; cbn [bind] in H; try discriminate H.
      assert (C : Ok (GI_if [] v g0 None, l0) = Ok (g, r) -> match l0 with Y (Kw k_else) :: _ => False | _ => True end -> no_yelse r) by (intros Q N; injection Q as <- <-; exact N).
      destruct l0 as [|x l0]; [exact (C H Logic.I)|]. destruct x as [y| | | | |]; try exact (C H Logic.I). destruct y as [ | | | | | | | |k]; try exact (C H Logic.I). destruct k; try exact (C H Logic.I). clear C.
      destruct (m_gen f l0) as [[? ?]| | |] eqn:E2; cbn [bind] in H; try discriminate H. injection H as <- <-. exact (IH _ _ _ E2 O).
    + destruct (y_paren ts) as [[? ?]| | |]; cbn [bind] in H; try discriminate H. destruct (m_gcases f l) as [[? ?]| | |] eqn:E; cbn [bind] in H; try discriminate H. destruct l0; try discriminate H. injection H as <- <-. discriminate O.
    + destruct ts as [|[[[]| | | | | | | |]| | | | |] ts]; try (cbn in H; discriminate H). destruct (m_ginit ts) as [[? ?]| | |]; cbn [bind] in H; try discriminate H. destruct (y_expr l) as [[? ?]| | |]; cbn [bind] in H; try discriminate H.
      destruct l0 as [|[[]| | | | |] l0]; try discriminate H. destruct (m_gstep l0) as [[? ?]| | |]; cbn [bind] in H; try discriminate H. destruct (m_gen f l1) as [[? ?]| | |] eqn:E; cbn [bind] in H; try discriminate H. injection H as <- <-. exact (IH _ _ _ E O).
  - destruct m; try exact (B H). clear B. destruct (m_gens f ts) as [[? ?]| | |]; cbn [bind] in H; try discriminate H. destruct l0 as [|[|[]| | | |] l0]; try discriminate H. injection H as <- <-. discriminate O.
Qed.

(** ** Generate *)
Definition w_gn (g : gitem) (q : list mtk) : Prop := tidy_gen g = true -> w_gen false g q.
Definition w_gns (l : list gitem) (q : list mtk) : Prop := forallb tidy_gen l = true -> w_gens false l q.
Definition w_gcs (l : list (list vexpr * gitem)) (q : list mtk) : Prop := exists q', q = q' ++ [Y (Kw k_endcase)] /\ (forallb (fun x => tidy_gen (snd x)) l = true -> w_gcases false l q').
Lemma r_ycolon r : exists c, In c [ []; [yx KColon] ] /\ r = c ++ skip_ycolon r.
Proof.
  assert (B : skip_ycolon r = r -> exists c, In c [ []; [yx KColon] ] /\ r = c ++ skip_ycolon r) by (intros ->; exists []; split; [left; reflexivity|reflexivity]).
  destruct r as [|x r]; [exact (B eq_refl)|]. destruct x as [y| | | | |]; try exact (B eq_refl). destruct y as [t| | | | | | | |]; try exact (B eq_refl). destruct t; try exact (B eq_refl). exists [yx KColon]. split; [right; left; reflexivity|reflexivity].
Qed.
Lemma any_end n m : end_name false n m.
Proof. right. right. reflexivity. Qed.
Lemma g_gen f :
  (forall ts, 2 * length ts + 1 <= f -> gets 1 w_gn ts (m_gen f ts)) /\
  (forall ts, 2 * length ts + 2 <= f -> gets 0 w_gns ts (m_gens f ts)) /\
  (forall ts, 2 * length ts + 2 <= f -> gets 1 w_gcs ts (m_gcases f ts)).
Proof.
  induction f as [|f (IG & IS & IC)]; [repeat split; intros ts L; lia|]. repeat split; intros ts L.
  - cbn [m_gen]. destruct (m_pre ts) as [[p u]|] eqn:P.
    { apply pre_read in P. subst ts. next (g_name u). next (IS r ltac:(lens)). destruct r0 as [|[[| | | | | | | |[]]| | | | |] r0]; try exact I. next (g_name r0). split; [lens|]. intros N. apply n3_app in N. use.
      exists (pre_toks p ++ Y (Kw k_begin) :: yname a ++ q0 ++ Y (Kw k_end) :: yname a1). split; [eqs|]. intros T. constructor; [apply any_end|exact (W0 T)]. }
    assert (B : gets 1 w_gn ts ('(l, r) <- m_leaf ts ;; Ok (GI_leaf l, r))).
    { next (g_leaf ts). split; [lia|]. intros N. use. exists q. split; [reflexivity|]. intros T. constructor. exact (W T). }
    destruct ts as [|x ts]; [exact B|]. destruct x as [y|m| | | |]; try exact B.
    + destruct y as [t| | | | | | | |k]; try exact B. destruct k; try exact B; clear B.
      * next (g_paren ts). next (IG r ltac:(lens)).
        assert (C : gets 1 w_gn (Y (Kw k_if) :: ts) (Ok (GI_if [] a a0 None, r0))).
        { split; [lens|]. intros N. use. exists (Y (Kw k_if) :: ypar a ++ q0). split; [eqs|]. intros T. cbn [tidy_gen] in T. ands. constructor; auto. }
        destruct r0 as [|x r0]; [exact C|]. destruct x as [y| | | | |]; try exact C. destruct y as [ | | | | | | | |k]; try exact C. destruct k; try exact C. clear C.
        next (IG r0 ltac:(lens)). split; [lens|]. intros N. use. exists (Y (Kw k_if) :: ypar a ++ q0 ++ Y (Kw k_else) :: q1). split; [eqs|]. intros T. cbn [tidy_gen] in T. ands. constructor; auto.
        destruct (gopen a0) eqn:O; [|reflexivity]. destruct (gopen_rest _ _ _ _ EQ0 O).
      * next (g_paren ts). next (IC r ltac:(lens)). destruct a0 as [|x a0]; [exact I|]. split; [lens|]. intros N. use. destruct W0 as (q' & -> & W0). exists (Y (Kw k_case) :: ypar a ++ q' ++ [Y (Kw k_endcase)]). split; [eqs|].
        intros T. constructor; [assumption|discriminate|exact (W0 T)].
      * destruct ts as [|[[[]| | | | | | | |]| | | | |] ts]; try exact I. next (g_ginit ts). next (g_expr r). destruct r0 as [|[[]| | | | |] r0]; try exact I. next (g_gstep r0). next (IG r1 ltac:(lens)). split; [lens|]. intros N. use.
        destruct W as (i & -> & W). destruct W1 as (s & -> & W1). exists (Y (Kw k_for) :: yx KLp :: i ++ Y Semi :: ys a0 ++ Y Semi :: s ++ yx KRp :: q2). split; [eqs|]. intros T. constructor; auto.
    + destruct m; try exact B. clear B. next (IS ts ltac:(lens)). destruct r as [|[|[]| | | |] r]; try exact I. split; [lens|]. intros N. use. exists (M m_generate :: q ++ [M m_endgenerate]). split; [eqs|]. intros T. constructor. exact (W T).
  - cbn [m_gens]. destruct (ends_gen ts); [split; [lia|]; intros _; exists []; split; [reflexivity|intros _; constructor]|]. next (IG ts ltac:(lens)). next (IS r ltac:(lens)). split; [lens|]. intros N. use. exists (q ++ q0). split; [eqs|].
    intros T. cbn [forallb] in T. ands. constructor; auto.
  - cbn [m_gcases].
    assert (B : gets 1 w_gcs ts ('(es, r) <- y_labels ts ;; '(g, r1) <- m_gen f r ;; '(l, r2) <- m_gcases f r1 ;; Ok ((es, g) :: l, r2))).
    { next (g_labels ts). next (IG r ltac:(lens)). next (IC r0 ltac:(lens)). split; [lens|]. intros N. use. destruct W1 as (q' & -> & W1). exists (map Y (label_toks a) ++ yx KColon :: q0 ++ q' ++ [Y (Kw k_endcase)]). split; [eqs|].
      exists (map Y (label_toks a) ++ yx KColon :: q0 ++ q'). split; [eqs|]. cbn [forallb snd]. intros T. ands. destruct W as [? ?]. constructor; auto. }
    destruct ts as [|x ts]; [exact B|]. destruct x as [y| | | | |]; try exact B. destruct y as [ | | | | | | | |k]; try exact B. destruct k; try exact B; clear B.
    + split; [lens|]. intros _. exists [Y (Kw k_endcase)]. split; [reflexivity|]. exists []. split; [reflexivity|]. intros _. constructor.
    + destruct (r_ycolon ts) as (c & C & E). rewrite E in L. rewrite E at 1. next (IG (skip_ycolon ts) ltac:(lens)). next (IC r ltac:(lens)). split; [lens|]. intros N. apply n3_cons in N. apply n3_app in N. use. destruct W0 as (q' & -> & W0).
      exists (Y (Kw k_default) :: c ++ q ++ q' ++ [Y (Kw k_endcase)]). split; [rewrite E0; eqs|]. exists (Y (Kw k_default) :: c ++ q ++ q'). split; [eqs|]. cbn [forallb snd]. intros T. ands. constructor; auto.
Qed.

(** ** Modules *)
Definition t_item (i : mditem mdecl) : bool :=
  match i with MT_region l => forallb tidy_gen l | MT_item _ _ g => tidy_gen g | MT_ports _ _ n => tidy_nadecl n | MT_module m => tidy_module m | MT_skipped => true end.
Lemma t_module e h p l : tidy_module (MD e h p l) = tidy_plist (mh_params h) && tidy_ports p && forallb t_item l.
Proof. reflexivity. Qed.
Definition w_hd_ (x : mheader * hports) (q : list mtk) : Prop := tidy_plist (mh_params (fst x)) && tidy_ports (snd x) = true -> w_header x q.
Lemma g_header ts : gets 1 w_hd_ ts (m_header ts).
Proof.
  unfold m_header. destruct ts as [|x ts]; [exact I|]. destruct x as [|k| | | |]; try exact I. destruct (is_module k) eqn:K; [|exact I]. next (g_id ts). next (g_plist r). next (g_ports r0). fin. split; [lens|]. intros N. use.
  exists (M k :: idt a :: q0 ++ q1 ++ [Y Semi]). split; [eqs|]. intros T. cbn [fst snd mh_params] in T. ands. constructor; [destruct k; try discriminate K; cbn; auto|auto|auto].
Qed.
Lemma no_block f ts p n m l r : m_pre ts = None -> m_gen f ts <> Ok (GI_block p n m l, r).
Proof.
  intros P EQ. destruct f as [|f]; [discriminate EQ|]. cbn [m_gen] in EQ. rewrite P in EQ.
  assert (B : (' (l, r0) <- m_leaf ts;; Ok (GI_leaf l, r0)) <> Ok (GI_block p n m l, r)) by (destruct (m_leaf ts) as [[? ?]| | |]; discriminate).
  destruct ts as [|x ts]; [exact (B EQ)|]. destruct x as [y|k| | | |]; try exact (B EQ).
  - destruct y as [t| | | | | | | |k]; try exact (B EQ). destruct k; try exact (B EQ); clear B.
    + destruct (y_paren ts) as [[? ?]| | |]; cbn [bind] in EQ; try discriminate EQ. destruct (m_gen _ l0) as [[? u]| | |]; cbn [bind] in EQ; try discriminate EQ.
      destruct u as [|[[| | | | | | | |[]]| | | | |] u]; try discriminate EQ. destruct (m_gen _ u) as [[? ?]| | |]; discriminate EQ.
    + destruct (y_paren ts) as [[? ?]| | |]; cbn [bind] in EQ; try discriminate EQ. destruct (m_gcases _ l0) as [[[|? ?] ?]| | |]; discriminate EQ.
    + destruct ts as [|[[[]| | | | | | | |]| | | | |] ts]; try (cbn in EQ; discriminate EQ). destruct (m_ginit ts) as [[? ?]| | |]; cbn [bind] in EQ; try discriminate EQ. destruct (y_expr l0) as [[? u]| | |]; cbn [bind] in EQ; try discriminate EQ.
      destruct u as [|[[]| | | | |] u]; try discriminate EQ. destruct (m_gstep u) as [[? u']| | |]; cbn [bind] in EQ; try discriminate EQ. destruct (m_gen _ u') as [[? ?]| | |]; discriminate EQ.
  - destruct k; try exact (B EQ). destruct (m_gens _ ts) as [[? u]| | |]; cbn [bind] in EQ; try discriminate EQ. destruct u as [|[|[]| | | |] u]; discriminate EQ.
Qed.
Lemma g_top ts : gets 1 (fun i q => t_item i = true -> w_top false i q) ts (m_top ts).
Proof.
  unfold m_top. destruct (m_pre ts) eqn:P; [exact I|]. destruct (g_gen (gen_fuel ts)) as (G & _). next (G ts ltac:(unfold gen_fuel; lia)).
  assert (NB : match a with GI_block _ _ _ _ => False | _ => True end) by (destruct a; try exact Logic.I; exact (no_block _ _ _ _ _ _ _ P EQ)). clear EQ G P.
  split; [lia|]. intros N. use. exists q. split; [reflexivity|].
  destruct a; intros T; specialize (W T); try (apply w_tp_item; [exact Logic.I|exact W]); try contradiction. inversion W; subst. constructor. assumption.
Qed.
Lemma g_module f :
  (forall ts, 2 * length ts + 1 <= f -> gets 1 (fun m q => tidy_module m = true -> w_module false m q) ts (m_decl f ts)) /\
  (forall ts, 2 * length ts + 2 <= f -> gets 0 (fun l q => forallb t_item l = true -> w_items false l q) ts (m_items f ts)).
Proof.
  induction f as [|f (IM & II)]; [split; intros ts L; lia|]. split; intros ts L.
  - cbn [m_decl]. set (W0 := fun m q => tidy_module m = true -> w_module false m q).
    assert (B : gets 1 W0 ts ('(hp, r1) <- m_header ts ;; '(l, r2) <- m_items f r1 ;;
          match r2 with M m_endmodule :: r3 => '(_, r4) <- y_name r3 ;; Ok (MD false (fst hp) (snd hp) l, r4) | _ => no_parse end)).
    { next (g_header ts). next (II r ltac:(lens)). destruct r0 as [|[|[]| | | |] r0]; try exact I. next (g_name r0). split; [lens|]. intros N. use. exists (q ++ q0 ++ M m_endmodule :: yname a1). split; [eqs|].
      unfold W0. rewrite t_module. destruct a as [h p]. cbn [fst snd] in *. intros T. apply Bool.andb_true_iff in T as [T1 T2]. constructor; [exact (W T1)|exact (W1 T2)|apply any_end]. }
    destruct ts as [|x ts]; [exact B|]. destruct x as [|k| | | |]; try exact B. destruct k; try exact B. clear B. next (g_header ts). destruct a as [h p]. cbn [fst snd].
    assert (C : p <> HP_all -> gets 1 W0 (M m_extern :: ts) (Ok (MD true h p [], r))).
    { intros NA. split; [lens|]. intros N. use. exists (M m_extern :: q). split; [eqs|]. unfold W0. rewrite t_module. intros T. apply Bool.andb_true_iff in T as [T1 T2]. constructor; [exact (W T1)|exact NA]. }
    destruct p; try exact I; apply C; discriminate.
  - cbn [m_items]. set (W0 := fun l q => forallb t_item l = true -> w_items false l q).
    assert (Z : gets 0 W0 ts (Ok ([], ts))) by (split; [lia|]; intros _; exists []; split; [reflexivity|intros _; constructor]).
    assert (B : gets 0 W0 ts ('(i, r1) <- m_top ts ;; '(l, r2) <- m_items f r1 ;; Ok (i :: l, r2))).
    { next (g_top ts). next (II r ltac:(lens)). split; [lens|]. intros N. use. exists (q ++ q0). split; [eqs|]. unfold W0. cbn [forallb]. intros T. apply Bool.andb_true_iff in T as [T1 T2]. apply w_it_top; auto. }
    assert (D : gets 0 W0 ts ('(m, r1) <- m_decl f ts ;; '(l, r2) <- m_items f r1 ;; Ok (MT_module m :: l, r2))).
    { next (IM ts ltac:(lens)). next (II r ltac:(lens)). split; [lens|]. intros N. use. exists (q ++ q0). split; [eqs|]. unfold W0. cbn [forallb]. intros T. apply Bool.andb_true_iff in T as [T1 T2]. apply w_it_module; auto. }
    assert (P : forall d u, ts = dir_toks (Some d) ++ u -> length u < length ts -> gets 0 W0 ts ('(n, r1) <- m_nadecl d u ;; '(l, r2) <- m_items f r1 ;; Ok (MT_ports [] [] n :: l, r2))).
    { intros d u E LU. next (g_nadecl d u). next (II r ltac:(lens)). split; [lens|]. intros N. rewrite E in N. apply n3_app in N. use. exists ((dir_toks (Some d) ++ q) ++ q0). split; [rewrite E; eqs|]. unfold W0. cbn [forallb]. intros T. apply Bool.andb_true_iff in T as [T1 T2]. apply w_it_ports; auto. }
    destruct ts as [|x ts]; [exact Z|]. destruct x as [|k| | | |]; try exact B. destruct k; try exact B; try exact D; try exact Z; [apply (P V_INPUT ts)|apply (P V_OUTPUT ts)|apply (P V_INOUT ts)]; try reflexivity; cbn [length]; lia.
Qed.
Lemma g_source f : forall ts, 2 * length ts + 2 <= f ->
  match m_source f ts with Ok l => n3 ts -> tidy l = true -> w_file false l ts | Throw _ => True | _ => False end.
Proof.
  induction f as [|f IH]; intros ts L; [lia|]. cbn [m_source]. destruct ts as [|x ts]; [intros _ _; constructor|]. revert L. generalize (x :: ts) as u. clear x ts. intros u L. destruct (g_module f) as (G & _). specialize (G u ltac:(lia)).
  destruct (m_decl f u) as [[m r]| | |]; cbn [bind gets] in *; try exact I; try contradiction. destruct G as (LE & G). specialize (IH r ltac:(lia)). destruct (m_source f r) as [l| | |]; cbn [bind] in *; try exact I; try contradiction.
  intros N T. cbn [tidy forallb] in T. apply Bool.andb_true_iff in T as [T1 T2]. destruct (G N) as (q & -> & W). constructor; [exact (W T1)|]. apply n3_app in N. exact (IH N T2).
Qed.
Lemma parse_file_read ts f : parse_source ts = Ok f -> n3 ts -> tidy f = true -> w_file false f ts.
Proof. intros H. pose proof (g_source (gen_fuel ts) ts ltac:(unfold gen_fuel; lia)) as G. unfold parse_source in H. rewrite H in G. exact G. Qed.
Lemma parse_file_ends ts : parse_source ts <> OutOfFuel /\ forall w, parse_source ts <> UB w.
Proof. pose proof (g_source (gen_fuel ts) ts ltac:(unfold gen_fuel; lia)) as G. unfold parse_source. destruct (m_source (gen_fuel ts) ts); try contradiction; split; discriminate. Qed.

(** ** What is written down has a tidy tree. *)
Lemma tidy_ranges l : forallb tidy_dim (map VD_range l) = true.
Proof. induction l; [reflexivity|assumption]. Qed.
Lemma commas_tidy {A : Type} (w : A -> list mtk -> Prop) (t : A -> bool) : (forall a q, w a q -> t a = true) -> forall l q, w_commas w l q -> forallb t l = true.
Proof. intros H l q W. induction W; cbn [forallb]; rewrite ?(H _ _ ltac:(eassumption)); cbn [andb]; auto. Qed.
Lemma type_tidy t q : w_type t q -> tidy_type t = true.
Proof. destruct 1; try apply tidy_ranges; reflexivity. Qed.
Lemma otype_tidy t q : w_otype t q -> tidy_otype t = true.
Proof. destruct 1; [reflexivity|]. eapply type_tidy; eassumption. Qed.
Lemma nvtype_tidy t q : w_nvtype t q -> tidy_nvtype t = true.
Proof. destruct 1; [reflexivity|eapply otype_tidy; eassumption|eapply type_tidy; eassumption]. Qed.
Lemma item_tidy v q : w_vitem v q -> tidy_item v = true.
Proof. destruct 1. apply tidy_ranges. Qed.
Lemma pbody_tidy b q : w_pbody b q -> tidy_pbody b = true.
Proof. destruct 1. eapply otype_tidy; eassumption. Qed.
Lemma pdecl_tidy p q : w_pdecl p q -> tidy_pdecl p = true.
Proof. destruct 1; try (eapply pbody_tidy; eassumption). eapply type_tidy; eassumption. Qed.
Lemma plist_tidy p q : w_plist p q -> tidy_plist p = true.
Proof. destruct 1; try reflexivity; eapply (commas_tidy _ _ pdecl_tidy); eassumption. Qed.
Lemma ansi_tidy p q : w_ansi p q -> tidy_ansi p = true.
Proof. destruct 1 as [d t v tt ts D T V]. apply nvtype_tidy in T. apply item_tidy in V. destruct t; cbn [tidy_ansi snd option_map]; rewrite ?T, V; reflexivity. Qed.
Lemma ports_tidy p q : w_ports p q -> tidy_ports p = true.
Proof. destruct 1; try reflexivity. eapply (commas_tidy _ _ ansi_tidy); eassumption. Qed.
Lemma nadecl_tidy n q : w_nadecl n q -> tidy_nadecl n = true.
Proof.
  destruct 1 as [t l tt ts T L|t l tt ts T L|t l tt ts T L]; apply nvtype_tidy in T; cbn [tidy_nadecl]; rewrite T; cbn [andb]; [|exact (commas_tidy _ _ item_tidy _ _ L)|];
    refine (commas_tidy _ _ _ _ _ L); intros a q [V _]; exact (item_tidy _ _ V).
Qed.
Lemma leaf_tidy same l q : w_leaf same l q -> tidy_leaf l = true.
Proof.
  destruct 1; try reflexivity; cbn [tidy_leaf nd_type dd_type dd_list]; try (eapply pbody_tidy; eassumption); try (eapply otype_tidy; eassumption).
  cbn [tidy_otype]. erewrite type_tidy by eassumption. eapply (commas_tidy _ _ item_tidy); eassumption.
Qed.
Lemma gens_tidy same :
  (forall g q, w_gen same g q -> tidy_gen g = true) /\ (forall l q, w_gens same l q -> forallb tidy_gen l = true) /\
  (forall l q, w_gcases same l q -> forallb (fun x => tidy_gen (snd x)) l = true).
Proof.
  apply w_gen_mutind; cbn [tidy_gen forallb snd]; intros; try reflexivity; try assumption; try (eapply leaf_tidy; eassumption); repeat match goal with H : _ = true |- _ => rewrite H; clear H end; reflexivity.
Qed.
Lemma header_tidy h p q : w_header (h, p) q -> tidy_plist (mh_params h) && tidy_ports p = true.
Proof. intros H. inversion H; subst. cbn [mh_params]. erewrite plist_tidy by eassumption. eapply ports_tidy; eassumption. Qed.
Lemma module_tidy same : (forall m q, w_module same m q -> tidy_module m = true) /\ (forall l q, w_items same l q -> forallb t_item l = true).
Proof.
  destruct (gens_tidy same) as (G & GS & _). apply w_module_mutind; intros; try reflexivity.
  - rewrite t_module. erewrite header_tidy by eassumption. assumption.
  - rewrite t_module. erewrite header_tidy by eassumption. reflexivity.
  - cbn [forallb]. apply Bool.andb_true_iff. split; [|assumption]. match goal with H : w_top _ _ _ |- _ => destruct H end; [eapply GS|eapply G]; eassumption.
  - cbn [forallb t_item]. erewrite nadecl_tidy by eassumption. assumption.
  - cbn [forallb t_item]. apply Bool.andb_true_iff. split; assumption.
Qed.
Lemma file_tidy same f q : w_file same f q -> tidy f = true.
Proof. induction 1; [reflexivity|]. cbn [tidy forallb]. apply Bool.andb_true_iff. split; [eapply (proj1 (module_tidy same)); eassumption|assumption]. Qed.
