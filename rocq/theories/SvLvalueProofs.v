(** Expressions and left hand sides inside of statements. *)
From Verif Require Import Base LitModel AstModel StmModel SvExprModel SvExprProofs SvStmModel SvSyntaxModel SvSyntaxSpec SvSyntaxProofs SvSyntaxComplete.
From Verif Require Import SvStmSyntaxModel SvStmSyntaxSpec.

(** ** Splitting *)
Lemma xsplit_app l ts : xsplit (map X l ++ ts) = let '(a, b) := xsplit ts in (l ++ a, b).
Proof. induction l as [|t l IH]; cbn [map app xsplit]; [destruct (xsplit ts); reflexivity|]. rewrite IH. destruct (xsplit ts). reflexivity. Qed.
Lemma xsplit_inv ts : forall a b, xsplit ts = (a, b) -> ts = map X a ++ b.
Proof.
  induction ts as [|t ts IH]; intros a b H; [injection H as <- <-; reflexivity|]. destruct t; cbn [xsplit] in H; try (injection H as <- <-; reflexivity).
  destruct (xsplit ts) as [a' b'] eqn:E. injection H as <- <-. cbn [map app]. f_equal. exact (IH _ _ eq_refl).
Qed.
Lemma xsplit_stop ts a b : xsplit ts = (a, b) -> match b with X _ :: _ => False | _ => True end.
Proof.
  revert a b. induction ts as [|t ts IH]; intros a b H; [injection H as <- <-; exact I|]. destruct t; cbn [xsplit] in H; try (injection H as <- <-; exact I).
  destruct (xsplit ts) as [a' b'] eqn:E. injection H as <- <-. exact (IH _ _ eq_refl).
Qed.

(** ** What may follow *)
Definition calm (r : list stk) : Prop := match r with X (KRp | KColon | KComma) :: _ => True | X _ :: _ => False | _ => True end.
Definition tidy (r : list stk) : Prop := match r with X (KLs | KLp | KDot | KBased _ | KColon2) :: _ => False | _ => True end.
Lemma enough {A} (f : nat -> outcome A) n x : (forall n, keeps f n) -> f n <> OutOfFuel -> can f x -> f n = Ok x.
Proof.
  intros K N C. apply (can_from _ _ K) in C as [m C]. pose proof (fuel_more f K n (m + n) _ (Nat.le_add_l _ _) eq_refl N) as E. rewrite <- E. apply C, Nat.le_add_r.
Qed.
Lemma x_expr_ok e r : proper e -> calm r -> x_expr (xs e ++ r) = Ok (e, r).
Proof.
  intros P C. unfold x_expr, x_with, xs. rewrite xsplit_app. destruct (xsplit r) as [a b] eqn:E. pose proof (xsplit_inv r a b E) as ->.
  rewrite (enough (fun n => p_expr n 0 (show e ++ a)) _ (e, a)); [reflexivity|apply k_expr|apply (enough_fuel (4 * length (show e ++ a) + 4)); lia|].
  assert (H : head_prec a = 0 /\ clean a) by (destruct a as [|t a]; [split; [reflexivity|exact I]|cbn [map app calm] in C; destruct t; try contradiction; split; [reflexivity|exact I|reflexivity|exact I|reflexivity|exact I]]).
  destruct H. eapply parse_complete; [apply le_n|exact P|lia|lia|unfold follow; lia|assumption|apply loop_end; assumption].
Qed.
Lemma x_prim_ok e r : proper e -> strength_of e = 15 -> tidy r -> x_prim (xs e ++ r) = Ok (e, r).
Proof.
  intros P S C. unfold x_prim, x_with, xs. rewrite xsplit_app. destruct (xsplit r) as [a b] eqn:E. pose proof (xsplit_inv r a b E) as ->.
  rewrite (enough (fun n => p_prim n (show e ++ a)) _ (e, a)); [reflexivity|apply k_prim|apply (enough_fuel (4 * length (show e ++ a) + 4)); lia|].
  assert (H : clean a) by (destruct a as [|t a]; [exact I|cbn [map app tidy] in C; destruct t; try contradiction; exact I]).
  eapply (prim_ok (length (show e)) (parse_complete (length (show e)))); [apply le_n|lia|exact P|exact S|apply clean_clean2, H|apply suffix_end, H].
Qed.
Definition no3 (ts : list stk) : Prop := ~ In (X KAnd3) ts.
Lemma no3_x a b : no3 (map X a ++ b) -> ~ In KAnd3 a.
Proof. intros N H. apply N, in_or_app. left. apply in_map. exact H. Qed.
Lemma no3_app a b : no3 (a ++ b) -> no3 b.
Proof. intros N H. apply N, in_or_app. right. exact H. Qed.
Lemma no3_cons t b : no3 (t :: b) -> no3 b.
Proof. intros N H. apply N. right. exact H. Qed.
Lemma x_expr_sound ts e r : x_expr ts = Ok (e, r) -> no3 ts -> ts = xs e ++ r /\ proper e.
Proof.
  unfold x_expr, x_with. intros H N. destruct (xsplit ts) as [a b] eqn:E. pose proof (xsplit_inv ts a b E) as ->. apply no3_x in N.
  destruct (p_expr (4 * length a + 4) 0 a) as [[e' r']| | |] eqn:P; try discriminate. injection H as <- <-.
  destruct (proj1 (parse_sound (4 * length a + 4)) 0 a e' r' P N ltac:(lia)) as (-> & PR & _). unfold xs. rewrite map_app, app_assoc. auto.
Qed.
Lemma x_prim_sound ts e r : x_prim ts = Ok (e, r) -> no3 ts -> ts = xs e ++ r /\ proper e /\ strength_of e = 15.
Proof.
  unfold x_prim, x_with. intros H N. destruct (xsplit ts) as [a b] eqn:E. pose proof (xsplit_inv ts a b E) as ->. apply no3_x in N.
  destruct (p_prim (4 * length a + 4) a) as [[e' r']| | |] eqn:P; try discriminate. injection H as <- <-.
  destruct (proj1 (proj2 (proj2 (parse_sound (4 * length a + 4)))) a e' r' P N) as (-> & PR & S). unfold xs. rewrite map_app, app_assoc. auto.
Qed.
(** Expressions need no more fuel, and take at least one token. *)
Lemma x_expr_runs ts : x_expr ts <> OutOfFuel /\ forall w, x_expr ts <> UB w.
Proof.
  unfold x_expr, x_with. destruct (xsplit ts) as [a b]. pose proof (proj1 (enough_fuel (4 * length a + 4)) 0 a ltac:(lia)) as F. pose proof (proj1 (defined (4 * length a + 4)) 0 a) as D.
  destruct (p_expr _ 0 a) as [[e r]| | |]; cbn [bind]; split; try discriminate; try congruence; try (intros w H; injection H as ->; exact (D w eq_refl)).
Qed.
Lemma x_prim_runs ts : x_prim ts <> OutOfFuel /\ forall w, x_prim ts <> UB w.
Proof.
  unfold x_prim, x_with. destruct (xsplit ts) as [a b]. pose proof (proj1 (proj2 (proj2 (enough_fuel (4 * length a + 4)))) a ltac:(lia)) as F. pose proof (proj1 (proj2 (proj2 (defined (4 * length a + 4)))) a) as D.
  destruct (p_prim _ a) as [[e r]| | |]; cbn [bind]; split; try discriminate; try congruence; try (intros w H; injection H as ->; exact (D w eq_refl)).
Qed.
Lemma x_expr_shorter ts e r : x_expr ts = Ok (e, r) -> length r < length ts.
Proof.
  unfold x_expr, x_with. intros H. destruct (xsplit ts) as [a b] eqn:E. pose proof (xsplit_inv ts a b E) as ->.
  destruct (p_expr (4 * length a + 4) 0 a) as [[e' r']| | |] eqn:P; try discriminate. injection H as <- <-. apply (shorter (4 * length a + 4)) in P. rewrite !app_length, !map_length. lia.
Qed.
Lemma x_prim_shorter ts e r : x_prim ts = Ok (e, r) -> length r < length ts.
Proof.
  unfold x_prim, x_with. intros H. destruct (xsplit ts) as [a b] eqn:E. pose proof (xsplit_inv ts a b E) as ->.
  destruct (p_prim (4 * length a + 4) a) as [[e' r']| | |] eqn:P; try discriminate. injection H as <- <-. apply (shorter (4 * length a + 4)) in P. rewrite !app_length, !map_length. lia.
Qed.

(** ** Left hand sides *)
Definition good (e d : vexpr) : Prop := proper e /\ strength_of e = 15 /\ show e = lv_toks d /\ lval_of e = Some d.
Lemma sel_app a b : sel_toks (a ++ b) = sel_toks a ++ sel_toks b.
Proof. apply flat_map_app. Qed.
Lemma dot_app a b : dot_toks (a ++ b) = dot_toks a ++ dot_toks b.
Proof. apply flat_map_app. Qed.
Lemma add_sel_app l i s e : add_sel (l ++ [(i, s)]) e = l ++ [(i, s ++ [e])].
Proof. induction l as [|d l IH]; [reflexivity|]. cbn [app]. destruct l as [|d' l]; destruct d; cbn [app add_sel] in *; [reflexivity|rewrite IH; reflexivity]. Qed.
Lemma hier_sel p l sel : p = VPathOf false H_none l -> l <> [] -> Forall (fun x => snd x = None) l -> Forall proper sel -> exists e, good e (VLvHier p sel [] None).
Proof.
  intros -> NE F. induction sel as [|x sel IH] using rev_ind; intros Q.
  - exists (VPath (VPathOf false H_none l)). repeat split; auto. cbn [show lv_toks sel_toks dot_toks last_range flat_map app]. rewrite app_nil_r. reflexivity.
  - apply Forall_app in Q as [Q Qx]. apply Forall_inv in Qx. destruct (IH Q) as (e & P & S & E & L). exists (VBitSelect e x). split; [repeat split; assumption|]. split; [reflexivity|]. split.
    + cbn [show]. rewrite E. cbn [lv_toks dot_toks last_range flat_map]. rewrite sel_app, !app_nil_r. cbn [sel_toks flat_map]. rewrite <- !app_assoc. cbn [app]. rewrite app_nil_r. reflexivity.
    + cbn [lval_of]. rewrite L. reflexivity.
Qed.
Lemma hier_dots p l sel dots : p = VPathOf false H_none l -> l <> [] -> Forall (fun x => snd x = None) l -> Forall proper sel -> Forall (fun d : ident * list vexpr => Forall proper (snd d)) dots -> exists e, good e (VLvHier p sel dots None).
Proof.
  intros EP NE F Q. induction dots as [|[i s] dots IH] using rev_ind; intros D; [exact (hier_sel p l sel EP NE F Q)|]. apply Forall_app in D as [D Dx]. apply Forall_inv in Dx. cbn [snd] in Dx. destruct (IH D) as (e & P & S & E & L). clear IH D.
  induction s as [|x s IHs] using rev_ind.
  - exists (VDot e i). split; [split; assumption|]. split; [reflexivity|]. subst p. split.
    + cbn [show]. rewrite E. cbn [lv_toks last_range]. rewrite dot_app, !app_nil_r. cbn [dot_toks flat_map fst snd sel_toks app]. rewrite <- !app_assoc. reflexivity.
    + cbn [lval_of]. rewrite L. reflexivity.
  - apply Forall_app in Dx as [Dx Px]. apply Forall_inv in Px. destruct (IHs Dx) as (e' & P' & S' & E' & L'). exists (VBitSelect e' x). split; [repeat split; assumption|]. split; [reflexivity|]. subst p. split.
    + cbn [show]. rewrite E'. cbn [lv_toks last_range]. rewrite !dot_app, !app_nil_r. cbn [dot_toks flat_map fst snd]. rewrite sel_app. cbn [sel_toks flat_map]. repeat (rewrite <- ?app_assoc; cbn [app]; rewrite ?app_nil_r). reflexivity.
    + cbn [lval_of]. rewrite L'. destruct (dots ++ [(i, s)]) as [|d0 dd] eqn:Z; [destruct dots; discriminate Z|]. rewrite <- Z, add_sel_app. reflexivity.
Qed.
Lemma comma_same f g l : (forall x, In x l -> f x = g x) -> comma_toks f l = comma_toks g l.
Proof.
  induction l as [|x l IH]; intros H; [reflexivity|]. destruct l as [|y l]; [cbn; apply H; left; reflexivity|]. rewrite !comma_cons, (H x (or_introl eq_refl)), IH; [reflexivity|]. intros z Z. apply H. right. exact Z.
Qed.
Lemma show_lval d : lv_proper d -> exists e, good e d.
Proof.
  induction d as [d K] using vexpr_ind'. intros P. destruct d; try contradiction.
  - cbn [lv_proper] in P. destruct P as [NE P]. cbn [kids] in K.
    assert (G : exists l', Forall2 good l' l).
    { clear NE. induction l as [|x l IH]; [exists []; constructor|]. destruct P as [Px P]. apply Forall_cons_iff in K as [Kx K]. destruct (Kx Px) as [e He]. destruct (IH K P) as [l' Hl]. exists (e :: l'). constructor; assumption. }
    destruct G as [l' G]. exists (VConcat l'). split; [|split; [reflexivity|split]].
    + cbn [proper]. split; [intros ->; inversion G; subst; contradiction|]. clear NE P K. induction G as [|e x l' l H G IH]; [exact I|]. split; [apply H|exact IH].
    + cbn [show lv_toks]. f_equal. f_equal. clear NE P K. induction G as [|e x l' l H G IH]; [reflexivity|]. destruct H as (_ & _ & E & _). destruct G as [|e' x' l' l H G]; [exact E|]. rewrite !comma_cons. f_equal; [exact E|]. f_equal. exact IH.
    + cbn [lval_of]. assert (E : omap_list lval_of l' = Some l); [|rewrite E; reflexivity]. clear NE P K. induction G as [|e x l' l H G IH]; [reflexivity|]. cbn [omap_list]. destruct H as (_ & _ & _ & ->). fold (omap_list lval_of). rewrite IH. reflexivity.
  - clear K. destruct p as [[] [] l]; try contradiction. cbn [lv_proper] in P. destruct P as ((NE & F) & Q & D & R). destruct (hier_dots _ l sel dots eq_refl NE F Q D) as (e & P & S & E & L).
    destruct r as [[[k a] b]|]; [|exists e; repeat split; assumption]. exists (VRange e k a b). split; [repeat split; try assumption; apply R|]. split; [reflexivity|]. split.
    + cbn [show]. rewrite E. cbn [lv_toks last_range]. rewrite app_nil_r. repeat (rewrite <- ?app_assoc; cbn [app]). reflexivity.
    + cbn [lval_of]. rewrite L. reflexivity.
Qed.
Lemma add_sel_cases dots e : dots <> [] -> exists l i s, dots = l ++ [(i, s)] /\ add_sel dots e = l ++ [(i, s ++ [e])].
Proof. intros NE. destruct (exists_last NE) as (l & [i s] & ->). exists l, i, s. split; [reflexivity|apply add_sel_app]. Qed.
Lemma lval_hier e : proper e -> forall d, lval_of e = Some d -> lv_toks d = show e /\ lv_proper d.
Proof.
  induction e as [e K] using vexpr_ind'. intros P d H. destruct e; try discriminate; cbn [kids] in K.
  - cbn [lval_of] in H. injection H as <-. cbn [proper] in P. destruct p as [[] [] l]; try contradiction. cbn [lv_toks sel_toks dot_toks last_range flat_map app show lv_proper]. rewrite app_nil_r. repeat split; try (apply Forall_nil); apply P.
  - cbn [proper] in P. destruct P as (S & P1 & P2). destruct K as [K _]. cbn [lval_of] in H. destruct (lval_of e1) as [d1|] eqn:E; [|discriminate]. destruct (K P1 d1 eq_refl) as [T L].
    destruct d1; try discriminate. destruct p as [[] [] l]; try contradiction. cbn [lv_proper] in L. destruct L as (LP & LS & LD & _). cbn [lv_toks] in T. cbn [show]. rewrite <- T.
    destruct dots as [|d0 dots].
    + destruct r; [discriminate|]. injection H as <-. cbn [lv_toks dot_toks last_range flat_map lv_proper]. rewrite sel_app. cbn [sel_toks flat_map]. split; [repeat (rewrite <- ?app_assoc; cbn [app]; rewrite ?app_nil_r); reflexivity|].
      repeat split; try apply LP; try apply Forall_nil. apply Forall_app. split; [exact LS|constructor; [exact P2|constructor]].
    + destruct r; [discriminate|]. assert (HD : VLvHier (VPathOf false H_none l) sel (add_sel (d0 :: dots) e2) None = d) by congruence. rewrite <- HD. clear H HD. destruct (add_sel_cases (d0 :: dots) e2) as (l0 & i & s & EQ & ADD); [discriminate|]. rewrite ADD. rewrite EQ in *. cbn [lv_toks last_range lv_proper]. rewrite !dot_app. cbn [dot_toks flat_map fst snd]. rewrite sel_app. cbn [sel_toks flat_map].
      split; [repeat (rewrite <- ?app_assoc; cbn [app]; rewrite ?app_nil_r); reflexivity|]. repeat split; try apply LP; try assumption. apply Forall_app in LD as [LD1 LD2]. apply Forall_inv in LD2. cbn [snd] in LD2. apply Forall_app. split; [exact LD1|]. constructor; [|constructor]. cbn [snd]. apply Forall_app. split; [exact LD2|constructor; [exact P2|constructor]].
  - cbn [proper] in P. destruct P as (S & P1). cbn [lval_of] in H. destruct (lval_of e) as [d1|] eqn:E; [|discriminate]. destruct (K P1 d1 eq_refl) as [T L].
    destruct d1; try discriminate. destruct p as [[] [] l]; try contradiction. cbn [lv_proper] in L. destruct L as (LP & LS & LD & _). cbn [lv_toks] in T. cbn [show]. rewrite <- T.
    destruct r; [discriminate|]. injection H as <-. cbn [lv_toks last_range lv_proper]. rewrite dot_app. cbn [dot_toks flat_map fst snd sel_toks]. split; [repeat (rewrite <- ?app_assoc; cbn [app]; rewrite ?app_nil_r); reflexivity|].
    repeat split; try apply LP; try assumption. apply Forall_app. split; [exact LD|constructor; [constructor|constructor]].
  - cbn [proper] in P. destruct P as (S & P1 & P2 & P3). destruct K as [K _]. cbn [lval_of] in H. destruct (lval_of e1) as [d1|] eqn:E; [|discriminate]. destruct (K P1 d1 eq_refl) as [T L].
    destruct d1; try discriminate. destruct p as [[] [] l]; try contradiction. cbn [lv_proper] in L. destruct L as (LP & LS & LD & _). cbn [lv_toks] in T. cbn [show]. rewrite <- T.
    destruct r; [discriminate|]. injection H as <-. cbn [lv_toks last_range lv_proper]. split; [repeat (rewrite <- ?app_assoc; cbn [app]; rewrite ?app_nil_r); reflexivity|]. repeat split; try apply LP; assumption.
  - cbn [proper] in P. destruct P as (NE & P). cbn [lval_of] in H. destruct (omap_list lval_of l) as [r|] eqn:E; [|discriminate]. injection H as <-.
    assert (G : Forall2 (fun e d => lv_toks d = show e /\ lv_proper d) l r).
    { clear NE. revert r E. induction l as [|x l IH]; intros r E; [injection E as <-; constructor|]. cbn [omap_list] in E. destruct (lval_of x) as [y|] eqn:Ex; [|discriminate]. fold (omap_list lval_of) in E. destruct (omap_list lval_of l) as [r'|]; [|discriminate]. injection E as <-.
      apply Forall_cons_iff in K as [Kx K]. destruct P as [Px P]. constructor; [exact (Kx Px y Ex)|]. exact (IH K P r' eq_refl). }
    clear E K P. cbn [lv_toks show lv_proper]. split.
    + f_equal. f_equal. clear NE. induction G as [|e d l r [H _] G IH]; [reflexivity|]. destruct G as [|e' d' l r H' G]; [exact H|]. rewrite !comma_cons. f_equal; [exact H|]. f_equal. exact IH.
    + split; [intros ->; inversion G; subst; contradiction|]. clear NE. induction G as [|e d l r [_ H] G IH]; [exact I|]. split; assumption.
Qed.
(** What the parser reads as a left hand side. *)
Lemma lv_read d r : lv_proper d -> tidy r -> exists p, x_prim (lv d ++ r) = Ok (p, r) /\ lval_of p = Some d /\ proper p.
Proof. intros P T. destruct (show_lval d P) as (e & PE & S & E & L). exists e. split; [|split; assumption]. unfold lv. rewrite <- E. exact (x_prim_ok e r PE S T). Qed.
Lemma lv_read_expr d r : lv_proper d -> calm r -> exists p, x_expr (lv d ++ r) = Ok (p, r) /\ lval_of p = Some d /\ proper p.
Proof. intros P T. destruct (show_lval d P) as (e & PE & S & E & L). exists e. split; [|split; assumption]. unfold lv. rewrite <- E. exact (x_expr_ok e r PE T). Qed.
Lemma lv_sound p d : proper p -> lval_of p = Some d -> xs p = lv d /\ lv_proper d.
Proof. intros P L. destruct (lval_hier p P d L) as [T Q]. unfold lv, xs. rewrite T. auto. Qed.
