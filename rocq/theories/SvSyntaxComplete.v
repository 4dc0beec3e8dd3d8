(** Every proper expression is parsed into its tree. *)
From Verif Require Import Base LitModel AstModel SvExprModel SvSyntaxModel SvSyntaxSpec.
From Verif Require Import SvSyntaxProofs.

Definition starter (t : tok) : Prop :=
  match t with KId _ | KEscId _ | KUnsigned _ | KBased _ | KSized _ | KReal _ | KString _ | KUnbased _ | KTime _ | KNull | KDolar | KLp | KLb | KOp _ => True | _ => False end.
Definition no_op (t : tok) : Prop := match t with KOp _ => False | _ => True end.
(** The first token of an expression. *)
Lemma show_first e : proper e -> exists t r, show e = t :: r /\ starter t /\ (strength_of e = 15 -> no_op t).
Proof.
  assert (G : forall a s, (exists t r, show a = t :: r /\ starter t /\ (strength_of a = 15 -> no_op t)) -> exists t r, show a ++ s = t :: r /\ starter t /\ (strength_of a = 15 -> no_op t)).
  { intros a s (t & r & -> & H). exists t, (r ++ s). auto. }
  induction e; intros P; cbn [proper] in P; try contradiction.
  - destruct l as [[ |[|]| ]| | | | | | | ]; cbn; try (exfalso; exact (P eq_refl)); eexists; eexists; (split; [reflexivity|]); split; intros; exact I.
  - destruct p as [[] [] l]; try contradiction. destruct P as [P _]. destruct l as [|[i o] l]; [contradiction|]. cbn [show].
    assert (E : exists r, path_toks ((i, o) :: l) = id_tok i :: r) by (destruct l as [|[j q] l]; eexists; reflexivity). destruct E as [r ->].
    exists (id_tok i), r. destruct i; (split; [reflexivity|]); split; intros; exact I.
  - destruct typ_max as [[t m]|]; eexists; eexists; (split; [reflexivity|]); split; intros; exact I.
  - destruct P as (S15 & P & _). cbn [show]. destruct (G e1 (KLs :: show e2 ++ [KRs]) (IHe1 P)) as (t & r & -> & T & O). exists t, r. auto.
  - destruct P as (S15 & P). cbn [show]. destruct (G e [KDot; id_tok i] (IHe P)) as (t & r & -> & T & O). exists t, r. auto.
  - destruct P as (S15 & P & _). cbn [show]. destruct (G e1 (KLs :: show e2 ++ range_toks k ++ show e3 ++ [KRs]) (IHe1 P)) as (t & r & -> & T & O). exists t, r. auto.
  - eexists; eexists; (split; [reflexivity|]); split; intros; exact I.
  - eexists; eexists; (split; [reflexivity|]); split; intros; exact I.
  - destruct method; [contradiction|]. destruct args as [l|], with_; try contradiction.
    + destruct P as (S15 & P & _). cbn [show]. destruct (G e (KLp :: arg_toks show l ++ [KRp]) (IHe P)) as (t & r & -> & T & O). exists t, r. auto.
    + destruct P as (S15 & P). cbn [show]. destruct (G e [KLp; KRp] (IHe P)) as (t & r & -> & T & O). exists t, r. auto.
  - exists (KOp (un_sym o)), (show e). repeat split. discriminate.
  - destruct P as (P & _). cbn [show]. destruct (G e1 (KOp (bin_sym o) :: show e2) (IHe1 P)) as (t & r & -> & T & O). exists t, r. split; [reflexivity|]. split; [exact T|]. cbn. destruct o; discriminate.
  - destruct P as (P & _). cbn [show]. destruct (G e1 (KQuest :: show e2 ++ KColon :: show e3) (IHe1 P)) as (t & r & -> & T & O). exists t, r. split; [reflexivity|]. split; [exact T|]. discriminate.
Qed.
Lemma show_no_colon e s : proper e -> starts_colon (show e ++ s) = false.
Proof. intros P. destruct (show_first e P) as (t & r & -> & T & _). destruct t; try contradiction; reflexivity. Qed.

(** What follows does not continue a primary. *)
Definition clean (ts : list tok) : Prop := match ts with (KLs | KLp | KDot | KBased _ | KColon2) :: _ => False | _ => True end.
Definition clean2 (ts : list tok) : Prop := match ts with (KBased _ | KColon2) :: _ => False | _ => True end.
Lemma loop_end p e r : head_prec r = 0 -> c_loop p e r (e, r).
Proof.
  intros H. exists 1. rewrite p_loop_S. destruct r as [|[] r]; try reflexivity; try discriminate.
  cbn [head_prec] in H. destruct (bin_of o) as [b|]; [|reflexivity]. destruct (starts_colon r); [rewrite andb_false_r; reflexivity|]. pose proof (bin_prec_pos b). lia.
Qed.
Lemma loop_stops p e r : head_prec r < p -> c_loop p e r (e, r).
Proof.
  intros H. destruct (Nat.eq_dec (head_prec r) 0) as [Z|NZ]; [apply loop_end, Z|]. exists 1. rewrite p_loop_S. destruct r as [|[] r]; try reflexivity.
  - cbn [head_prec] in H. destruct (bin_of o) as [b|]; [|reflexivity]. destruct (starts_colon r); [rewrite andb_false_r; reflexivity|].
    destruct (Nat.leb_spec p (bin_prec b)); [lia|reflexivity].
  - change (alt_prec and3_alt) with 3. cbn [head_prec] in H. destruct (Nat.leb_spec p 3); [lia|reflexivity].
  - change (alt_prec cond_alt) with 2. cbn [head_prec] in H. destruct (Nat.leb_spec p 2); [lia|reflexivity].
Qed.
Lemma suffix_end e r : clean r -> c_suffix e r (e, r).
Proof. intros H. exists 1. rewrite p_suffix_S. destruct r as [|[] r]; try reflexivity; contradiction. Qed.
Lemma clean_clean2 r : clean r -> clean2 r.
Proof. destruct r as [|[] r]; intros H; try exact H; exact I. Qed.
Lemma more_items_rest l r : Forall (fun x : ident * option (pva vexpr) => snd x = None) l -> clean2 r -> more_items (List.concat (map (fun x => [KColon2; id_tok (fst x)]) l) ++ r) = (l, r).
Proof.
  induction 1 as [|[i o] l E F IH]; intros C; [destruct r as [|[] r]; try reflexivity; contradiction|]. cbn in E. subst o.
  cbn [map List.concat fst app]. destruct i; cbn [id_tok more_items]; rewrite IH by exact C; reflexivity.
Qed.
Lemma expr_of_prim p ts e r x : (exists t s, ts = t :: s /\ no_op t) -> c_prim ts (e, r) -> c_loop p e r x -> c_expr p ts x.
Proof. intros (t & s & -> & N) H1 H2. common. exists (S (x0 + x1)). rewrite p_expr_S. destruct t; try contradiction; calls; reflexivity. Qed.
Lemma show_pos e : proper e -> 0 < length (show e).
Proof. intros P. destruct (show_first e P) as (t & r & -> & _). cbn. lia. Qed.
Lemma comma_cons f e e' l : comma_toks f (e :: e' :: l) = f e ++ KComma :: comma_toks f (e' :: l).
Proof. reflexivity. Qed.

Section Step.
(** All smaller expressions are parsed. *)
Context (n : nat) (IH : forall e, length (show e) <= n -> proper e -> forall p r x, p <= 16 -> p <= alevel e -> follow e r -> clean r -> c_loop p e r x -> c_expr p (show e ++ r) x).
Lemma inner e r : length (show e) <= n -> proper e -> head_prec r = 0 -> clean r -> c_expr 0 (show e ++ r) (e, r).
Proof. intros L P H C. apply IH; try assumption; try lia; [unfold follow; lia|apply loop_end, H]. Qed.
Lemma list_ok l r : l <> [] -> all_of proper l -> length (comma_toks show l) <= n -> c_list (comma_toks show l ++ KRb :: r) (l, r).
Proof.
  induction l as [|e l IHl]; intros N A L; [contradiction|]. destruct A as [P A]. destruct l as [|e' l].
  - cbn [comma_toks]. assert (H := inner e (KRb :: r) L P eq_refl I). common. exists (S x). rewrite p_list_S. calls. reflexivity.
  - rewrite comma_cons in L |- *. rewrite app_length in L. cbn [length] in L. rewrite <- app_assoc. cbn [app].
    assert (H := inner e (KComma :: comma_toks show (e' :: l) ++ KRb :: r) ltac:(lia) P eq_refl I).
    assert (H2 := IHl ltac:(discriminate) A ltac:(lia)). common. exists (S (x + x0)). rewrite p_list_S. calls. reflexivity.
Qed.
Lemma args_ok l : forall b r, separated l -> all_args proper l -> (b = true -> forall e l', l <> AExpr e :: l') -> length (arg_toks show l) <= n -> c_args b (arg_toks show l ++ KRp :: r) (l, r).
Proof.
  induction l as [|a l IHl]; intros b r SP A B L; [exists 1; reflexivity|]. destruct a as [|e|i v]; [| |destruct SP].
  - cbn [arg_toks app length] in L |- *. assert (H := IHl false r SP A ltac:(discriminate) ltac:(lia)). common. exists (S x). rewrite p_args_S. calls. reflexivity.
  - destruct b; [exfalso; eapply (B eq_refl); reflexivity|]. cbn [arg_toks] in L |- *. rewrite app_length in L. destruct A as [P A].
    assert (SL : separated l /\ forall e l', l <> AExpr e :: l') by (destruct l as [|[] l]; cbn [separated] in *; try contradiction; split; auto; discriminate). destruct SL as [SL NE].
    assert (H2 := IHl true r SL A (fun _ => NE) ltac:(lia)).
    assert (HR : head_prec (arg_toks show l ++ KRp :: r) = 0 /\ clean (arg_toks show l ++ KRp :: r)) by (destruct l as [|[] l]; cbn [arg_toks app]; [split; [reflexivity|exact I]|split; [reflexivity|exact I]|exfalso; eapply NE; reflexivity|destruct SL]).
    destruct HR as [HR CR]. rewrite <- app_assoc. assert (H := inner e _ ltac:(lia) P HR CR).
    destruct (show_first e P) as (t & s & E & T & _). common. exists (S (x + x0)). rewrite p_args_S.
    assert (D : forall X Y Z, match show e ++ arg_toks show l ++ KRp :: r with KRp :: r0 => X r0 | KComma :: r0 => Y r0 | _ => Z end = Z :> outcome (list (argc vexpr) * list tok)) by (intros; rewrite E; destruct t; try contradiction; reflexivity).
    rewrite D. calls. reflexivity.
Qed.
Lemma cat_ok : forall m e r, length (show e) <= m -> length (show e) <= S n -> proper e -> match e with VConcat _ | VRepl _ _ => True | _ => False end ->
  exists ts, show e = KLb :: ts /\ c_cat (ts ++ r) (e, r).
Proof.
  induction m as [|m IHm]; intros e r LM L P K; [pose proof (show_pos e P); lia|]. destruct e; try contradiction.
  - destruct P as [NE P]. cbn [show] in *. eexists. split; [reflexivity|]. cbn [length] in L. rewrite app_length in L. cbn [length] in L. rewrite <- app_assoc. cbn [app].
    destruct l as [|e l]; [contradiction|]. destruct P as [P A]. destruct l as [|e' l].
    + cbn [comma_toks] in *. assert (H := inner e (KRb :: r) ltac:(lia) P eq_refl I). common. exists (S x). rewrite p_cat_S. calls. reflexivity.
    + rewrite comma_cons in L |- *. rewrite app_length in L. cbn [length] in L. rewrite <- app_assoc. cbn [app].
      assert (H := inner e (KComma :: comma_toks show (e' :: l) ++ KRb :: r) ltac:(lia) P eq_refl I).
      assert (H2 := list_ok (e' :: l) r ltac:(discriminate) A ltac:(lia)). common. exists (S (x + x0)). rewrite p_cat_S. calls. reflexivity.
  - destruct P as (P1 & P2 & K2). cbn [show] in *. eexists. split; [reflexivity|]. cbn [length] in L, LM. rewrite !app_length in L, LM. cbn [length] in L, LM.
    destruct (IHm e2 (KRb :: r)) as (ts & E & H2); [lia|lia|exact P2|exact K2|]. rewrite <- !app_assoc. cbn [app]. rewrite E. cbn [app].
    assert (H := inner e1 (KLb :: ts ++ KRb :: r) ltac:(lia) P1 eq_refl I). common. exists (S (x + x0)). rewrite p_cat_S. calls. reflexivity.
Qed.
Lemma prim_ok : forall m e, length (show e) <= m -> length (show e) <= S n -> proper e -> strength_of e = 15 -> forall r x, clean2 r -> c_suffix e r x -> c_prim (show e ++ r) x.
Proof.
  induction m as [|m IHm]; intros e LM L P S15 r x C H; [pose proof (show_pos e P); lia|]. destruct e; try discriminate; try (exfalso; exact P).
  - destruct l as [[t|[s|] t|t]|t|t|t|t| | | ]; cbn [proper] in P; try contradiction; cbn [show lit_toks app]; common; exists (S x0); rewrite p_prim_S; try (rewrite H by lia; reflexivity).
    destruct r as [|[] r]; try contradiction; rewrite H by lia; reflexivity.
  - destruct p as [[] [] l]; cbn [proper] in P; try contradiction. destruct P as [NE F]. destruct l as [|[i o] l]; [contradiction|]. apply Forall_cons_iff in F as [E F']. cbn in E. subst o.
    rewrite path_show. cbn [app]. common. exists (S x0). rewrite p_prim_S. assert (E2 := more_items_rest l r F' C).
    destruct i; cbn [id_tok]; unfold path_from; rewrite E2; rewrite H by lia; reflexivity.
  - destruct typ_max as [[t u]|]; cbn [show] in *; cbn [proper] in P; cbn [length] in L; rewrite ?app_length in L; cbn [length] in L; rewrite ?app_length in L; cbn [length] in L; rewrite ?app_length in L; cbn [length] in L.
    + destruct P as (P1 & P2 & P3). cbn [app]. repeat (rewrite <- app_assoc; cbn [app]).
      assert (H1 := inner e (KColon :: show t ++ KColon :: show u ++ KRp :: r) ltac:(lia) P1 eq_refl I).
      assert (H2 := inner t (KColon :: show u ++ KRp :: r) ltac:(lia) P2 eq_refl I).
      assert (H3 := inner u (KRp :: r) ltac:(lia) P3 eq_refl I). common. exists (S (x0 + x1 + x2 + x3)). rewrite p_prim_S. calls. reflexivity.
    + cbn [app]. rewrite <- app_assoc. cbn [app]. assert (H1 := inner e (KRp :: r) ltac:(lia) P eq_refl I). common. exists (S (x0 + x1)). rewrite p_prim_S. calls. reflexivity.
  - cbn [show] in *. destruct P as (S1 & P1 & P2). rewrite app_length in L, LM. cbn [length] in L, LM. rewrite app_length in L, LM. cbn [length] in L, LM.
    repeat (rewrite <- app_assoc; cbn [app]). apply IHm; [lia|lia|exact P1|exact S1|exact I|].
    assert (H1 := inner e2 (KRs :: r) ltac:(lia) P2 eq_refl I). common. exists (S (x0 + x1)). rewrite p_suffix_S. calls. reflexivity.
  - cbn [show] in *. destruct P as (S1 & P1). rewrite app_length in L, LM. cbn [length] in L, LM.
    rewrite <- app_assoc; cbn [app]. apply IHm; [lia|lia|exact P1|exact S1|exact I|].
    common. exists (S x0). rewrite p_suffix_S. destruct i; cbn [id_tok]; rewrite H by lia; reflexivity.
  - cbn [show] in *. destruct P as (S1 & P1 & P2 & P3). rewrite app_length in L, LM. cbn [length] in L, LM. rewrite !app_length in L, LM. cbn [length] in L, LM.
    repeat (rewrite <- app_assoc; cbn [app]). apply IHm; [lia|lia|exact P1|exact S1|exact I|].
    assert (H2 := inner e3 (KRs :: r) ltac:(lia) P3 eq_refl I).
    assert (H1 : c_expr 0 (show e2 ++ range_toks k ++ show e3 ++ KRs :: r) (e2, range_toks k ++ show e3 ++ KRs :: r)) by (apply inner; [lia|exact P2|destruct k; reflexivity|destruct k; exact I]).
    common. exists (S (x0 + x1 + x2)). rewrite p_suffix_S. rewrite (H1 (x0 + x1 + x2)) by lia. cbn [bind]. destruct k; cbn [range_toks app]; calls; reflexivity.
  - destruct (cat_ok (S n) (VConcat l) r) as (ts & E & H1); [lia|lia|exact P|exact I|]. rewrite E. cbn [app]. common. exists (S (x0 + x1)). rewrite p_prim_S. calls. reflexivity.
  - destruct (cat_ok (S n) (VRepl e1 e2) r) as (ts & E & H1); [lia|lia|exact P|exact I|]. rewrite E. cbn [app]. common. exists (S (x0 + x1)). rewrite p_prim_S. calls. reflexivity.
  - cbn [proper] in P. destruct method; [contradiction|]. destruct args as [l|], with_; try contradiction; cbn [show] in *; rewrite app_length in L, LM; cbn [length] in L, LM.
    + destruct P as (S1 & P1 & NE & SP & A). rewrite app_length in L, LM. cbn [length] in L, LM. repeat (rewrite <- app_assoc; cbn [app]). apply IHm; [lia|lia|exact P1|exact S1|exact I|].
      assert (H1 := args_ok l false r SP A ltac:(discriminate) ltac:(lia)). common. exists (S (x0 + x1)). rewrite p_suffix_S. calls. destruct l; [contradiction|]. calls. reflexivity.
    + destruct P as (S1 & P1). repeat (rewrite <- app_assoc; cbn [app]). apply IHm; [lia|lia|exact P1|exact S1|exact I|].
      common. exists (S (S x0)). rewrite p_suffix_S, p_args_S. cbn [bind args_of]. rewrite H by lia. reflexivity.
  - cbn [strength_of] in S15. destruct o; discriminate.
Qed.
End Step.
Theorem parse_complete : forall n e, length (show e) <= n -> proper e -> forall p r x, p <= 16 -> p <= alevel e -> follow e r -> clean r -> c_loop p e r x -> c_expr p (show e ++ r) x.
Proof.
  induction n as [|n IH]; intros e L P p r x LP LE F C H; [pose proof (show_pos e P); lia|].
  destruct (Nat.eq_dec (strength_of e) 15) as [S15|N15].
  - eapply expr_of_prim; [|apply (prim_ok n IH (S n) e L L P S15 r (e, r) (clean_clean2 r C)); apply suffix_end, C|exact H].
    destruct (show_first e P) as (t & s & E & _ & O). exists t, (s ++ r). rewrite E. split; [reflexivity|exact (O S15)].
  - destruct e; try (exfalso; apply N15; reflexivity).
    + destruct P as [S1 P]. cbn [show app length] in *.
      assert (H1 : c_prim (show e ++ r) (e, r)) by (apply (prim_ok n IH (S n) e); [lia|lia|exact P|exact S1|exact (clean_clean2 r C)|apply suffix_end, C]).
      common. exists (S (x0 + x1)). rewrite p_expr_S. rewrite (proj2 (un_of_sym _ o) eq_refl). calls. reflexivity.
    + cbn [show] in *. destruct P as (P1 & P2 & SA). rewrite app_length in L. cbn [length] in L. rewrite <- app_assoc. cbn [app].
      assert (BS := proj2 (bin_of_sym _ o) eq_refl). assert (SC := show_no_colon e2 r P2).
      assert (HP : head_prec (KOp (bin_sym o) :: show e2 ++ r) = bin_prec o) by (cbn [head_prec]; rewrite BS, SC; reflexivity).
      assert (A : bin_prec o <= tight e1 /\ bin_prec o <= alevel e1 /\ bin_next o <= alevel e2 /\ bin_next o <= 16 /\ (head_prec r < bin_next o) /\ head_prec r <= tight e2).
      { unfold follow in F. cbn [tight] in F. unfold bin_next. rewrite right_same. destruct (to_the_right o) eqn:R.
        - pose proof (strength_right o R) as S1. rewrite up_prec, S1 in *. change (up 1) with 1 in *. destruct SA as [A1 A2]. apply up_lt in A1. apply up_le in A2. change (up 1) with 1 in *.
          fold (alevel e1) (alevel e2) in *. assert (1 <= tight e1).
          { destruct e1; cbn [tight]; try lia. destruct (to_the_right o0) eqn:R0; [|lia]. unfold alevel in A1. cbn [strength_of] in A1. rewrite (strength_right o0 R0) in A1. cbn in A1. lia. }
          repeat split; try lia.
        - pose proof (strength_left o R). rewrite up_prec in *. destruct SA as [A1 A2]. apply up_le in A1. apply up_lt in A2. unfold alevel in F. cbn [strength_of] in F. fold (alevel e1) (alevel e2) in *.
          assert (U : 4 <= up (strength o) <= 15) by (unfold up; destruct (Nat.leb_spec (strength o) 2); [lia|]; destruct (Nat.leb_spec (strength o) 8); lia).
          assert (T1 : alevel e1 = tight e1).
          { destruct e1; cbn [tight]; try reflexivity; [|unfold alevel in A1; cbn [strength_of] in A1; cbn in A1; lia]. destruct (to_the_right o0) eqn:R0; [|reflexivity]. unfold alevel in A1. cbn [strength_of] in A1. rewrite (strength_right o0 R0) in A1. cbn in A1. lia. }
          assert (T2 : alevel e2 = tight e2).
          { destruct e2; cbn [tight]; try reflexivity; [|unfold alevel in A2; cbn [strength_of] in A2; cbn in A2; lia]. destruct (to_the_right o0) eqn:R0; [|reflexivity]. unfold alevel in A2. cbn [strength_of] in A2. rewrite (strength_right o0 R0) in A2. cbn in A2. lia. }
          repeat split; try lia. }
      destruct A as (A1 & A2 & A3 & A4 & A5 & A6).
      apply (IH e1); [lia|exact P1|exact LP| |unfold follow; rewrite HP; exact A1|exact I|]; [unfold alevel in LE; cbn [strength_of] in LE; rewrite up_prec in A2; lia|].
      assert (H2 : c_expr (bin_next o) (show e2 ++ r) (e2, r)) by (apply IH; [lia|exact P2|exact A4|exact A3|exact A6|exact C|apply loop_stops, A5]).
      common. exists (S (x0 + x1)). rewrite p_loop_S, BS, SC. cbn [negb]. rewrite andb_true_r.
      unfold alevel in LE. cbn [strength_of] in LE. rewrite <- up_prec in LE. rewrite (proj2 (Nat.leb_le p (bin_prec o)) LE). calls. reflexivity.
    + cbn [show] in *. destruct P as (P1 & P2 & P3 & A1 & A2). rewrite app_length in L. cbn [length] in L. rewrite app_length in L. cbn [length] in L. repeat (rewrite <- app_assoc; cbn [app]).
      apply up_lt in A1. apply up_le in A2. change (up 2) with 2 in *. fold (alevel e1) (alevel e3) in *. unfold alevel in LE. cbn in LE. unfold follow in F. cbn [tight] in F.
      assert (T1 : 2 <= tight e1).
      { destruct e1; cbn [tight]; try lia; [|unfold alevel in A1; cbn in A1; lia]. destruct (to_the_right o) eqn:R0; [|lia]. unfold alevel in A1. cbn [strength_of] in A1. rewrite (strength_right o R0) in A1. cbn in A1. lia. }
      assert (T3 : 1 <= tight e3).
      { destruct e3; cbn [tight]; try lia. destruct (to_the_right o) eqn:R0; [|lia]. unfold alevel in A2. cbn [strength_of] in A2. rewrite (strength_right o R0) in A2. cbn in A2. lia. }
      apply (IH e1); [lia|exact P1|exact LP|lia|exact T1|exact I|].
      assert (H2 : c_expr 0 (show e2 ++ KColon :: show e3 ++ r) (e2, KColon :: show e3 ++ r)) by (apply (inner n IH); [lia|exact P2|reflexivity|exact I]).
      assert (H3 : c_expr 2 (show e3 ++ r) (e3, r)) by (apply IH; [lia|exact P3|lia|exact A2|unfold follow; lia|exact C|apply loop_stops; lia]).
      common. exists (S (x0 + x1 + x2)). rewrite p_loop_S. change (alt_prec cond_alt) with 2. rewrite (proj2 (Nat.leb_le p 2) LE). calls. reflexivity.
    + destruct P.
Qed.

(** ** A whole expression *)
Theorem parse_show e : proper e -> parse_expression (show e) = Ok e.
Proof.
  intros P. assert (H : c_expr 0 (show e ++ []) (e, [])).
  { eapply parse_complete; [apply le_n|exact P|lia|lia|unfold follow; cbn; lia|exact I|apply loop_end; reflexivity]. }
  rewrite app_nil_r in H. unfold parse_expression. pose proof (proj1 (enough_fuel (4 * length (show e) + 4)) 0 (show e) ltac:(lia)) as N.
  apply (can_from _ _ (k_expr 0 (show e))) in H as [m H].
  assert (E := fuel_more (fun n => p_expr n 0 (show e)) (k_expr 0 (show e)) (4 * length (show e) + 4) (m + (4 * length (show e) + 4)) _ (Nat.le_add_l _ _) eq_refl N). cbv beta in E.
  rewrite <- E, (H (m + (4 * length (show e) + 4)) (Nat.le_add_r _ _)). reflexivity.
Qed.
Theorem show_parse ts e : parse_expression ts = Ok e -> ~ In KAnd3 ts -> show e = ts /\ proper e.
Proof.
  unfold parse_expression. intros H N. destruct (p_expr _ 0 ts) as [[e' r]| | |] eqn:E; try discriminate. cbn [bind] in H. destruct r; [|discriminate]. injection H as ->.
  apply parse_sound in E as (-> & P & _); [|exact N|lia]. rewrite app_nil_r. auto.
Qed.
Theorem parse_total ts : parse_expression ts <> OutOfFuel.
Proof. unfold parse_expression. pose proof (proj1 (enough_fuel (4 * length ts + 4)) 0 ts ltac:(lia)) as N. destruct (p_expr _ 0 ts) as [[e' [|]]| | |]; cbn [bind]; unfold no_parse; congruence. Qed.
(** Nothing is undefined. *)
Lemma defined n :
  (forall p ts w, p_expr n p ts <> UB w) /\ (forall p a ts w, p_loop n p a ts <> UB w) /\ (forall ts w, p_prim n ts <> UB w) /\ (forall a ts w, p_suffix n a ts <> UB w)
  /\ (forall ts w, p_cat n ts <> UB w) /\ (forall ts w, p_list n ts <> UB w) /\ (forall b ts w, p_args n b ts <> UB w).
Proof.
  induction n as [|n (H1 & H2 & H3 & H4 & H5 & H6 & H7)]; [repeat split; discriminate|].
  repeat match goal with |- _ /\ _ => split end; intros; rewrite ?p_expr_S, ?p_loop_S, ?p_prim_S, ?p_suffix_S, ?p_cat_S, ?p_list_S, ?p_args_S;
    unfold no_parse, bind;
    repeat first
    [ discriminate | apply H1 | apply H2 | apply H3 | apply H4 | apply H5 | apply H6 | apply H7
    | match goal with |- context [p_expr n ?p ?ts] => generalize (H1 p ts); destruct (p_expr n p ts) as [[]| | |]; intro end
    | match goal with |- context [p_prim n ?ts] => generalize (H3 ts); destruct (p_prim n ts) as [[]| | |]; intro end
    | match goal with |- context [p_cat n ?ts] => generalize (H5 ts); destruct (p_cat n ts) as [[]| | |]; intro end
    | match goal with |- context [p_list n ?ts] => generalize (H6 ts); destruct (p_list n ts) as [[]| | |]; intro end
    | match goal with |- context [p_args n ?b ?ts] => generalize (H7 b ts); destruct (p_args n b ts) as [[]| | |]; intro end
    | match goal with |- context [match ?x with _ => _ end] => destruct x end
    | match goal with H : forall w, UB ?x <> UB w |- _ => destruct (H x eq_refl) end
    | congruence ].
Qed.
Theorem parse_defined ts w : parse_expression ts <> UB w.
Proof.
  unfold parse_expression. pose proof (proj1 (defined (4 * length ts + 4)) 0 ts) as N. destruct (p_expr _ 0 ts) as [[e' [|]]| | |]; cbn [bind]; unfold no_parse; try discriminate. intros H. injection H as ->. exact (N w eq_refl).
Qed.
