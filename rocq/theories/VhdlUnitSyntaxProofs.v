(** Every legal design file is parsed into its tree. *)
From Verif Require Import Base AstModel StmModel LitModel SvExprModel SvStmModel VhdlExprModel VhdlStmModel VhdlDeclModel VhdlSyntaxModel VhdlSyntaxSpec VhdlSyntaxProofs VhdlStmSyntaxModel VhdlStmSyntaxSpec VhdlStmSyntaxProofs VhdlUnitSyntaxModel VhdlUnitSyntaxSpec.
Local Notation is_name := VhdlSyntaxModel.is_name.

Ltac flat := cbn [app]; repeat (rewrite <- app_assoc; cbn [app]).
Ltac sizes H := cbn [length] in H; repeat (rewrite app_length in H; cbn [length] in H); cbn [length] in H.

(** ** Parts *)
Lemma name_simple e : legal_name e -> legal_simple e.
Proof. intros [P N]. split; [exact P|]. rewrite (name_category _ N). unfold c_simple. lia. Qed.
Lemma ids_ok ns t r : ns <> [] -> comma t = false -> p_ids (ids_toks ns ++ t :: r) = Ok (ns, t :: r).
Proof.
  intros NE C. apply (p_many_ok comma (X KComma) p_id (fun n => [name_ n]) (fun _ => True) (fun _ => True)); auto.
  clear. induction ns as [|n ns IH]; [exact Logic.I|split; [exact Logic.I|exact IH]].
Qed.
Lemma ids_first ns r : ns <> [] -> exists s q, ids_toks ns ++ r = X (KLit (NL_id s)) :: q.
Proof. destruct ns as [|n [|m ns]]; intros NE; [destruct (NE eq_refl)| |]; eexists; eexists; reflexivity. Qed.
Lemma skip_word b k r : other k r -> skip k (word b k ++ r) = r.
Proof. intros O. destruct b; cbn [word app]; [cbn [skip]; rewrite hkw_refl; reflexivity|]. destruct r as [|[| | | | |k'|] r]; try reflexivity. cbn [skip]. rewrite hkw_other by exact O. reflexivity. Qed.
Definition after_init (r : list hstk) : Prop := match r with X KRp :: _ | Semi :: _ => True | _ => False end.
Definition after_sub (r : list hstk) : Prop := match r with X (KRp | KComma) :: _ | Semi :: _ | VarAsg :: _ | Kw k_is :: _ => True | _ => False end.
Lemma init_after v r : after_init r -> after_sub (init_toks v ++ r).
Proof. destruct v; [intros; exact Logic.I|]. destruct r as [|[[]| | | | |[]|] r]; try contradiction; intros; exact Logic.I. Qed.
Lemma p_init_ok v r : legal_opt v -> after_init r -> p_init (init_toks v ++ r) = Ok (v, r).
Proof.
  intros L A. destruct v as [e|]; cbn [init_toks app p_init].
  - rewrite x_expr_ok; [reflexivity|exact L|destruct r as [|[[]| | | | |[]|] r]; try contradiction; exact Logic.I].
  - destruct r as [|[[]| | | | |[]|] r]; try contradiction; reflexivity.
Qed.
Lemma after_sub_all r : after_sub r -> calm r /\ tidy r /\ (forall d q, r <> X (KDir d) :: q) /\ (forall l q, r <> X (KLit l) :: q) /\ (forall q, r <> Kw k_range :: q).
Proof. destruct r as [|[[]| | | | |[]|] r]; try contradiction; intros; repeat split; discriminate. Qed.
Definition no_dir (r : list hstk) : Prop := match r with X (KDir _) :: _ => False | _ => True end.
Lemma p_rrange_ok x r : legal_rrange x -> calm r -> no_dir r -> p_rrange (range_toks x ++ r) = Ok (x, r).
Proof.
  intros L C D. unfold p_rrange. destruct x as [e|a d b]; cbn [range_toks legal_rrange] in *.
  - destruct L as [L (n & a & ->)]. rewrite x_simple_ok by (try exact C; apply name_simple, L). cbn [bind is_attr]. destruct r as [|[[]| | | | | |] r]; try reflexivity. contradiction.
  - destruct L as [La Lb]. flat. rewrite x_simple_ok by (auto; exact Logic.I). cbn [bind]. rewrite x_simple_ok by auto. reflexivity.
Qed.
Definition no_lit (r : list hstk) : Prop := match r with X (KLit _) :: _ => False | _ => True end.
Definition plain (r : list hstk) : Prop := calm r /\ tidy r /\ no_dir r /\ no_lit r /\ other k_range r.
Lemma sub_plain r : after_sub r -> plain r.
Proof. destruct r as [|[[]| | | | |[]|] r]; try contradiction; intros; repeat split; discriminate. Qed.
Lemma p_rconstr_ok c r : legal_constr c -> plain r -> p_rconstr (constr_toks c ++ r) = Ok (c, r).
Proof.
  intros L (C & T & D & N & O). destruct c as [[x|]|]; cbn [constr_toks legal_constr app p_rconstr] in *; [|contradiction|].
  - rewrite p_rrange_ok by auto. reflexivity.
  - destruct r as [|[[]| | | | |[]|] r]; try reflexivity. destruct (O eq_refl).
Qed.
Lemma constr_calm c r : plain r -> tidy (constr_toks c ++ r) /\ no_lit (constr_toks c ++ r).
Proof. intros (C & T & D & N & O). destruct c as [[x|]|]; cbn [constr_toks app]; auto; split; exact Logic.I. Qed.
Lemma name_first e : legal_name e -> exists l q, xs e = X (KLit l) :: q.
Proof. intros [P N]. destruct (vshow_first e P) as (t & q & E & _ & _ & _ & T). specialize (T N). unfold xs. rewrite E. destruct t; try contradiction. eexists; eexists; reflexivity. Qed.
(** a name ends before another one *)
Lemma x_name_lit e l r : legal_name e -> x_name (xs e ++ X (KLit l) :: r) = Ok (e, X (KLit l) :: r).
Proof.
  intros [P N]. apply x_with_ok. cbn [xsplit]. destruct (xsplit r) as [a b]. cbn [fst]. destruct (parse_both (length (vshow e))) as [H1 H2].
  assert (NE : ok (fun m => p_name m e (KLit l :: a)) 1 (e, KLit l :: a)) by (intros [|m] L; [lia|reflexivity]).
  destruct (name_ok (length (vshow e)) H1 H2 (length (vshow e)) e (le_n _) ltac:(lia) P N) as (l0 & ts & E & H). rewrite E. cbn [app name_of]. eapply ok_more; [|exact (H _ _ 1 (le_n _) NE)]. cbn [length]. lia.
Qed.
Lemma p_subtype_ok t r : legal_sub t -> plain r -> p_subtype (sub_toks t ++ r) = Ok (t, r).
Proof.
  destruct t; try contradiction. intros (LR & LN & LC) A. destruct (constr_calm c r A) as [T N]. unfold p_subtype. cbn [sub_toks]. flat.
  destruct ri as [[f|]|]; cbn [res_toks legal_res app] in *; [|contradiction|].
  - destruct (name_first _ LN) as (l & q & F). pose proof (x_name_ok t (constr_toks c ++ r) LN T) as E. rewrite F in *. cbn [app] in *. rewrite x_name_lit by exact LR. cbn [bind]. rewrite E. cbn [bind]. rewrite p_rconstr_ok by auto. reflexivity.
  - rewrite x_name_ok by auto. cbn [bind]. pose proof (p_rconstr_ok c r LC A) as E. destruct (constr_toks c ++ r) as [|[[]| | | | | |] q] eqn:F; try (rewrite E; reflexivity). contradiction.
Qed.
Lemma p_drange_ok x r : legal_drange x -> plain r -> p_drange (drange_toks x ++ r) = Ok (x, r).
Proof.
  intros L A. pose proof A as (C & T & D & N & O). unfold p_drange. 
  assert (G : forall e, legal_name e -> p_drange (xs e ++ r) = Ok (R_name e, r)).
  { intros e P. unfold p_drange. rewrite x_simple_ok by (auto using name_simple). cbn [bind]. rewrite (proj2 P). destruct r as [|[[]| | | | |[]|] r]; try reflexivity; [contradiction|destruct (O eq_refl)]. }
  destruct x as [e|a d b].
  - destruct e; try (apply G; exact L). destruct L as (-> & LN & x & -> & LX). cbn [drange_toks constr_toks]. flat. rewrite x_simple_ok by (auto using name_simple; exact Logic.I). cbn [bind]. rewrite (proj2 LN). rewrite p_rrange_ok by auto. reflexivity.
  - destruct L as [La Lb]. cbn [drange_toks range_toks]. flat. rewrite x_simple_ok by (auto; exact Logic.I). cbn [bind]. rewrite x_simple_ok by auto. reflexivity.
Qed.
Lemma selected_name e : selected e -> is_selected e = true /\ legal_name e.
Proof.
  induction e; cbn [selected]; intros H; try contradiction.
  - destruct l; try contradiction. repeat split.
  - destruct (IHe H) as [I [L N]]. repeat split; auto.
  - destruct (IHe H) as [I [L N]]. repeat split; auto.
Qed.
Lemma p_use_ok l r : legal_use l -> p_use (sep_by (X KComma) xs l ++ Semi :: r) = Ok (l, r).
Proof.
  intros [NE L]. unfold p_use. rewrite (p_many_ok comma (X KComma) p_selected xs tidy selected); auto; try exact Logic.I; try reflexivity; try (intros; exact Logic.I).
  - intros x q S T. destruct (selected_name x S) as [I N]. unfold p_selected. rewrite x_name_ok by auto. cbn [bind]. rewrite I. reflexivity.
Qed.

(** ** Interfaces *)
Definition no_kw (r : list hstk) : Prop := match r with Kw _ :: _ => False | _ => True end.
Lemma p_mode_ok m r : no_kw r -> p_mode (mode_toks m ++ r) = (m, r).
Proof. intros N. destruct m as [[]|]; try reflexivity. cbn [mode_toks app]. destruct r as [|[| | | | |k|] r]; try reflexivity. contradiction. Qed.
Lemma res_first t r : legal_sub t -> exists l q, sub_toks t ++ r = X (KLit l) :: q.
Proof.
  destruct t; try contradiction. intros (LR & LN & LC). cbn [sub_toks]. destruct ri as [[f|]|]; cbn [res_toks legal_res app] in *; [|contradiction|].
  - destruct (name_first _ LR) as (l & q & ->). eexists; eexists; reflexivity.
  - destruct (name_first _ LN) as (l & q & ->). eexists; eexists; reflexivity.
Qed.
Lemma sub_no_kw t r : legal_sub t -> no_kw (sub_toks t ++ r).
Proof. intros L. destruct (res_first t r L) as (l & q & ->). exact Logic.I. Qed.
Lemma no_kw_other k r : no_kw r -> other k r.
Proof. destruct r as [|[] r]; intros H; try exact Logic.I. contradiction. Qed.
Lemma p_iface_ok i ts r : w_iface i ts -> after_init r -> p_iface (ts ++ r) = Ok (i, r).
Proof.
  intros W A. assert (P : forall v, plain (init_toks v ++ r)) by (intros v; apply sub_plain, init_after, A).
  destruct W as [ns b t v NE LT LV|k ns m t v NE LT LV|ns m t v NE LT LV].
  - cbn [app p_iface]. flat. rewrite ids_ok by auto. cbn [bind p_colon]. rewrite skip_word by (apply no_kw_other, sub_no_kw, LT). rewrite p_subtype_ok by auto. cbn [bind]. rewrite p_init_ok by auto. reflexivity.
  - assert (G : forall mk, ('(ns, r1) <- p_ids (ids_toks ns ++ Colon :: mode_toks m ++ sub_toks t ++ init_toks v ++ r) ;; r2 <- p_colon r1 ;; let '(m, r3) := p_mode r2 in '(t, r4) <- p_subtype r3 ;; '(v, r5) <- p_init r4 ;; Ok (mk ns m t v : iface, r5)) = Ok (mk ns m t v, r)).
    { intros mk. rewrite ids_ok by auto. cbn [bind p_colon]. rewrite p_mode_ok by (apply sub_no_kw, LT). rewrite p_subtype_ok by auto. cbn [bind]. rewrite p_init_ok by auto. reflexivity. }
    destruct k; cbn [word app]; flat.
    + cbn [p_iface]. apply G.
    + specialize (G (fun ns m t v => IF_signal false ns m t false v)). destruct (ids_first ns (Colon :: mode_toks m ++ sub_toks t ++ init_toks v ++ r) NE) as (s & q & F). rewrite F in *. cbn [p_iface]. exact G.
  - cbn [app p_iface]. flat. rewrite ids_ok by auto. cbn [bind p_colon]. rewrite p_mode_ok by (apply sub_no_kw, LT). rewrite p_subtype_ok by auto. cbn [bind]. rewrite p_init_ok by auto. reflexivity.
Qed.
Lemma w_sep_ok {A : Type} sep (s : hstk) item (w : A -> list hstk -> Prop) (R : list hstk -> Prop) :
  sep s = true -> (forall q, R (s :: q)) -> (forall x ts r, w x ts -> R r -> item (ts ++ r) = Ok (x, r)) ->
  forall l ts, w_sep s w l ts -> forall r n, R r -> match r with t :: _ => sep t = false | [] => True end -> length ts < n -> p_sep sep item n (ts ++ r) = Ok (l, r).
Proof.
  intros HS HR HI l ts W. induction W as [x ts W|x l ts ts' W WS IH]; intros r n Rr Nr Ln; (destruct n as [|n]; [lia|]); cbn [p_sep].
  - rewrite (HI x ts r W Rr). cbn [bind]. destruct r as [|t r]; [reflexivity|]. rewrite Nr. reflexivity.
  - flat. rewrite (HI x ts _ W (HR _)). cbn [bind]. rewrite HS. sizes Ln. rewrite IH by (auto; lia). reflexivity.
Qed.
Lemma p_ifaces_ok l ts r : w_ifaces l ts -> p_ifaces (ts ++ r) = Ok (l, r).
Proof.
  intros W. destruct W as [l ts W]. cbn [app p_ifaces]. flat. unfold p_many.
  rewrite (w_sep_ok semi Semi p_iface w_iface after_init eq_refl (fun _ => Logic.I) p_iface_ok l ts W) by (try exact Logic.I; try reflexivity; rewrite app_length; cbn [length]; lia). reflexivity.
Qed.
Lemma p_clause_ok k c ts r : w_clause k c ts -> other k r -> p_clause k (ts ++ r) = Ok (c, r).
Proof.
  intros W O. destruct W as [|l ts W]; cbn [app p_clause].
  - destruct r as [|[| | | | |k'|] r]; try reflexivity. cbn [p_clause]. rewrite hkw_other by exact O. reflexivity.
  - rewrite hkw_refl. flat. rewrite (p_ifaces_ok l ts _ W). reflexivity.
Qed.
Lemma clause_other k k' c ts r : w_clause k c ts -> k <> k' -> other k' r -> other k' (ts ++ r).
Proof. intros W N O. destruct W; [exact O|exact N]. Qed.

(** ** Types *)
Lemma p_of_ok t r : legal_sub t -> plain r -> p_of (X KRp :: Kw k_of :: sub_toks t ++ r) = Ok (t, r).
Proof. intros L P. unfold p_of. cbn [p_rp bind]. rewrite expect_ok. cbn [bind]. apply p_subtype_ok; auto. Qed.
Lemma record_ok l : all (fun p => fst p <> [] /\ legal_sub (snd p)) l -> forall r n, length (flat_map elem_toks l) < n -> p_record n (flat_map elem_toks l ++ Kw k_end :: r) = Ok (l, Kw k_end :: r).
Proof.
  induction l as [|[ns t] l IH]; intros L r n Ln; (destruct n as [|n]; [lia|]); [reflexivity|]. destruct L as [[NE LT] LL]. cbn [fst snd] in *. cbn [flat_map elem_toks fst snd] in *. unfold elem_toks at 1. cbn [fst snd]. flat.
  unfold elem_toks at 1 in Ln. cbn [fst snd] in Ln. sizes Ln.
  assert (E : p_elem (ids_toks ns ++ Colon :: sub_toks t ++ Semi :: flat_map elem_toks l ++ Kw k_end :: r) = Ok ((ns, t), flat_map elem_toks l ++ Kw k_end :: r)).
  { unfold p_elem. rewrite ids_ok by auto. cbn [bind p_colon]. rewrite p_subtype_ok by (auto; apply sub_plain; exact Logic.I). reflexivity. }
  destruct (ids_first ns (Colon :: sub_toks t ++ Semi :: flat_map elem_toks l ++ Kw k_end :: r) NE) as (s & q & F). rewrite F in *. cbn [p_record]. rewrite E. cbn [bind]. rewrite IH by (auto; lia). reflexivity.
Qed.
Lemma sep_first {A : Type} s (f : A -> list hstk) x l : exists q, sep_by s f (x :: l) = f x ++ q /\ (q = [] \/ exists q', q = s :: q').
Proof. destruct l as [|y l]; [exists []; rewrite app_nil_r; auto|]. exists (s :: sep_by s f (y :: l)). split; [reflexivity|right; eexists; reflexivity]. Qed.
Section Units.
Context (strict : bool).
Lemma p_tdef_ok n t ts r : w_tdef strict n t ts -> p_tdef (ts ++ Semi :: r) = Ok (t, Semi :: r).
Proof.
  intros W. destruct W as [l NE|x L|l t NE LL LT|l t NE LL LT|l m NE LL _].
  - cbn [app p_tdef]. flat. rewrite (p_many_ok comma (X KComma) p_elit elit_toks (fun _ => True) (fun _ => True)); auto; try reflexivity.
    + intros [] q _ _; reflexivity.
    + clear. induction l; split; auto.
  - cbn [app p_tdef]. rewrite p_rrange_ok by (auto; exact Logic.I). reflexivity.
  - cbn [app p_tdef]. flat. set (z := X KRp :: Kw k_of :: sub_toks t ++ Semi :: r).
    assert (E : p_many comma p_mark (sep_by (X KComma) (fun m => xs m ++ [Kw k_range; Box]) l ++ z) = Ok (l, z)).
    { apply (p_many_ok comma (X KComma) p_mark (fun m => xs m ++ [Kw k_range; Box]) (fun _ => True) legal_name); auto; try reflexivity. intros x q P _. unfold p_mark. flat. rewrite x_name_ok by (auto; exact Logic.I). reflexivity. }
    rewrite E. destruct l as [|x l]; [destruct (NE eq_refl)|]. destruct (sep_first (X KComma) (fun m => xs m ++ [Kw k_range; Box]) x l) as (q & F & _). rewrite F. flat. rewrite x_simple_ok by (try exact Logic.I; apply name_simple, LL). cbn [bind].
    unfold z. rewrite p_of_ok by (auto; apply sub_plain; exact Logic.I). reflexivity.
  - cbn [app p_tdef]. flat. set (z := X KRp :: Kw k_of :: sub_toks t ++ Semi :: r).
    assert (E : p_many comma p_drange (sep_by (X KComma) drange_toks l ++ z) = Ok (l, z)).
    { apply (p_many_ok comma (X KComma) p_drange drange_toks plain legal_drange); auto; try reflexivity; [intros; apply sub_plain; exact Logic.I|intros; apply p_drange_ok; auto|apply sub_plain; exact Logic.I]. }
    assert (G : exists a q, x_simple (sep_by (X KComma) drange_toks l ++ z) = Ok (a, q) /\ match q with Kw k_range :: Box :: _ => False | _ => True end).
    { destruct l as [|x l]; [destruct (NE eq_refl)|]. destruct LL as [LX _]. destruct (sep_first (X KComma) drange_toks x l) as (q & F & Q). rewrite F. rewrite <- app_assoc.
      assert (C : exists t' q', q ++ z = X t' :: q' /\ (t' = KComma \/ t' = KRp)) by (destruct Q as [->|[q' ->]]; eexists; eexists; (split; [reflexivity|auto])). destruct C as (t' & q' & -> & C).
      assert (G : forall e, legal_name e -> exists a q, x_simple (xs e ++ X t' :: q') = Ok (a, q) /\ match q with Kw k_range :: Box :: _ => False | _ => True end).
      { intros e P. eexists; eexists. split; [apply x_simple_ok; [apply name_simple, P|destruct C as [-> | ->]; exact Logic.I]|exact Logic.I]. }
      destruct x as [e|a d b]; [destruct e; try (apply G; exact LX)|].
      - destruct LX as (-> & LN & x & -> & LX). cbn [drange_toks constr_toks]. flat. eexists; eexists. split; [apply x_simple_ok; [apply name_simple, LN|exact Logic.I]|].
        destruct x as [u|u d0 b0]; cbn [range_toks legal_rrange] in *; [destruct LX as [[P _] _]|destruct LX as [[P _] _]]; destruct (xs_first _ P) as (? & ? & -> & _); exact Logic.I.
      - destruct LX as [LA LB]. cbn [drange_toks range_toks]. flat. eexists; eexists. split; [apply x_simple_ok; [exact LA|exact Logic.I]|exact Logic.I]. }
    destruct G as (a & q & G & N). rewrite G. cbn [bind].
    assert (H : ('(l, r2) <- p_many comma p_drange (sep_by (X KComma) drange_toks l ++ z) ;; '(t, r3) <- p_of r2 ;; Ok (TD_constrained l t, r3)) = Ok (TD_constrained l t, Semi :: r)).
    { rewrite E. cbn [bind]. unfold z. rewrite p_of_ok by (auto; apply sub_plain; exact Logic.I). reflexivity. }
    destruct q as [|[| | | | |[]|] [|[] q]]; try exact H. contradiction.
  - cbn [app p_tdef]. flat. rewrite record_ok by (auto; rewrite app_length; cbn [length]; lia). cbn [bind]. destruct l; [destruct (NE eq_refl)|]. cbn [expect hkw_beq bind]. rewrite opt_label_ok by exact Logic.I. reflexivity.
Qed.

(** ** Subprograms and components *)
Lemma p_desig_ok d r : p_desig (desig_tok d :: r) = Ok (d, r).
Proof. destruct d; reflexivity. Qed.
Definition no_params (r : list hstk) : Prop := match r with Kw k_parameter :: _ | X KLp :: _ => False | _ => True end.
Lemma p_params_ok ps ts r : w_params ps ts -> no_params r -> p_params (ts ++ r) = Ok (ps, r).
Proof.
  intros W N. destruct W as [|b l ts W]; cbn [app].
  - destruct r as [|[[]| | | | |[]|] r]; try reflexivity; contradiction.
  - pose proof (p_ifaces_ok l ts r W) as E. destruct b; cbn [word app p_params]; [rewrite E; reflexivity|]. destruct W as [l ts W]. cbn [app] in *. cbn [p_params]. rewrite E. reflexivity.
Qed.
Definition after_spec (r : list hstk) : Prop := match r with Semi :: _ | Kw k_is :: _ => True | _ => False end.
Lemma p_spec_ok s ts r : w_spec s ts -> after_spec r -> p_spec (ts ++ r) = Ok (s, r).
Proof.
  intros W A. destruct W as [d ps ts W|p d ps t ts W L].
  - cbn [app p_spec]. rewrite p_desig_ok. cbn [bind]. rewrite (p_params_ok ps ts r W) by (destruct r as [|[[]| | | | |[]|] r]; try contradiction; exact Logic.I). reflexivity.
  - assert (E : p_function p (Kw k_function :: desig_tok d :: ts ++ Kw k_return :: xs t ++ r) = Ok (SP_function p d ps t, r)).
    { unfold p_function. rewrite expect_ok. cbn [bind]. rewrite p_desig_ok. cbn [bind]. rewrite (p_params_ok ps ts _ W) by exact Logic.I. cbn [bind]. rewrite expect_ok. cbn [bind].
      rewrite x_name_ok; [reflexivity|exact L|destruct r as [|[[]| | | | |[]|] r]; try contradiction; exact Logic.I]. }
    destruct p as [[]|]; cbn [app]; flat; exact E.
Qed.
Lemma p_component_ok c ts r : w_component strict c ts -> p_component (ts ++ r) = Ok (c, r).
Proof.
  intros W. destruct W as [n b g p gt pt m WG WP _]. unfold p_component. cbn [app p_id name_ bind]. flat.
  rewrite skip_word by (eapply clause_other; [exact WG|discriminate|eapply clause_other; [exact WP|discriminate|cbn; discriminate]]).
  rewrite (p_clause_ok _ g gt _ WG) by (eapply clause_other; [exact WP|discriminate|cbn; discriminate]). cbn [bind].
  rewrite (p_clause_ok _ p pt _ WP) by (cbn; discriminate). cbn [bind].
  change (Kw k_end :: Kw k_component :: label_toks m ++ [Semi]) with (close_toks k_component m). rewrite p_close_ok. reflexivity.
Qed.

(** ** Declarations *)
Scheme w_decl_m := Minimality for w_decl Sort Prop with w_decls_m := Minimality for w_decls Sort Prop.
Combined Scheme w_decl_both from w_decl_m, w_decls_m.
Lemma spec_first s ts : w_spec s ts -> exists k q, ts = Kw k :: q /\ match k with k_procedure | k_function | k_pure | k_impure => True | _ => False end.
Proof. intros W. destruct W as [|[[]|]]; eexists; eexists; (split; [reflexivity|exact Logic.I]). Qed.
Definition decl_kw (k : hkw) : bool :=
  match k with
  | k_constant | k_signal | k_variable | k_shared | k_type | k_subtype | k_alias | k_component | k_use | k_procedure | k_function | k_pure | k_impure | k_package => true
  | _ => false
  end.
Lemma decl_first p d ts : w_decl strict p d ts -> exists k q, ts = Kw k :: q /\ decl_kw k = true.
Proof.
  intros W. destruct W; try (eexists; eexists; split; [reflexivity|reflexivity]).
  - destruct (in_process p); eexists; eexists; (split; [reflexivity|reflexivity]).
  - match goal with H : w_spec _ _ |- _ => destruct (spec_first _ _ H) as (k & q & -> & K) end. exists k. eexists. split; [reflexivity|]. destruct k; try contradiction; reflexivity.
  - match goal with H : w_spec _ _ |- _ => destruct (spec_first _ _ H) as (k & q & -> & K) end. exists k. eexists. split; [reflexivity|]. destruct k; try contradiction; reflexivity.
Qed.
Lemma decl_begins p d ts r : w_decl strict p d ts -> ends_decls (ts ++ r) = false /\ starts_decls (ts ++ r) = true /\ 0 < length ts.
Proof. intros W. destruct (decl_first p d ts W) as (k & q & -> & K). destruct k; try discriminate K; repeat split; cbn [length]; lia. Qed.
Lemma p_typed_ok mk ns t v r : ns <> [] -> legal_sub t -> legal_opt v -> p_typed mk (ids_toks ns ++ Colon :: sub_toks t ++ init_toks v ++ Semi :: r) = Ok (mk ns t v, r).
Proof. intros NE LT LV. unfold p_typed. rewrite ids_ok by auto. cbn [bind p_colon]. rewrite p_subtype_ok by (auto; apply sub_plain, init_after; exact Logic.I). cbn [bind]. rewrite p_init_ok by (auto; exact Logic.I). reflexivity. Qed.
Lemma p_end_ok k b m r : k <> k_end -> p_end k (Kw k_end :: word b k ++ label_toks m ++ Semi :: r) = Ok (m, r).
Proof. intros _. unfold p_end. rewrite expect_ok. cbn [bind]. rewrite skip_word by (destruct m; exact Logic.I). rewrite opt_label_ok by exact Logic.I. reflexivity. Qed.
Lemma p_end_body_ok (b : bool) m r : p_end_body (Kw k_end :: (if b then [Kw k_package; Kw k_body] else []) ++ label_toks m ++ Semi :: r) = Ok (m, r).
Proof. unfold p_end_body. rewrite expect_ok. cbn [bind]. destruct b, m; reflexivity. Qed.
Lemma p_end_sub_ok s b m r : p_end_sub (Kw k_end :: word b (kind_of s) ++ match m with Some d => [desig_tok d] | None => [] end ++ Semi :: r) = Ok (tt, r).
Proof. unfold p_end_sub. rewrite expect_ok. cbn [bind]. destruct m as [[]|], s, b; reflexivity. Qed.
Lemma stms_ok ss r : all (legal_stm strict) ss -> ends_seq r = true -> p_stms (4 * length (seq_toks stm_toks ss ++ r) + 4) (seq_toks stm_toks ss ++ r) = Ok (ss, r).
Proof. intros L E. apply (seqs_ok strict); auto; [apply Forall_forall; intros; apply stm_ok|rewrite app_length; lia]. Qed.
Definition simple_kw (k : hkw) : bool := match k with k_procedure | k_function | k_pure | k_impure | k_package => false | _ => true end.
Lemma simple_decl f p k q : simple_kw k = true -> p_decl (S f) p (Kw k :: q) = ('(d, r) <- p_simple_decl k q ;; if allowed p d then Ok (d, r) else no_vparse).
Proof. intros K. cbn [p_decl]. destruct k; try discriminate K; reflexivity. Qed.
Lemma signal_allowed p ns t k v : signals p -> allowed p (DC_signal ns t k v) = true.
Proof. destruct p; try contradiction; reflexivity. Qed.
Lemma component_allowed p c : components p -> allowed p (DC_component c) = true.
Proof. destruct p; try contradiction; reflexivity. Qed.
Lemma body_allowed p s ds ss : p <> In_package -> allowed p (DC_body s ds ss) = true.
Proof. destruct p; intros N; try reflexivity. destruct (N eq_refl). Qed.
Lemma package_body_allowed p n ds : p <> In_package -> allowed p (DC_package_body n ds) = true.
Proof. destruct p; intros N; try reflexivity. destruct (N eq_refl). Qed.
Lemma alias_ok n t e r : match t with Some t => legal_sub t | None => True end -> legal_name e ->
  p_simple_decl k_alias (name_ n :: match t with Some t => Colon :: sub_toks t | None => [] end ++ Kw k_is :: xs e ++ Semi :: r) = Ok (DC_alias n t e None, r).
Proof.
  intros LT LE. cbn [p_simple_decl p_id name_ bind]. destruct t as [t|]; cbn [app].
  - rewrite p_subtype_ok by (auto; apply sub_plain; exact Logic.I). cbn [bind]. rewrite expect_ok. cbn [bind]. rewrite x_name_ok by (auto; exact Logic.I). reflexivity.
  - cbn [bind expect hkw_beq]. rewrite x_name_ok by (auto; exact Logic.I). reflexivity.
Qed.
Lemma type_ok n t ts r : w_tdef strict n t ts -> p_simple_decl k_type (name_ n :: Kw k_is :: ts ++ Semi :: r) = Ok (DC_type n (Some t), r).
Proof. intros W. cbn [p_simple_decl p_id name_ bind expect hkw_beq]. rewrite (p_tdef_ok n t ts r W). reflexivity. Qed.
Lemma spec_decl f p s ts r : w_spec s ts -> p_decl (S f) p (ts ++ r) =
  ('(d, r) <- ('(s, r) <- p_spec (ts ++ r) ;;
            match r with
            | Semi :: r1 => Ok (DC_subprogram s, r1)
            | _ =>
                r1 <- expect k_is r ;; '(ds, r2) <- p_decls f In_process r1 ;; r3 <- expect k_begin r2 ;;
                '(ss, r4) <- p_stms (4 * length r3 + 4) r3 ;; '(_, r5) <- p_end_sub r4 ;; Ok (DC_body s ds ss, r5)
            end) ;; if allowed p d then Ok (d, r) else no_vparse).
Proof. intros W. destruct (spec_first s ts W) as (k & q & -> & K). destruct k; try contradiction; reflexivity. Qed.
Theorem decls_both :
  (forall p d ts, w_decl strict p d ts -> forall r f, 2 * length ts <= f -> p_decl f p (ts ++ r) = Ok (d, r)) /\
  (forall p l ts, w_decls strict p l ts -> forall r f, ends_decls r = true -> 2 * length ts + 1 <= f -> p_decls f p (ts ++ r) = Ok (l, r)).
Proof.
  apply (w_decl_both strict (fun p d ts => forall r f, 2 * length ts <= f -> p_decl f p (ts ++ r) = Ok (d, r)) (fun p l ts => forall r f, ends_decls r = true -> 2 * length ts + 1 <= f -> p_decls f p (ts ++ r) = Ok (l, r)));
    intros; try (destruct f as [|f]; [cbn [length] in *; lia|]).
  - cbn [app]. rewrite simple_decl by reflexivity. flat. cbn [p_simple_decl]. rewrite p_typed_ok by auto. reflexivity.
  - cbn [app]. rewrite simple_decl by reflexivity. flat. cbn [p_simple_decl]. rewrite p_typed_ok by auto. cbn [bind]. rewrite signal_allowed by auto. reflexivity.
  - destruct (in_process p); cbn [negb word app length] in *; (destruct f as [|f]; [lia|]); rewrite simple_decl by reflexivity; flat; cbn [p_simple_decl]; [|rewrite expect_ok; cbn [bind]]; rewrite p_typed_ok by auto; reflexivity.
  - reflexivity.
  - cbn [app]. rewrite simple_decl by reflexivity. flat. erewrite type_ok by eassumption. reflexivity.
  - cbn [app]. rewrite simple_decl by reflexivity. flat. cbn [p_simple_decl p_id name_ bind expect hkw_beq]. rewrite p_subtype_ok by (auto; apply sub_plain; exact Logic.I). reflexivity.
  - cbn [app]. rewrite simple_decl by reflexivity. flat. rewrite alias_ok by auto. reflexivity.
  - flat. destruct f as [|f]; [rewrite app_length in *; cbn [length] in *; lia|]. rewrite (spec_decl f p s ts _ H), (p_spec_ok s ts _ H) by exact Logic.I. reflexivity.
  - rename H2 into IH. rewrite app_length in *. cbn [length] in *. rewrite app_length in *. cbn [length] in *. destruct f as [|f]; [lia|]. flat. rewrite (spec_decl f p s ts _ H0), (p_spec_ok s ts _ H0) by exact Logic.I. cbn [bind]. rewrite expect_ok. cbn [bind].
    rewrite IH by (try reflexivity; lia). cbn [bind]. rewrite expect_ok. cbn [bind]. rewrite stms_ok by auto. cbn [bind]. rewrite p_end_sub_ok. cbn [bind]. rewrite body_allowed by auto. reflexivity.
  - sizes H2. cbn [app p_decl]. flat. cbn [p_id name_ bind]. rewrite expect_ok. cbn [bind]. rewrite H0 by (try reflexivity; lia). cbn [bind]. rewrite p_end_ok by discriminate. reflexivity.
  - sizes H3. cbn [app p_decl]. flat. cbn [p_id name_ bind]. rewrite expect_ok. cbn [bind]. rewrite H1 by (try reflexivity; lia). cbn [bind]. rewrite p_end_body_ok. cbn [bind]. rewrite package_body_allowed by auto. reflexivity.
  - cbn [app]. rewrite simple_decl by reflexivity. cbn [p_simple_decl]. rewrite (p_component_ok c ts r) by auto. cbn [bind]. rewrite component_allowed by auto. reflexivity.
  - unfold use_toks in *. cbn [length app] in *. destruct f as [|f]; [lia|]. rewrite simple_decl by reflexivity. flat. cbn [p_simple_decl]. rewrite p_use_ok by auto. reflexivity.
  - cbn [app p_decls]. rewrite H. reflexivity.
  - flat. rewrite app_length in *. destruct (decl_begins p d ts (ts' ++ r) H) as (N & _ & L). cbn [p_decls]. rewrite N. rewrite H0 by lia. cbn [bind]. rewrite H2 by (auto; lia). reflexivity.
Qed.
Lemma decls_ok p l ts r : w_decls strict p l ts -> ends_decls r = true -> p_decls (2 * length (ts ++ r) + 2) p (ts ++ r) = Ok (l, r).
Proof. intros W E. apply (proj2 decls_both p l ts W r); auto. rewrite app_length. lia. Qed.

(** ** Concurrent statements *)
Lemma p_assocs_ok l r : l <> [] -> all (legal_assoc legal) l -> tidy r -> p_assocs (assocs_toks l ++ r) = Ok (l, r).
Proof.
  intros NE L T. unfold p_assocs. assert (P : legal_name (HApply (HLit (NL_id [])) l)) by (repeat split; auto).
  pose proof (x_name_ok _ r P T) as E. unfold xs in E. cbn [vshow] in E. unfold assocs_toks. cbn [map app] in *. rewrite E. reflexivity.
Qed.
Lemma p_map_ok k m r : legal_map m -> tidy r -> other k r -> p_map k (map_toks k m ++ r) = Ok (m, r).
Proof.
  intros L T O. destruct m as [l|]; cbn [map_toks app p_map].
  - rewrite hkw_refl, expect_ok. cbn [bind]. rewrite p_assocs_ok by (auto; apply L). reflexivity.
  - destruct r as [|[| | | | |k'|] r]; try reflexivity. cbn [p_map]. rewrite hkw_other by exact O. reflexivity.
Qed.
Definition no_rel (r : list hstk) : Prop := match r with X (KRel O_LE) :: _ => False | _ => True end.
Definition mapped (g p : option (list (hassoc hexpr))) (r : list hstk) : list hstk := map_toks k_generic g ++ map_toks k_port p ++ Semi :: r.
Lemma mapped_tidy g p r : tidy (mapped g p r) /\ no_rel (mapped g p r).
Proof. destruct g, p; split; exact Logic.I. Qed.
Lemma p_maps_ok l u g p r : legal_map g -> legal_map p -> p_maps l u (mapped g p r) = Ok (CS_inst l u g p, r).
Proof.
  intros LG LP. unfold p_maps, mapped. rewrite p_map_ok by (auto; destruct p; try exact Logic.I; cbn; discriminate). cbn [bind]. rewrite p_map_ok by (auto; exact Logic.I). reflexivity.
Qed.
Lemma p_sens_ok s r : legal_sens s -> match r with X _ :: _ => False | _ => True end -> p_sens (sens_toks s ++ r) = Ok (s, r).
Proof.
  intros P N. destruct s as [| |sl]; cbn [sens_toks app]; [destruct r as [|[] r]; try reflexivity; contradiction|reflexivity|]. destruct P as [NE P]. flat.
  pose proof (names_ok sl (X KRp) r NE P Logic.I eq_refl) as E. destruct sl as [|x sl]; [destruct (NE eq_refl)|].
  assert (F : exists t q, sep_by (X KComma) xs (x :: sl) ++ X KRp :: r = X t :: q /\ t <> KAll).
  { destruct P as [[P _] _]. destruct (sep_first (X KComma) xs x sl) as (z & -> & _). destruct (xs_first _ P) as (t & q & F & S & _). rewrite F. eexists; eexists. split; [reflexivity|]. intros ->. exact S. }
  destruct F as (t & q & F & NA). rewrite F in *. unfold p_sens. destruct t; try (rewrite E; reflexivity). destruct (NA eq_refl).
Qed.
Lemma decls_other k p l ts r : w_decls strict p l ts -> decl_kw k = false -> other k r -> other k (ts ++ r).
Proof.
  intros W K O. destruct W as [|p d l ts ts' W WS]; [exact O|]. destruct (decl_first _ _ _ W) as (k' & q & -> & K'). cbn. congruence.
Qed.
Lemma decls_no_x p l ts r : w_decls strict p l ts -> match r with X _ :: _ => False | _ => True end -> match ts ++ r with X _ :: _ => False | _ => True end.
Proof. intros W N. destruct W as [|p d l ts ts' W WS]; [exact N|]. destruct (decl_first _ _ _ W) as (k' & q & -> & K'). exact Logic.I. Qed.
Lemma p_cprocess_ok se b ds ts ss m r : legal_sens se -> w_decls strict In_process ds ts -> all (legal_stm strict) ss ->
  p_cprocess (sens_toks se ++ word b k_is ++ ts ++ Kw k_begin :: seq_toks stm_toks ss ++ close_toks k_process m ++ r) = Ok (CP_process se ds ss m, r).
Proof.
  intros LS WD LB. unfold p_cprocess. rewrite p_sens_ok; [|exact LS|destruct b; [exact Logic.I|]; cbn [word app]; eapply decls_no_x; [exact WD|exact Logic.I]]. cbn [bind].
  rewrite skip_word by (eapply decls_other; [exact WD|reflexivity|cbn; discriminate]). rewrite (proj2 decls_both _ _ _ WD) by (try reflexivity; rewrite app_length; destruct b; cbn [word app length]; rewrite app_length; lia). cbn [bind]. rewrite expect_ok. cbn [bind].
  rewrite stms_ok by auto. cbn [bind]. rewrite p_close_ok. reflexivity.
Qed.
Lemma p_conc_ok c r : legal_conc c -> p_conc (conc_toks c ++ r) = Ok (c, r).
Proof.
  assert (G : forall t z, legal_target t -> p_conc (xs t ++ X (KRel O_LE) :: z) = '(w, r2) <- p_waves z ;; Ok (match w with inl w => CC_wave t w | inr w => CC_cond t w end, r2)).
  { intros t z P. pose proof (x_target_ok t (X (KRel O_LE) :: z) P Logic.I) as E. destruct (xs_first t (proj1 P)) as (k & q & F & _). rewrite F in *. cbn [app p_conc] in *. rewrite E. reflexivity. }
  destruct c as [t w|t w|q e t l]; intros P; cbn [conc_toks legal_conc] in *; flat.
  - destruct P as [P1 P2]. rewrite G, p_waves_ok by auto. reflexivity.
  - destruct P as [P1 P2]. rewrite G, p_waves_cond by auto. reflexivity.
  - destruct P as (P1 & P2 & NE & P3). cbn [p_conc]. rewrite x_expr_ok by (auto; exact Logic.I). cbn [bind]. rewrite expect_ok. cbn [bind]. rewrite opt_quest_ok by (destruct (xs_first _ (proj1 P2)) as (k & z & -> & _); exact Logic.I).
    rewrite x_target_ok by (auto; exact Logic.I). cbn [bind].
    rewrite (p_many_ok comma (X KComma) p_selwave selwave_toks (fun r => match r with X KComma :: _ | Semi :: _ => True | _ => False end) (fun p => legal_wave (fst p) /\ legal_choices (snd p))); auto; try reflexivity; try exact Logic.I.
    intros [w cs] z [Pw Pc] R. cbn [fst snd] in *. unfold p_selwave, selwave_toks. cbn [fst snd]. rewrite <- app_assoc. cbn [app]. rewrite p_wave_ok by (auto; exact Logic.I). cbn [bind]. rewrite expect_ok. cbn [bind].
    destruct z as [|t0 z]; [contradiction|]. rewrite choices_ok; [reflexivity|exact Pc|destruct t0 as [[]| | | | | |]; try contradiction; exact Logic.I|intros ->; contradiction].
Qed.
Lemma conc_assign c r l : legal_conc c -> p_csimple l (conc_toks c ++ r) = Ok (CS_simple l false (CP_assign c), r).
Proof.
  intros L. pose proof (p_conc_ok c r L) as E.
  assert (G : forall t z, legal_target t -> p_conc (xs t ++ X (KRel O_LE) :: z) = Ok (c, r) -> p_csimple l (xs t ++ X (KRel O_LE) :: z) = Ok (CS_simple l false (CP_assign c), r)).
  { intros t z P H. pose proof (x_target_ok t (X (KRel O_LE) :: z) P Logic.I) as T. destruct (xs_first t (proj1 P)) as (k & q & F & _). rewrite F in *. cbn [app p_csimple] in *. rewrite T. cbn [bind]. rewrite H. reflexivity. }
  destruct c as [t w|t w|q e t w]; cbn [conc_toks legal_conc app] in *; [| |unfold p_csimple; rewrite E; reflexivity]; rewrite <- app_assoc in *; cbn [app] in *; apply G; try exact E; apply L.
Qed.
Lemma named l n r : legal_name n -> tidy r -> no_rel r -> p_csimple l (xs n ++ r) = match l with Some l => p_maps l (IU_component false n) r | None => p_semi (CS_simple None false (CP_call n)) r end.
Proof.
  intros P T N. pose proof (x_target_ok n r (name_target _ P) T) as E. destruct (name_first n P) as (k & q & F). rewrite F in *. cbn [app p_csimple] in *. rewrite E. cbn [bind]. rewrite (proj2 P).
  destruct r as [|[[]| | | | | |] r]; try reflexivity. destruct o; try reflexivity. contradiction.
Qed.
Lemma unlabelled_x e r : legal_target e -> match r with Colon :: _ => False | _ => True end -> tidy r -> p_label (xs e ++ r) = (None, xs e ++ r).
Proof.
  intros T N C. pose proof (x_target_ok e r T C) as E. destruct (xs_first e (proj1 T)) as (t & z & F & _). rewrite F in *. cbn [app] in *. destruct t as [[s| |]| | | | | | | | | | | | | | | | | | | | | | | | ]; try reflexivity.
  destruct z as [|[] z]; cbn [app] in *; try reflexivity; [|destruct (map_eq_cons _ _ F) as (? & w & Z & _ & Z2); destruct w; discriminate Z2].
  destruct r as [|[] r]; try reflexivity; contradiction.
Qed.
Lemma csimple_ok l s ts r : w_csimple strict false l s ts -> p_csimple l (ts ++ r) = Ok (CS_simple l false s, r) /\ p_label (ts ++ r) = (None, ts ++ r) /\
  exists t q, ts ++ r = t :: q /\ match t with X _ | Kw (k_process | k_assert | k_with) => True | _ => False end.
Proof.
  intros W. destruct W as [l se b ds ss m ts LS WD LB _|l n LN L|l c m s LC LM LS|l c L].
  - split; [|split; [reflexivity|eexists; eexists; split; [reflexivity|exact Logic.I]]]. flat. unfold p_csimple. rewrite (p_cprocess_ok se b ds ts ss m r LS WD LB). reflexivity.
  - rewrite (LN eq_refl). split; [flat; rewrite (named None n (Semi :: r) L Logic.I Logic.I); reflexivity|]. split; [flat; apply unlabelled_x; [apply name_target, L|exact Logic.I|exact Logic.I]|].
    destruct (name_first n L) as (k & q & ->). eexists; eexists; split; [reflexivity|exact Logic.I].
  - split; [|split; [reflexivity|eexists; eexists; split; [reflexivity|exact Logic.I]]]. flat. unfold p_csimple, p_assert. rewrite x_expr_ok by side. cbn [bind]. rewrite p_opt_ok by side. cbn [bind]. rewrite p_opt_ok by (auto; exact Logic.I). reflexivity.
  - split; [apply conc_assign, L|].
    assert (G : forall t z, legal_target t -> p_label (xs t ++ X (KRel O_LE) :: z) = (None, xs t ++ X (KRel O_LE) :: z) /\ exists t' q, xs t ++ X (KRel O_LE) :: z = t' :: q /\ match t' with X _ | Kw (k_process | k_assert | k_with) => True | _ => False end).
    { intros t z P. split; [apply unlabelled_x; [exact P|exact Logic.I|exact Logic.I]|]. destruct (xs_first t (proj1 P)) as (k & q & -> & _). eexists; eexists; split; [reflexivity|exact Logic.I]. }
    destruct c as [t w|t w|q e t w]; cbn [conc_toks legal_conc app] in *; [rewrite <- app_assoc; apply G, L|rewrite <- app_assoc; apply G, L|]. split; [reflexivity|]. eexists; eexists; split; [reflexivity|exact Logic.I].
Qed.
Scheme w_cstm_m := Minimality for w_cstm Sort Prop with w_cstms_m := Minimality for w_cstms Sort Prop with w_gbody_m := Minimality for w_gbody Sort Prop
  with w_gelifs_m := Minimality for w_gelifs Sort Prop with w_gelse_m := Minimality for w_gelse Sort Prop with w_galts_m := Minimality for w_galts Sort Prop.
Combined Scheme w_cstm_all from w_cstm_m, w_cstms_m, w_gbody_m, w_gelifs_m, w_gelse_m, w_galts_m.
Lemma cstm_first s ts r : w_cstm strict false s ts -> ends_seq (ts ++ r) = false /\ starts_decls (ts ++ r) = false /\ 0 < length ts.
Proof.
  intros W. destruct W; try (repeat split; cbn [length]; lia). destruct l as [l|]; [repeat split; cbn [colon_toks app length]; lia|]. cbn [colon_toks app].
  destruct (csimple_ok _ _ _ r H) as (_ & _ & t & q & E & K). destruct (csimple_ok _ _ _ [] H) as (_ & _ & t0 & q0 & E0 & _). rewrite app_nil_r in E0. rewrite E. split; [destruct t as [| | | | |[]|]; try contradiction; reflexivity|]. split; [destruct t as [| | | | |[]|]; try contradiction; reflexivity|]. rewrite E0. cbn [length]. lia.
Qed.
Lemma label_ok a r : p_label r = (None, r) -> p_label (colon_toks a ++ r) = (a, r).
Proof. intros H. destruct a as [s|]; [reflexivity|exact H]. Qed.
Lemma expr_unlabelled c r : legal c -> p_label (xs c ++ Kw k_generate :: r) = (None, xs c ++ Kw k_generate :: r).
Proof.
  intros P. destruct (xs_first c P) as (t & z & F & _). rewrite F. cbn [app]. destruct t as [[s| |]| | | | | | | | | | | | | | | | | | | | | | | | ]; try reflexivity.
  destruct z as [|[] z]; try reflexivity. destruct (map_eq_cons _ _ F) as (? & w & Z & _ & Z2); destruct w; discriminate Z2.
Qed.

Lemma choice_x c : exists z, choice_toks c = map X z.
Proof. destruct c as [|[e|a d b]]; [exists [KOthers]; reflexivity|eexists; reflexivity|]. exists (vshow a ++ KDir d :: vshow b). rewrite map_app. reflexivity. Qed.
Lemma choices_x l : exists z, choices_toks l = map X z.
Proof.
  induction l as [|c l [z IH]]; [exists []; reflexivity|]. destruct (choice_x c) as [w E]. unfold choices_toks in *. destruct l as [|d l]; [exists w; exact E|].
  change (sep_by (X KBar) choice_toks (c :: d :: l)) with (choice_toks c ++ X KBar :: sep_by (X KBar) choice_toks (d :: l)). rewrite E, IH. exists (w ++ KBar :: z). rewrite map_app. reflexivity.
Qed.
Lemma choices_unlabelled l r : p_label (choices_toks l ++ X KArrow :: r) = (None, choices_toks l ++ X KArrow :: r).
Proof. destruct (choices_x l) as [z ->]. destruct z as [|[[]| | | | | | | | | | | | | | | | | | | | | | | | ] [|w z]]; reflexivity. Qed.
Lemma cstms_plain l ts r : w_cstms strict false l ts -> ends_seq r = true -> starts_decls (ts ++ r) = false.
Proof.
  intros W E. destruct W as [|s l ts ts' W WS]; [destruct r as [|[| | | | |[]|] r]; try discriminate E; reflexivity|]. rewrite <- app_assoc. apply (cstm_first s ts _ W).
Qed.
Lemma decls_start p l ts r : w_decls strict p l ts -> starts_decls (ts ++ Kw k_begin :: r) = true.
Proof. intros W. destruct W as [|p d l ts ts' W WS]; [reflexivity|]. rewrite <- app_assoc. apply (decl_begins p d ts _ W). Qed.
Lemma unit_ok l u r f g p : legal_unit u -> legal_map g -> legal_map p -> p_cstm (S f) (name_ l :: Colon :: unit_toks u ++ mapped g p r) = Ok (CS_inst l u g p, r).
Proof.
  intros LU LG LP. destruct (mapped_tidy g p r) as [T N]. destruct u as [k n|n a|n]; cbn [unit_toks legal_unit] in *.
  - destruct k; cbn [word app]; cbn [p_cstm p_label name_].
    + rewrite x_name_ok by auto. cbn [bind]. apply p_maps_ok; auto.
    + pose proof (named (Some l) n (mapped g p r) LU T N) as E. cbn beta iota in E. rewrite p_maps_ok in E by auto. destruct (name_first n LU) as (z & q & F). rewrite F in *. exact E.
  - destruct LU as [LU ->]. cbn [app p_cstm p_label name_]. rewrite x_name_ok by auto. cbn [bind]. apply p_maps_ok; auto.
  - cbn [app p_cstm p_label name_]. rewrite x_name_ok by auto. cbn [bind]. apply p_maps_ok; auto.
Qed.
Lemma gparam_ok i x r : legal_drange x -> plain r -> p_gparam (name_ i :: Kw k_in :: drange_toks x ++ r) = Ok ((i, x), r).
Proof. intros L P. unfold p_gparam. cbn [p_id name_ bind]. rewrite expect_ok. cbn [bind]. rewrite p_drange_ok by auto. reflexivity. Qed.
Definition r_cstm (s : cstm) (ts : list hstk) : Prop := forall r f, 4 * length ts <= f -> p_cstm f (ts ++ r) = Ok (s, r).
Definition r_cstms (l : list cstm) (ts : list hstk) : Prop := forall r f, ends_seq r = true -> 4 * length ts + 1 <= f -> p_cstms f (ts ++ r) = Ok (l, r).
Definition r_gbody (b : gbody cstm) (ts : list hstk) : Prop := forall r f, ends_seq r = true -> 4 * length ts + 2 <= f -> p_gbody f false (ts ++ r) = Ok (b, r).
Definition r_gelifs (l : list (option str * hexpr * gbody cstm)) (ts : list hstk) : Prop :=
  forall r, ends_seq r = true -> ends_seq (ts ++ r) = true /\ (forall f, other k_elsif r -> 4 * length ts + 1 <= f -> p_gelifs f (ts ++ r) = Ok (l, r)).
Definition r_gelse (e : option (option str * gbody cstm)) (ts : list hstk) : Prop :=
  forall r, ends_seq r = true -> ends_seq (ts ++ r) = true /\ (other k_elsif r -> other k_elsif (ts ++ r)) /\ (forall f, other k_else r -> 4 * length ts + 1 <= f -> p_gelse f (ts ++ r) = Ok (e, r)).
Definition r_galts (l : list (option str * list (hchoice hexpr) * gbody cstm)) (ts : list hstk) : Prop :=
  forall r, ends_seq r = true -> ends_seq (ts ++ r) = true /\ (forall f, other k_when r -> 4 * length ts + 1 <= f -> p_galts f (ts ++ r) = Ok (l, r)).
Lemma generate_plain r : plain (Kw k_generate :: r).
Proof. repeat split. cbn. discriminate. Qed.
Theorem cstm_all :
  (forall s ts, w_cstm strict false s ts -> r_cstm s ts) /\ (forall l ts, w_cstms strict false l ts -> r_cstms l ts) /\ (forall b ts, w_gbody strict false b ts -> r_gbody b ts) /\
  (forall l ts, w_gelifs strict false l ts -> r_gelifs l ts) /\ (forall e ts, w_gelse strict false e ts -> r_gelse e ts) /\ (forall l ts, w_galts strict false l ts -> r_galts l ts).
Proof.
  apply (w_cstm_all strict false r_cstm r_cstms r_gbody r_gelifs r_gelse r_galts).
  - intros l b ds ss m ts ts' WD WS IH _ r f Lf. sizes Lf. destruct f as [|f]; [lia|]. flat. cbn [p_cstm p_label name_]. rewrite skip_word by (eapply decls_other; [exact WD|reflexivity|cbn; discriminate]).
    rewrite (decls_ok _ _ _ _ WD) by reflexivity. cbn [bind]. rewrite expect_ok. cbn [bind]. rewrite IH by (try reflexivity; lia). cbn [bind]. rewrite p_close_ok. reflexivity.
  - intros l u g p LU LG LP r f Lf. cbn [length] in Lf. destruct f as [|f]; [lia|]. flat. apply unit_ok; auto.
  - intros l i x b m ts LX WB IH _ r f Lf. sizes Lf. destruct f as [|f]; [lia|]. flat. cbn [p_cstm p_label name_]. change (X (KLit (NL_id i))) with (name_ i). rewrite gparam_ok by (auto using generate_plain). cbn [bind]. rewrite expect_ok. cbn [bind].
    rewrite IH by (try reflexivity; lia). cbn [bind]. rewrite p_close_ok. reflexivity.
  - intros l a c b es e m ts ts' ts'' LC WB IB WE IE WL IL _ r f Lf. sizes Lf. destruct f as [|f]; [lia|]. flat. cbn [p_cstm p_label name_]. rewrite (label_ok a _ (expr_unlabelled c _ LC)). rewrite x_expr_ok by (auto; exact Logic.I). cbn [bind]. rewrite expect_ok. cbn [bind].
    destruct (IL (close_toks k_generate m ++ r) eq_refl) as (E1 & O1 & P1). destruct (IE (ts'' ++ close_toks k_generate m ++ r) E1) as (E2 & P2).
    rewrite IB by (auto; lia). cbn [bind]. rewrite P2 by (try lia; apply O1; cbn; discriminate). cbn [bind]. rewrite P1 by (try lia; cbn; discriminate). cbn [bind]. rewrite p_close_ok. reflexivity.
  - intros l c alts m ts LC NE WA IA _ r f Lf. sizes Lf. destruct f as [|f]; [lia|]. flat. cbn [p_cstm p_label name_]. rewrite x_expr_ok by (auto; exact Logic.I). cbn [bind]. rewrite expect_ok. cbn [bind].
    destruct (IA (close_toks k_generate m ++ r) eq_refl) as (E1 & P1). rewrite P1 by (try lia; cbn; discriminate). cbn [bind]. rewrite p_close_ok. cbn [bind]. destruct alts; [destruct (NE eq_refl)|reflexivity].
  - intros l s ts W r f Lf. destruct (csimple_ok l s ts r W) as (E & U & t & q & F & K). destruct f as [|f]; [destruct (csimple_ok l s ts [] W) as (_ & _ & t0 & q0 & F0 & _); rewrite app_nil_r in F0; rewrite F0, app_length in Lf; cbn [length] in Lf; lia|].
    flat. cbn [p_cstm]. rewrite (label_ok l _ U). rewrite F in *. destruct l as [l|]; [|exact E]. destruct t as [| | | | |[]|]; try contradiction; exact E.
  - intros r f E Lf. destruct f as [|f]; [lia|]. cbn [app p_cstms]. rewrite E. reflexivity.
  - intros s l ts ts' W IH WS IS r f E Lf. rewrite app_length in Lf. destruct f as [|f]; [lia|]. flat. cbn [p_cstms]. destruct (cstm_first s ts (ts' ++ r) W) as (N & _ & L). rewrite N, IH by lia. cbn [bind]. rewrite IS by (auto; lia). reflexivity.
  - intros ss o ts W IH LO. rewrite (LO eq_refl). cbn [own_toks]. rewrite app_nil_r. intros r f E Lf. destruct f as [|f]; [lia|]. cbn [p_gbody]. rewrite (cstms_plain ss ts r W E). rewrite IH by (auto; lia). reflexivity.
  - intros ds ss o ts ts' WD WS IH LO. rewrite (LO eq_refl). cbn [own_toks]. rewrite app_nil_r. intros r f E Lf. sizes Lf. destruct f as [|f]; [lia|]. flat. cbn [p_gbody]. rewrite (decls_start _ _ _ _ WD), (decls_ok _ _ _ _ WD) by reflexivity. cbn [bind]. rewrite expect_ok. cbn [bind]. rewrite IH by (auto; lia). reflexivity.
  - intros r E. split; [exact E|]. intros f O Lf. destruct f as [|f]; [lia|]. cbn [app p_gelifs]. destruct r as [|[| | | | |k|] r]; try reflexivity. destruct k; try reflexivity. destruct (O eq_refl).
  - intros a c b l ts ts' LC WB IB WL IL r E. split; [reflexivity|]. intros f O Lf. sizes Lf. destruct f as [|f]; [lia|]. flat. cbn [p_gelifs]. rewrite (label_ok a _ (expr_unlabelled c _ LC)). rewrite x_expr_ok by (auto; exact Logic.I). cbn [bind]. rewrite expect_ok. cbn [bind].
    destruct (IL r E) as (E1 & P1). rewrite IB by (auto; lia). cbn [bind]. rewrite P1 by (auto; lia). reflexivity.
  - intros r E. split; [exact E|]. split; [auto|]. intros f O Lf. destruct f as [|f]; [lia|]. cbn [app p_gelse]. destruct r as [|[| | | | |k|] r]; try reflexivity. destruct k; try reflexivity. destruct (O eq_refl).
  - intros a b ts WB IB r E. split; [reflexivity|]. split; [cbn; discriminate|]. intros f O Lf. sizes Lf. destruct f as [|f]; [lia|]. flat. cbn [p_gelse]. rewrite (label_ok a (Kw k_generate :: ts ++ r) eq_refl). rewrite expect_ok. cbn [bind]. rewrite IB by (auto; lia). reflexivity.
  - intros r E. split; [exact E|]. intros f O Lf. destruct f as [|f]; [lia|]. cbn [app p_galts]. destruct r as [|[| | | | |k|] r]; try reflexivity. destruct k; try reflexivity. destruct (O eq_refl).
  - intros a cs ss l ts ts' LC WS IS WL IL r E. split; [reflexivity|]. intros f O Lf. sizes Lf. destruct f as [|f]; [lia|]. flat. cbn [p_galts]. rewrite (label_ok a _ (choices_unlabelled cs _)). rewrite choices_ok by (auto; try exact Logic.I; discriminate). cbn [bind].
    destruct (IL r E) as (E1 & P1). destruct f as [|f]; [lia|]. cbn [p_gbody]. rewrite (cstms_plain ss ts _ WS E1). rewrite IS by (auto; lia). cbn [bind]. rewrite P1 by (auto; lia). reflexivity.
  - discriminate.
  - intros a cs ds ss m l ts ts' ts'' LC WD WS IS WL IL _ r E. split; [reflexivity|]. intros f O Lf. sizes Lf. destruct f as [|f]; [lia|]. flat. cbn [p_galts]. rewrite (label_ok a _ (choices_unlabelled cs _)). rewrite choices_ok by (auto; try exact Logic.I; discriminate). cbn [bind].
    destruct (IL r E) as (E1 & P1). destruct f as [|f]; [lia|]. cbn [p_gbody]. rewrite (decls_start _ _ _ _ WD), (decls_ok _ _ _ _ WD) by reflexivity. cbn [bind]. rewrite expect_ok. cbn [bind]. rewrite IS by (try reflexivity; lia). cbn [bind]. rewrite expect_ok. cbn [bind].
    rewrite opt_label_ok by exact Logic.I. cbn [snd p_semi bind]. rewrite P1 by (auto; lia). reflexivity.
Qed.
Lemma cstms_ok l ts r : w_cstms strict false l ts -> ends_seq r = true -> p_cstms (4 * length (ts ++ r) + 4) (ts ++ r) = Ok (l, r).
Proof. intros W E. apply (proj1 (proj2 cstm_all) l ts W r); auto. rewrite app_length. lia. Qed.

(** ** Design units and files *)
Definition unit_kw (k : hkw) : bool := match k with k_entity | k_architecture | k_package => true | _ => false end.
Lemma package_first p n ds ts : w_decl strict p (DC_package n None ds) ts \/ w_decl strict p (DC_package_body n ds) ts -> exists q, ts = Kw k_package :: q.
Proof. intros [W|W]; inversion W; subst; eexists; reflexivity. Qed.
Lemma lunit_first u ts : w_lunit strict false u ts -> exists k q, ts = Kw k :: q /\ unit_kw k = true.
Proof.
  intros W. destruct W as [| |n ds ts W|n ds ts W]; [eexists; eexists; split; reflexivity|eexists; eexists; split; reflexivity| |].
  - destruct (package_first _ _ _ _ (or_introl W)) as [q ->]. eexists; eexists; split; reflexivity.
  - destruct (package_first _ _ _ _ (or_intror W)) as [q ->]. eexists; eexists; split; reflexivity.
Qed.
Lemma package_unit ts r d u : (exists q, ts = Kw k_package :: q) -> w_decl strict In_block d ts -> match d with DC_package n g ds => u = LU_package n g ds | DC_package_body n ds => u = LU_package_body n ds | _ => False end -> p_unit (ts ++ r) = Ok (u, r).
Proof.
  intros [q F] W D. pose proof (proj1 decls_both _ _ _ W r (2 * length (ts ++ r) + 2)) as E. rewrite app_length in E at 1. specialize (E ltac:(lia)). subst ts. cbn [app] in *. unfold p_unit. rewrite E. cbn [bind]. destruct d; try contradiction; subst u; reflexivity.
Qed.
Lemma p_unit_ok u ts r : w_lunit strict false u ts -> p_unit (ts ++ r) = Ok (u, r).
Proof.
  intros W. destruct W as [n g p ds b m gt pt ts WG WP WD _|n e ds ss b m ts ts' LE WD WS _|n ds ts W|n ds ts W].
  - flat. cbn [p_unit p_id name_ bind expect hkw_beq].
    assert (O : forall z, other k_port (ts ++ Kw k_end :: z) /\ other k_generic (ts ++ Kw k_end :: z)) by (intros z; split; eapply decls_other; try exact WD; try reflexivity; cbn; discriminate).
    rewrite (p_clause_ok _ g gt _ WG) by (eapply clause_other; [exact WP|discriminate|apply O]). cbn [bind]. rewrite (p_clause_ok _ p pt _ WP) by apply O. cbn [bind]. rewrite (decls_ok _ _ _ _ WD) by reflexivity. cbn [bind]. rewrite p_end_ok by discriminate. reflexivity.
  - flat. cbn [p_unit p_id name_ bind expect hkw_beq]. rewrite x_name_ok by (auto; exact Logic.I). cbn [bind expect hkw_beq]. rewrite (decls_ok _ _ _ _ WD) by reflexivity. cbn [bind]. rewrite expect_ok. cbn [bind]. rewrite (cstms_ok _ _ _ WS) by reflexivity. cbn [bind]. rewrite p_end_ok by discriminate. reflexivity.
  - apply (package_unit ts r _ _ (package_first _ _ _ _ (or_introl W)) W). reflexivity.
  - apply (package_unit ts r _ _ (package_first _ _ _ _ (or_intror W)) W). reflexivity.
Qed.
Lemma p_context_ok u ts : w_dunit strict false u ts -> exists c q, ts = c ++ q /\ w_lunit strict false (snd u) q /\ forall r n, length c < n -> p_context n (c ++ q ++ r) = Ok (fst u, q ++ r).
Proof.
  intros W. induction W as [u ts W|i l u ts ts' W WS IH].
  - exists [], ts. split; [reflexivity|]. split; [exact W|]. intros r n L. destruct n as [|n]; [lia|]. destruct (lunit_first u ts W) as (k & q & -> & K). destruct k; try discriminate K; reflexivity.
  - destruct IH as (c & q & -> & WU & IH). exists (ts ++ c), q. rewrite app_assoc. split; [reflexivity|]. split; [exact WU|]. intros r n L. rewrite app_length in L. destruct n as [|n]; [lia|]. cbn [fst snd] in *. flat.
    assert (0 < length ts) by (destruct W; cbn [length use_toks]; unfold use_toks; cbn [length]; lia).
    destruct W as [ns NE|ns LU].
    + flat. cbn [p_context]. rewrite ids_ok by auto. cbn [bind p_semi]. rewrite IH by lia. reflexivity.
    + unfold use_toks. flat. cbn [p_context]. rewrite p_use_ok by auto. cbn [bind]. rewrite IH by lia. reflexivity.
Qed.
Lemma dunit_pos u ts : w_dunit strict false u ts -> 0 < length ts.
Proof. intros W. induction W as [u ts W|i l u ts ts' W WS IH]; [destruct (lunit_first u ts W) as (k & q & -> & _); cbn [length]; lia|rewrite app_length; lia]. Qed.
Lemma p_file_ok l ts : w_file strict false l ts -> forall n, length ts < n -> p_file n ts = Ok (l, []).
Proof.
  intros W. induction W as [|u l ts ts' W WS IH]; intros n L; (destruct n as [|n]; [lia|]); [reflexivity|]. rewrite app_length in L. pose proof (dunit_pos u ts W) as P.
  destruct (p_context_ok u ts W) as (c & q & F & WU & E). specialize (E ts' (S (length (ts ++ ts')))). rewrite F in E at 1. rewrite !app_length in E. specialize (E ltac:(lia)).
  assert (F2 : exists t z, ts ++ ts' = t :: z) by (destruct ts; [cbn [length] in P; lia|eexists; eexists; reflexivity]). destruct F2 as (t & z & F2).
  assert (F3 : c ++ q ++ ts' = t :: z) by (rewrite app_assoc, <- F; exact F2). rewrite F3 in E. rewrite F2. cbn [p_file]. rewrite <- F2 at 1. rewrite app_length. rewrite E. cbn [bind]. rewrite (p_unit_ok (snd u) q ts' WU). cbn [bind]. rewrite IH by lia. destruct u; reflexivity.
Qed.
Theorem parse_vfile_ok l ts : w_file strict false l ts -> parse_vfile ts = Ok (map norm_dunit l).
Proof. intros W. unfold parse_vfile. rewrite (p_file_ok l ts W) by lia. reflexivity. Qed.
End Units.
