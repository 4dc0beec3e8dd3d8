(** The choice of ANTLR between two trees does not change the meaning. *)
From Verif Require Import Base AstModel LitModel LitSpec SvExprModel SvExprSpec VhdlExprModel VhdlExprSpec VhdlExprProofs VhdlSyntaxModel.

(** The parts of [norm]. *)
Definition n_actual (e : hexpr) : hactual hexpr :=
  match e with
  | HApply n [Assoc None (Act (D_expr false x))] => Act_conv (norm n) (D_expr false (norm x))
  | HApply n [Assoc None (Act D_open)] => Act_conv (norm n) D_open
  | _ => Act (D_expr false (norm e))
  end.
Definition n_formal (fp : option (hexpr * option hexpr)) := match fp with Some (n, m) => Some (norm n, m) | None => None end.
Definition n_assoc (a : hassoc hexpr) : hassoc hexpr :=
  match a with Assoc fp (Act (D_expr false e)) => Assoc (n_formal fp) (n_actual e) | Assoc fp ac => Assoc (n_formal fp) ac end.
Definition n_range (r : hrange hexpr) : hrange hexpr :=
  match r with R_name e => R_name (if is_name e then HSubtype None (norm e) None else norm e) | R_explicit a d b => R_explicit (norm a) d (norm b) end.
Definition n_choice (c : hchoice hexpr) : hchoice hexpr := match c with Ch_others => Ch_others | Ch r => Ch (n_range r) end.
Definition n_elem (p : list (hchoice hexpr) * hexpr) := (map n_choice (fst p), norm (snd p)).
Lemma norm_apply n l : norm (HApply n l) = HApply (norm n) (map n_assoc l).
Proof. reflexivity. Qed.
Lemma norm_agg l : norm (HAgg l) = HAgg (map n_elem l).
Proof. reflexivity. Qed.
Lemma norm_qual t l : norm (HQual t l) = HQual (norm t) (map n_elem l).
Proof. reflexivity. Qed.

Section Meaning.
Context (A : halgebra).
Notation hv := (hvmeaning A).
Definition whole (e : hexpr) : Prop := hv (norm e) = hv e /\ single_named (norm e) = single_named e /\ is_id (norm e) = is_id e.
Definition parts (e : hexpr) : Prop := match e with HApply n [Assoc None (Act (D_expr false x))] => whole n /\ whole x | HApply n _ => whole n | _ => True end.
Definition good (e : hexpr) : Prop := whole e /\ parts e.
Lemma operand_norm e : whole e -> hv_operand A hv (norm e) = hv_operand A hv e.
Proof. intros (H1 & H2 & _). unfold hv_operand. rewrite H1, H2. reflexivity. Qed.
Lemma opt_bind_assoc {X Y Z} (o : option X) (f : X -> option Y) (g : Y -> option Z) : obind (obind o f) g = obind o (fun x => obind (f x) g).
Proof. destruct o; reflexivity. Qed.
Lemma actual_norm e : good e -> hv_actual A hv (n_actual e) = hv_actual A hv (Act (D_expr false e)).
Proof.
  intros [W P]. assert (D : hv_actual A hv (Act (D_expr false (norm e))) = hv_actual A hv (Act (D_expr false e))) by (cbn [hv_actual hv_desig]; rewrite (proj1 W); reflexivity).
  destruct e; try exact D. destruct l as [|[[f|] [[[] x| ]|c d]] [|]]; try exact D; cbn [n_actual hv_actual hv_desig hvmeaning omapM hv_assoc].
  - destruct P as [Pn Px]. rewrite (proj1 Pn), (proj1 Px). destruct (hv e); [|reflexivity]. cbn [obind]. destruct (hv x); reflexivity.
  - rewrite (proj1 P). destruct (hv e); reflexivity.
Qed.
Lemma formal_norm n m : hv (norm n) = hv n -> hv_formal A hv (norm n, m) = hv_formal A hv (n, m).
Proof. intros H. unfold hv_formal. cbn [fst snd]. rewrite H. reflexivity. Qed.
Lemma assoc_norm a : h_as good a -> hv_assoc A hv (n_assoc a) = hv_assoc A hv a.
Proof.
  destruct a as [fp ac]. intros [F C].
  assert (E : forall x, match n_formal fp with Some p => k <~ hv_formal A hv p ;; Some (Some k, x) | None => Some (None, x) end = match fp with Some p => k <~ hv_formal A hv p ;; Some (Some k, x) | None => Some (None, x) end :> option (option (HV A) * hact (HV A))).
  { intros x. destruct fp as [[n m]|]; [|reflexivity]. destruct F as [[[Fn _] _] _]. cbn [n_formal]. rewrite (formal_norm n m Fn). reflexivity. }
  destruct ac as [[[] e| ]|c d]; cbn [n_assoc hv_assoc].
  - destruct (hv_actual A hv (Act (D_expr true e))); [apply E|reflexivity].
  - rewrite (actual_norm e C). destruct (hv_actual A hv (Act (D_expr false e))); [apply E|reflexivity].
  - destruct (hv_actual A hv (Act D_open)); [apply E|reflexivity].
  - destruct (hv_actual A hv (Act_conv c d)); [apply E|reflexivity].
Qed.
Lemma range_norm r : h_rng good r -> hv_range A hv (n_range r) = hv_range A hv r.
Proof.
  destruct r as [e|a d b]; cbn [h_rng n_range hv_range].
  - intros [[H _] _]. destruct (is_name e); [|exact H]. cbn [hvmeaning obind]. rewrite H. destruct (hv e); reflexivity.
  - intros [[[H1 _] _] [[H2 _] _]]. rewrite H1, H2. reflexivity.
Qed.
Lemma choice_norm c : h_ch good c -> hv_choice A hv (n_choice c) = hv_choice A hv c.
Proof. destruct c as [|r]; intros H; [reflexivity|]. cbn [n_choice hv_choice]. rewrite (range_norm r H). reflexivity. Qed.
Lemma elem_norm p : h_el good p -> hv_element A hv (n_elem p) = hv_element A hv p.
Proof.
  destruct p as [cs e]. intros [C [[H _] _]]. unfold hv_element, n_elem. cbn [fst snd] in *. rewrite H. destruct cs as [|c [|c' cs]]; try reflexivity.
  pose proof (Forall_inv C) as C1. cbn [map]. rewrite (choice_norm c C1). reflexivity.
Qed.
Lemma omap_norm {X Y} (f : X -> option Y) (g : X -> X) (P : X -> Prop) l : (forall x, P x -> f (g x) = f x) -> Forall P l -> omapM f (map g l) = omapM f l.
Proof. intros H F. induction F as [|x l Hx F IH]; [reflexivity|]. cbn [map omapM]. rewrite (H x Hx), IH. reflexivity. Qed.
Lemma aggregate_norm l : Forall (h_el good) l -> hv_aggregate A hv (map n_elem l) = hv_aggregate A hv l.
Proof.
  intros F. assert (E : omapM (hv_element A hv) (map n_elem l) = omapM (hv_element A hv) l) by (apply (omap_norm _ _ (h_el good)); [exact elem_norm|exact F]).
  destruct l as [|[[|c cs] e] [|q l]]; try exact (f_equal (fun o => r <~ o ;; Some (h_aggregate A r)) E).
  destruct (Forall_inv F) as [_ [[H _] _]]. exact H.
Qed.
Theorem norm_good e : good e.
Proof.
  induction e as [e K] using hexpr_ind'.
  assert (B : forall a b, good a -> good b -> hv (norm a) = hv a /\ hv (norm b) = hv b) by (intros a b [[H1 _] _] [[H2 _] _]; auto).
  destruct e; cbn [hkids] in K.
  - repeat split.
  - destruct K as ([[K1 _] _] & [[K2 _] _] & [[K3 _] _]). repeat split. cbn [norm hvmeaning]. rewrite K1, K2, K3. reflexivity.
  - destruct K as [[K1 _] _]. repeat split. cbn [norm hvmeaning]. rewrite K1. reflexivity.
  - destruct K as [[K1 _] _]. repeat split. cbn [norm hvmeaning]. rewrite K1. reflexivity.
  - destruct K as [[K1 _] _]. repeat split. cbn [norm hvmeaning]. rewrite K1. reflexivity.
  - destruct K as [K1 K2]. split; [repeat split|].
    + rewrite norm_apply. cbn [hvmeaning]. rewrite (proj1 (proj1 K1)), (omap_norm _ _ (h_as good) l assoc_norm K2). reflexivity.
    + cbn [parts]. destruct l as [|[[f|] [[[] x| ]|c d]] [|]]; try exact (proj1 K1). destruct (Forall_inv K2) as [_ Kx]. split; [exact (proj1 K1)|exact (proj1 Kx)].
  - repeat split.
  - repeat split. destruct unit_ as [u|]; [|reflexivity]. destruct K as [[K1 _] _]. cbn [norm option_map hvmeaning]. rewrite K1. reflexivity.
  - repeat split.
  - repeat split.
  - repeat split.
  - repeat split.
    + rewrite norm_agg. cbn [hvmeaning]. apply aggregate_norm, K.
    + rewrite norm_agg. destruct l as [|[[|c cs] e] [|q l]]; try reflexivity. destruct (Forall_inv K) as [_ [[_ [H _]] _]]. exact H.
    + rewrite norm_agg. destruct l as [|[[|c cs] e] [|q l]]; try reflexivity. destruct (Forall_inv K) as [_ [[_ [_ H]] _]]. exact H.
  - destruct K as [K1 K2]. repeat split. rewrite norm_qual. cbn [hvmeaning]. rewrite (proj1 (proj1 K1)), (aggregate_norm l K2).
    assert (E : match map n_elem l with [([], e)] => is_id e | _ => false end = match l with [([], e)] => is_id e | _ => false end).
    { destruct l as [|[[|c cs] x] [|q l]]; try reflexivity. destruct (Forall_inv K2) as [_ [[_ [_ H]] _]]. exact H. }
    rewrite E. reflexivity.
  - destruct K as [[K1 _] [K2 _]]. repeat split. cbn [norm hvmeaning]. rewrite (operand_norm _ K1), (operand_norm _ K2). reflexivity.
  - destruct K as [K1 _]. repeat split. cbn [norm hvmeaning]. destruct o as [| |[]|]; rewrite ?(operand_norm _ K1); reflexivity.
  - destruct K as [[K1 _] [K2 _]]. repeat split. cbn [norm hvmeaning]. rewrite (operand_norm _ K1), (operand_norm _ K2). reflexivity.
  - destruct K as [[K1 _] [K2 _]]. repeat split. cbn [norm hvmeaning]. rewrite (operand_norm _ K1), (operand_norm _ K2). reflexivity.
  - repeat split.
  - destruct K as [K1 K2]. destruct (B _ _ K1 K2) as [E1 E2]. repeat split. cbn [norm hvmeaning]. rewrite E1, E2. reflexivity.
  - destruct K as [K1 K2]. destruct (B _ _ K1 K2) as [E1 E2]. repeat split. cbn [norm hvmeaning]. rewrite E1, E2. reflexivity.
  - destruct K as [K1 K2]. destruct (B _ _ K1 K2) as [E1 E2]. repeat split. cbn [norm hvmeaning]. rewrite E1, E2. reflexivity.
  - repeat split.
Qed.
Theorem norm_meaning e : hv (norm e) = hv e.
Proof. exact (proj1 (proj1 (norm_good e))). Qed.
End Meaning.
