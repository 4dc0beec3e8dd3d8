(** Every legal expression is parsed into its tree. *)
From Verif Require Import Base AstModel LitModel SvExprModel VhdlExprModel VhdlSyntaxModel VhdlSyntaxSpec.

(** One step of the parser. *)
Ltac step := cbn [run r_exp r_eloop r_simple r_sloop r_prim r_name r_actual r_more r_elems r_elem r_choice]; unfold exp_rule, eloop_rule, simple_rule, sloop_rule, prim_rule, name_rule, actual_rule, more_rule, elems_rule, elem_rule, choice_rule; cbn beta match.
Definition ok {A} (f : nat -> outcome A) (k : nat) (x : A) : Prop := forall m, k <= m -> f m = Ok x.
Lemma ok_more {A} (f : nat -> outcome A) k k' x : k <= k' -> ok f k x -> ok f k' x.
Proof. intros L H m Lm. apply H. lia. Qed.

(** ** The first token *)
Definition starter (t : vtok) : Prop :=
  match t with
  | KLit _ | KDec _ | KBasedLit _ | KBits _ | KNull | KLog _ | KAdd O_PLUS | KAdd O_MINUS | KAbs | KNot | KCond | KLp => True
  | _ => False
  end.
Definition prim_start (t : vtok) : Prop := match t with KLit _ | KDec _ | KBasedLit _ | KBits _ | KNull | KLp => True | _ => False end.
Definition first_ok (e : hexpr) (t : vtok) : Prop :=
  starter t /\ (category e <> 0 -> t <> KCond) /\ (category e = 7 -> prim_start t) /\ (is_name e = true -> match t with KLit _ => True | _ => False end).
Lemma first_app a s e : (exists t r, vshow a = t :: r /\ first_ok a t) -> (category e <> 0 -> category a <> 0) -> (category e = 7 -> category a = 7) -> (is_name e = true -> is_name a = true) ->
  exists t r, vshow a ++ s = t :: r /\ first_ok e t.
Proof. intros (t & r & -> & H1 & H2 & H3 & H4) C1 C2 C3. exists t, (r ++ s). split; [reflexivity|]. unfold first_ok. tauto. Qed.
Lemma name_category e : is_name e = true -> category e = 7.
Proof. destruct e; intros H; try discriminate; reflexivity. Qed.
Lemma vshow_first e : legal e -> exists t r, vshow e = t :: r /\ first_ok e t.
Proof.
  assert (D : forall a (s : list vtok), starter a -> (a <> KCond) -> prim_start a -> match a with KLit _ => True | _ => False end \/ True -> True) by auto. clear D.
  induction e; intros P; cbn [legal] in P; try contradiction.
  - exists (KLit l), []. split; [reflexivity|]. repeat split; discriminate.
  - destruct P as ((N & P) & _). cbn [vshow]. apply (first_app e1); auto; intros; try discriminate; rewrite (name_category _ N); try discriminate; auto.
  - destruct P as (_ & N & P). cbn [vshow]. apply (first_app e); auto; intros; rewrite (name_category _ N); try discriminate; auto.
  - destruct P as (N & P). cbn [vshow]. apply (first_app e); auto; intros; rewrite (name_category _ N); try discriminate; auto.
  - destruct P as (N & P). cbn [vshow]. apply (first_app e); auto; intros; rewrite (name_category _ N); try discriminate; auto.
  - destruct P as ((N & P) & _). cbn [vshow]. apply (first_app e); auto; intros; rewrite (name_category _ N); try discriminate; auto.
  - cbn [vshow]. eexists. eexists. split; [reflexivity|]. destruct based; repeat split; discriminate.
  - exists (KBits t), []. split; [reflexivity|]. repeat split; discriminate.
  - exists KNull, []. split; [reflexivity|]. repeat split; discriminate.
  - cbn [vshow]. eexists. eexists. split; [reflexivity|]. repeat split; discriminate.
  - destruct P as ((N & P) & _). cbn [vshow]. apply (first_app e); auto; intros; try discriminate; rewrite (name_category _ N); try discriminate; auto.
  - destruct P as ((P & C) & _). cbn [vshow]. apply (first_app e1); auto; intros; try discriminate; rewrite C; discriminate.
  - cbn [vshow]. eexists. eexists. split; [reflexivity|]. destruct o as [| | |[]]; repeat split; discriminate.
  - destruct P as ((P & C) & _). unfold c_term in C. cbn [vshow]. apply (first_app e1); auto; intros; try discriminate; lia.
  - destruct P as ((P & C) & _). unfold c_simple in C. cbn [vshow]. apply (first_app e1); auto; intros; try discriminate; lia.
  - cbn [vshow]. eexists. eexists. split; [reflexivity|]. repeat split; cbn; try discriminate. intros H. contradiction.
  - destruct P as ((P & C) & _). unfold c_simple in C. cbn [vshow]. apply (first_app e1); auto; intros; try discriminate; lia.
  - destruct P as ((P & C) & _). unfold c_shift in C. cbn [vshow]. apply (first_app e1); auto; intros; try discriminate; lia.
  - destruct P as ((P & C) & _). unfold c_relation in C. cbn [vshow]. apply (first_app e1); auto; intros; try discriminate. destruct C as [C|C]; [lia|]. destruct e1; try contradiction. discriminate.
Qed.
Lemma vshow_pos e : legal e -> 0 < length (vshow e).
Proof. intros P. destruct (vshow_first e P) as (t & r & -> & _). cbn. lia. Qed.

Definition starts (ts : list vtok) : Prop := match ts with t :: _ => starter t | [] => False end.
Lemma vshow_starts e s : legal e -> starts (vshow e ++ s).
Proof. intros P. destruct (vshow_first e P) as (t & r & -> & H & _). exact H. Qed.

(** ** Steps of the parser *)
Lemma name_lp m n ts : starts ts -> p_name (S m) n (KLp :: ts) =
  ('(a, r1) <- p_exp m 0 ts ;;
   match r1 with
   | KDir d :: r2 =>
       if is_simple a then '(b, r3) <- p_simple m 0 r2 ;; match r3 with KRp :: r4 => p_name m (HSlice n a d b) r4 | _ => no_vparse end
       else no_vparse
   | _ => '(x, r2) <- p_actual m a r1 ;; '(l, r3) <- p_more m r2 ;; p_name m (HApply n (x :: l)) r3
   end).
Proof. destruct ts as [|[] ts]; intros H; try contradiction; reflexivity. Qed.
Lemma more_st m ts : starts ts -> p_more (S m) (KComma :: ts) =
  ('(a, r1) <- p_exp m 0 ts ;; '(x, r2) <- p_actual m a r1 ;; '(l, r3) <- p_more m r2 ;; Ok (x :: l, r3)).
Proof. destruct ts as [|[] ts]; intros H; try contradiction; reflexivity. Qed.
Lemma actual_st m a ts : starts ts -> p_actual (S m) a (KArrow :: ts) =
  if is_name a then '(e, r') <- p_exp m 0 ts ;; Ok (Assoc (Some (a, None)) (Act (D_expr false e)), r') else no_vparse.
Proof. destruct ts as [|[] ts]; intros H; try contradiction; reflexivity. Qed.
Lemma elem_st m cs ts : starts ts -> p_elem (S m) cs ts =
  ('(a, r1) <- p_exp m 0 ts ;;
   match r1 with
   | KDir d :: r2 => if is_simple a then '(b, r3) <- p_simple m 0 r2 ;; p_choice m (cs ++ [Ch (R_explicit a d b)]) r3 else no_vparse
   | KArrow :: _ | KBar :: _ => if is_simple a then p_choice m (cs ++ [Ch (R_name a)]) r1 else no_vparse
   | _ => match cs with [] => Ok (([], a), r1) | _ => no_vparse end
   end).
Proof. destruct ts as [|[] ts]; intros H; try contradiction; reflexivity. Qed.
Lemma elems_st m ts : p_elems (S m) ts =
  ('(x, r1) <- p_elem m [] ts ;;
   match r1 with KRp :: r2 => Ok ([x], r2) | KComma :: r2 => '(l, r3) <- p_elems m r2 ;; Ok (x :: l, r3) | _ => no_vparse end).
Proof. reflexivity. Qed.
Definition not_cond (ts : list vtok) : Prop := match ts with KCond :: _ => False | _ => True end.
Lemma exp_st m p ts : not_cond ts -> p_exp (S m) p ts = ('(e, r') <- p_simple m 0 ts ;; p_eloop m p e r').
Proof. destruct ts as [|[] ts]; intros H; try contradiction; reflexivity. Qed.
Definition prim_starts (ts : list vtok) : Prop := match ts with t :: _ => prim_start t | [] => False end.
Lemma simple_st m p ts : prim_starts ts -> p_simple (S m) p ts =
  ('(a, r') <- p_prim m ts ;; match r' with KPow :: r2 => '(b, r3) <- p_prim m r2 ;; p_sloop m p (HPow a b) r3 | _ => p_sloop m p a r' end).
Proof. destruct ts as [|[] ts]; intros H; try contradiction; reflexivity. Qed.
Lemma vshow_not_cond e s : legal e -> category e <> 0 -> not_cond (vshow e ++ s).
Proof. intros P C. destruct (vshow_first e P) as (t & r & -> & _ & H & _). specialize (H C). destruct t; try exact I. contradiction. Qed.
Lemma vshow_prim e s : legal e -> category e = 7 -> prim_starts (vshow e ++ s).
Proof. intros P C. destruct (vshow_first e P) as (t & r & -> & _ & _ & H & _). exact (H C). Qed.

(** ** What may follow *)
Definition clean0 (ts : list vtok) : Prop := match ts with (KLp | KDot | KTick | KLit _) :: _ => False | _ => True end.
Definition clean (ts : list vtok) : Prop := match ts with (KLp | KDot | KTick | KLit _ | KPow) :: _ => False | _ => True end.
Definition sprec (ts : list vtok) : nat := match ts with KMul _ :: _ => 3 | KAdd _ :: _ => 1 | _ => 0 end.
Definition eprec (ts : list vtok) : nat := match ts with KShift _ :: _ => 3 | KRel _ :: _ => 2 | KLog _ :: _ => 1 | _ => 0 end.
Definition slev (e : hexpr) : nat := match e with HAdd _ _ _ => 1 | HMul _ _ _ => 3 | _ => 4 end.
Definition stight (e : hexpr) : nat := match e with HAdd _ _ _ | HUn (O_SIGN _) _ => 1 | _ => 3 end.
Definition elev (e : hexpr) : nat := match e with HShift _ _ _ => 3 | HRel _ _ _ => 2 | HLog _ _ _ => 1 | _ => 4 end.
Definition etight (e : hexpr) : nat := match e with HRel _ _ _ => 2 | HLog _ _ _ => 1 | _ => 3 end.
Lemma clean_clean0 r : clean r -> clean0 r.
Proof. destruct r as [|[] r]; intros H; try exact H; exact I. Qed.
Lemma sloop_stops p e r : sprec r < p -> ok (fun m => p_sloop m p e r) 1 (e, r).
Proof.
  intros H [|m] L; [lia|]. step. destruct r as [|[] r]; try reflexivity; cbn [sprec] in H.
  - change add_prec with 1. destruct (Nat.leb_spec p 1); [lia|reflexivity].
  - change mul_prec with 3. destruct (Nat.leb_spec p 3); [lia|reflexivity].
Qed.
Lemma sloop_end p e r : sprec r = 0 -> ok (fun m => p_sloop m p e r) 1 (e, r).
Proof. intros H [|m] L; [lia|]. step. destruct r as [|[] r]; try reflexivity; discriminate. Qed.
Lemma eloop_stops p e r : eprec r < p -> ok (fun m => p_eloop m p e r) 1 (e, r).
Proof.
  intros H [|m] L; [lia|]. step. destruct r as [|[] r]; try reflexivity; cbn [eprec] in H.
  - change log_prec with 1. destruct (Nat.leb_spec p 1); [lia|reflexivity].
  - change rel_prec with 2. destruct (Nat.leb_spec p 2); [lia|reflexivity].
  - change shift_prec with 3. destruct (Nat.leb_spec p 3); [lia|reflexivity].
Qed.
Lemma eloop_end p e r : eprec r = 0 -> ok (fun m => p_eloop m p e r) 1 (e, r).
Proof. intros H [|m] L; [lia|]. step. destruct r as [|[] r]; try reflexivity; discriminate. Qed.

Fixpoint after_comma {A} (f : A -> list vtok) (l : list A) : list vtok := match l with [] => [] | x :: l' => KComma :: f x ++ after_comma f l' end.
Lemma commas_cons {A} (f : A -> list vtok) x l : commas f (x :: l) = f x ++ after_comma f l.
Proof. revert x. induction l as [|y l IH]; intros x; [cbn; rewrite app_nil_r; reflexivity|]. cbn [commas after_comma] in *. rewrite <- IH. reflexivity. Qed.
(** the end of an inner expression *)
Definition ends (ts : list vtok) : Prop := match ts with [] | (KRp | KComma | KDir _ | KArrow | KBar) :: _ => True | _ => False end.
Lemma ends_ok ts : ends ts -> eprec ts = 0 /\ sprec ts = 0 /\ clean ts.
Proof. destruct ts as [|[] ts]; intros H; try contradiction; repeat split. Qed.

Section Step.
(** All shorter expressions are parsed. *)
Context (n : nat) (IH : forall e, length (vshow e) <= n -> legal e -> forall p r x k, p <= elev e -> eprec r <= etight e -> sprec r = 0 -> clean r -> 1 <= k ->
  ok (fun m => p_eloop m p e r) k x -> ok (fun m => p_exp m p (vshow e ++ r)) (k + 12 * length (vshow e)) x).
Context (IHs : forall e, length (vshow e) <= n -> legal e -> 4 <= category e -> forall p r x k, p <= slev e -> sprec r <= stight e -> clean r -> 1 <= k ->
  ok (fun m => p_sloop m p e r) k x -> ok (fun m => p_simple m p (vshow e ++ r)) (k + 12 * length (vshow e) - 3) x).
Lemma inner e r : length (vshow e) <= n -> legal e -> ends r -> ok (fun m => p_exp m 0 (vshow e ++ r)) (12 * length (vshow e) + 1) (e, r).
Proof.
  intros L P E. destruct (ends_ok r E) as (E1 & E2 & E3). eapply ok_more; [|apply (IH e L P 0 r (e, r) 1); try assumption; try lia; apply eloop_end, E1]. lia.
Qed.
Lemma inner_simple e r : length (vshow e) <= n -> legal e -> 4 <= category e -> ends r -> ok (fun m => p_simple m 0 (vshow e ++ r)) (12 * length (vshow e)) (e, r).
Proof.
  intros L P C E. destruct (ends_ok r E) as (E1 & E2 & E3). eapply ok_more; [|apply (IHs e L P C 0 r (e, r) 1); try assumption; try lia; apply sloop_end, E2]. lia.
Qed.
Lemma simple_is e : 4 <= category e -> is_simple e = true.
Proof. destruct e; intros H; try reflexivity; cbn in H; unfold c_shift, c_relation, c_logical, c_condition in H; lia. Qed.
(** After the first part of an association element. *)
Lemma assoc_ok a r : length (show_assoc vshow a) <= n -> legal_assoc legal a -> ends r -> (match r with (KDir _ | KArrow) :: _ => False | _ => True end) ->
  (a = Assoc None (Act D_open)) \/
  exists e tail, show_assoc vshow a = vshow e ++ tail /\ legal e /\ length (vshow e) <= n /\ ends (tail ++ r) /\ (match tail ++ r with KDir _ :: _ => False | _ => True end)
    /\ ok (fun m => p_actual m e (tail ++ r)) (2 + 12 * length tail) (a, r).
Proof.
  intros L P E N. destruct a as [[[f o]|] [d|c d]]; cbn [legal_assoc] in P; try (destruct o; contradiction); try contradiction.
  - destruct o; [contradiction|]. destruct P as (NM & P & D). right. cbn [show_assoc] in *. rewrite app_length in L. cbn [length] in L.
    exists f, (KArrow :: show_desig vshow d). split; [reflexivity|]. split; [exact P|]. split; [lia|]. split; [exact I|]. split; [exact I|].
    intros [|m] Lm; [lia|]. cbn [app]. destruct d as [[] e|]; cbn [legal_desig] in D; try contradiction; cbn [show_desig] in *.
    + assert (H := inner e r ltac:(lia) D E). cbn [length] in Lm. unfold ok in H. rewrite (actual_st m f _ (vshow_starts e r D)), NM, H by lia. reflexivity.
    + step; cbn [app]. rewrite NM. reflexivity.
  - destruct d as [[] e|]; cbn [legal_desig] in P; try contradiction; [right|left; reflexivity]. cbn [show_assoc show_desig] in *.
    exists e, []. rewrite app_nil_r. split; [reflexivity|]. split; [exact P|]. split; [exact L|]. cbn [app]. split; [exact E|]. split; [destruct r as [|[] r]; auto|].
    intros [|m] Lm; [lia|]. step. destruct r as [|[] r]; try contradiction; reflexivity.
Qed.
Lemma after_ends {A} (f : A -> list vtok) l r : ends (after_comma f l ++ KRp :: r) /\ match after_comma f l ++ KRp :: r with (KDir _ | KArrow) :: _ => False | _ => True end.
Proof. destruct l; split; exact I. Qed.
Lemma more_ok l r : all (legal_assoc legal) l -> length (after_comma (show_assoc vshow) l) <= n -> ok (fun m => p_more m (after_comma (show_assoc vshow) l ++ KRp :: r)) (1 + 12 * length (after_comma (show_assoc vshow) l)) (l, r).
Proof.
  induction l as [|a l IHl]; intros A L [|m] Lm; try lia; [reflexivity|]. destruct A as [A1 A2]. cbn [after_comma app length] in *. rewrite app_length in *.
  specialize (IHl A2 ltac:(lia)). rewrite <- app_assoc. destruct (after_ends (show_assoc vshow) l r) as [E N].
  destruct (assoc_ok a (after_comma (show_assoc vshow) l ++ KRp :: r) ltac:(lia) A1 E N) as [->|(e & tail & Ea & P & Le & E2 & N2 & H)].
  - cbn [show_assoc show_desig app length] in *. step. rewrite IHl by lia. reflexivity.
  - rewrite Ea in *. rewrite app_length in *. rewrite <- app_assoc. assert (H1 := inner e _ Le P E2). unfold ok in H, H1. pose proof (vshow_pos e P).
    rewrite (more_st m _ (vshow_starts e _ P)), H1 by lia; cbn [bind]; rewrite H by lia; cbn [bind]; rewrite IHl by lia; reflexivity.
Qed.
(** Elements of aggregates. *)
Lemma choices_ok : forall cs cs0 e r, cs <> [] -> all (legal_choice legal) cs -> legal e -> length (bars (show_choice vshow) cs) + length (vshow e) <= n -> ends r ->
  ok (fun m => p_elem m cs0 (bars (show_choice vshow) cs ++ KArrow :: vshow e ++ r)) (12 * (length (bars (show_choice vshow) cs) + length (vshow e)) + 6) ((cs0 ++ cs, e), r).
Proof.
  induction cs as [|c cs IHc]; intros cs0 e r NE A P L E; [contradiction|]. destruct A as [A1 A2].
  set (tail := match cs with [] => [] | _ => KBar :: bars (show_choice vshow) cs end).
  assert (EB : bars (show_choice vshow) (c :: cs) = show_choice vshow c ++ tail) by (destruct cs; [cbn; rewrite app_nil_r; reflexivity|reflexivity]).
  rewrite EB in *. rewrite app_length in L.
  assert (T : ok (fun m => p_choice m (cs0 ++ [c]) (tail ++ KArrow :: vshow e ++ r)) (12 * (length tail + length (vshow e)) + 5) ((cs0 ++ c :: cs, e), r)).
  { intros [|m] Lm; [lia|]. subst tail. destruct cs as [|c' cs].
    - step; cbn [app] in *. assert (H := inner e r ltac:(lia) P E). rewrite H by lia. reflexivity.
    - cbn [app length] in *. step. assert (H := IHc (cs0 ++ [c]) e r ltac:(discriminate) A2 P ltac:(lia) E). unfold ok in H. rewrite H by lia. rewrite <- app_assoc. reflexivity. }
  assert (TE : ends (tail ++ KArrow :: vshow e ++ r) /\ match tail ++ KArrow :: vshow e ++ r with (KArrow | KBar) :: _ => True | _ => False end) by (subst tail; destruct cs; split; exact I).
  destruct TE as [TE TH]. clearbody tail. rewrite <- app_assoc. set (rest := tail ++ KArrow :: vshow e ++ r) in *. clearbody rest.
  intros [|m] Lm; [lia|]. rewrite app_length in Lm. destruct c as [|[a|a d b]].
  - cbn [show_choice app length] in *. step. apply T. lia.
  - cbn [legal_choice] in A1. destruct A1 as [Pa Ca]. cbn [show_choice] in *. assert (H := inner a rest ltac:(lia) Pa TE). unfold ok in H.
    rewrite (elem_st m cs0 _ (vshow_starts a _ Pa)), H by lia; cbn [bind]; destruct rest as [|[] rest]; try contradiction; rewrite (simple_is a Ca); apply T; lia.
  - cbn [legal_choice] in A1. destruct A1 as [[Pa Ca] [Pb Cb]]. cbn [show_choice] in *. rewrite app_length in *. cbn [length] in *. rewrite <- app_assoc. cbn [app].
    assert (H := inner a (KDir d :: vshow b ++ rest) ltac:(lia) Pa I). assert (H2 := inner_simple b rest ltac:(lia) Pb Cb TE). unfold ok in H, H2. pose proof (vshow_pos b Pb).
    rewrite (elem_st m cs0 _ (vshow_starts a _ Pa)), H by lia; cbn [bind]; rewrite (simple_is a Ca), H2 by lia; cbn [bind]; apply T; lia.
Qed.
Lemma elem_ok p r : legal_elem legal p -> length (show_elem vshow p) <= n -> match r with (KComma | KRp) :: _ => True | _ => False end ->
  ok (fun m => p_elem m [] (show_elem vshow p ++ r)) (12 * length (show_elem vshow p) + 2) (p, r).
Proof.
  intros [A P] L E. assert (ER : ends r) by (destruct r as [|[] r]; try contradiction; exact I). destruct p as [[|c cs] e]; cbn [fst snd] in *.
  - intros [|m] Lm; [lia|]. unfold show_elem in *. cbn [fst snd] in *. assert (H := inner e r L P ER). unfold ok in H.
    rewrite (elem_st m [] _ (vshow_starts e _ P)), H by lia; cbn [bind]; destruct r as [|[] r]; try contradiction; reflexivity.
  - unfold show_elem in *. cbn [fst snd] in *. rewrite app_length in *. cbn [length] in *. rewrite <- app_assoc. cbn [app].
    eapply ok_more; [|apply (choices_ok (c :: cs) [] e r); [discriminate|exact A|exact P|lia|exact ER]]. lia.
Qed.
Lemma elems_ok l r : l <> [] -> all (legal_elem legal) l -> length (commas (show_elem vshow) l) <= n -> ok (fun m => p_elems m (commas (show_elem vshow) l ++ KRp :: r)) (12 * length (commas (show_elem vshow) l) + 4) (l, r).
Proof.
  induction l as [|p l IHl]; intros NE A L; [contradiction|]. destruct A as [A1 A2]. intros [|m] Lm; [lia|]. destruct l as [|q l].
  - cbn [commas] in *. rewrite elems_st. assert (H := elem_ok p (KRp :: r) A1 L I). rewrite H by lia. reflexivity.
  - change (commas (show_elem vshow) (p :: q :: l)) with (show_elem vshow p ++ KComma :: commas (show_elem vshow) (q :: l)) in *. rewrite app_length in *. cbn [length] in L, Lm. rewrite <- app_assoc. cbn [app].
    specialize (IHl ltac:(discriminate) A2 ltac:(lia)). rewrite elems_st. assert (H := elem_ok p (KComma :: commas (show_elem vshow) (q :: l) ++ KRp :: r) A1 ltac:(lia) I). rewrite H by lia. cbn [bind]. rewrite IHl by lia. reflexivity.
Qed.
(** Names. *)
Lemma name_ok : forall k e, length (vshow e) <= k -> length (vshow e) <= S n -> legal e -> is_name e = true ->
  exists l ts, vshow e = KLit l :: ts /\ forall r x j, 1 <= j -> ok (fun m => p_name m e r) j x -> ok (fun m => p_name m (HLit l) (ts ++ r)) (j + 12 * length ts) x.
Proof.
  induction k as [|k IHk]; intros e Lk L P N; [pose proof (vshow_pos e P); lia|]. destruct e; try discriminate; cbn [legal] in P.
  - exists l, []. split; [reflexivity|]. intros r x j J H. cbn [app length]. eapply ok_more; [|exact H]. lia.
  - destruct P as ((Nn & P) & (Pa & Ca) & Pb & Cb). cbn [vshow] in *. rewrite !app_length in *. cbn [length] in *. rewrite !app_length in *. cbn [length] in *. rewrite !app_length in *. cbn [length] in *.
    destruct (IHk e1 ltac:(lia) ltac:(lia) P Nn) as (l & ts & E & H). rewrite E in *. cbn [length] in *. exists l, (ts ++ KLp :: vshow e2 ++ KDir d :: vshow e3 ++ [KRp]). split; [reflexivity|].
    intros r x j J Hj. repeat (rewrite <- app_assoc; cbn [app]). pose proof (vshow_pos e2 Pa) as V2. pose proof (vshow_pos e3 Pb) as V3.
    eapply ok_more; [|apply (H _ x (j + 12 * (length (vshow e2) + length (vshow e3)) + 6)); [lia|]]; [rewrite !app_length; cbn [length]; rewrite !app_length; cbn [length]; rewrite !app_length; cbn [length]; lia|].
    intros [|m] Lm; [lia|]. assert (H1 := inner e2 (KDir d :: vshow e3 ++ KRp :: r) ltac:(lia) Pa I). assert (H2 := inner_simple e3 (KRp :: r) ltac:(lia) Pb Cb I). unfold ok in H1, H2.
    rewrite (name_lp m e1 _ (vshow_starts e2 _ Pa)), H1 by lia; cbn [bind]; rewrite (simple_is e2 Ca), H2 by lia; cbn [bind]; apply Hj; lia.
  - destruct P as (-> & Nn & P). cbn [vshow] in *. rewrite !app_length in *. cbn [length] in *.
    destruct (IHk e ltac:(lia) ltac:(lia) P Nn) as (l & ts & E & H). rewrite E in *. exists l, (ts ++ [KTick; KLit (NL_id a)]). split; [reflexivity|].
    intros r x j J Hj. rewrite <- app_assoc. cbn [app]. eapply ok_more; [|apply (H _ x (j + 1)); [lia|]]; [rewrite app_length; cbn [length]; lia|].
    intros [|m] Lm; [lia|]. step. apply Hj. lia.
  - destruct P as (Nn & P). cbn [vshow] in *. rewrite !app_length in *. cbn [length] in *.
    destruct (IHk e ltac:(lia) ltac:(lia) P Nn) as (l0 & ts & E & H). rewrite E in *. exists l0, (ts ++ [KDot; KLit l]). split; [reflexivity|].
    intros r x j J Hj. rewrite <- app_assoc. cbn [app]. eapply ok_more; [|apply (H _ x (j + 1)); [lia|]]; [rewrite app_length; cbn [length]; lia|].
    intros [|m] Lm; [lia|]. step. apply Hj. lia.
  - destruct P as (Nn & P). cbn [vshow] in *. rewrite !app_length in *. cbn [length] in *.
    destruct (IHk e ltac:(lia) ltac:(lia) P Nn) as (l0 & ts & E & H). rewrite E in *. exists l0, (ts ++ [KDot; KAll]). split; [reflexivity|].
    intros r x j J Hj. rewrite <- app_assoc. cbn [app]. eapply ok_more; [|apply (H _ x (j + 1)); [lia|]]; [rewrite app_length; cbn [length]; lia|].
    intros [|m] Lm; [lia|]. step. apply Hj. lia.
  - destruct P as ((Nn & P) & NE & A). destruct l as [|a l]; [contradiction|]. destruct A as [A1 A2]. cbn [vshow] in *. rewrite commas_cons in *. rewrite !app_length in *. cbn [length] in *. rewrite !app_length in *. cbn [length] in *.
    destruct (IHk e ltac:(lia) ltac:(lia) P Nn) as (l0 & ts & E & H). rewrite E in *. cbn [length] in *. exists l0, (ts ++ KLp :: (show_assoc vshow a ++ after_comma (show_assoc vshow) l) ++ [KRp]). split; [reflexivity|].
    intros r x j J Hj. repeat (rewrite <- app_assoc; cbn [app]).
    set (q := length (show_assoc vshow a) + length (after_comma (show_assoc vshow) l)) in *.
    eapply ok_more; [|apply (H _ x (j + 12 * q + 6)); [lia|]]; [rewrite !app_length; cbn [length]; rewrite !app_length; cbn [length]; lia|].
    intros [|m] Lm; [lia|]. destruct (after_ends (show_assoc vshow) l r) as [E2 N2]. assert (HM := more_ok l r A2 ltac:(lia)).
    destruct (assoc_ok a (after_comma (show_assoc vshow) l ++ KRp :: r) ltac:(lia) A1 E2 N2) as [->|(e' & tail & Ea & P' & Le & E3 & N3 & H3)].
    + cbn [show_assoc show_desig app]. step. rewrite HM by lia. cbn [bind]. apply Hj. lia.
    + assert (H1 := inner e' _ Le P' E3). unfold ok in H1, H3.
      assert (Q : q = length (vshow e') + length tail + length (after_comma (show_assoc vshow) l)) by (subst q; rewrite Ea, app_length; reflexivity). clearbody q. rewrite Ea, <- app_assoc.
      rewrite (name_lp m e _ (vshow_starts e' _ P')), H1 by lia; cbn [bind]; destruct (tail ++ after_comma (show_assoc vshow) l ++ KRp :: r) as [|[] w]; try contradiction; rewrite H3 by lia; cbn [bind]; rewrite HM by lia; cbn [bind]; apply Hj; lia.
Qed.
Lemma name_end e r : clean0 r -> ok (fun m => p_name m e r) 1 (e, r).
Proof. intros C [|m] L; [lia|]. step. destruct r as [|[] r]; try reflexivity; contradiction. Qed.
(** Primaries. *)
Lemma prim_ok e r : length (vshow e) <= S n -> legal e -> category e = 7 -> clean0 r -> ok (fun m => p_prim m (vshow e ++ r)) (12 * length (vshow e) - 6) (e, r).
Proof.
  intros L P C R. destruct (is_name e) eqn:N.
  - destruct (name_ok (S n) e L L P N) as (l & ts & E & H). specialize (H r (e, r) 1 (le_n _) (name_end e r R)). rewrite E. cbn [length].
    intros [|m] Lm; [lia|]. step; cbn [app]. rewrite H by lia. cbn [bind]. destruct r as [|[] r]; try reflexivity; contradiction.
  - destruct e; try discriminate; try contradiction; cbn [legal] in P; try (destruct o; try discriminate; contradiction).
    + intros [|m] Lm; [destruct unit_; cbn in Lm; lia|]. destruct unit_ as [u|].
      * destruct P as [Nu P]. cbn [vshow length] in *. destruct (name_ok (S n) u ltac:(lia) ltac:(lia) P Nu) as (l & ts & E & H). specialize (H r (u, r) 1 (le_n _) (name_end u r R)). rewrite E in *. cbn [length] in *.
        destruct based; step; cbn [app]; rewrite H by lia; reflexivity.
      * cbn [vshow]. destruct based; step; cbn [app]; destruct r as [|[] r]; try reflexivity; contradiction.
    + intros [|m] Lm; [cbn in Lm; lia|]. reflexivity.
    + intros [|m] Lm; [cbn in Lm; lia|]. reflexivity.
    + destruct P as [NE A]. cbn [vshow length] in *. rewrite app_length in *. cbn [length] in *. cbn [app]. rewrite <- app_assoc. cbn [app].
      intros [|m] Lm; [lia|]. assert (H := elems_ok l r NE A ltac:(lia)). step. rewrite H by lia. reflexivity.
    + destruct P as ((Nt & P) & NE & A). cbn [vshow] in *. rewrite !app_length in *. cbn [length] in *. rewrite !app_length in *. cbn [length] in *.
      destruct (name_ok (S n) e ltac:(lia) ltac:(lia) P Nt) as (l0 & ts & E & H). rewrite E in *. cbn [length] in *. repeat (cbn [app]; rewrite <- app_assoc). cbn [app].
      assert (HT : ok (fun m => p_name m e (KTick :: KLp :: commas (show_elem vshow) l ++ KRp :: r)) 1 (e, KTick :: KLp :: commas (show_elem vshow) l ++ KRp :: r)) by (intros [|m] Lm; [lia|]; reflexivity).
      specialize (H _ _ 1 (le_n _) HT). assert (H2 := elems_ok l r NE A ltac:(lia)).
      intros [|m] Lm; [lia|]. step. rewrite H by lia. cbn [bind]. rewrite H2 by lia. reflexivity.
Qed.
End Step.

Lemma simple_ok n : (forall e, length (vshow e) <= n -> legal e -> forall p r x k, p <= elev e -> eprec r <= etight e -> sprec r = 0 -> clean r -> 1 <= k ->
    ok (fun m => p_eloop m p e r) k x -> ok (fun m => p_exp m p (vshow e ++ r)) (k + 12 * length (vshow e)) x) ->
  (forall e, length (vshow e) <= n -> legal e -> 4 <= category e -> forall p r x k, p <= slev e -> sprec r <= stight e -> clean r -> 1 <= k ->
    ok (fun m => p_sloop m p e r) k x -> ok (fun m => p_simple m p (vshow e ++ r)) (k + 12 * length (vshow e) - 3) x) ->
  forall e, length (vshow e) <= S n -> legal e -> 4 <= category e -> forall p r x k, p <= slev e -> sprec r <= stight e -> clean r -> 1 <= k ->
    ok (fun m => p_sloop m p e r) k x -> ok (fun m => p_simple m p (vshow e ++ r)) (k + 12 * length (vshow e) - 3) x.
Proof.
  intros IH IHs e L P C p r x k Hp F R K H. destruct (Nat.eq_dec (category e) 7) as [C7|N7].
  - assert (H1 := prim_ok n IH IHs e r L P C7 (clean_clean0 r R)). pose proof (vshow_pos e P). intros [|m] Lm; [lia|].
    rewrite (simple_st m p _ (vshow_prim e r P C7)), H1 by lia. cbn [bind]. destruct r as [|[] r]; try contradiction; apply H; lia.
  - destruct e; try (exfalso; apply N7; reflexivity); try (exfalso; unfold category, c_shift, c_relation, c_logical, c_condition in C; lia); cbn [legal] in P.
    + destruct P as ((P1 & C1) & P2 & C2). cbn [vshow] in *. rewrite app_length in *. cbn [length] in *. rewrite <- app_assoc. cbn [app].
      assert (H1 := prim_ok n IH IHs e1 (KPow :: vshow e2 ++ r) ltac:(lia) P1 C1 I). assert (H2 := prim_ok n IH IHs e2 r ltac:(lia) P2 C2 (clean_clean0 r R)). pose proof (vshow_pos e1 P1). pose proof (vshow_pos e2 P2).
      intros [|m] Lm; [lia|]. rewrite (simple_st m p _ (vshow_prim e1 _ P1 C1)), H1 by lia. cbn [bind]. rewrite H2 by lia. cbn [bind]. apply H. lia.
    + cbn [vshow length] in *. destruct o as [| |o|s]; cbn [un_tok app]; destruct P as (P & Ca); unfold c_term in Ca.
      * assert (H1 := IHs e ltac:(lia) P ltac:(rewrite Ca; unfold c_primary; lia) 4 r (e, r) 1). assert (S1 : slev e = 4) by (destruct e; try reflexivity; discriminate). assert (S2 : stight e = 3) by (destruct e as [| | | | | | | | | | | | | |[]| | | | | | | ]; try reflexivity; discriminate).
        specialize (H1 ltac:(lia) ltac:(rewrite S2; exact F) R (le_n _) (sloop_stops 4 e r ltac:(destruct r as [|[] r]; cbn; lia))). intros [|m] Lm; [lia|]. step. change prefix_prec with 4. rewrite H1 by lia. cbn [bind]. apply H. lia.
      * assert (H1 := IHs e ltac:(lia) P ltac:(rewrite Ca; unfold c_primary; lia) 4 r (e, r) 1). assert (S1 : slev e = 4) by (destruct e; try reflexivity; discriminate). assert (S2 : stight e = 3) by (destruct e as [| | | | | | | | | | | | | |[]| | | | | | | ]; try reflexivity; discriminate).
        specialize (H1 ltac:(lia) ltac:(rewrite S2; exact F) R (le_n _) (sloop_stops 4 e r ltac:(destruct r as [|[] r]; cbn; lia))). intros [|m] Lm; [lia|]. step. change prefix_prec with 4. rewrite H1 by lia. cbn [bind]. apply H. lia.
      * assert (H1 := IHs e ltac:(lia) P ltac:(rewrite Ca; unfold c_primary; lia) 4 r (e, r) 1). assert (S1 : slev e = 4) by (destruct e; try reflexivity; discriminate). assert (S2 : stight e = 3) by (destruct e as [| | | | | | | | | | | | | |[]| | | | | | | ]; try reflexivity; discriminate).
        specialize (H1 ltac:(lia) ltac:(rewrite S2; exact F) R (le_n _) (sloop_stops 4 e r ltac:(destruct r as [|[] r]; cbn; lia))). intros [|m] Lm; [lia|]. step. change prefix_prec with 4. rewrite H1 by lia. cbn [bind]. apply H. lia.
      * assert (S1 : 3 <= slev e) by (destruct e; cbn; try lia; cbn in Ca; unfold c_simple in Ca; lia). assert (S2 : stight e = 3) by (destruct e as [| | | | | | | | | | | | | |[]| | | | | | | ]; try reflexivity; cbn in Ca; unfold c_simple in Ca; lia).
        cbn [stight] in F. assert (H1 := IHs e ltac:(lia) P ltac:(lia) 2 r (e, r) 1 ltac:(lia) ltac:(lia) R (le_n _) (sloop_stops 2 e r ltac:(lia))). intros [|m] Lm; [lia|].
        destruct s; step; change sign_prec with 2; rewrite H1 by lia; cbn [bind]; apply H; lia.
    + destruct P as ((P1 & C1) & P2 & C2). unfold c_term, c_factor in *. cbn [vshow] in *. rewrite app_length in *. cbn [length] in *. rewrite <- app_assoc. cbn [app]. cbn [slev] in Hp.
      assert (S1 : 3 <= slev e1) by (destruct e1; cbn; try lia; cbn in C1; unfold c_simple in C1; lia). assert (S2 : stight e1 = 3) by (destruct e1 as [| | | | | | | | | | | | | |[]| | | | | | | ]; try reflexivity; cbn in C1; unfold c_simple in C1; lia).
      assert (S3 : slev e2 = 4) by (destruct e2; try reflexivity; cbn in C2; unfold c_simple, c_term in C2; lia). assert (S4 : stight e2 = 3) by (destruct e2 as [| | | | | | | | | | | | | |[]| | | | | | | ]; try reflexivity; cbn in C2; unfold c_simple in C2; lia).
      pose proof (vshow_pos e1 P1). pose proof (vshow_pos e2 P2).
      assert (H2 := IHs e2 ltac:(lia) P2 ltac:(lia) 4 r (e2, r) 1 ltac:(lia) ltac:(destruct r as [|[] r]; cbn; lia) R (le_n _) (sloop_stops 4 e2 r ltac:(destruct r as [|[] r]; cbn; lia))).
      eapply ok_more; [|apply (IHs e1 ltac:(lia) P1 ltac:(lia) p _ x (k + 12 * length (vshow e2) + 2) ltac:(lia)); [cbn [sprec]; lia|exact I|lia|]]; [lia|].
      intros [|m] Lm; [lia|]. step. change mul_prec with 3. rewrite (proj2 (Nat.leb_le p 3) Hp). change (3 + 1) with 4. rewrite H2 by lia. cbn [bind]. apply H. lia.
    + destruct P as ((P1 & C1) & P2 & C2). unfold c_term, c_simple in *. cbn [vshow] in *. rewrite app_length in *. cbn [length] in *. rewrite <- app_assoc. cbn [app]. cbn [slev] in Hp. cbn [stight] in F.
      assert (S1 : 1 <= slev e1) by (destruct e1; cbn; lia). assert (S2 : 1 <= stight e1) by (destruct e1 as [| | | | | | | | | | | | | |[]| | | | | | | ]; cbn; lia).
      assert (S3 : 3 <= slev e2) by (destruct e2; cbn; try lia; cbn in C2; unfold c_simple in C2; lia). assert (S4 : stight e2 = 3) by (destruct e2 as [| | | | | | | | | | | | | |[]| | | | | | | ]; try reflexivity; cbn in C2; unfold c_simple in C2; lia).
      pose proof (vshow_pos e1 P1). pose proof (vshow_pos e2 P2).
      assert (H2 := IHs e2 ltac:(lia) P2 ltac:(lia) 2 r (e2, r) 1 ltac:(lia) ltac:(lia) R (le_n _) (sloop_stops 2 e2 r ltac:(lia))).
      eapply ok_more; [|apply (IHs e1 ltac:(lia) P1 ltac:(lia) p _ x (k + 12 * length (vshow e2) + 2) ltac:(lia)); [cbn [sprec]; lia|exact I|lia|]]; [lia|].
      intros [|m] Lm; [lia|]. step. change add_prec with 1. rewrite (proj2 (Nat.leb_le p 1) Hp). change (1 + 1) with 2. rewrite H2 by lia. cbn [bind]. apply H. lia.
Qed.
Theorem parse_both n :
  (forall e, length (vshow e) <= n -> legal e -> forall p r x k, p <= elev e -> eprec r <= etight e -> sprec r = 0 -> clean r -> 1 <= k ->
    ok (fun m => p_eloop m p e r) k x -> ok (fun m => p_exp m p (vshow e ++ r)) (k + 12 * length (vshow e)) x) /\
  (forall e, length (vshow e) <= n -> legal e -> 4 <= category e -> forall p r x k, p <= slev e -> sprec r <= stight e -> clean r -> 1 <= k ->
    ok (fun m => p_sloop m p e r) k x -> ok (fun m => p_simple m p (vshow e ++ r)) (k + 12 * length (vshow e) - 3) x).
Proof.
  induction n as [|n [IH IHs]]; [split; intros e L P; pose proof (vshow_pos e P); lia|].
  assert (HS := simple_ok n IH IHs). split; [|exact HS]. intros e L P p r x k Hp F Z R K H. destruct (le_lt_dec 4 (category e)) as [C|C].
  - assert (H1 := HS e L P C 0 r (e, r) 1 ltac:(lia) ltac:(lia) R (le_n _) (sloop_end 0 e r Z)). pose proof (vshow_pos e P). intros [|m] Lm; [lia|].
    rewrite (exp_st m p _ (vshow_not_cond e r P ltac:(lia))), H1 by lia. cbn [bind]. apply H. lia.
  - destruct e as [| | | | | | | | | | | | | |[]| | | | | | | ]; try (exfalso; unfold category, c_primary, c_factor, c_term, c_simple in C; lia); cbn [legal] in P; try contradiction.
    + destruct P as [P C1]. cbn [vshow length] in *. assert (H1 := prim_ok n IH IHs e r ltac:(lia) P C1 (clean_clean0 r R)). pose proof (vshow_pos e P). intros [|m] Lm; [lia|]. cbn [app]. step. rewrite H1 by lia. cbn [bind]. apply H. lia.
    + destruct P as ((P1 & C1) & P2 & C2). unfold c_simple in *. cbn [vshow] in *. rewrite app_length in *. cbn [length] in *. rewrite <- app_assoc. cbn [app]. cbn [elev] in Hp.
      assert (S1 : elev e1 = 4) by (destruct e1; try reflexivity; cbn in C1; unfold c_shift, c_relation, c_logical, c_condition in C1; lia). assert (S2 : etight e1 = 3) by (destruct e1; try reflexivity; cbn in C1; unfold c_shift, c_relation, c_logical, c_condition in C1; lia).
      assert (S3 : elev e2 = 4) by (destruct e2; try reflexivity; cbn in C2; unfold c_shift, c_relation, c_logical, c_condition in C2; lia). assert (S4 : etight e2 = 3) by (destruct e2; try reflexivity; cbn in C2; unfold c_shift, c_relation, c_logical, c_condition in C2; lia).
      pose proof (vshow_pos e1 P1). pose proof (vshow_pos e2 P2).
      assert (H2 := IH e2 ltac:(lia) P2 4 r (e2, r) 1 ltac:(lia) ltac:(destruct r as [|[] r]; cbn; lia) Z R (le_n _) (eloop_stops 4 e2 r ltac:(destruct r as [|[] r]; cbn; lia))).
      eapply ok_more; [|apply (IH e1 ltac:(lia) P1 p _ x (k + 12 * length (vshow e2) + 2) ltac:(lia)); [cbn [eprec]; lia|reflexivity|exact I|lia|]]; [lia|].
      intros [|m] Lm; [lia|]. step. change shift_prec with 3. rewrite (proj2 (Nat.leb_le p 3) Hp). change (3 + 1) with 4. rewrite H2 by lia. cbn [bind]. apply H. lia.
    + destruct P as ((P1 & C1) & P2 & C2). unfold c_shift in *. cbn [vshow] in *. rewrite app_length in *. cbn [length] in *. rewrite <- app_assoc. cbn [app]. cbn [elev] in Hp. cbn [etight] in F.
      assert (S1 : 3 <= elev e1) by (destruct e1; cbn; try lia; cbn in C1; unfold c_relation, c_logical, c_condition in C1; lia). assert (S2 : etight e1 = 3) by (destruct e1; try reflexivity; cbn in C1; unfold c_relation, c_logical, c_condition in C1; lia).
      assert (S3 : 3 <= elev e2) by (destruct e2; cbn; try lia; cbn in C2; unfold c_relation, c_logical, c_condition in C2; lia). assert (S4 : etight e2 = 3) by (destruct e2; try reflexivity; cbn in C2; unfold c_relation, c_logical, c_condition in C2; lia).
      pose proof (vshow_pos e1 P1). pose proof (vshow_pos e2 P2).
      assert (H2 := IH e2 ltac:(lia) P2 3 r (e2, r) 1 ltac:(lia) ltac:(lia) Z R (le_n _) (eloop_stops 3 e2 r ltac:(lia))).
      eapply ok_more; [|apply (IH e1 ltac:(lia) P1 p _ x (k + 12 * length (vshow e2) + 2) ltac:(lia)); [cbn [eprec]; lia|reflexivity|exact I|lia|]]; [lia|].
      intros [|m] Lm; [lia|]. step. change rel_prec with 2. rewrite (proj2 (Nat.leb_le p 2) Hp). change (2 + 1) with 3. rewrite H2 by lia. cbn [bind]. apply H. lia.
    + destruct P as ((P1 & C1) & P2 & C2). unfold c_relation in *. cbn [vshow] in *. rewrite app_length in *. cbn [length] in *. rewrite <- app_assoc. cbn [app]. cbn [elev] in Hp. cbn [etight] in F.
      assert (S1 : 1 <= elev e1) by (destruct e1; cbn; lia). assert (S2 : 1 <= etight e1) by (destruct e1; cbn; lia).
      assert (S3 : 2 <= elev e2) by (destruct e2; cbn; try lia; cbn in C2; unfold c_logical, c_condition in C2; lia). assert (S4 : 2 <= etight e2) by (destruct e2; cbn; try lia; cbn in C2; unfold c_logical, c_condition in C2; lia).
      pose proof (vshow_pos e1 P1). pose proof (vshow_pos e2 P2).
      assert (H2 := IH e2 ltac:(lia) P2 2 r (e2, r) 1 ltac:(lia) ltac:(lia) Z R (le_n _) (eloop_stops 2 e2 r ltac:(lia))).
      eapply ok_more; [|apply (IH e1 ltac:(lia) P1 p _ x (k + 12 * length (vshow e2) + 2) ltac:(lia)); [cbn [eprec]; lia|reflexivity|exact I|lia|]]; [lia|].
      intros [|m] Lm; [lia|]. step. change log_prec with 1. rewrite (proj2 (Nat.leb_le p 1) Hp). change (1 + 1) with 2. rewrite H2 by lia. cbn [bind]. apply H. lia.
Qed.
Theorem parse_vshow e : legal e -> parse_vhdl_expression (vshow e) = Ok (norm e).
Proof.
  intros P. unfold parse_vhdl_expression. assert (H := proj1 (parse_both (length (vshow e))) e (le_n _) P 0 [] (e, []) 1 ltac:(lia) ltac:(cbn; lia) eq_refl I (le_n _) (eloop_end 0 e [] eq_refl)).
  rewrite app_nil_r in H. rewrite H by lia. reflexivity.
Qed.
Theorem exp_vshow e : legal e -> p_exp (12 * length (vshow e) + 12) 0 (vshow e) = Ok (e, []).
Proof.
  intros P. assert (H := proj1 (parse_both (length (vshow e))) e (le_n _) P 0 [] (e, []) 1 ltac:(lia) ltac:(cbn; lia) eq_refl I (le_n _) (eloop_end 0 e [] eq_refl)).
  rewrite app_nil_r in H. apply H. lia.
Qed.
