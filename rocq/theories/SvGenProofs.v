(** The generate constructs of the AST elaborate like those of the source. *)
From Verif Require Import Base BaseFacts AstModel StmModel LitModel SvExprModel SvExprSpec SvExprProofs SvStmModel SvStmSpec SvStmProofs SvTypeModel SvDeclModel SvInstProofs SvDeclProofs SvTfModel SvGenModel SvGenSpec VhdlDeclProofs VhdlDecl2Proofs.

Section Ind.
Context (P : gitem -> Prop).
Definition gi_else (e : option gitem) : Prop := match e with Some e => P e | None => True end.
Definition gi_kids (g : gitem) : Prop :=
  match g with
  | GI_leaf _ => True
  | GI_block _ _ _ l | GI_region l => Forall P l
  | GI_for _ _ _ b => P b
  | GI_if _ _ t e => P t /\ gi_else e
  | GI_case _ _ l => Forall (fun a => P (snd a)) l
  end.
Context (H : forall g, gi_kids g -> P g).
Fixpoint gitem_ind' (g : gitem) : P g :=
  H g (match g return gi_kids g with
       | GI_leaf _ => I
       | GI_block _ _ _ l => Forall_fix P gitem_ind' l
       | GI_region l => Forall_fix P gitem_ind' l
       | GI_for _ _ _ b => gitem_ind' b
       | GI_if _ _ t e => conj (gitem_ind' t) (match e return gi_else e with Some e => gitem_ind' e | None => I end)
       | GI_case _ _ l => Forall_fix (fun a => P (snd a)) (fun a => match a return P (snd a) with (_, g) => gitem_ind' g end) l
       end).
End Ind.

Definition leaf_obj (o : sobj) : bool := match o with SO_id _ | SO_inst _ | SO_func _ | SO_stm _ => true | _ => false end.
Lemma leaf_map {X} (f : X -> sobj) l : (forall x, leaf_obj (f x) = true) -> forallb leaf_obj (map f l) = true.
Proof. intros F. induction l as [|x l IH]; [reflexivity|]. cbn [map forallb]. rewrite F. exact IH. Qed.
Lemma leaf_leaf l r : conv_gleaf l = Ok r -> forallb leaf_obj (fst r) = true.
Proof.
  destruct l; cbn [conv_gleaf]; intros H; try (binv H; injection H as <-; cbn [fst]; try reflexivity; apply leaf_map; try (intros []; reflexivity); reflexivity); injection H as <-; reflexivity.
Qed.
Lemma mark_mark b c o : mark b (mark c o) = mark b o.
Proof. destruct o as [| | |s| | | |]; try reflexivity. destruct s; reflexivity. Qed.
Lemma plain_ident i s : plain_id i = Some s -> ident_str i = Ok s.
Proof. destruct i; [|discriminate]. intros H. injection H as ->. reflexivity. Qed.
Lemma block_label pre name end_ nm a b c : block_name pre name end_ = Some nm -> opt_ident pre = Ok a -> opt_ident name = Ok b -> opt_ident end_ = Ok c ->
  first_label (mk_hdr (a ++ b ++ c) [] [] false) = nm.
Proof.
  intros H Ha Hb Hc. destruct pre as [i|], name as [j|]; cbn [block_name] in H; try discriminate.
  - oinv H. cbn [opt_ident] in Ha, Hb. rewrite (plain_ident _ _ Hv) in Ha. injection Ha as <-. injection Hb as <-.
    destruct end_ as [k|]; [oinv H; destruct (seqb v0 v); [|discriminate]|]; injection H as <-; reflexivity.
  - oinv H. cbn [opt_ident] in Ha, Hb. rewrite (plain_ident _ _ Hv) in Hb. injection Ha as <-. injection Hb as <-.
    destruct end_ as [k|]; [oinv H; destruct (seqb v0 v); [|discriminate]|]; injection H as <-; reflexivity.
  - injection Ha as <-. injection Hb as <-. destruct end_; [discriminate|]. injection H as <-. injection Hc as <-. reflexivity.
Qed.

Section Elab.
Context (A : algebra) (N : Type) (num : genv N -> V A -> N) (test : genv N -> V A -> bool) (matches : genv N -> V A -> V A -> bool) (arith : asgop -> N -> N -> N) (one_more : bool -> N -> N) (n : nat).
Notation s_el := (s_gen A N num test matches arith one_more n). Notation a_el := (a_gen A N num test matches arith one_more n).
Notation a_els := (a_gens A N num test matches arith one_more n).
Notation conv_res := (conv_gress N).
Notation vm := (vmeaning A). Notation mm := (meaning A).

Lemma conv_mean e v x : vm e = Some v -> conv e = Ok x -> mm x = Some v.
Proof. intros H E. destruct (conv_sim A e v H) as (a & Ha & Hm & _). rewrite E in Ha. injection Ha as ->. exact Hm. Qed.
Lemma a_els_app p e l l' r r' : a_els p e l = Some r -> a_els p e l' = Some r' -> a_els p e (l ++ l') = Some (r ++ r').
Proof.
  unfold a_gens. intros H K. oinv H. oinv K. injection H as <-. injection K as <-. rewrite (omapM_app _ _ _ _ _ Hv Hv0). cbn [obind]. rewrite List.concat_app. reflexivity.
Qed.
Lemma a_els_1 p e o : a_els p e [o] = a_el o None p e.
Proof. unfold a_gens. cbn. destruct (a_el o None p e); [|reflexivity]. cbn. rewrite app_nil_r. reflexivity. Qed.
Lemma leaf_el o w p e : leaf_obj o = true -> a_el o w p e = Some [(in_single N w p, e, mark false o)].
Proof. destruct o; try discriminate; reflexivity. Qed.
Lemma leaves_el l p e : forallb leaf_obj l = true -> a_els p e l = Some (map (fun o => (p, e, mark false o)) l).
Proof.
  induction l as [|o l IH]; intros H; [reflexivity|]. cbn [forallb] in H. apply andb_prop in H as (Ho & H). apply (a_els_app p e [o] l [(p, e, mark false o)]); [|exact (IH H)].
  rewrite a_els_1. exact (leaf_el o None p e Ho).
Qed.
Lemma mark_el b o w p e : a_el (mark b o) w p e = a_el o w p e.
Proof. destruct o as [| | |s| | | |]; try reflexivity. cbn [mark a_gen]. destruct s; reflexivity. Qed.
Lemma mark_els b p e l : a_els p e (map (mark b) l) = a_els p e l.
Proof.
  induction l as [|o l IH]; [reflexivity|]. unfold a_gens in *. cbn [map].
  change (omapM (fun o => a_el o None p e) (mark b o :: map (mark b) l)) with (y <~ a_el (mark b o) None p e ;; r <~ omapM (fun o => a_el o None p e) (map (mark b) l) ;; Some (y :: r)).
  change (omapM (fun o => a_el o None p e) (o :: l)) with (y <~ a_el o None p e ;; r <~ omapM (fun o => a_el o None p e) l ;; Some (y :: r)).
  rewrite mark_el. destruct (a_el o None p e) as [y|]; [|reflexivity]. cbn [obind]. destruct (omapM _ (map (mark b) l)) as [r|], (omapM _ l) as [r'|]; try discriminate; [|reflexivity].
  cbn [obind] in *. injection IH as IH. cbn. rewrite IH. reflexivity.
Qed.
Lemma block_el h l w p e : a_el (SO_block h l) w p e = a_els (in_block N w (first_label h) p) e l.
Proof. reflexivity. Qed.

(** The objects of one item, in its place. *)
Definition a_at (w : place N) (p : gpath N) (e : genv N) (r : list sobj) : option (list (gres N sobj)) :=
  match w with None => a_els p e r | Some i => a_el (pop_block r) (Some i) p e end.
Definition gen_ok (g : gitem) : Prop := forall w p e r items, conv_gitem g = Ok r -> s_el g w p e = Some items -> exists os, conv_res items = Ok os /\ a_at w p e r = Some os.
Lemma at_one w p e o : a_at w p e [o] = a_el o w p e.
Proof. destruct w; [reflexivity|]. apply a_els_1. Qed.
Lemma items_ok p e l : Forall gen_ok l -> forall r its, concatM conv_gitem l = Ok r -> omapM (fun g => s_el g None p e) l = Some its ->
  exists os, conv_res (List.concat its) = Ok os /\ a_els p e r = Some os.
Proof.
  intros F. induction F as [|g l Hg F IH]; intros r its H K; [injection H as <-; injection K as <-; exists []; split; reflexivity|].
  apply concatM_inv in H as (a & b & Ha & Hb & ->). change (omapM (fun g => s_el g None p e) (g :: l)) with (y <~ s_el g None p e ;; r <~ omapM (fun g => s_el g None p e) l ;; Some (y :: r)) in K.
  oinv K. oinv K. injection K as <-. destruct (Hg None p e a v Ha Hv) as (o1 & H1 & E1). destruct (IH b v0 Hb Hv0) as (o2 & H2 & E2).
  exists (o1 ++ o2). split; [apply concatM_app; assumption|apply a_els_app; assumption].
Qed.
Lemma leaf_ok l : gen_ok (GI_leaf l).
Proof.
  intros w p e r items H K. cbn [conv_gitem] in H. binv H. injection H as <-.
  assert (items = [(in_single N w p, e, l)]) as -> by (destruct l; cbn [s_gen] in K; try discriminate; injection K as <-; reflexivity). clear K.
  exists (map (fun o => (in_single N w p, e, mark false o)) (fst x)). split.
  { unfold conv_gress, concatM, conv_gres. cbn [snd fst bind]. rewrite Hx. cbn [bind]. rewrite app_nil_r. reflexivity. }
  pose proof (leaf_leaf _ _ Hx) as L. destruct w as [i|]; [|exact (leaves_el _ _ _ L)]. cbn [a_at in_single].
  unfold pop_block. destruct (fst x) as [|o [|o' l']]; [reflexivity| |].
  - cbn [forallb] in L. apply andb_prop in L as (L & _). exact (leaf_el o (Some i) p e L).
  - rewrite block_el. apply leaves_el. exact L.
Qed.
Lemma init_ok i x v o : plain_id (gi_name i) = Some x -> vm (gi_value i) = Some v -> conv_ginit i = Ok o -> a_init A [o] = Some (x, v).
Proof.
  intros Hx Hv H. unfold conv_ginit in H. binv H. pose proof (conv_mean _ _ _ Hv Hx0) as Hm. destruct (gi_genvar i).
  - binv H. injection H as <-. rewrite (plain_ident _ _ Hx) in Hx1. injection Hx1 as <-. cbn. rewrite Hm. reflexivity.
  - unfold visit_ident in H. rewrite (plain_ident _ _ Hx) in H. cbn [bind] in H. binv H. injection H as <-.
    assert (x1 = SAssign (hdr_doc (gi_doc i)) (EId x) x0 None None true) as -> by (unfold mk_assign in Hx1; destruct x0; try discriminate; injection Hx1 as <-; reflexivity).
    cbn. rewrite Hm. reflexivity.
Qed.
Lemma next_ok x s f o : s_next A N num arith one_more x s = Some f -> conv_gstep s = Ok o -> exists f', a_next A N num arith one_more x o = Some f' /\ forall k e, f' k e = f k e.
Proof.
  destruct s as [i a e|pr b i]; cbn [s_next conv_gstep]; intros H K.
  - oinv H. oinv H. unfold visit_ident in K. rewrite (plain_ident _ _ Hv) in K. cbn [bind] in K. binv K. injection K as <-. pose proof (conv_mean _ _ _ Hv0 Hx) as Hm.
    destruct (seqb v x) eqn:E; [|discriminate]. injection H as <-.
    assert (mk2 (EId v) (visit_asgop a) x0 = EOp (visit_asgop a) [EId v; x0]) as -> by (unfold mk2; destruct x0; try reflexivity; discriminate).
    cbn [a_next]. assert (m_asgop (visit_asgop a) = Some a) as -> by (destruct a; reflexivity). cbn [obind]. rewrite Hm. cbn [obind]. rewrite E. eexists. split; [reflexivity|]. reflexivity.
  - oinv H. unfold visit_ident in K. rewrite (plain_ident _ _ Hv) in K. cbn [bind] in K. injection K as <-. destruct (seqb v x) eqn:E; [|discriminate]. injection H as <-.
    cbn [a_next op1]. assert (m_step (visit_incdec pr b) = Some (pr, b)) as -> by (destruct pr, b; reflexivity). cbn [obind snd]. rewrite E. eexists. split; [reflexivity|]. reflexivity.
Qed.
Lemma steps_ok (x : str) (e : genv N) go (next next' : N -> genv N -> N) : (forall k e, next' k e = next k e) -> forall (f : N -> option (list (gres N gleaf))) f', (forall k its, f k = Some its -> exists os, conv_res its = Ok os /\ f' k = Some os) ->
  forall m k its, steps N go (fun k => next k ((x, k) :: e)) f m k = Some its -> exists os, conv_res its = Ok os /\ steps N go (fun k => next' k ((x, k) :: e)) f' m k = Some os.
Proof.
  intros Hn f f' Hf. induction m as [|m IH]; intros k its K; [discriminate|]. cbn [steps] in K |- *. destruct (go k); [|injection K as <-; exists []; split; reflexivity].
  oinv K. oinv K. injection K as <-. destruct (Hf _ _ Hv) as (o1 & H1 & ->). destruct (IH _ _ Hv0) as (o2 & H2 & E2). exists (o1 ++ o2). split; [apply concatM_app; assumption|].
  cbn [obind]. rewrite Hn, E2. reflexivity.
Qed.
(** Labels *)
Lemma labels_conv ls g r : forallb (fun e => match vm e with Some _ => true | None => false end) ls = true ->
  mapM (fun e => x <- conv e ;; r <- conv_gitem g ;; o <- the_one r ;; Ok (match x with ENull => None | _ => Some x end, o)) ls = Ok r ->
  Forall2 (fun e y => exists x v o, y = (Some x, o) /\ vm e = Some v /\ mm x = Some v /\ conv_gitem g = Ok [o]) ls r.
Proof.
  intros L H. apply mapM_ok_in in H. induction H as [|e y ls r Hy H IH]; [constructor|]. cbn [forallb] in L. apply andb_prop in L as (Le & L). constructor; [|exact (IH L)].
  destruct (vm e) as [v|] eqn:E; [|discriminate]. binv Hy. pose proof (conv_mean _ _ _ E Hx) as Hm. binv Hy. binv Hy. injection Hy as <-. exists x, v, x1.
  split; [destruct x; try reflexivity; discriminate|]. split; [reflexivity|]. split; [exact Hm|].
  destruct x0 as [|o [|]]; try discriminate. injection Hx1 as <-. exact Hx0.
Qed.
Definition first_default (l : list (list vexpr * gitem)) : option gitem :=
  (fix go l := match l with [] => None | (ls, g) :: l' => match ls with [] => Some g | _ => go l' end end) l.
Lemma split_some r1 : forall r2 d q, Forall (fun y => fst y <> None) r1 -> split_alts (r1 ++ r2) d = Ok q ->
  exists q2, split_alts r2 d = Ok q2 /\ snd q = snd q2 /\ exists cs, fst q = cs ++ fst q2 /\ r1 = map (fun c => (Some (fst c), snd c)) cs.
Proof.
  induction r1 as [|(x, o) r1 IH]; intros r2 d q F H.
  - exists q. split; [exact H|]. split; [reflexivity|]. exists []. split; reflexivity.
  - inversion F as [|? ? Fx F']; subst. cbn [fst] in Fx. destruct x as [x|]; [|congruence]. cbn [app split_alts] in H. binv H. injection H as <-. destruct (IH r2 d x0 F' Hx) as (q2 & H2 & E2 & cs & E3 & ->).
    exists q2. split; [exact H2|]. split; [exact E2|]. exists ((x, o) :: cs). cbn [fst snd]. rewrite E3. split; reflexivity.
Qed.
(** The labels of one alternative. *)
Lemma match_ok e w p g ls a cs D' rest t items (K : Prop) : gen_ok g -> Forall2 (fun e y => exists x v o, y = (Some x, o) /\ vm e = Some v /\ mm x = Some v /\ conv_gitem g = Ok [o]) ls a -> a = map (fun c => (Some (fst c), snd c)) cs ->
  s_match A N matches e w ls = Some t -> (if t then s_el g (Some None) p e = Some items else K) ->
  (K -> exists os, conv_res items = Ok os /\ a_cases A N matches e (fun o => a_el o (Some None) p e) w D' rest = Some os) ->
  exists os, conv_res items = Ok os /\ a_cases A N matches e (fun o => a_el o (Some None) p e) w D' (cs ++ rest) = Some os.
Proof.
  intros G F. revert cs. induction F as [|l y ls a (x & v & o & -> & Hl & Hm & Ho) F IH]; intros cs E M HS IC.
  - destruct cs; [|discriminate]. injection M as <-. exact (IC HS).
  - destruct cs as [|(x', o') cs]; [discriminate|]. cbn [map fst snd] in E. injection E as <- <- E. cbn [s_match] in M. rewrite Hl in M. cbn [obind] in M. cbn [app].
    change (exists os, conv_res items = Ok os /\ (v <~ mm x ;; if matches e w v then a_el o (Some None) p e else a_cases A N matches e (fun o => a_el o (Some None) p e) w D' (cs ++ rest)) = Some os).
    rewrite Hm. cbn [obind]. destruct (matches e w v).
    + injection M as <-. exact (G (Some None) p e [o] items Ho HS).
    + exact (IH cs E M HS IC).
Qed.
Lemma alts_ok (e : genv N) (w : V A) (p : gpath N) : forall l r d q, Forall (fun a => gen_ok (snd a)) l -> labels_ok A l = true -> concatM (conv_alt conv_gitem) l = Ok r -> split_alts r d = Ok q ->
  (match first_default l with Some g => d = None /\ gen_ok g /\ exists o, conv_gitem g = Ok [o] /\ snd q = Some o | None => snd q = d end) /\
  forall D D' items, (forall its, D = Some its -> exists os, conv_res its = Ok os /\ D' = Some os) ->
    s_pick A N matches e w (fun g => s_el g (Some None) p e) D l = Some items ->
    exists os, conv_res items = Ok os /\ a_cases A N matches e (fun o => a_el o (Some None) p e) w D' (fst q) = Some os.
Proof.
  induction l as [|(ls, g) l IH]; intros r d q F L H Q.
  - injection H as <-. injection Q as <-. split; [reflexivity|]. intros D D' items HD HS. cbn in HS |- *. exact (HD items HS).
  - inversion F as [|? ? Fg F']; subst. cbn [snd] in Fg. unfold labels_ok in L. cbn [forallb fst] in L. apply andb_prop in L as (Lg & L).
    apply concatM_inv in H as (a & b & Ha & Hb & ->). unfold conv_alt in Ha. cbn [fst snd] in Ha. destruct ls as [|e1 ls].
    + binv Ha. binv Ha. injection Ha as <-. cbn [app split_alts] in Q. destruct d; [discriminate|]. destruct (IH b (Some x0) q F' L Hb Q) as (ID & IC).
      destruct x as [|o [|]]; try discriminate. injection Hx0 as ->. split.
      * cbn [first_default]. fold (first_default l). split; [reflexivity|]. split; [exact Fg|]. exists x0. split; [exact Hx|]. destruct (first_default l); [destruct ID as (K & _); discriminate|exact ID].
      * intros D D' items HD HS. cbn in HS. exact (IC D D' items HD HS).
    + apply (labels_conv _ _ _ Lg) in Ha. assert (Forall (fun y : option expr * sobj => fst y <> None) a) as Fa by (clear - Ha; induction Ha as [|? ? ? ? (? & ? & ? & -> & _)]; constructor; [discriminate|assumption]).
      destruct (split_some a b d q Fa Q) as (q2 & Q2 & E2 & cs & E3 & Ea). destruct (IH b d q2 F' L Hb Q2) as (ID & IC). split.
      * cbn [first_default]. fold (first_default l). destruct (first_default l) as [g'|]; [|rewrite E2; exact ID]. destruct ID as (Dn & G & o & Ho & Eo). split; [exact Dn|]. split; [exact G|]. exists o. split; [exact Ho|]. rewrite E2. exact Eo.
      * intros D D' items HD HS. rewrite E3. change ((t <~ s_match A N matches e w (e1 :: ls) ;; if t then s_el g (Some None) p e else s_pick A N matches e w (fun g => s_el g (Some None) p e) D l) = Some items) in HS.
        destruct (s_match A N matches e w (e1 :: ls)) as [t|] eqn:M; [|discriminate]. cbn [obind] in HS.
        apply (match_ok e w p g _ a cs D' (fst q2) t items (s_pick A N matches e w (fun g => s_el g (Some None) p e) D l = Some items) Fg Ha Ea M); [destruct t; exact HS|]. exact (IC D D' items HD).
Qed.
Lemma default_of f l : s_default f (Some []) l = match first_default l with Some g => f g | None => Some (@nil (gres N gleaf)) end.
Proof. induction l as [|([|e ls], g) l IH]; [reflexivity|reflexivity|exact IH]. Qed.
Lemma collapse_el o o' w p e r : collapse o = Ok o' -> a_el o w p e = Some r -> a_el o' w p e = Some r.
Proof.
  intros H K. destruct o as [| | | | | |h c t l [[| | | | | |h2 c2 t2 l2 f2|]|]|]; try (injection H as <-; exact K). cbn [collapse] in H. destruct (Bool.eqb _ _); [|discriminate]. injection H as <-.
  revert K. cbn [a_gen in_choice]. destruct (mm c) as [v|]; [|discriminate]. cbn [obind]. destruct (test e v); [auto|]. clear. generalize (in_choice N w p). intros q. induction l as [|(c3, o3) l IH]; [auto|].
  change ((v <~ mm c3 ;; if test e v then a_el o3 (Some None) q e else a_elifs A N test e (fun o => a_el o (Some None) q e) (v <~ mm c2 ;; if test e v then a_el t2 (Some None) q e else a_elifs A N test e (fun o => a_el o (Some None) q e) (match f2 with Some f => a_el f (Some None) q e | None => Some [] end) l2) l) = Some r ->
    (v <~ mm c3 ;; if test e v then a_el o3 (Some None) q e else a_elifs A N test e (fun o => a_el o (Some None) q e) (match f2 with Some f => a_el f (Some None) q e | None => Some [] end) (l ++ (c2, t2) :: l2)) = Some r).
  destruct (mm c3) as [v|]; [|discriminate]. cbn [obind]. destruct (test e v); [auto|exact IH].
Qed.
Theorem gen_sim g : gen_ok g.
Proof.
  induction g as [g Hk] using gitem_ind'. destruct g as [l|pre name end_ l|i c s b|d c t f|d sel l|l]; cbn [gi_kids] in Hk; [apply leaf_ok|intros w p e r items H K; cbn [conv_gitem] in H; cbn [s_gen] in K ..].
  - oinv K. oinv K. injection K as <-. binv H. binv H. binv H. binv H. injection H as <-. destruct (items_ok _ _ _ Hk _ _ Hx Hv0) as (os & Hos & Eos).
    exists os. split; [exact Hos|]. rewrite at_one, block_el, (block_label _ _ _ _ _ _ _ Hv Hx0 Hx1 Hx2). exact Eos.
  - oinv K. oinv K. oinv K. oinv K. binv H. binv H. binv H. binv H. injection H as <-. rename v into x', v0 into vi, v1 into vc, v2 into next.
    pose proof (init_ok _ _ _ _ Hv Hv0 Hx) as Ei. pose proof (conv_mean _ _ _ Hv1 Hx0) as Ec. destruct (next_ok _ _ _ _ Hv2 Hx1) as (next' & En & Hn).
    rewrite at_one. cbn [a_gen]. rewrite Ei. cbn [obind fst snd]. rewrite Ec. cbn [obind]. rewrite En. cbn [obind]. refine (steps_ok _ _ _ _ _ Hn _ _ _ n (num e vi) items K).
    intros k its E. exact (Hk _ _ _ _ _ Hx2 E).
  - destruct Hk as (Ht & Hf). oinv K. binv H. binv H. binv H. binv H. injection H as <-. pose proof (conv_mean _ _ _ Hv Hx) as Ec. rewrite at_one.
    assert (exists os, conv_res items = Ok os /\ a_el (SO_if (hdr_doc d) x (pop_block x0) [] x1) w p e = Some os) as (os & Hos & Eos); [|exists os; split; [exact Hos|]; exact (collapse_el _ _ _ _ _ _ Hx2 Eos)].
    cbn [a_gen a_elifs]. rewrite Ec. cbn [obind]. destruct (test e v).
    + exact (Ht _ _ _ _ _ Hx0 K).
    + destruct f as [f|]; [binv Hx1|]; injection Hx1 as <-; [exact (Hf _ _ _ _ _ Hx3 K)|injection K as <-; exists []; split; reflexivity].
  - oinv K. destruct (labels_ok A l) eqn:L; [|discriminate]. binv H. binv H. binv H. injection H as <-. rewrite at_one. cbn [a_gen]. rewrite (conv_mean _ _ _ Hv Hx). cbn [obind].
    destruct (alts_ok e v (in_choice N w p) l x0 None x1 Hk L Hx0 Hx1) as (ID & IC). apply (IC (s_default (fun g => s_el g (Some None) (in_choice N w p) e) (Some []) l)); [|exact K].
    intros its. rewrite default_of. destruct (first_default l) as [g|].
    + destruct ID as (_ & G & o & Ho & ->). intros E. exact (G (Some None) _ _ _ _ Ho E).
    + rewrite ID. intros E. injection E as <-. exists []. split; reflexivity.
  - destruct w; [discriminate|]. oinv K. injection K as <-. binv H. injection H as <-. cbn [a_at]. rewrite mark_els. exact (items_ok _ _ _ Hk _ _ Hx Hv).
Qed.
Theorem gens_sim l p e r items : concatM conv_gitem l = Ok r -> s_gens A N num test matches arith one_more n p e l = Some items -> exists os, conv_res items = Ok os /\ a_els p e r = Some os.
Proof.
  intros H K. unfold s_gens in K. oinv K. injection K as <-. apply (items_ok p e l); [|exact H|exact Hv]. apply Forall_forall. intros g _. apply gen_sim.
Qed.
End Elab.

(** ** Marks *)
Definition all_false (l : list bool) : Prop := Forall (fun b => b = false) l.
Lemma af_app a b : all_false (a ++ b) <-> all_false a /\ all_false b.
Proof. apply Forall_app. Qed.
Lemma af_cons b l : all_false (b :: l) <-> b = false /\ all_false l.
Proof. split; [intros H; inversion H; auto|intros (H & K); constructor; assumption]. Qed.
Lemma leaves_marks l : forallb leaf_obj l = true -> all_false (flat_map gen_marks l).
Proof. induction l as [|o l IH]; intros H; [constructor|]. cbn [forallb] in H. apply andb_prop in H as (Ho & H). cbn [flat_map]. apply af_app. split; [destruct o; try discriminate; constructor|exact (IH H)]. Qed.
Lemma pop_marks l : all_false (flat_map gen_marks l) -> all_false (gen_marks (pop_block l)).
Proof. intros H. destruct l as [|o [|o' l]]; cbn [pop_block]; [constructor; [reflexivity|exact H]| |constructor; [reflexivity|exact H]]. cbn [flat_map] in H. rewrite app_nil_r in H. exact H. Qed.
Lemma concat_marks l : Forall (fun g => no_region g = true -> forall r, conv_gitem g = Ok r -> all_false (flat_map gen_marks r)) l -> forallb no_region l = true -> forall r, concatM conv_gitem l = Ok r -> all_false (flat_map gen_marks r).
Proof.
  intros F N. induction F as [|g l Hg F IH]; intros r H; [injection H as <-; constructor|]. cbn [forallb] in N. apply andb_prop in N as (Ng & N). apply concatM_inv in H as (a & b & Ha & Hb & ->).
  rewrite flat_map_app. apply af_app. split; [exact (Hg Ng a Ha)|exact (IH N b Hb)].
Qed.
Lemma split_marks r : forall d q, Forall (fun y : option expr * sobj => all_false (gen_marks (snd y))) r -> (forall o, d = Some o -> all_false (gen_marks o)) -> split_alts r d = Ok q ->
  all_false (flat_map (fun p => gen_marks (snd p)) (fst q)) /\ forall o, snd q = Some o -> all_false (gen_marks o).
Proof.
  induction r as [|([x|], o) r IH]; intros d q F D H; cbn [split_alts] in H.
  - injection H as <-. split; [constructor|exact D].
  - binv H. injection H as <-. inversion F as [|? ? Fo F']; subst. destruct (IH d x0 F' D Hx) as (I1 & I2). cbn [fst snd flat_map]. split; [apply af_app; split; assumption|exact I2].
  - destruct d; [discriminate|]. inversion F as [|? ? Fo F']; subst. apply (IH (Some o) q F'); [|exact H]. intros o' E. injection E as <-. exact Fo.
Qed.
Lemma alts_marks l : Forall (fun a : list vexpr * gitem => no_region (snd a) = true -> forall r, conv_gitem (snd a) = Ok r -> all_false (flat_map gen_marks r)) l -> forallb (fun a : list vexpr * gitem => no_region (snd a)) l = true ->
  forall r, concatM (conv_alt conv_gitem) l = Ok r -> Forall (fun y => all_false (gen_marks (snd y))) r.
Proof.
  intros F N. induction F as [|(ls, g) l Hg F IH]; intros r H; [injection H as <-; constructor|]. cbn [forallb snd] in N, Hg. apply andb_prop in N as (Ng & N). apply concatM_inv in H as (a & b & Ha & Hb & ->).
  apply Forall_app. split; [|exact (IH N b Hb)]. specialize (Hg Ng).
  assert (forall r o, conv_gitem g = Ok r -> the_one r = Ok o -> all_false (gen_marks o)) as K.
  { intros r0 o H0 H1. destruct r0 as [|o' [|]]; try discriminate. injection H1 as ->. specialize (Hg _ H0). cbn [flat_map] in Hg. rewrite app_nil_r in Hg. exact Hg. }
  unfold conv_alt in Ha. cbn [fst snd] in Ha. destruct ls as [|e ls].
  - binv Ha. binv Ha. injection Ha as <-. constructor; [exact (K _ _ Hx Hx0)|constructor].
  - apply mapM_ok_in in Ha. clear - Ha K. induction Ha as [|? ? ? ? Hy Ha IH]; constructor; [|exact IH]. binv Hy. binv Hy. binv Hy. injection Hy as <-. exact (K _ _ Hx0 Hx1).
Qed.
Theorem unmarked g : no_region g = true -> forall r, conv_gitem g = Ok r -> all_false (flat_map gen_marks r).
Proof.
  induction g as [g Hk] using gitem_ind'. destruct g as [l|pre name end_ l|i c s b|d c t f|d sel l|l]; cbn [gi_kids no_region] in *; intros N r H; cbn [conv_gitem] in H; try discriminate.
  - binv H. injection H as <-. exact (leaves_marks _ (leaf_leaf _ _ Hx)).
  - binv H. binv H. binv H. binv H. injection H as <-. cbn [flat_map gen_marks app]. rewrite app_nil_r. apply af_cons. split; [reflexivity|]. exact (concat_marks l Hk N _ Hx).
  - binv H. binv H. binv H. binv H. injection H as <-. cbn [flat_map gen_marks app]. rewrite app_nil_r. apply af_cons. split; [reflexivity|]. apply pop_marks. exact (Hk N _ Hx2).
  - destruct Hk as (Ht & Hf). apply andb_prop in N as (Nt & Nf). binv H. binv H. binv H. binv H. injection H as <-. cbn [flat_map]. rewrite app_nil_r.
    pose proof (pop_marks _ (Ht Nt _ Hx0)) as Mt. assert (forall o, x1 = Some o -> all_false (gen_marks o)) as Mf.
    { intros o E. destruct f as [f|]; [binv Hx1|]; injection Hx1 as <-; [|discriminate]. injection E as <-. apply pop_marks. exact (Hf Nf _ Hx3). }
    clear - Hx2 Mt Mf. destruct x1 as [o|]; [specialize (Mf o eq_refl)|clear Mf].
    + destruct o as [| | | | | |h2 c2 t2 l2 f2|]; try (injection Hx2 as <-; cbn [gen_marks flat_map app] in *; apply af_cons; split; [reflexivity|]; apply af_app; split; assumption).
      cbn [collapse] in Hx2. destruct (Bool.eqb _ _); [|discriminate]. injection Hx2 as <-. cbn [gen_marks flat_map app in_preproc hdr_doc snd] in *. apply af_cons in Mf as (_ & Mf).
      apply af_cons. split; [reflexivity|]. apply af_app. split; [exact Mt|]. rewrite <- app_assoc. exact Mf.
    + injection Hx2 as <-. cbn [gen_marks flat_map app in_preproc hdr_doc]. apply af_cons. split; [reflexivity|]. rewrite app_nil_r. exact Mt.
  - binv H. binv H. binv H. injection H as <-. cbn [flat_map]. rewrite app_nil_r. cbn [gen_marks]. apply af_cons. split; [reflexivity|].
    destruct (split_marks x0 None x1 (alts_marks l Hk N _ Hx0) ltac:(discriminate) Hx1) as (M1 & M2). apply af_app. split; [exact M1|]. destruct (snd x1); [exact (M2 _ eq_refl)|constructor].
Qed.
