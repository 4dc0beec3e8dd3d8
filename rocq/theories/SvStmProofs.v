(** The converted statement behaves like the source. *)
From Verif Require Import Base AstModel StmModel LitModel LitSpec SvExprModel SvExprSpec SvExprProofs SvStmModel SvStmSpec.

(** Induction over statements. *)
Section Kids.
Context (P : vstm -> Prop).
Definition k_else (e : option vstm) : Prop := match e with Some e => P e | None => True end.
Definition k_stm (i : item vstm) : Prop :=
  match i with
  | I_case _ _ _ l => Forall (fun c => P (snd c)) l
  | I_if _ _ _ t e => P t /\ k_else e
  | I_forever b | I_repeat _ b | I_while _ b | I_do b _ | I_for _ _ _ b | I_foreach _ _ b | I_timing _ b => P b
  | I_block _ _ _ l => Forall P l
  | _ => True
  end.
Context (Hnull : forall a, P (TNull a)) (Hstm : forall lb at_ d i, k_stm i -> P (TStm lb at_ d i)).
Fixpoint vstm_ind' (s : vstm) : P s :=
  match s with
  | TNull a => Hnull a
  | TStm lb at_ d i => Hstm lb at_ d i
      match i return k_stm i with
      | I_case _ _ _ l => Forall_fix (fun c => P (snd c)) (fun c => match c return P (snd c) with (_, s) => vstm_ind' s end) l
      | I_if _ _ _ t e => conj (vstm_ind' t) match e return k_else e with Some e => vstm_ind' e | None => I end
      | I_forever b => vstm_ind' b | I_repeat _ b => vstm_ind' b | I_while _ b => vstm_ind' b | I_do b _ => vstm_ind' b
      | I_for _ _ _ b => vstm_ind' b | I_foreach _ _ b => vstm_ind' b | I_timing _ b => vstm_ind' b
      | I_block _ _ _ l => Forall_fix P vstm_ind' l
      | _ => I
      end
  end.
End Kids.

Section Sim.
Context (A : algebra) (M : machine A) (n : nat).
Notation mean := (meaning A).
Notation beh := (beh A M).
Notation skip := (skip A M). Notation act := (act A M). Notation seq := (seq A M). Notation seqs := (seqs A M). Notation ite := (ite A M).
Notation loop := (loop A M). Notation times := (times A M). Notation alternative := (alternative A M). Notation repeat_ := (repeat_ A M).
Notation m_stm := (m_stm A M n). Notation v_stm := (v_stm A M n).
Definition same (k k' : beh) : Prop := forall s, k s = k' s.
Notation "k == k'" := (same k k') (at level 70).

Lemma same_refl k : k == k. Proof. intros s. reflexivity. Qed.
Hint Resolve same_refl : core.
Lemma seq_same a a' b b' : a == a' -> b == b' -> seq a b == seq a' b'.
Proof. intros H1 H2 s. unfold SvStmSpec.seq. rewrite H1. destruct (a' s); auto. Qed.
Lemma seqs_same l l' : Forall2 same l l' -> seqs l == seqs l'.
Proof. induction 1 as [|a a' l l' Ha H IH]; [auto|]. apply seq_same; assumption. Qed.
Lemma seq_assoc a b c : seq (seq a b) c == seq a (seq b c).
Proof. intros s. unfold SvStmSpec.seq. destruct (a s); reflexivity. Qed.
Lemma seqs_app l l' : seqs (l ++ l') == seq (seqs l) (seqs l').
Proof.
  induction l as [|a l IH]; [intros s; reflexivity|]. cbn [app SvStmSpec.seqs fold_right]. intros s.
  rewrite (seq_assoc a). apply seq_same; auto.
Qed.
Lemma ite_same v a a' b b' : a == a' -> b == b' -> ite v a b == ite v a' b'.
Proof. intros H1 H2 s. unfold SvStmSpec.ite. destruct (p_test M v s) as ([], s'); auto. Qed.
Lemma loop_same t a a' b b' : a == a' -> b == b' -> forall i, loop i t a b == loop i t a' b'.
Proof.
  intros H1 H2. induction i as [|i IH]; intros s; [reflexivity|]. cbn [SvStmSpec.loop].
  destruct (match t with Some c => p_test M c s | None => (true, s) end) as ([], s1); [|reflexivity].
  rewrite H1. destruct (a' s1); auto; rewrite H2; destruct (b' s0); auto.
Qed.
Lemma times_same a a' : a == a' -> forall i, times i a == times i a'.
Proof. intros H. induction i as [|i IH]; intros s; [reflexivity|]. cbn [SvStmSpec.times]. rewrite H. destruct (a' s); auto. Qed.
Lemma repeat_same v a a' : a == a' -> repeat_ v a == repeat_ v a'.
Proof. intros H s. unfold SvStmSpec.repeat_. destruct (p_count M v s) as (i, s'). apply times_same. exact H. Qed.
Lemma alternative_same k w v a a' b b' : a == a' -> b == b' -> alternative k w v a b == alternative k w v a' b'.
Proof. intros H1 H2 s. unfold SvStmSpec.alternative. destruct (p_match M k w v s) as ([], s'); auto. Qed.

Lemma m_stm_hdr f s : m_stm (set_hdr f s) = m_stm s.
Proof. destruct s; reflexivity. Qed.

(** What is shown of every statement. *)
Definition good (s : vstm) (o : stm) (k : beh) : Prop :=
  (exists k', m_stm o = Some k' /\ k' == k) /\ in_preproc (get_hdr o) = false /\ (forall d, o <> SDef d) /\
  (forall h j l, o = SBlock h j l -> exists lb at_ d lb2 ds l2, s = TStm lb at_ d (I_block j lb2 ds l2)).
Definition ssim (s : vstm) : Prop := forall k, v_stm s = Some k -> exists o, conv_stm s = Ok o /\ good s o k.

Lemma good_intro s o k k' : m_stm o = Some k' -> k' == k -> in_preproc (get_hdr o) = false -> (forall d, o <> SDef d) ->
  (forall h j l, o <> SBlock h j l) -> good s o k.
Proof. intros H1 H2 H3 H4 H5. split; [exists k'; auto|]. split; [exact H3|]. split; [exact H4|]. intros h j l E. exfalso. exact (H5 h j l E). Qed.
Lemma add_attrs_ok at_ o : v_attrs_ok A at_ = true -> exists l, add_attrs at_ o = Ok (set_hdr (fun h => mk_hdr (labels h) (doc h) (attrs h ++ l) (in_preproc h)) o).
Proof.
  intros H. assert (exists l, mapM conv_attr at_ = Ok l) as (l & Hl).
  { unfold v_attrs_ok in H. induction at_ as [|(i, e) at_ IH]; [exists []; reflexivity|]. cbn [forallb fst snd] in H. apply andb_true_iff in H as (H1 & H2).
    apply andb_true_iff in H1 as (H0 & H1). destruct (IH H2) as (l & Hl). cbn [mapM]. destruct i as [s|s]; [|discriminate].
    unfold conv_attr at 1. cbn [fst snd ident_str bind]. destruct e as [e|].
    - destruct (vmeaning A e) as [v|] eqn:E; [|discriminate]. destruct (conv_sim A e v E) as (a & Ha & _). rewrite Ha. cbn [bind]. rewrite Hl. eexists. reflexivity.
    - cbn [bind]. rewrite Hl. eexists. reflexivity. }
  exists l. unfold add_attrs. rewrite Hl. reflexivity.
Qed.
Lemma good_hdr s o k f : (forall h, in_preproc (f h) = in_preproc h) -> good s o k -> good s (set_hdr f o) k.
Proof.
  intros Hf ((k' & Hk & He) & Hp & Hd & Hb). split; [exists k'; rewrite m_stm_hdr; auto|].
  split; [destruct o; cbn [set_hdr get_hdr] in *; rewrite ?Hf; exact Hp|]. split.
  - intros d E. destruct o; cbn in E; try discriminate. exact (Hd d0 eq_refl).
  - intros h j l E. destruct o; cbn in E; try discriminate. injection E as <- <- <-. exact (Hb h0 j0 l0 eq_refl).
Qed.

(** Events and delays. *)
Lemma event_plain a v : mean a = Some v -> m_event A a = Some (Ev None v).
Proof.
  intros H. unfold m_event. destruct a as [| | | | |y| |o l|]; try (rewrite H; reflexivity).
  { destruct y; try (rewrite H; reflexivity). cbn in H. discriminate. }
  destruct o; try (rewrite H; reflexivity); destruct l as [|x [|y l]]; try (rewrite H; reflexivity); cbn in H; destruct (mean x); discriminate.
Qed.
Lemma omapM_app {X Y} (f : X -> option Y) l l' r r' : omapM f l = Some r -> omapM f l' = Some r' -> omapM f (l ++ l') = Some (r ++ r').
Proof.
  revert r. induction l as [|x l IH]; intros r H H'; cbn [omapM app] in *; [injection H as <-; exact H'|].
  apply obind_inv in H as (y & Hy & H). apply obind_inv in H as (r0 & Hr & H). injection H as <-. rewrite Hy. cbn [obind]. rewrite (IH r0 Hr H'). reflexivity.
Qed.
Fixpoint ev_ind (P : evexpr -> Prop) (Hl : forall l, Forall P l -> P (EvList l)) (Hi : forall e x i, P (EvItem e x i)) (e : evexpr) : P e :=
  match e with EvList l => Hl l (Forall_fix P (ev_ind P Hl Hi) l) | EvItem e x i => Hi e x i end.
Definition esim (e : evexpr) := forall r, v_event A e = Some r -> exists xs, conv_event e = Ok xs /\ omapM (m_event A) xs = Some r.
Lemma events_sim l : Forall esim l -> forall r, omapM (v_event A) l = Some r ->
  exists xs, mapM conv_event l = Ok xs /\ omapM (m_event A) (List.concat xs) = Some (List.concat r).
Proof.
  induction 1 as [|e l He H IH]; intros r E; cbn [omapM] in E.
  - injection E as <-. exists []. split; reflexivity.
  - apply obind_inv in E as (y & Hy & E). apply obind_inv in E as (r0 & Hr & E). injection E as <-.
    destruct (He y Hy) as (xs & Hx & Hm). destruct (IH r0 Hr) as (ys & Hys & Hm'). exists (xs :: ys). cbn [mapM]. rewrite Hx. cbn [bind]. rewrite Hys. cbn [bind]. split; [reflexivity|].
    cbn [List.concat]. apply omapM_app; assumption.
Qed.
Lemma event_sim e : esim e.
Proof.
  induction e as [l Hl|ed x iff] using ev_ind; intros r E.
  - cbn [v_event] in E. apply obind_inv in E as (y & Hy & E). injection E as <-. destruct (events_sim l Hl y Hy) as (xs & Hx & Hm).
    exists (List.concat xs). cbn [conv_event]. rewrite Hx. split; [reflexivity|exact Hm].
  - cbn [v_event] in E. destruct iff as [i|]; [discriminate|]. apply obind_inv in E as (d & Hd & E). apply obind_inv in E as (v & Hv & E). injection E as <-.
    destruct (conv_sim A x v Hv) as (a & Ha & Hm & _). cbn [conv_event]. rewrite Ha. cbn [bind]. exists [conv_edge ed a]. split; [reflexivity|].
    cbn [omapM]. destruct ed as [[]|]; cbn [v_edge conv_edge op1] in *; try discriminate; injection Hd as <-.
    + unfold op1, m_event. rewrite Hm. reflexivity.
    + unfold op1, m_event. rewrite Hm. reflexivity.
    + rewrite (event_plain a v Hm). reflexivity.
Qed.
Lemma evctl_sim c r : v_evctl A c = Some r -> exists xs, conv_evctl c = Ok xs /\ omapM (m_event A) xs = Some r.
Proof.
  destruct c as [|x|l]; cbn [v_evctl conv_evctl]; intros E.
  - injection E as <-. eexists. split; reflexivity.
  - apply obind_inv in E as (v & Hv & E). injection E as <-. destruct (conv_sim A x v Hv) as (a & Ha & Hm & _). rewrite Ha. eexists. split; [reflexivity|].
    cbn [omapM]. rewrite (event_plain a v Hm). reflexivity.
  - apply obind_inv in E as (y & Hy & E). injection E as <-. destruct (events_sim l (proj2 (Forall_forall esim l) (fun e _ => event_sim e)) y Hy) as (xs & Hx & Hm).
    rewrite Hx. eexists. split; [reflexivity|exact Hm].
Qed.
Lemma delay_sim d v : v_delay A d = Some v -> exists a, conv_delay d = Ok a /\ mean a = Some v.
Proof.
  destruct d as [t|t| |t|x|x [tm|]]; cbn [v_delay conv_delay]; intros E; try discriminate.
  - destruct (lit_sim A (L_NUMBER (TokUnsigned t)) v E) as (a & Ha & Hm & _). exists a. auto.
  - injection E as <-. eexists. split; reflexivity.
  - injection E as <-. eexists. split; reflexivity.
  - destruct (conv_sim A x v E) as (a & Ha & Hm & _). exists a. auto.
  - destruct (conv_sim A x v E) as (a & Ha & Hm & _). exists a. auto.
Qed.
Lemma dectl_sim d w : v_dectl A d = Some w -> exists t e, conv_dectl d = Ok (t, e) /\ m_when A t e = Some (Some w).
Proof.
  destruct d as [d|[rep|] c]; cbn [v_dectl conv_dectl]; intros E; try discriminate; apply obind_inv in E as (v & Hv & E); injection E as <-.
  - destruct (delay_sim d v Hv) as (a & Ha & Hm). rewrite Ha. cbn [bind]. do 2 eexists. split; [reflexivity|]. cbn [m_when]. rewrite Hm. reflexivity.
  - destruct (evctl_sim c v Hv) as (xs & Hx & Hm). rewrite Hx. cbn [bind]. do 2 eexists. split; [reflexivity|]. cbn [m_when]. rewrite Hm. reflexivity.
Qed.
Lemma mk_assign_ok h d s vd vs t e b : mean d = Some vd -> mean s = Some vs -> mk_assign h d s t e b = Ok (SAssign h d s t e b).
Proof. intros H1 H2. destruct d; try discriminate; destruct s; try discriminate; reflexivity. Qed.

(** Expressions as statements. *)
Lemma estm_plain a v : mean a = Some v -> m_estm A M a = Some (act (p_eval M v)).
Proof.
  intros H. unfold m_estm. destruct a as [| | | | | | |o l|]; try (rewrite H; reflexivity).
  destruct l as [|x [|y [|z l]]]; try (rewrite H; reflexivity).
  destruct (m_asgop o) as [g|] eqn:E; [exfalso; destruct o; try discriminate; cbn in H; discriminate|].
  destruct o; try (rewrite H; reflexivity). destruct (is_void x) eqn:Hx; [|rewrite H; reflexivity].
  exfalso. cbn [meaning] in H. apply obind_inv in H as (f & Hf & H). apply mean_notvoid in Hf. congruence.
Qed.
Lemma estm_assign o x y d s : mean x = Some d -> mean y = Some s -> m_estm A M (mk2 x (visit_asgop o) y) = Some (act (p_opassign M o d s)).
Proof.
  intros Hx Hy. rewrite (mk2_ok A x _ y d s Hx Hy). unfold m_estm.
  assert (m_asgop (visit_asgop o) = Some o) as -> by (destruct o; reflexivity). rewrite Hx. cbn [obind]. rewrite Hy. reflexivity.
Qed.

(** Cases. *)
Definition alts := W M -> beh -> beh.
Definition asame (r r' : alts) : Prop := forall w d d', d == d' -> r w d == r' w d'.
Lemma m_alts_app k l l' r r' : m_alts A M m_stm k l = Some r -> m_alts A M m_stm k l' = Some r' ->
  exists q, m_alts A M m_stm k (l ++ l') = Some q /\ forall w d, q w d = r w (r' w d).
Proof.
  revert r. induction l as [|(e, s) l IH]; intros r H H'.
  - injection H as <-. exists r'. split; [exact H'|]. reflexivity.
  - cbn [m_alts fold_right app] in *. apply obind_inv in H as (r0 & Hr & H). apply obind_inv in H as (v & Hv & H). apply obind_inv in H as (b & Hb & H). injection H as <-.
    destruct (IH r0 Hr H') as (q & Hq & Hqq). unfold m_alts in *. rewrite Hq. cbn [obind fst snd] in *. rewrite Hv. cbn [obind]. rewrite Hb. eexists. split; [reflexivity|].
    intros w d. cbn beta. rewrite Hqq. reflexivity.
Qed.
(** The pairs made of the labels of one item. *)
Lemma labels_sim k s o b0 b ls r : conv_stm s = Ok o -> m_stm o = Some b0 -> b0 == b -> v_labels A M k b ls = Some r ->
  exists xs q, mapM (fun e => x <- conv e ;; s' <- conv_stm s ;; Ok (match x with ENull => None | _ => Some x end, s')) ls = Ok (map (fun p : expr * stm => (Some (fst p), snd p)) xs) /\
    m_alts A M m_stm k xs = Some q /\ asame q r.
Proof.
  intros Hc Hb Hs. revert r. induction ls as [|e ls IH]; intros r H.
  - injection H as <-. exists [], (fun _ d => d). repeat split. intros w d d' Hd. exact Hd.
  - cbn [v_labels fold_right] in H. apply obind_inv in H as (r0 & Hr & H). apply obind_inv in H as (v & Hv & H). injection H as <-.
    destruct (IH r0 Hr) as (xs & q & Hx & Hq & Hqq). destruct (conv_sim A e v Hv) as (a & Ha & Hm & _).
    exists ((a, o) :: xs), (fun w d => alternative k w v b0 (q w d)). repeat split.
    + cbn [mapM]. rewrite Ha. cbn [bind]. rewrite Hc in Hx |- *. cbn [bind] in Hx |- *. rewrite Hx. destruct a; try reflexivity. discriminate.
    + cbn [m_alts fold_right]. unfold m_alts in Hq. rewrite Hq. cbn [obind fst snd]. rewrite Hm. cbn [obind]. rewrite Hb. reflexivity.
    + intros w d d' Hd. apply alternative_same; [exact Hs|]. apply Hqq. exact Hd.
Qed.
Lemma split_some xs l d : split_cases (map (fun p : expr * stm => (Some (fst p), snd p)) xs ++ l) d = (r <- split_cases l d ;; Ok (xs ++ fst r, snd r)).
Proof.
  induction xs as [|(e, s) xs IH]; cbn [map app split_cases fst snd].
  - destruct (split_cases l d) as [(a, b)| | |]; reflexivity.
  - rewrite IH. destruct (split_cases l d) as [(a, b)| | |]; reflexivity.
Qed.
Definition dsame (o : option stm) (k : option beh) : Prop :=
  match o, k with Some o, Some k => exists k', m_stm o = Some k' /\ k' == k | None, None => True | _, _ => False end.
Lemma cases_sim k l : Forall (fun c => ssim (snd c)) l -> forall r kd, v_items_ A M v_stm k l = Some r -> v_default A M v_stm l = Some kd ->
  exists cs xs, mapM (conv_citem conv_stm) l = Ok cs /\
    (forall d, (kd = None \/ d = None) -> exists o, split_cases (List.concat cs) d = Ok (xs, o) /\
       match kd with None => o = d | Some _ => dsame o kd end) /\
    exists q, m_alts A M m_stm k xs = Some q /\ asame q r.
Proof.
  induction 1 as [|(ls, s) l Hs H IH]; intros r kd E Ed.
  - injection E as <-. injection Ed as <-. exists [], []. split; [reflexivity|]. split; [intros d _; exists d; split; reflexivity|].
    exists (fun _ d => d). split; [reflexivity|]. intros w d d' Hd. exact Hd.
  - cbn [v_items_ v_default fold_right fst snd] in E, Ed, Hs. apply obind_inv in E as (r0 & Hr & E). apply obind_inv in Ed as (kd0 & Hkd & Ed).
    destruct (IH r0 kd0 Hr Hkd) as (cs & xs & Hcs & Hsp & q & Hq & Hqq). destruct ls as [|e ls].
    + injection E as <-. destruct kd0 as [?|]; [discriminate|]. apply obind_inv in Ed as (kb & Hb & Ed). injection Ed as <-.
      destruct (Hs kb Hb) as (o & Ho & (k' & Hk & He) & _). exists ([(None, o)] :: cs), xs. split; [|split].
      * cbn [mapM]. unfold conv_citem at 1. cbn [fst snd]. rewrite Ho. cbn [bind]. rewrite Hcs. reflexivity.
      * intros d [?| ->]; [discriminate|]. cbn [List.concat app split_cases]. destruct (Hsp (Some o)) as (o' & Ho' & ->); [auto|]. exists (Some o). split; [exact Ho'|]. exists k'. auto.
      * exists q. auto.
    + apply obind_inv in E as (b & Hb & E). apply obind_inv in E as (r1 & Hr1 & E). injection E as <-. injection Ed as <-.
      destruct (Hs b Hb) as (o & Ho & (k' & Hk & He) & _). destruct (labels_sim k s o k' b (e :: ls) r1 Ho Hk He Hr1) as (ys & q1 & Hys & Hq1 & Hqq1).
      exists (map (fun p : expr * stm => (Some (fst p), snd p)) ys :: cs), (ys ++ xs). split; [|split].
      * cbn [mapM]. unfold conv_citem at 1. cbn [fst snd]. rewrite Hys. cbn [bind]. rewrite Hcs. reflexivity.
      * intros d Hd. destruct (Hsp d Hd) as (o' & Ho' & Hd'). exists o'. split; [|exact Hd']. cbn [List.concat]. rewrite split_some, Ho'. reflexivity.
      * destruct (m_alts_app k ys xs q1 q Hq1 Hq) as (q2 & Hq2 & Hqq2). exists q2. split; [exact Hq2|]. intros w d d' Hd. rewrite Hqq2. apply Hqq1. apply Hqq. exact Hd.
Qed.

(** Parts of for loops and blocks. *)
Lemma assigns_sim l r : omapM (v_assign1 A M) l = Some r -> exists xs, mapM conv_var_assign l = Ok xs /\ omapM m_stm xs = Some r.
Proof.
  revert r. induction l as [|((d, s), dc) l IH]; intros r E; cbn [omapM] in E; [injection E as <-; exists []; split; reflexivity|].
  apply obind_inv in E as (k & Hk & E). apply obind_inv in E as (r0 & Hr & E). injection E as <-. destruct (IH r0 Hr) as (xs & Hx & Hm).
  unfold v_assign1 in Hk. cbn [fst snd] in Hk. apply obind_inv in Hk as (vd & Hd & Hk). apply obind_inv in Hk as (vs & Hs & Hk). injection Hk as <-.
  destruct (conv_sim A d vd Hd) as (a & Ha & Hma & _). destruct (conv_sim A s vs Hs) as (b & Hb & Hmb & _).
  cbn [mapM]. unfold conv_var_assign at 1. cbn [fst snd]. rewrite Ha. cbn [bind]. rewrite Hb. cbn [bind]. rewrite (mk_assign_ok _ a b vd vs _ _ _ Hma Hmb). cbn [bind].
  rewrite Hx. cbn [bind]. eexists. split; [reflexivity|]. cbn [omapM SvStmSpec.m_stm m_when obind]. rewrite Hma. cbn [obind]. rewrite Hmb. cbn [obind]. rewrite Hm. reflexivity.
Qed.
Lemma fordecl_sim p r : v_fordecl A M p = Some r -> exists xs, conv_for_decl p = Ok xs /\ omapM m_stm xs = Some r.
Proof.
  destruct p as ((lt, t), l). unfold v_fordecl, conv_for_decl. cbn [fst snd]. revert r. induction l as [|(i, e) l IH]; intros r E; cbn [omapM] in E; [injection E as <-; exists []; split; reflexivity|].
  apply obind_inv in E as (k & Hk & E). apply obind_inv in E as (r0 & Hr & E). injection E as <-. destruct (IH r0 Hr) as (xs & Hx & Hm).
  cbn [fst snd] in Hk. apply obind_inv in Hk as (x & Hi & Hk). apply obind_inv in Hk as (v & Hv & Hk). injection Hk as <-.
  destruct i as [y|y]; [|discriminate]. cbn [v_ident] in Hi. destruct (seqb y $"void") eqn:Hy; [discriminate|]. injection Hi as <-.
  destruct (conv_sim A e v Hv) as (a & Ha & Hma & _). cbn [mapM fst snd ident_str bind]. rewrite Ha. cbn [bind]. rewrite Hx. cbn [bind]. eexists. split; [reflexivity|].
  cbn [omapM SvStmSpec.m_stm]. unfold m_def. cbn [d_value d_name d_type d_latched new_iddef]. rewrite Hma. cbn [obind]. rewrite Hm. reflexivity.
Qed.
Lemma forinit_sim i k : v_forinit A M i = Some k ->
  exists xs, match i with Some i => conv_for_init i | None => Ok [] end = Ok xs /\ m_stm (SBlock hdr0 SEQ xs) = Some k.
Proof.
  destruct i as [[l|l]|]; cbn [v_forinit conv_for_init]; intros E.
  - apply obind_inv in E as (r & Hr & E). injection E as <-. destruct (assigns_sim l r Hr) as (xs & Hx & Hm). exists xs. split; [exact Hx|].
    cbn [SvStmSpec.m_stm]. rewrite Hm. reflexivity.
  - apply obind_inv in E as (r & Hr & E). injection E as <-.
    assert (exists xs, mapM conv_for_decl l = Ok xs /\ omapM m_stm (List.concat xs) = Some (List.concat r)) as (xs & Hx & Hm).
    { clear -Hr. revert r Hr. induction l as [|p l IH]; intros r E; cbn [omapM] in E; [injection E as <-; exists []; split; reflexivity|].
      apply obind_inv in E as (y & Hy & E). apply obind_inv in E as (r0 & Hr & E). injection E as <-. destruct (IH r0 Hr) as (xs & Hx & Hm).
      destruct (fordecl_sim p y Hy) as (ys & Hys & Hm'). exists (ys :: xs). cbn [mapM]. rewrite Hys. cbn [bind]. rewrite Hx. split; [reflexivity|]. cbn [List.concat]. apply omapM_app; assumption. }
    rewrite Hx. cbn [bind]. eexists. split; [reflexivity|]. cbn [SvStmSpec.m_stm]. rewrite Hm. reflexivity.
  - injection E as <-. exists []. split; reflexivity.
Qed.
Lemma forstep_sim l r : omapM (v_forstep A M) l = Some r ->
  exists xs, mapM conv_for_step l = Ok xs /\ m_stm (SBlock hdr0 SEQ xs) = Some (seqs r).
Proof.
  intros H. assert (exists xs, mapM conv_for_step l = Ok xs /\ omapM m_stm xs = Some r) as (xs & Hx & Hm).
  { revert r H. induction l as [|p l IH]; intros r E; cbn [omapM] in E; [injection E as <-; exists []; split; reflexivity|].
    apply obind_inv in E as (y & Hy & E). apply obind_inv in E as (r0 & Hr & E). injection E as <-. destruct (IH r0 Hr) as (xs & Hx & Hm). cbn [mapM].
    destruct p as [d o s|e]; cbn [v_forstep conv_for_step] in *.
    - apply obind_inv in Hy as (a & Ha & Hy). apply obind_inv in Hy as (b & Hb & Hy). injection Hy as <-.
      destruct (conv_sim A d a Ha) as (x & Hcx & Hmx & _). destruct (conv_sim A s b Hb) as (y & Hcy & Hmy & _). unfold conv_assignment. rewrite Hcx. cbn [bind]. rewrite Hcy. cbn [bind].
      rewrite Hx. cbn [bind]. eexists. split; [reflexivity|]. cbn [omapM SvStmSpec.m_stm]. rewrite (estm_assign o x y a b Hmx Hmy). cbn [obind]. rewrite Hm. reflexivity.
    - apply obind_inv in Hy as (v & Hv & Hy). injection Hy as <-. destruct (conv_sim A e v Hv) as (x & Hcx & Hmx & _). rewrite Hcx. cbn [bind]. rewrite Hx. cbn [bind].
      eexists. split; [reflexivity|]. cbn [omapM SvStmSpec.m_stm]. rewrite (estm_plain x v Hmx). cbn [obind]. rewrite Hm. reflexivity. }
  exists xs. split; [exact Hx|]. cbn [SvStmSpec.m_stm]. rewrite Hm. reflexivity.
Qed.
Lemma vars_sim l r : v_vars l = Some r -> exists xs, conv_loop_vars l = Ok xs /\ omapM m_var xs = Some r.
Proof.
  unfold v_vars. revert r. induction l as [|[i|] l IH]; intros r E; cbn [omapM] in E; [injection E as <-; exists []; split; reflexivity| |discriminate].
  apply obind_inv in E as (k & Hk & E). apply obind_inv in E as (r0 & Hr & E). injection E as <-. destruct (IH r0 Hr) as (xs & Hx & Hm). cbn [obind] in Hk.
  apply obind_inv in Hk as (s & Hs & Hk). injection Hk as <-. destruct (ident_sim i s Hs) as (Hi & _). cbn [conv_loop_vars]. rewrite Hi. cbn [bind]. rewrite Hx. cbn [bind].
  eexists. split; [reflexivity|]. cbn [omapM m_var obind]. rewrite Hm. reflexivity.
Qed.
Lemma stms_sim l : Forall ssim l -> forall r, omapM v_stm l = Some r ->
  exists xs ks, mapM conv_stm l = Ok xs /\ omapM m_stm xs = Some ks /\ Forall2 same ks r /\ Forall (fun o => forall d, o <> SDef d) xs.
Proof.
  induction 1 as [|s l Hs H IH]; intros r E; cbn [omapM] in E.
  - injection E as <-. exists [], []. repeat split; constructor.
  - apply obind_inv in E as (k & Hk & E). apply obind_inv in E as (r0 & Hr & E). injection E as <-. destruct (IH r0 Hr) as (xs & ks & Hx & Hm & HF & HD).
    destruct (Hs k Hk) as (o & Ho & (k' & Hk' & He) & _ & Hd & _). exists (o :: xs), (k' :: ks). cbn [mapM omapM]. rewrite Ho. cbn [bind]. rewrite Hx. cbn [bind]. rewrite Hk'. cbn [obind].
    rewrite Hm. repeat split; constructor; assumption.
Qed.
Lemma decls_sim l r : v_decls A M l = Some r -> omapM m_stm l = Some r.
Proof.
  unfold v_decls. revert r. induction l as [|s l IH]; intros r E; cbn [omapM] in *; [exact E|]. apply obind_inv in E as (k & Hk & E). apply obind_inv in E as (r0 & Hr & E). injection E as <-.
  destruct s; try discriminate. cbn [SvStmSpec.m_stm]. rewrite Hk. cbn [obind]. rewrite (IH r0 Hr). reflexivity.
Qed.
Lemma m_par_nodef j xs ks : Forall (fun o => forall d, o <> SDef d) xs -> omapM m_stm xs = Some ks -> m_par A M m_stm j xs = Some (p_fork M j ks).
Proof.
  intros H E. destruct H as [|o xs Ho H]; cbn [m_par]; [injection E as <-; reflexivity|].
  destruct o; try (rewrite E; reflexivity). exfalso. exact (Ho d eq_refl).
Qed.
Lemma m_par_sim j ds r xs ks : v_decls A M ds = Some r -> Forall (fun o => forall d, o <> SDef d) xs -> omapM m_stm xs = Some ks ->
  exists k, m_par A M m_stm j (ds ++ xs) = Some k /\ k == seq (seqs r) (p_fork M j ks).
Proof.
  intros Hd HD Hk. unfold v_decls in Hd. revert r Hd. induction ds as [|s ds IH]; intros r E; cbn [omapM] in E.
  - injection E as <-. exists (p_fork M j ks). split; [exact (m_par_nodef j xs ks HD Hk)|]. intros s. reflexivity.
  - apply obind_inv in E as (k0 & Hk0 & E). apply obind_inv in E as (r0 & Hr & E). injection E as <-. destruct (IH r0 Hr) as (k & Hm & He). destruct s; try discriminate.
    cbn [app m_par]. rewrite Hk0. cbn [obind]. rewrite Hm. cbn [obind]. eexists. split; [reflexivity|]. intros s. cbn [SvStmSpec.seqs fold_right]. rewrite (seq_assoc k0). apply seq_same; auto.
Qed.

Lemma collapse_sim o k : m_stm o = Some k -> in_preproc (get_hdr o) = false -> (forall d, o <> SDef d) -> (forall h j l, o <> SBlock h j l) ->
  (forall h c t l h2 c2 t2 l2 f2, o = SIf h c t l (Some (SIf h2 c2 t2 l2 f2)) -> l = [] /\ in_preproc h2 = false) ->
  exists o', collapse_elifs o = Ok o' /\ m_stm o' = Some k /\ in_preproc (get_hdr o') = false /\ (forall d, o' <> SDef d) /\ (forall h j l, o' <> SBlock h j l).
Proof.
  intros Hm Hp Hd Hb Hi. destruct o as [| | |h c t l [f|]| | | | | | | | | | | | | |]; try (eexists; split; [reflexivity|]; repeat split; assumption).
  destruct f as [| | |h2 c2 t2 l2 f2| | | | | | | | | | | | | |]; try (eexists; split; [reflexivity|]; repeat split; assumption).
  destruct (Hi h c t l h2 c2 t2 l2 f2 eq_refl) as (-> & Hp2). cbn [get_hdr] in Hp. cbn [collapse_elifs]. rewrite Hp, Hp2. cbn [Bool.eqb]. eexists. split; [reflexivity|].
  split; [|repeat split; try exact Hp; discriminate]. rewrite <- Hm. cbn [app SvStmSpec.m_stm m_opt m_elifs fold_right fst snd].
  destruct (mean c) as [v|]; cbn [obind]; [|reflexivity]. destruct (m_stm t) as [kt|]; cbn [obind]; [|reflexivity].
  unfold m_elifs. destruct (m_opt A M m_stm f2) as [k2|]; cbn [obind].
  - destruct (fold_right _ (Some k2) l2) as [r|]; cbn [obind]; destruct (mean c2); cbn [obind]; try reflexivity; destruct (m_stm t2); cbn [obind]; reflexivity.
  - destruct (mean c2); cbn [obind]; try reflexivity; destruct (m_stm t2); cbn [obind]; reflexivity.
Qed.

Lemma mcond_plain a v : mean a = Some v -> m_cond A a = Some (Some v).
Proof. intros H. unfold m_cond. destruct a as [|w [z|s b]| | | | | | |]; try (rewrite H; reflexivity). cbn in H. discriminate. Qed.

Definition isim lb at_ d i := forall k, v_item_stm A M n v_stm i = Some k -> exists o, SvStmModel.conv_item conv_stm d i = Ok o /\ good (TStm lb at_ d i) o k.
Lemma item_sim lb at_ d i : k_stm ssim i -> isim lb at_ d i.
Proof.
  intros K k E. destruct i; cbn [k_stm] in K; cbn [v_item_stm] in E; cbn [SvStmModel.conv_item]; try discriminate.
  - apply obind_inv in E as (vd & Hd & E). apply obind_inv in E as (vs & Hs & E). apply obind_inv in E as (w & Hw & E). injection E as <-.
    destruct (conv_sim A _ vd Hd) as (a & Ha & Hma & _). destruct (conv_sim A _ vs Hs) as (b & Hb & Hmb & _). destruct (dectl_sim _ w Hw) as (t & e & Hc & Hm).
    rewrite Ha; cbn [bind]; rewrite Hb; cbn [bind]; rewrite Hc; cbn [bind fst snd]. rewrite (mk_assign_ok _ a b vd vs _ _ _ Hma Hmb). eexists; split; [reflexivity|].
    eapply good_intro; [|apply same_refl|reflexivity|discriminate|discriminate]. cbn [SvStmSpec.m_stm]. rewrite Hma; cbn [obind]; rewrite Hmb; cbn [obind]; rewrite Hm. reflexivity.
  - apply obind_inv in E as (vd & Hd & E). apply obind_inv in E as (vs & Hs & E). injection E as <-.
    destruct (conv_sim A _ vd Hd) as (a & Ha & Hma & _). destruct (conv_sim A _ vs Hs) as (b & Hb & Hmb & _).
    unfold conv_assignment. rewrite Ha; cbn [bind]; rewrite Hb; cbn [bind]. eexists; split; [reflexivity|].
    eapply good_intro; [|apply same_refl|reflexivity|discriminate|discriminate]. cbn [SvStmSpec.m_stm]. apply estm_assign; assumption.
  - destruct d0 as [c|].
    + apply obind_inv in E as (vd & Hd & E). apply obind_inv in E as (vs & Hs & E). apply obind_inv in E as (w & Hw & E). injection E as <-.
      destruct (conv_sim A _ vd Hd) as (a & Ha & Hma & _). destruct (conv_sim A _ vs Hs) as (b & Hb & Hmb & _). destruct (dectl_sim _ w Hw) as (t & e & Hc & Hm).
      rewrite Ha; cbn [bind]; rewrite Hb; cbn [bind]; rewrite Hc; cbn [bind fst snd]. rewrite (mk_assign_ok _ a b vd vs _ _ _ Hma Hmb). eexists; split; [reflexivity|].
      eapply good_intro; [|apply same_refl|reflexivity|discriminate|discriminate]. cbn [SvStmSpec.m_stm]. rewrite Hma; cbn [obind]; rewrite Hmb; cbn [obind]; rewrite Hm. reflexivity.
    + apply obind_inv in E as (vd & Hd & E). apply obind_inv in E as (vs & Hs & E). injection E as <-.
      destruct (conv_sim A _ vd Hd) as (a & Ha & Hma & _). destruct (conv_sim A _ vs Hs) as (b & Hb & Hmb & _).
      rewrite Ha; cbn [bind]; rewrite Hb; cbn [bind]. rewrite (mk_assign_ok _ a b vd vs _ _ _ Hma Hmb). eexists; split; [reflexivity|].
      eapply good_intro; [|apply same_refl|reflexivity|discriminate|discriminate]. cbn [SvStmSpec.m_stm m_when]. rewrite Hma; cbn [obind]; rewrite Hmb. reflexivity.
  - apply obind_inv in E as (v & Hv & E). injection E as <-. destruct (conv_sim A _ v Hv) as (a & Ha & Hma & _). rewrite Ha. eexists; split; [reflexivity|].
    eapply good_intro; [|apply same_refl|reflexivity|discriminate|discriminate]. apply estm_plain; exact Hma.
  - apply obind_inv in E as (v & Hv & E). injection E as <-. destruct (conv_sim A _ v Hv) as (a & Ha & Hma & _). rewrite Ha. eexists; split; [reflexivity|].
    eapply good_intro; [|apply same_refl|reflexivity|discriminate|discriminate]. apply estm_plain; exact Hma.
  - apply obind_inv in E as (v & Hv & E). apply obind_inv in E as (r & Hr & E). apply obind_inv in E as (kd & Hkd & E). injection E as <-.
    destruct (conv_sim A _ v Hv) as (a & Ha & Hma & _). destruct (cases_sim _ l K r kd Hr Hkd) as (cs & xs & Hcs & Hsp & q & Hq & Hqq).
    destruct (Hsp None (or_intror eq_refl)) as (o & Ho & Hd). rewrite Ha; cbn [bind]; rewrite Hcs; cbn [bind]; rewrite Ho; cbn [bind fst snd]. eexists; split; [reflexivity|].
    assert (exists k', m_opt A M m_stm o = Some k' /\ k' == match kd with Some k => k | None => skip end) as (k' & Hk' & He).
    { destruct kd as [kd|]; [|subst o; exists skip; split; [reflexivity|auto]]. destruct o as [o|]; cbn [dsame] in Hd; [|contradiction]. exact Hd. }
    eapply good_intro; [| |reflexivity|discriminate|discriminate].
    + cbn [SvStmSpec.m_stm]. rewrite Hma; cbn [obind]; rewrite Hq; cbn [obind]; rewrite Hk'. reflexivity.
    + intros s. unfold get_uniq. destruct (p_select M _ _ v s) as (w, s'). apply Hqq. exact He.
  - destruct u; [discriminate|]. destruct conj; [|discriminate]. destruct K as (Kt & Kf).
    apply obind_inv in E as (v & Hv & E). apply obind_inv in E as (kt & Hkt & E). apply obind_inv in E as (ke & Hke & E). injection E as <-.
    destruct (conv_sim A _ v Hv) as (a & Ha & Hma & _). destruct (Kt kt Hkt) as (ot & Hot & (kt' & Hmt & Het) & _). rewrite Ha; cbn [bind]; rewrite Hot; cbn [bind].
    assert (exists of k', match f with Some e => y <- conv_stm e ;; Ok (Some y) | None => Ok None end = Ok of /\ m_opt A M m_stm of = Some k' /\ k' == ke /\
              match of with Some o => in_preproc (get_hdr o) = false | None => True end) as (of & k' & Hof & Hk' & Hee & Hp).
    { destruct f as [f|]; [|injection Hke as <-; exists None, skip; repeat split; auto].
      destruct (Kf ke Hke) as (o & Ho & (k' & Hk' & He) & Hp & _). exists (Some o), k'. rewrite Ho. repeat split; auto. }
    rewrite Hof. cbn [bind].
    destruct (collapse_sim (SIf (hdr_doc d) a ot [] of) (ite v kt' k')) as (o' & Hc & Hm & Hp' & Hd' & Hb').
    + cbn [SvStmSpec.m_stm m_elifs fold_right]. rewrite Hma; cbn [obind]; rewrite Hmt; cbn [obind]; rewrite Hk'. reflexivity.
    + reflexivity.
    + discriminate.
    + discriminate.
    + intros ? ? ? ? ? ? ? ? ? Eq. injection Eq as <- <- <- <- ->. split; [reflexivity|exact Hp].
    + exists o'. split; [exact Hc|]. eapply good_intro; try eassumption. apply ite_same; assumption.
  - apply obind_inv in E as (v & Hv & E). injection E as <-. destruct (conv_sim A _ v Hv) as (a & Ha & Hma & _). rewrite Ha. eexists; split; [reflexivity|].
    eapply good_intro; [|apply same_refl|reflexivity|discriminate|discriminate]. cbn [SvStmSpec.m_stm]. 
    assert (mk2 (EId $"void") CALL a = EOp CALL [EId $"void"; a]) as -> by (unfold mk2; rewrite (mean_notnull A a v Hma); reflexivity).
    unfold m_estm. cbn [m_asgop]. change (is_void (EId $"void")) with true. cbn match. rewrite Hma. reflexivity.
  - apply obind_inv in E as (kb & Hkb & E). injection E as <-. destruct (K kb Hkb) as (o & Ho & (k' & Hk' & He) & _). rewrite Ho; cbn [bind]. eexists; split; [reflexivity|].
    eapply good_intro; [| |reflexivity|discriminate|discriminate]; [cbn [SvStmSpec.m_stm m_cond obind]; rewrite Hk'; reflexivity|]. apply loop_same; auto.
  - apply obind_inv in E as (v & Hv & E). apply obind_inv in E as (kb & Hkb & E). injection E as <-. destruct (conv_sim A _ v Hv) as (a & Ha & Hma & _). destruct (K kb Hkb) as (o & Ho & (k' & Hk' & He) & _).
    rewrite Ho; cbn [bind]; rewrite Ha; cbn [bind]. eexists; split; [reflexivity|].
    eapply good_intro; [| |reflexivity|discriminate|discriminate]; [cbn [SvStmSpec.m_stm]; rewrite Hma; cbn [obind]; rewrite Hk'; reflexivity|]. apply repeat_same; auto.
  - apply obind_inv in E as (v & Hv & E). apply obind_inv in E as (kb & Hkb & E). injection E as <-. destruct (conv_sim A _ v Hv) as (a & Ha & Hma & _). destruct (K kb Hkb) as (o & Ho & (k' & Hk' & He) & _).
    rewrite Ho; cbn [bind]; rewrite Ha; cbn [bind]. eexists; split; [reflexivity|].
    eapply good_intro; [| |reflexivity|discriminate|discriminate]; [cbn [SvStmSpec.m_stm]; rewrite (mcond_plain a v Hma); cbn [obind]; rewrite Hk'; reflexivity|]. apply loop_same; auto.
  - apply obind_inv in E as (ki & Hki & E). apply obind_inv in E as (t & Ht & E). apply obind_inv in E as (ks & Hks & E). apply obind_inv in E as (kb & Hkb & E). injection E as <-.
    destruct (K kb Hkb) as (o & Ho & (k' & Hk' & He) & _). destruct (forinit_sim _ ki Hki) as (xs & Hx & Hmx). destruct (forstep_sim _ ks Hks) as (ys & Hy & Hmy).
    assert (exists a, match c with Some c => conv c | None => Ok (EInt (-1) (Val 1)) end = Ok a /\ m_cond A a = Some t) as (a & Ha & Hma).
    { destruct c as [c|]; [|injection Ht as <-; eexists; split; reflexivity]. apply obind_inv in Ht as (v & Hv & Ht). injection Ht as <-.
      destruct (conv_sim A _ v Hv) as (a & Ha & Hma & _). exists a. split; [exact Ha|]. apply mcond_plain; exact Hma. }
    rewrite Ho; cbn [bind]; rewrite Hx; cbn [bind]; rewrite Ha; cbn [bind]; rewrite Hy; cbn [bind]. eexists; split; [reflexivity|].
    eapply good_intro; [| |reflexivity|discriminate|discriminate].
    + change (m_stm (SFor (hdr_doc d) (SBlock hdr0 SEQ xs) a (SBlock hdr0 SEQ ys) o)) with
        (ki <~ m_stm (SBlock hdr0 SEQ xs) ;; t <~ m_cond A a ;; ks <~ m_stm (SBlock hdr0 SEQ ys) ;; k <~ m_stm o ;; Some (seq ki (loop n t k ks))).
      rewrite Hmx; cbn [obind]; rewrite Hma; cbn [obind]; rewrite Hmy; cbn [obind]; rewrite Hk'. reflexivity.
    + apply seq_same; [auto|]. apply loop_same; auto.
  - apply obind_inv in E as (x & Hx & E). apply obind_inv in E as (v & Hv & E). apply obind_inv in E as (kb & Hkb & E). injection E as <-.
    destruct (conv_sim A _ v Hv) as (a & Ha & Hma & _). destruct (K kb Hkb) as (o & Ho & (k' & Hk' & He) & _). destruct (vars_sim vars x Hx) as (xs & Hxs & Hmx).
    rewrite Ho; cbn [bind]; rewrite Ha; cbn [bind]; rewrite Hxs; cbn [bind]. eexists; split; [reflexivity|].
    eapply good_intro; [| |reflexivity|discriminate|discriminate]; [cbn [SvStmSpec.m_stm]; rewrite Hmx; cbn [obind]; rewrite Hma; cbn [obind]; rewrite Hk'; reflexivity|].
    intros s. apply (p_foreach_ext M). exact He.
  - destruct e as [e|].
    + apply obind_inv in E as (v & Hv & E). injection E as <-. destruct (conv_sim A _ v Hv) as (a & Ha & Hma & _). rewrite Ha. eexists; split; [reflexivity|].
      eapply good_intro; [|apply same_refl|reflexivity|discriminate|discriminate]. cbn [SvStmSpec.m_stm]. rewrite Hma. reflexivity.
    + injection E as <-. eexists; split; [reflexivity|]. eapply good_intro; [|apply same_refl|reflexivity|discriminate|discriminate]. reflexivity.
  - injection E as <-. eexists; split; [reflexivity|]. eapply good_intro; [|apply same_refl|reflexivity|discriminate|discriminate]. reflexivity.
  - injection E as <-. eexists; split; [reflexivity|]. eapply good_intro; [|apply same_refl|reflexivity|discriminate|discriminate]. reflexivity.
  - apply obind_inv in E as (lb' & Hlb & E). apply obind_inv in E as (ds & Hds & E). apply obind_inv in E as (r & Hr & E). injection E as <-.
    destruct (stms_sim l K r Hr) as (xs & ks & Hx & Hm & HF & HD). rewrite Hx; cbn [bind].
    assert (exists nm, match label with Some i => s <- ident_str i ;; Ok [s] | None => Ok [] end = Ok nm) as (nm & Hnm).
    { destruct label as [[s|s]|]; [|discriminate|]; eexists; reflexivity. }
    rewrite Hnm; cbn [bind]. eexists; split; [reflexivity|]. split; [|split; [reflexivity|split; [discriminate|]]].
    + destruct j.
      * exists (seqs (ds ++ ks)). cbn [SvStmSpec.m_stm]. rewrite (omapM_app m_stm decls xs ds ks (decls_sim decls ds Hds) Hm). split; [reflexivity|].
        intros s. rewrite (seqs_app ds ks), (seqs_app ds r). apply seq_same; [auto|]. apply seqs_same. exact HF.
      * destruct (m_par_sim PAR_JOIN decls ds xs ks Hds HD Hm) as (k & Hk & He). exists k. split; [exact Hk|]. intros s. rewrite He. apply seq_same; [auto|]. intros s'. apply (p_fork_ext M). exact HF.
      * destruct (m_par_sim PAR_JOIN_ANY decls ds xs ks Hds HD Hm) as (k & Hk & He). exists k. split; [exact Hk|]. intros s. rewrite He. apply seq_same; [auto|]. intros s'. apply (p_fork_ext M). exact HF.
      * destruct (m_par_sim PAR_JOIN_NONE decls ds xs ks Hds HD Hm) as (k & Hk & He). exists k. split; [exact Hk|]. intros s. rewrite He. apply seq_same; [auto|]. intros s'. apply (p_fork_ext M). exact HF.
    + intros h j' l' Eq. injection Eq as <- <- <-. exists lb, at_, d, label, decls, l. reflexivity.
  - apply obind_inv in E as (w & Hw & E). apply obind_inv in E as (kb & Hkb & E). destruct (K kb Hkb) as (o & Ho & (k' & Hk' & He) & Hp & Hd & Hb). destruct t as [dl|c|]; cbn [v_timing] in Hw; [| |discriminate];
      apply obind_inv in Hw as (v & Hv & Hw); injection Hw as <-; cbn [conv_timing].
    + destruct (delay_sim dl v Hv) as (a & Ha & Hma). rewrite Ha; cbn [bind]; rewrite Ho; cbn [bind]. eexists; split; [reflexivity|].
      assert (k = seq (act (p_wait M (AfterTime v))) kb) as ->.
      { destruct b as [|lb2 at2 d2 i]; [injection E as <-; reflexivity|]. destruct i; try (injection E as <-; reflexivity). destruct j; try discriminate. injection E as <-; reflexivity. }
      destruct (match o with SBlock _ _ _ => true | _ => false end) eqn:Ob.
      * destruct o as [| | | | | | | | | |h j l| | | | | | |]; try discriminate. destruct (Hb h j l eq_refl) as (lb2 & at2 & d2 & lb3 & ds & l2 & ->).
        assert (j = SEQ) as -> by (destruct j; [reflexivity|discriminate E..]).
        cbn [SvStmSpec.m_stm] in Hk'. apply obind_inv in Hk' as (ks & Hks & Hk'). injection Hk' as <-.
        eapply good_intro; [| |reflexivity|discriminate|discriminate].
        -- cbn [SvStmSpec.m_stm omapM]. rewrite Hma; cbn [obind]. rewrite Hks. reflexivity.
        -- apply seq_same; auto.
      * assert (match o with SBlock h j l => SBlock h j (SWait hdr0 [a] :: l) | _ => SBlock hdr0 SEQ [SWait hdr0 [a]; o] end = SBlock hdr0 SEQ [SWait hdr0 [a]; o]) as -> by (destruct o; try reflexivity; discriminate).
        eapply good_intro; [| |reflexivity|discriminate|discriminate].
        -- cbn [SvStmSpec.m_stm omapM]. rewrite Hma; cbn [obind]; rewrite Hk'. reflexivity.
        -- cbn [SvStmSpec.seqs fold_right]. apply seq_same; [auto|]. intros s. unfold SvStmSpec.seq. rewrite He. destruct (kb s); reflexivity.
    + destruct (evctl_sim c v Hv) as (xs & Hx & Hm). rewrite Hx; cbn [bind]; rewrite Ho; cbn [bind]. eexists; split; [reflexivity|].
      assert (k = seq (act (p_wait M (AfterEvents v))) kb) as -> by (injection E as <-; reflexivity).
      eapply good_intro; [| |reflexivity|discriminate|discriminate]; [cbn [SvStmSpec.m_stm]; rewrite Hm; cbn [obind]; rewrite Hk'; reflexivity|]. apply seq_same; auto.
Qed.
Theorem stm_sim s : ssim s.
Proof.
  apply vstm_ind'; clear s.
  - intros at_ k E. cbn [SvStmSpec.v_stm] in E. destruct (v_attrs_ok A at_) eqn:Hat; [|discriminate]. injection E as <-. destruct (add_attrs_ok at_ (SNop hdr0) Hat) as (l & Hl).
    cbn [conv_stm]. rewrite Hl. eexists; split; [reflexivity|]. apply good_hdr; [reflexivity|]. eapply good_intro; [reflexivity|auto|reflexivity|discriminate|discriminate].
  - intros lb at_ d i K k E. cbn [SvStmSpec.v_stm] in E. destruct (v_attrs_ok A at_) eqn:Hat; [|discriminate]. destruct (item_sim lb at_ d i K k E) as (o & Ho & Hg).
    cbn [conv_stm]. rewrite Ho; cbn [bind]. set (o' := match lb with Some i => _ | None => o end).
    destruct (add_attrs_ok at_ o' Hat) as (l & Hl). cbv zeta. rewrite Hl. eexists; split; [reflexivity|]. apply good_hdr; [reflexivity|]. subst o'. destruct lb; [apply good_hdr; [reflexivity|]|]; exact Hg.
Qed.
End Sim.
