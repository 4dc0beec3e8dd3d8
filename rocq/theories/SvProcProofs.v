(** always and initial: what is made of the converted statement. *)
From Verif Require Import Base AstModel StmModel LitModel SvExprModel SvExprSpec SvExprProofs SvStmModel SvStmSpec SvStmProofs.

(** The statement is @(...) s or #d s. *)
Definition timed (s : vstm) : bool := match s with TStm _ _ _ (I_timing _ _) => true | _ => false end.
Definition supported (k : always_kind) (s : vstm) : bool := match k with K_always | K_ff => timed s | K_comb | K_latch => negb (timed s) end.
Lemma timed_process at_ lb d t b o : conv_stm (TStm lb at_ d (I_timing t b)) = Ok o -> exists h se b', o = SProcess h se ALWAYS_NONE b'.
Proof.
  cbn [conv_stm conv_item]. intros E.
  destruct (conv_timing t) as [(x, e)| | |]; cbn [bind] in E; try discriminate. destruct (conv_stm b) as [s| | |]; cbn [bind] in E; try discriminate.
  destruct e as [l|], x as [a|]; cbn [bind] in E; destruct lb; cbn [set_hdr] in E; unfold add_attrs in E; destruct (mapM conv_attr at_); cbn [bind set_hdr] in E; try discriminate;
    injection E as <-; do 3 eexists; reflexivity.
Qed.
Lemma untimed_process s h se t b : conv_stm s = Ok (SProcess h se t b) -> timed s = true.
Proof.
  assert (forall f o, (exists h se t b, set_hdr f o = SProcess h se t b) -> exists h se t b, o = SProcess h se t b) as Hset.
  { intros f o (h0 & se0 & t0 & b0 & E). destruct o; try discriminate. repeat eexists. }
  destruct s as [at_|lb at_ d i]; cbn [conv_stm]; intros E.
  - unfold add_attrs in E. destruct (mapM conv_attr at_); discriminate.
  - destruct (conv_item conv_stm d i) as [o| | |] eqn:Ei; cbn [bind] in E; try discriminate. unfold add_attrs in E. destruct (mapM conv_attr at_); cbn [bind] in E; try discriminate.
    injection E as E. assert (exists h se t b, o = SProcess h se t b) as (h0 & se0 & t0 & b0 & ->).
    { assert (exists h se t b, match lb with Some i => set_hdr (fun h => mk_hdr (ident_text i :: labels h) (StmModel.doc h) (attrs h) (in_preproc h)) o | None => o end = SProcess h se t b) as Q by (eapply Hset; do 4 eexists; exact E).
      destruct lb; [eapply Hset; exact Q|exact Q]. }
    cbn [timed]. destruct i; cbn [conv_item] in Ei; try reflexivity; exfalso;
      repeat match type of Ei with
      | bind ?a _ = _ => destruct a; cbn [bind] in Ei; try discriminate Ei
      | mk_assign _ ?x ?y _ _ _ = _ => destruct x, y; discriminate Ei
      | match ?x with Some _ => _ | None => _ end = _ => destruct x
      | conv_assignment _ _ _ = _ => unfold conv_assignment in Ei
      | collapse_elifs (SIf _ _ _ _ ?f) = _ => destruct f as [[]|]; cbn [collapse_elifs] in Ei; try discriminate Ei
      | (if ?c then _ else _) = _ => destruct c; discriminate Ei
      end; discriminate Ei.
Qed.
Lemma always_sim (A : algebra) (M : machine A) (n : nat) (kind : always_kind) (d : str) (s : vstm) (k : beh A M) :
  v_process A M n kind s = Some k -> supported kind s = true ->
  exists o k', conv_always kind d s = Ok o /\ m_process A M n o = Some k' /\ forall x, k' x = k x.
Proof.
  intros H Hs. unfold v_process in H. apply obind_inv in H as (k0 & H0 & H). destruct (stm_sim A M n s k0 H0) as (o & Ho & (k' & Hk & He) & _).
  unfold conv_always. rewrite Ho. cbn [bind].
  assert (kind = K_always \/ kind = K_ff \/ kind = K_comb \/ kind = K_latch) as Hkind by (destruct kind; auto).
  destruct (timed s) eqn:Ht.
  - assert (kind = K_always \/ kind = K_ff) as Hk2 by (destruct kind; cbn [supported] in Hs; rewrite Ht in Hs; auto; discriminate). destruct s as [|lb at_ dc i]; [discriminate|]. destruct i; try discriminate.
    destruct (timed_process at_ lb dc t b o Ho) as (h & se & b' & ->).
    assert (k = loop A M n None k0 (skip A M)) as -> by (destruct Hk2 as [-> | ->]; inversion H; reflexivity).
    destruct Hk2 as [-> | ->]; do 2 eexists; (split; [reflexivity|]); (split; [unfold m_process; rewrite Hk; destruct se; reflexivity|]); intros x; apply (loop_same A M); auto; intros ?; reflexivity.
  - assert (kind = K_comb \/ kind = K_latch) as Hk2 by (destruct kind; cbn [supported] in Hs; rewrite Ht in Hs; auto; discriminate).
    assert (k = loop A M n None (seq A M k0 (act A M (p_wait M (AfterEvents [EvAny])))) (skip A M)) as ->.
    { destruct Hk2 as [-> | ->]; (destruct s as [|lb at_ dc i]; [inversion H; reflexivity|]); destruct i; try discriminate; inversion H; reflexivity. }
    assert (forall h se t b, o <> SProcess h se t b) as Hno by (intros h se t b ->; apply untimed_process in Ho; congruence).
    assert (forall t, match o with SProcess h se _ b => SProcess h se t b | _ => SProcess (hdr_doc d) None t o end = SProcess (hdr_doc d) None t o) as Hc.
    { intros t. destruct o; try reflexivity. exfalso. exact (Hno _ _ _ _ eq_refl). }
    destruct Hk2 as [-> | ->]; rewrite Hc; do 2 eexists; (split; [reflexivity|]); (split; [unfold m_process; rewrite Hk; reflexivity|]); intros x; apply (loop_same A M);
      try (intros ?; reflexivity); apply (seq_same A M); auto; intros ?; reflexivity.
Qed.

(** A fork at the top of an initial construct is left out: see P_C60. *)
Definition par_block (s : vstm) : bool :=
  match s with TStm _ _ _ (I_block SEQ _ _ _) => false | TStm _ _ _ (I_block _ _ _ _) => true | _ => false end.
(** Returned, Halted, ... are no results a process can go on from; break and continue outside of a loop are no Verilog. *)
Definition no_jump {S V} (r : res S V) : Prop := match r with Broke _ | Continued _ => False | _ => True end.
Lemma initial_sim (A : algebra) (M : machine A) (n : nat) (s : vstm) (k0 k : beh A M) :
  v_stm A M n s = Some k0 -> v_initial A M n s = Some k -> par_block s = false -> n <> 0 ->
  exists o k', conv_initial s = Ok o /\ m_process A M n o = Some k' /\ forall x, no_jump (k0 x) -> k' x = k x.
Proof.
  intros H0 H Hp Hn. unfold v_initial in H. rewrite H0 in H. injection H as <-. destruct (stm_sim A M n s k0 H0) as (o & Ho & (k' & Hk & He) & _ & _ & Hb).
  unfold conv_initial. rewrite Ho. cbn [bind]. destruct n as [|n]; [contradiction|]. 
  assert (exists l ks, match o with SBlock h j l => SBlock h j (l ++ [SWait hdr0 []]) | _ => SBlock hdr0 SEQ [o; SWait hdr0 []] end = SBlock (match o with SBlock h _ _ => h | _ => hdr0 end) SEQ (l ++ [SWait hdr0 []]) /\
            omapM (m_stm A M (S n)) l = Some ks /\ forall x, seqs A M ks x = k' x) as (l & ks & El & Hks & Hs).
  { destruct (match o with SBlock _ _ _ => true | _ => false end) eqn:Ob.
    - destruct o as [| | | | | | | | | |h j l| | | | | | |]; try discriminate. destruct (Hb h j l eq_refl) as (lb & at_ & d & lb2 & ds & l2 & ->).
      assert (j = SEQ) as -> by (destruct j; [reflexivity|discriminate..]). cbn [SvStmSpec.m_stm] in Hk. apply obind_inv in Hk as (ks & Hks & Hk). injection Hk as <-. exists l, ks. repeat split; assumption.
    - exists [o], [k']. split; [destruct o; try reflexivity; discriminate|]. split; [cbn [omapM]; rewrite Hk; reflexivity|].
      intros x. cbn [SvStmSpec.seqs fold_right]. unfold SvStmSpec.seq. destruct (k' x); reflexivity. }
  rewrite El. do 2 eexists. split; [reflexivity|]. split.
  - cbn [m_process]. cbn [SvStmSpec.m_stm]. rewrite (omapM_app (m_stm A M (S n)) l [SWait hdr0 []] ks [fun s => Halted s] Hks eq_refl). reflexivity.
  - intros x Hx. cbn [SvStmSpec.loop]. rewrite (seqs_app A M ks _ x). unfold SvStmSpec.seq. rewrite Hs, He. cbn [SvStmSpec.seqs fold_right]. unfold SvStmSpec.seq. destruct (k0 x); try contradiction; reflexivity.
Qed.
