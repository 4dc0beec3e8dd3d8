(** The converted VHDL statement behaves like the source. *)
From Verif Require Import Base BaseFacts AstModel StmModel LitModel LitSpec SvExprModel SvExprSpec SvExprProofs SvStmModel VhdlExprModel VhdlExprSpec VhdlExprProofs VhdlStmModel VhdlStmSpec.

Section Kids.
Context (P : hstm -> Prop).
Definition hk_else (e : option (list hstm)) : Prop := match e with Some l => Forall P l | None => True end.
Definition hk_item (i : hitem hstm) : Prop :=
  match i with
  | J_if _ b l e _ => Forall P b /\ Forall (fun p => Forall P (snd p)) l /\ hk_else e
  | J_case _ _ l _ => Forall (fun p => Forall P (snd p)) l
  | J_while _ b _ | J_for _ _ b _ | J_loop b _ => Forall P b
  | _ => True
  end.
Context (H : forall lb i, hk_item i -> P (HS lb i)).
Fixpoint hstm_ind' (s : hstm) : P s :=
  match s with
  | HS lb i => H lb i
      match i return hk_item i with
      | J_if _ b l e _ => conj (Forall_fix P hstm_ind' b) (conj
          (Forall_fix (fun p => Forall P (snd p)) (fun p => match p return Forall P (snd p) with (_, b) => Forall_fix P hstm_ind' b end) l)
          match e return hk_else e with Some b => Forall_fix P hstm_ind' b | None => I end)
      | J_case _ _ l _ => Forall_fix (fun p => Forall P (snd p)) (fun p => match p return Forall P (snd p) with (_, b) => Forall_fix P hstm_ind' b end) l
      | J_while _ b _ => Forall_fix P hstm_ind' b | J_for _ _ b _ => Forall_fix P hstm_ind' b | J_loop b _ => Forall_fix P hstm_ind' b
      | _ => I
      end
  end.
End Kids.

Section Sim.
Context (A : halgebra) (M : hmachine A) (n : nat).
Notation mean := (hmeaning A). Notation hv := (hvmeaning A).
Notation hbeh := (hbeh A M). Notation hskip := (hskip A M). Notation hact_ := (hact_ A M). Notation hseq := (hseq A M). Notation hseqs := (hseqs A M).
Notation hite := (hite A M). Notation hloop := (hloop A M). Notation heach := (heach A M). Notation hfor := (hfor A M). Notation halternative := (halternative A M).
Notation hjump := (hjump A M). Notation mh_stm := (mh_stm A M n). Notation hv_stm := (hv_stm A M n).
Definition hsame (k k' : hbeh) : Prop := forall s, k s = k' s.
Notation "k == k'" := (hsame k k') (at level 70).

Lemma hsame_refl k : k == k. Proof. intros s. reflexivity. Qed.
Hint Resolve hsame_refl : core.
Lemma hseq_same a a' b b' : a == a' -> b == b' -> hseq a b == hseq a' b'.
Proof. intros H1 H2 s. unfold VhdlStmSpec.hseq. rewrite H1. destruct (a' s); auto. Qed.
Lemma hseqs_same l l' : Forall2 hsame l l' -> hseqs l == hseqs l'.
Proof. induction 1 as [|a a' l l' Ha H IH]; [auto|]. apply hseq_same; assumption. Qed.
Lemma hseq_assoc a b c : hseq (hseq a b) c == hseq a (hseq b c).
Proof. intros s. unfold VhdlStmSpec.hseq. destruct (a s); reflexivity. Qed.
Lemma hseqs_app l l' : hseqs (l ++ l') == hseq (hseqs l) (hseqs l').
Proof.
  induction l as [|a l IH]; [intros s; reflexivity|]. cbn [app VhdlStmSpec.hseqs fold_right]. intros s.
  rewrite (hseq_assoc a). apply hseq_same; auto.
Qed.
Lemma hite_same v a a' b b' : a == a' -> b == b' -> hite v a b == hite v a' b'.
Proof. intros H1 H2 s. unfold VhdlStmSpec.hite. destruct (hp_test M v s) as ([], s'); auto. Qed.
Lemma halternative_same w v a a' b b' : a == a' -> b == b' -> halternative w v a b == halternative w v a' b'.
Proof. intros H1 H2 s. unfold VhdlStmSpec.halternative. destruct (hp_match M w v s) as ([], s'); auto. Qed.
Lemma hloop_same ls ls' t a a' : (forall l, mine A M ls l = mine A M ls' l) -> a == a' -> forall i, hloop i ls t a == hloop i ls' t a'.
Proof.
  intros Hl H. induction i as [|i IH]; intros s; [reflexivity|]. cbn [VhdlStmSpec.hloop].
  destruct (match t with Some c => hp_test M c s | None => (true, s) end) as ([], s1); [|reflexivity].
  rewrite H. destruct (a' s1); auto; rewrite Hl; destruct (mine A M ls' l); auto.
Qed.
Lemma heach_same ls ls' x a a' : (forall l, mine A M ls l = mine A M ls' l) -> a == a' -> forall vs, heach vs ls x a == heach vs ls' x a'.
Proof.
  intros Hl H. induction vs as [|v vs IH]; intros s; [reflexivity|]. cbn [VhdlStmSpec.heach].
  rewrite H. destruct (a' (hp_bind M x v s)); auto; rewrite Hl; destruct (mine A M ls' l); auto.
Qed.
Lemma own_mine lb e : end_ok A M lb e = true -> forall l, mine A M (labels match lb with Some l => push_label l (end_hdr e) | None => end_hdr e end) l = mine A M (own lb) l.
Proof.
  intros H l. destruct l as [l|]; [|reflexivity]. unfold mine. destruct e as [e|], lb as [b|]; cbn [end_ok end_hdr push_label labels own existsb] in *; try discriminate; try reflexivity.
  apply seqb_eq in H. rewrite H. destruct (seqb (hp_norm M l) (hp_norm M b)); reflexivity.
Qed.

(** Assignments. *)
Lemma hmk_assign_ok h d s b : d <> ENull -> s <> ENull -> mk_assign h d s None None b = Ok (SAssign h d s None None b).
Proof. intros H1 H2. destruct d; try contradiction; destruct s; try contradiction; reflexivity. Qed.
Lemma mean_nn a v : mean a = Some v -> a <> ENull.
Proof. intros H ->. discriminate. Qed.
Lemma source_plain b d a v : mean a = Some v -> m_source A M b d a = Some (hact_ (hp_assign M b d v)).
Proof.
  intros H. destruct a as [| | | | | | |o l|]; cbn [m_source]; try (rewrite H; reflexivity).
  destruct (op_eq_dec o TERNARY) as [->|N].
  - exfalso. cbn [hmeaning] in H. destruct l as [|x [|y [|z l]]]; cbn [hm_un hm_bin obind] in H; try discriminate. destruct (mean x); discriminate.
  - cbn [m_source]. destruct o; try contradiction; rewrite H; reflexivity.
Qed.
Lemma wave_sim w v : hv_wave A w = Some v -> exists a, conv_wave w = Ok a /\ mean a = Some v.
Proof.
  destruct w as [(e, [t|]) [|p l]|]; cbn [hv_wave]; intros H; try discriminate.
  destruct (hconv_sim A e v H) as (a & Ha & Hm & _). exists a. unfold conv_wave, conv_welem. cbn [fst mapM]. rewrite Ha. cbn [bind mapM fold_left]. auto.
Qed.
(** Conditional waveforms. *)
Lemma condwaves_sim d l e k : hv_condwaves A M d l e = Some k ->
  match l, e with
  | [], None => conv_condwaves l e = Ok None /\ k = hskip
  | _, _ => exists a k', conv_condwaves l e = Ok (Some a) /\ a <> ENull /\ m_source A M false d a = Some k' /\ k' == k
  end.
Proof.
  revert k. induction l as [|(w, c) l IH]; intros k H; cbn [hv_condwaves conv_condwaves] in *.
  - destruct e as [w|]; [|injection H as <-; auto]. apply obind_inv in H as (v & Hw & H). injection H as <-. destruct (wave_sim w v Hw) as (a & -> & Hm).
    exists a, (hact_ (hp_assign M false d v)). cbn [bind]. split; [reflexivity|]. split; [exact (mean_nn a v Hm)|]. split; [apply source_plain; exact Hm|auto].
  - apply obind_inv in H as (v & Hw & H). apply obind_inv in H as (x & Hx & H). apply obind_inv in H as (r & Hr & H). injection H as <-.
    destruct (wave_sim w v Hw) as (a & Ha & Hm). destruct (hconv_sim A c x Hx) as (y & Hy & Hmy & _). specialize (IH r Hr).
    assert (exists o, conv_condwaves l e = Ok o /\ exists k', m_source A M false d (ternary y a o) = Some k' /\ k' == hite x (hact_ (hp_assign M false d v)) r) as (o & Ho & k' & Hk & Hs).
    { destruct l as [|p l], e as [e|].
      1: destruct IH as (a' & k' & -> & _ & Hk & Hs); exists (Some a'); split; [reflexivity|]; unfold ternary, opt_l; cbn [app m_source]; rewrite Hmy, Hm; cbn [obind]; rewrite Hk; eexists; split; [reflexivity|]; apply hite_same; auto.
      1: destruct IH as (-> & ->); exists None; split; [reflexivity|]; unfold ternary, opt_l; cbn [app m_source]; rewrite Hmy, Hm; eexists; split; [reflexivity|auto].
      all: destruct IH as (a' & k' & -> & _ & Hk & Hs); exists (Some a'); split; [reflexivity|]; unfold ternary, opt_l; cbn [app m_source]; rewrite Hmy, Hm; cbn [obind]; rewrite Hk; eexists; split; [reflexivity|]; apply hite_same; auto. }
    exists (ternary y a o), k'. rewrite Ho. cbn [bind]. rewrite Ha. cbn [bind]. rewrite Hy. cbn [bind]. repeat split; auto. discriminate.
Qed.
Lemma condwave_sim d w k : hv_condwave A M d w = Some k -> exists a k', conv_condwave w = Ok a /\ a <> ENull /\ m_source A M false d a = Some k' /\ k' == k.
Proof.
  destruct w as [p l e]. unfold hv_condwave, conv_condwave. intros H. apply condwaves_sim in H. destruct H as (a & k' & -> & Hn & Hk & Hs). exists a, k'. cbn [bind]. auto.
Qed.
Lemma opt_sim o v : ov A o = Some v -> exists l, opt_conv o = Ok l /\
  match v, l with None, [] => o = None | Some v, [a] => mean a = Some v /\ exists e, o = Some e | _, _ => False end.
Proof.
  destruct o as [e|]; cbn [ov opt_conv]; intros H.
  - apply obind_inv in H as (x & Hx & H). injection H as <-. destruct (hconv_sim A e x Hx) as (a & -> & Hm & _). exists [a]. cbn [bind]. eauto.
  - injection H as <-. exists []. auto.
Qed.

(** Identifiers. *)
Lemma id_ok_sim bad e v : id_ok bad e = true -> hv e = Some v -> exists a, hconv e = Ok a /\ mean a = Some v /\ forall s, a = EId s -> bad s = false.
Proof.
  intros Hi Hv. destruct (hconv_sim A e v Hv) as (a & Ha & Hm & _ & Hid). exists a. split; [exact Ha|]. split; [exact Hm|]. intros s ->.
  assert (negb (is_id e) = true \/ exists x, e = HLit (NL_id x)) as [N|(x & ->)].
  { destruct e as [[x| |]| | | | | | | | | | | | | | | | | | | | |]; cbn [id_ok] in Hi; eauto. }
  - apply negb_true_iff in N. exfalso. exact (Hid N s eq_refl).
  - cbn [id_ok] in Hi. cbn [hconv conv_nlit] in Ha. injection Ha as ->. apply negb_true_iff in Hi. exact Hi.
Qed.
Lemma call_plain g l v : (forall s, g = EId s -> reserved s = false) -> mean (EOp CALL (g :: l)) = Some v -> mh_estm A M (EOp CALL (g :: l)) = Some (hact_ (hp_call M v)).
Proof.
  intros Hg H. unfold mh_estm, m_call. rewrite H. cbn [obind]. destruct g as [s| | | | | | | |]; try reflexivity. specialize (Hg s eq_refl). unfold reserved in Hg. cbn [existsb] in Hg.
  apply orb_false_iff in Hg as (H1 & Hg). apply orb_false_iff in Hg as (H2 & Hg). apply orb_false_iff in Hg as (H3 & Hg). apply orb_false_iff in Hg as (H4 & _).
  rewrite H1, H2, H3, H4. reflexivity.
Qed.
Lemma pcall_sim e v : hv_pcall A e = Some v -> exists a, conv_procedure_call e = Ok a /\ mh_estm A M a = Some (hact_ (hp_call M v)).
Proof.
  unfold hv_pcall, conv_procedure_call. intros H.
  assert ((exists m l, e = HApply m l /\ id_ok reserved m = true /\ hv e = Some v) \/
          (((exists s, e = HLit (NL_id s)) \/ (exists m l, e = HDot m l)) /\ id_ok reserved e = true /\ exists x, hv e = Some x /\ v = h_apply A x [])) as [(m & l & -> & Hi & Hv)|(Hs & Hi & x & Hv & ->)].
  { destruct e as [[s| |]| | | | | | | | | | | | | | | | | | | | |]; try discriminate.
    - right. destruct (id_ok reserved (HLit (NL_id s))) eqn:E; [|discriminate]. apply obind_inv in H as (x & Hx & H). injection H as <-. eauto 8.
    - right. destruct (id_ok reserved (HDot e l)) eqn:E; [|discriminate]. apply obind_inv in H as (x & Hx & H). injection H as <-. eauto 8.
    - left. destruct (id_ok reserved e) eqn:E; [|discriminate]. eauto 6. }
  - destruct (hconv_sim A (HApply m l) v Hv) as (a & Ha & Hm & _). cbn [hvmeaning] in Hv. apply obind_inv in Hv as (x & Hx & Hv). apply obind_inv in Hv as (r & Hr & Hv). injection Hv as <-.
    destruct (id_ok_sim reserved m x Hi Hx) as (g & Hg & Hmg & Hbad). cbn [hconv] in Ha |- *. rewrite Hg in Ha |- *. cbn [bind] in Ha |- *.
    destruct (mapM (conv_assoc hconv) l) as [xs| | |] eqn:El; cbn [bind] in Ha; try discriminate. injection Ha as <-. cbn [bind call_op]. eexists. split; [reflexivity|].
    apply call_plain; [exact Hbad|]. cbn [hmeaning call_op] in Hm. rewrite Hmg in Hm. cbn [obind] in Hm. apply obind_inv in Hm as (r' & Hr' & Hm). rewrite <- Hm.
    apply mean_call; assumption.
  - destruct (id_ok_sim reserved e x Hi Hv) as (a & Ha & Hm & Hbad). rewrite Ha. cbn [bind].
    assert (match a with EOp CALL _ => a | EOp INDEX l => EOp CALL l | _ => call_op CALL a [] end = call_op CALL a []) as E.
    { destruct Hs as [(s & ->)|(m & l & ->)].
      - cbn in Ha. injection Ha as <-. reflexivity.
      - cbn [hconv] in Ha. destruct (hconv m) as [y| | |]; try discriminate. cbn [bind] in Ha. destruct (conv_nlit l) as [z| | |]; try discriminate. cbn [bind] in Ha. injection Ha as <-. reflexivity. }
    rewrite E. eexists. split; [reflexivity|]. unfold call_op. apply call_plain; [exact Hbad|]. apply (mean_call A a x [] [] Hm). reflexivity.
Qed.

(** Waits. *)
Lemma name_shape e a : is_name e = true -> hconv e = Ok a -> not_of a = None /\ is_time a = false.
Proof.
  intros Hn Ha. destruct e; try discriminate; cbn [hconv] in Ha.
  - destruct l as [s|t|t]; cbn [conv_nlit] in Ha; [injection Ha as <-; split; reflexivity| |].
    + unfold visit_vhdl_string in Ha. repeat match type of Ha with bind ?x _ = _ => destruct x; cbn [bind] in Ha; try discriminate end. injection Ha as <-; split; reflexivity.
    + unfold visit_character in Ha. repeat match type of Ha with bind ?x _ = _ => destruct x; cbn [bind] in Ha; try discriminate end. injection Ha as <-; split; reflexivity.
  - repeat match type of Ha with bind ?x _ = _ => destruct x; cbn [bind] in Ha; try discriminate end. injection Ha as <-; split; reflexivity.
  - repeat match type of Ha with bind ?x _ = _ => destruct x; cbn [bind] in Ha; try discriminate end. injection Ha as <-; split; reflexivity.
  - repeat match type of Ha with bind ?x _ = _ => destruct x; cbn [bind] in Ha; try discriminate end. injection Ha as <-; split; reflexivity.
  - repeat match type of Ha with bind ?x _ = _ => destruct x; cbn [bind] in Ha; try discriminate end. injection Ha as <-; split; reflexivity.
  - repeat match type of Ha with bind ?x _ = _ => destruct x; cbn [bind] in Ha; try discriminate end. injection Ha as <-; split; reflexivity.
Qed.
Lemma m_wait_cons x v l r : mean x = Some v -> not_of x = None /\ is_time x = false ->
  m_wait A l = Some r -> m_wait A (x :: l) = Some (v :: fst (fst r), snd (fst r), snd r).
Proof. intros Hx (H1 & H2) Hr. cbn [m_wait]. rewrite H1, Hx, H2, Hr. reflexivity. Qed.
Lemma wait_sim on : forallb is_name on = true -> forall a, omapM hv on = Some a -> forall l r, m_wait A l = Some ([], fst r, snd r) ->
  exists xs, mapM hconv on = Ok xs /\ m_wait A (xs ++ l) = Some (a, fst r, snd r).
Proof.
  intros Hn. induction on as [|e on IH]; intros a Ha l r Hr; cbn [omapM] in Ha.
  - injection Ha as <-. exists []. auto.
  - cbn [forallb] in Hn. apply andb_true_iff in Hn as (He & Hn). apply obind_inv in Ha as (v & Hv & Ha). apply obind_inv in Ha as (a0 & Ha0 & Ha). injection Ha as <-.
    destruct (IH Hn a0 Ha0 l r Hr) as (xs & Hx & Hm). destruct (hconv_sim A e v Hv) as (x & Hc & Hmx & _). exists (x :: xs). cbn [mapM]. rewrite Hc. cbn [bind]. rewrite Hx. split; [reflexivity|].
    cbn [app]. rewrite (m_wait_cons x v (xs ++ l) _ Hmx (name_shape e x He Hc) Hm). reflexivity.
Qed.

(** Statements. *)
Definition hgood (o : stm) (k : hbeh) : Prop := o <> SNull /\ exists k', mh_stm o = Some k' /\ k' == k.
Definition hssim (s : hstm) : Prop := forall k, hv_stm s = Some k -> exists o, conv_hstm s = Ok o /\ hgood o k.
Lemma seq_sim l k : Forall hssim l -> hv_seq A M hv_stm l = Some k -> exists o, conv_seq conv_hstm l = Ok o /\ hgood o k /\ exists r, o = SBlock hdr0 SEQ r.
Proof.
  intros H E. unfold hv_seq in E. apply obind_inv in E as (ks & Hk & E). injection E as <-. unfold conv_seq.
  assert (exists os ks', mapM (fun s => o <- conv_hstm s ;; match o with SNull => UB "assert(st)" | _ => Ok o end) l = Ok os /\ omapM mh_stm os = Some ks' /\ Forall2 hsame ks' ks) as (os & ks' & -> & Ho & Hf).
  { revert ks Hk. induction H as [|s l Hs H IH]; intros ks Hk; cbn [omapM] in Hk.
    - injection Hk as <-. exists [], []. auto.
    - apply obind_inv in Hk as (b & Hb & Hk). apply obind_inv in Hk as (ks0 & Hk0 & Hk). injection Hk as <-.
      destruct (IH ks0 Hk0) as (os & ks' & Ho & Hm & Hf). destruct (Hs b Hb) as (o & Hc & Hn & k' & Hk' & He). exists (o :: os), (k' :: ks'). cbn [mapM]. rewrite Hc. cbn [bind].
      destruct o; try contradiction; cbn [bind]; rewrite Ho; (split; [reflexivity|]; split; [cbn [omapM]; rewrite Hk'; cbn [obind]; rewrite Hm; reflexivity|constructor; assumption]). }
  cbn [bind]. eexists. split; [reflexivity|]. split; [|eexists; reflexivity]. split; [discriminate|]. cbn [VhdlStmSpec.mh_stm]. rewrite Ho. eexists. split; [reflexivity|]. apply hseqs_same. exact Hf.
Qed.
Lemma helifs_sim l : Forall (fun p : hexpr * list hstm => Forall hssim (snd p)) l -> forall d d' k, d == d' -> hv_elifs A M hv_stm l d' = Some k ->
  exists os k', mapM (fun p => y <- hconv (fst p) ;; s <- conv_seq conv_hstm (snd p) ;; Ok (y, s)) l = Ok os /\ mh_elifs A M mh_stm os d = Some k' /\ k' == k.
Proof.
  induction 1 as [|(c, b) l Hb H IH]; intros d d' k Hd E; cbn [hv_elifs fold_right fst snd] in *.
  - injection E as <-. exists [], d. auto.
  - apply obind_inv in E as (r & Hr & E). apply obind_inv in E as (v & Hv & E). apply obind_inv in E as (kb & Hkb & E). injection E as <-.
    destruct (IH d d' r Hd Hr) as (os & k' & Ho & Hk & Hs). destruct (hconv_sim A c v Hv) as (x & Hx & Hm & _). destruct (seq_sim b kb Hb Hkb) as (o & Hob & (_ & kb' & Hkb' & Hsb) & _).
    exists ((x, o) :: os), (hite v kb' k'). cbn [mapM fst snd]. rewrite Hx. cbn [bind]. rewrite Hob. cbn [bind]. rewrite Ho. split; [reflexivity|]. split.
    + cbn [mh_elifs fold_right fst snd]. unfold mh_elifs in Hk. rewrite Hk. cbn [obind]. rewrite Hm. cbn [obind]. rewrite Hkb'. reflexivity.
    + apply hite_same; assumption.
Qed.

(** Choices.  [q]: the choices with the objects made of what they select. *)
Definition csim (p : hchoice hexpr * hbeh) (q : expr * stm) : Prop := conv_choice hconv (fst p) = Ok (fst q) /\ exists k', mh_stm (snd q) = Some k' /\ k' == snd p.
Lemma alts_sim l qs : Forall2 csim l qs -> forall k, hv_alts A M l = Some k ->
  exists cases d, split_choices qs None = Ok (cases, d) /\
    qs = cases ++ match d with Some s => [(ESym symb_OTHERS, s)] | None => [] end /\ Forall (fun q => is_others (fst q) = false) cases /\
    exists kd r, mh_opt A M mh_stm d = Some kd /\ mh_alts A M mh_stm cases kd = Some r /\ forall w, r w == k w.
Proof.
  induction 1 as [|(c, b) (x, o) l qs (Hc & k' & Hk' & Hs) H IH]; intros k E; cbn [hv_alts] in E.
  - injection E as <-. exists [], None. split; [reflexivity|]. split; [reflexivity|]. split; [constructor|]. exists hskip, (fun _ => hskip). repeat split.
  - cbn [fst snd] in *. destruct c as [|rg].
    + destruct l; [|discriminate]. inversion H; subst. injection E as <-. cbn [conv_choice] in Hc. injection Hc as <-. exists [], (Some o). split; [reflexivity|]. split; [reflexivity|]. split; [constructor|].
      exists k', (fun _ => k'). repeat split; auto.
    + apply obind_inv in E as (v & Hv & E). apply obind_inv in E as (kr & Hkr & E). injection E as <-. cbn [conv_choice] in Hc.
      assert (exists a, conv_range hconv rg = Ok a /\ mean a = Some v) as (a & Ha & Hm).
      { apply range_sim; [|exact Hv]. destruct rg as [e|e1 d e2]; cbn [h_rng]; [apply hconv_sim|split; apply hconv_sim]. }
      rewrite Hc in Ha. injection Ha as <-. assert (is_others x = false) as Hx by (destruct x as [| | | | |[]| | |]; try reflexivity; discriminate).
      destruct (IH kr Hkr) as (cases & d & Hsp & Hqs & Hall & kd & r & Hkd & Hr & Hsm). exists ((x, o) :: cases), d. split; [|split; [|split]].
      * cbn [split_choices]. rewrite Hx, Hsp. reflexivity.
      * cbn [app]. f_equal. exact Hqs.
      * constructor; assumption.
      * exists kd, (fun w => halternative w v k' (r w)). split; [exact Hkd|]. split.
        -- cbn [mh_alts fold_right fst snd]. unfold mh_alts in Hr. rewrite Hr. cbn [obind]. rewrite Hm. cbn [obind]. rewrite Hk'. reflexivity.
        -- intros w. apply halternative_same; [exact Hs|apply Hsm].
Qed.
Lemma hv_alts_inv l k : hv_alts A M l = Some k -> forall c b, In (c, b) l -> exists x, conv_choice hconv c = Ok x.
Proof.
  revert k. induction l as [|(c, b) l IH]; intros k E c' b' Hi; [contradiction|]. cbn [hv_alts] in E. destruct Hi as [Hi|Hi].
  - injection Hi as -> ->. destruct c' as [|rg]; [eexists; reflexivity|]. apply obind_inv in E as (v & Hv & E). cbn [conv_choice].
    destruct (range_sim A rg v) as (a & Ha & _); [|exact Hv|eauto]. destruct rg as [e|e1 d e2]; cbn [h_rng]; [apply hconv_sim|split; apply hconv_sim].
  - destruct c as [|rg]; [destruct l; [contradiction|discriminate]|]. apply obind_inv in E as (v & Hv & E). apply obind_inv in E as (kr & Hkr & E). exact (IH kr Hkr c' b' Hi).
Qed.
(** The pairs made of the choices of one alternative. *)
Lemma pairs_sim (f : outcome stm) o b b' cs : f = Ok o -> mh_stm o = Some b' -> b' == b -> (forall c, In c cs -> exists x, conv_choice hconv c = Ok x) ->
  exists xs, mapM (conv_choice hconv) cs = Ok xs /\ mapM (fun _ => f) cs = Ok (map (fun _ => o) cs) /\ Forall2 csim (map (fun c => (c, b)) cs) (combine xs (map (fun _ => o) cs)).
Proof.
  intros Hf Ho Hb. induction cs as [|c cs IH]; intros Hc.
  - exists []. repeat split. constructor.
  - destruct (Hc c (or_introl eq_refl)) as (x & Hx). destruct IH as (xs & Hxs & Hm & H2); [intros c' Hi; apply Hc; right; exact Hi|]. exists (x :: xs). cbn [mapM map combine]. rewrite Hx. cbn [bind]. rewrite Hxs, Hf. cbn [bind].
    rewrite Hf in Hm. rewrite Hm. repeat split. constructor; [|exact H2]. split; [exact Hx|]. exists b'. auto.
Qed.
Lemma case_alts_sim l : Forall (fun p : list (hchoice hexpr) * list hstm => Forall hssim (snd p)) l -> forall bs,
  omapM (fun p => b <~ hv_seq A M hv_stm (snd p) ;; Some (map (fun c => (c, b)) (fst p))) l = Some bs ->
  (forall c b, In (c, b) (List.concat bs) -> exists x, conv_choice hconv c = Ok x) ->
  exists qs, mapM (conv_alt conv_hstm) l = Ok qs /\ Forall2 csim (List.concat bs) (List.concat qs).
Proof.
  induction 1 as [|(cs, b) l Hb H IH]; intros bs E Hc; cbn [omapM] in E.
  - injection E as <-. exists []. split; [reflexivity|constructor].
  - apply obind_inv in E as (y & Hy & E). apply obind_inv in E as (bs0 & Hbs & E). injection E as <-. cbn [fst snd] in *. apply obind_inv in Hy as (kb & Hkb & Hy). injection Hy as <-. cbn [List.concat] in Hc.
    destruct (IH bs0 Hbs) as (qs & Hqs & H2); [intros c b' Hi; apply (Hc c b'); apply in_or_app; right; exact Hi|].
    destruct (seq_sim b kb Hb Hkb) as (o & Ho & (_ & kb' & Hkb' & Hsb) & _). destruct (pairs_sim (conv_seq conv_hstm b) o kb kb' cs Ho Hkb' Hsb) as (xs & Hxs & Hm & H3).
    { intros c Hi. apply (Hc c kb). apply in_or_app. left. apply in_map_iff. exists c. auto. }
    exists (combine xs (map (fun _ => o) cs) :: qs). cbn [mapM]. unfold conv_alt at 1. cbn [fst snd]. rewrite Hxs. cbn [bind]. rewrite Hm. cbn [bind]. rewrite Hqs. split; [reflexivity|].
    cbn [List.concat]. apply Forall2_app; assumption.
Qed.
Lemma set_label lb o : o <> SNull -> (match lb with Some l => match o with SNull => UB "stm->labels of a null pointer" | _ => Ok (set_hdr (push_label l) o) end | None => Ok o end) =
  Ok (match lb with Some l => set_hdr (push_label l) o | None => o end).
Proof. intros H. destruct lb; [|reflexivity]. destruct o; try reflexivity. contradiction. Qed.
Definition is_loop (o : stm) : bool := match o with SWhile _ _ _ | SForIn _ _ _ _ => true | _ => false end.
Lemma label_other lb o : is_loop o = false -> mh_stm (match lb with Some l => set_hdr (push_label l) o | None => o end) = mh_stm o.
Proof. intros H. destruct lb as [l|]; [|reflexivity]. destruct o; try discriminate; reflexivity. Qed.
(** For statements other than loops the label does not matter. *)
Lemma plain_item lb i o k : conv_hitem conv_hstm i = Ok o -> is_loop o = false -> hgood o k -> exists o', conv_hstm (HS lb i) = Ok o' /\ hgood o' k.
Proof.
  intros Ho Hl (Hn & k' & Hk & Hs). cbn [conv_hstm]. rewrite Ho. cbn [bind]. rewrite (set_label lb o Hn). eexists. split; [reflexivity|]. split.
  - destruct lb; [|exact Hn]. destruct o; try discriminate; contradiction.
  - exists k'. rewrite (label_other lb o Hl). auto.
Qed.
Lemma jump_sim (f : string) (k : option str -> hbeh) l c v : (forall es, mh_estm A M (EOp CALL (EId $f :: es)) = m_jump A M k es) -> ov A c = Some v ->
  exists o, conv_jump f l c = Ok o /\ is_loop o = false /\ hgood o (hjump v (k l)).
Proof.
  intros Hf Hv. destruct (opt_sim c v Hv) as (r & Hr & Hm). unfold conv_jump. rewrite Hr. cbn [bind]. eexists. split; [reflexivity|]. split; [reflexivity|]. split; [discriminate|].
  unfold call_stm, call_op. cbn [VhdlStmSpec.mh_stm]. rewrite Hf. exists (hjump v (k l)). split; [|auto].
  destruct v as [v|], r as [|a [|a' r]]; try contradiction.
  - destruct Hm as (Hm & _). destruct l as [l|]; cbn [m_jump]; rewrite Hm; reflexivity.
  - destruct l as [l|]; reflexivity.
Qed.
Lemma assign_good t d a v b k k' : mean t = Some d -> a <> ENull -> m_source A M b d a = Some k' -> k' == k -> v = SAssign hdr0 t a None None b -> hgood v k.
Proof. intros Ht Ha Hk Hs ->. split; [discriminate|]. cbn [VhdlStmSpec.mh_stm]. rewrite Ht. cbn [obind]. eauto. Qed.

Theorem hstm_sim s : hssim s.
Proof.
  apply hstm_ind'. clear s. intros lb i K k E. cbn [VhdlStmSpec.hv_stm] in E. destruct i; cbn [hv_item] in E; cbn [hk_item] in K.
  - (* wait *) destruct (forallb is_name on && _) eqn:G; [|discriminate]. apply andb_true_iff in G as (Gn & Gt). apply obind_inv in E as (a & Ha & E). apply obind_inv in E as (b & Hb & E).
    apply obind_inv in E as (c & Hc & E). injection E as <-. destruct (opt_sim for_ c Hc) as (ts & Hts & Hmt).
    assert (exists us, match until with Some e => x <- hconv e ;; Ok [op1 NEG x] | None => Ok [] end = Ok us /\ m_wait A (us ++ ts) = Some ([], b, c)) as (us & Hus & Hm).
    { destruct until as [u|]; cbn [ov] in Hb.
      - apply obind_inv in Hb as (v & Hv & Hb). injection Hb as <-. destruct (hconv_sim A u v Hv) as (x & -> & Hx & _). exists [op1 NEG x]. split; [reflexivity|].
        unfold op1. cbn [app m_wait not_of]. rewrite Hx. cbn [obind]. destruct c as [c|], ts as [|t [|t' ts]]; try contradiction; [|reflexivity]. destruct Hmt as (Hmt & _). rewrite Hmt. reflexivity.
      - injection Hb as <-. exists []. split; [reflexivity|]. cbn [app]. destruct c as [c|], ts as [|t [|t' ts]]; try contradiction; [|reflexivity]. destruct Hmt as (Hmt & e & ->).
        destruct e as [| | | | | | |based tx un| | | | | | | | | | | | | |]; try discriminate. destruct un as [un|]; [|discriminate]. cbn [opt_conv hconv] in Hts.
        destruct (hconv un) as [xu| | |]; try discriminate. cbn [bind] in Hts. destruct (if based then visit_based_literal tx else visit_decimal tx) as [xt| | |]; try discriminate. cbn [bind] in Hts.
        injection Hts as <-. unfold op2 in Hmt |- *. cbn [m_wait not_of]. rewrite Hmt. reflexivity. }
    destruct (wait_sim on Gn a Ha (us ++ ts) (b, c) Hm) as (xs & Hx & Hmw).
    apply (plain_item lb _ (SWait hdr0 (xs ++ us ++ ts))); [cbn [conv_hitem]; rewrite Hx; cbn [bind]; rewrite Hus; cbn [bind]; rewrite Hts; reflexivity|reflexivity|].
    split; [discriminate|]. cbn [VhdlStmSpec.mh_stm]. rewrite Hmw. eexists. split; [reflexivity|auto].
  - (* assert *) assert (~ (report = None /\ exists s, severity = Some s) /\ (v <~ hv c ;; x <~ ov A report ;; y <~ ov A severity ;; Some (hact_ (hp_assert M v x y))) = Some k) as (N & E').
    { destruct report, severity; try discriminate; (split; [intros (? & ? & ?); discriminate|exact E]). }
    apply obind_inv in E' as (v & Hv & E'). apply obind_inv in E' as (x & Hx & E'). apply obind_inv in E' as (y & Hy & E'). injection E' as <-.
    destruct (hconv_sim A c v Hv) as (cc & Hc & Hmc & _). destruct (opt_sim report x Hx) as (r & Hr & Hmr). destruct (opt_sim severity y Hy) as (s & Hs & Hms).
    apply (plain_item lb _ (call_stm hdr0 "assert" (cc :: r ++ s))); [cbn [conv_hitem]; rewrite Hc; cbn [bind]; rewrite Hr; cbn [bind]; rewrite Hs; reflexivity|reflexivity|].
    split; [discriminate|]. unfold call_stm, call_op. cbn [VhdlStmSpec.mh_stm].
    change (mh_estm A M (EOp CALL (EId $"assert" :: cc :: r ++ s))) with (m_assert A M (cc :: r ++ s)).
    destruct x as [x|], r as [|r1 [|r2 r]]; try contradiction; destruct y as [y|], s as [|s1 [|s2 s]]; try contradiction.
    + destruct Hmr as (Hmr & _), Hms as (Hms & _). cbn [app m_assert]. rewrite Hmc, Hmr, Hms. eexists. split; [reflexivity|auto].
    + destruct Hmr as (Hmr & _). cbn [app m_assert]. rewrite Hmc, Hmr. eexists. split; [reflexivity|auto].
    + exfalso. apply N. destruct Hms as (_ & e & ->). split; [exact Hmr|eauto].
    + cbn [app m_assert]. rewrite Hmc. eexists. split; [reflexivity|auto].
  - (* report *) apply obind_inv in E as (v & Hv & E). apply obind_inv in E as (y & Hy & E). injection E as <-.
    destruct (hconv_sim A e v Hv) as (cc & Hc & Hmc & _). destruct (opt_sim severity y Hy) as (s & Hs & Hms).
    apply (plain_item lb _ (call_stm hdr0 "report" (cc :: s))); [cbn [conv_hitem]; rewrite Hc; cbn [bind]; rewrite Hs; reflexivity|reflexivity|].
    split; [discriminate|]. unfold call_stm, call_op. cbn [VhdlStmSpec.mh_stm]. change (mh_estm A M (EOp CALL (EId $"report" :: cc :: s))) with (m_report A M (cc :: s)).
    destruct y as [y|], s as [|s1 [|s2 s]]; try contradiction; [destruct Hms as (Hms & _)|]; cbn [m_report]; rewrite Hmc; cbn [obind]; rewrite ?Hms; eexists; (split; [reflexivity|auto]).
  - (* signal *) destruct delay; [discriminate|]. apply obind_inv in E as (d & Hd & E). apply obind_inv in E as (v & Hv & E). injection E as <-.
    destruct (hconv_sim A t d Hd) as (td & Htd & Hmd & _). destruct (wave_sim w v Hv) as (a & Ha & Hm).
    apply (plain_item lb _ (SAssign hdr0 td a None None false)); [|reflexivity|apply (assign_good td d a _ false _ _ Hmd (mean_nn a v Hm) (source_plain false d a v Hm) (hsame_refl _) eq_refl)].
    cbn [conv_hitem]. rewrite Htd. cbn [bind]. rewrite Ha. cbn [bind]. apply hmk_assign_ok; [exact (mean_nn td d Hmd)|exact (mean_nn a v Hm)].
  - discriminate.
  - discriminate.
  - (* signal, conditional *) destruct delay; [discriminate|]. apply obind_inv in E as (d & Hd & E). destruct (hconv_sim A t d Hd) as (td & Htd & Hmd & _).
    destruct (condwave_sim d w k E) as (a & k' & Ha & Hn & Hk & Hs).
    apply (plain_item lb _ (SAssign hdr0 td a None None false)); [|reflexivity|apply (assign_good td d a _ false _ _ Hmd Hn Hk Hs eq_refl)].
    cbn [conv_hitem]. rewrite Htd. cbn [bind]. rewrite Ha. cbn [bind]. apply hmk_assign_ok; [exact (mean_nn td d Hmd)|exact Hn].
  - discriminate.
  - discriminate.
  - (* variable *) apply obind_inv in E as (d & Hd & E). apply obind_inv in E as (v & Hv & E). injection E as <-.
    destruct (hconv_sim A t d Hd) as (td & Htd & Hmd & _). destruct (hconv_sim A e v Hv) as (a & Ha & Hm & _).
    apply (plain_item lb _ (SAssign hdr0 td a None None true)); [|reflexivity|apply (assign_good td d a _ true _ _ Hmd (mean_nn a v Hm) (source_plain true d a v Hm) (hsame_refl _) eq_refl)].
    cbn [conv_hitem]. rewrite Htd. cbn [bind]. rewrite Ha. cbn [bind]. apply hmk_assign_ok; [exact (mean_nn td d Hmd)|exact (mean_nn a v Hm)].
  - discriminate.
  - discriminate.
  - (* call *) apply obind_inv in E as (v & Hv & E). injection E as <-. destruct (pcall_sim n0 v Hv) as (a & Ha & Hm).
    apply (plain_item lb _ (SExpr hdr0 a)); [cbn [conv_hitem]; rewrite Ha; reflexivity|reflexivity|]. split; [discriminate|]. cbn [VhdlStmSpec.mh_stm]. rewrite Hm. eauto.
  - (* if *) destruct K as (Kb & Kl & Ke). apply obind_inv in E as (v & Hv & E). apply obind_inv in E as (kb & Hkb & E). apply obind_inv in E as (ke & Hke & E). apply obind_inv in E as (r & Hr & E). injection E as <-.
    destruct (hconv_sim A c v Hv) as (x & Hx & Hm & _). destruct (seq_sim b kb Kb Hkb) as (ob & Hob & (_ & kb' & Hkb' & Hsb) & _).
    assert (exists oe ke', match else_ with Some b => s <- conv_seq conv_hstm b ;; Ok (Some s) | None => Ok None end = Ok oe /\ mh_opt A M mh_stm oe = Some ke' /\ ke' == ke) as (oe & ke' & Hoe & Hke' & Hse).
    { destruct else_ as [eb|]; cbn [hk_else] in Ke.
      - destruct (seq_sim eb ke Ke Hke) as (oe & -> & (_ & ke' & Hke' & Hse) & _). exists (Some oe), ke'. cbn [bind]. auto.
      - injection Hke as <-. exists None, hskip. auto. }
    destruct (helifs_sim elifs Kl ke' ke r Hse Hr) as (os & r' & Hos & Hr' & Hsr).
    apply (plain_item lb _ (SIf (end_hdr end_) x ob os oe)); [|reflexivity|].
    + cbn [conv_hitem]. rewrite Hx. cbn [bind]. rewrite Hob. cbn [bind]. rewrite Hos. cbn [bind]. rewrite Hoe. reflexivity.
    + split; [discriminate|]. cbn [VhdlStmSpec.mh_stm]. rewrite Hm. cbn [obind]. rewrite Hkb'. cbn [obind]. rewrite Hke'. cbn [obind]. rewrite Hr'. eexists. split; [reflexivity|]. apply hite_same; assumption.
  - (* case *) destruct matching; [discriminate|]. apply obind_inv in E as (v & Hv & E). apply obind_inv in E as (bs & Hbs & E). apply obind_inv in E as (r & Hr & E). injection E as <-.
    destruct (hconv_sim A sel v Hv) as (x & Hx & Hm & _). destruct (case_alts_sim l K bs Hbs (hv_alts_inv _ r Hr)) as (qs & Hqs & H2).
    destruct (alts_sim _ _ H2 r Hr) as (cases & d & Hsp & _ & _ & kd & r' & Hkd & Hr' & Hs).
    apply (plain_item lb _ (SCase (end_hdr end_) CASE_UNIQ_NONE CASE x cases d)); [|reflexivity|].
    + cbn [conv_hitem]. rewrite Hx. cbn [bind]. rewrite Hqs. cbn [bind]. unfold SvExprSpec.concat in *. rewrite Hsp. reflexivity.
    + split; [discriminate|]. cbn [VhdlStmSpec.mh_stm]. rewrite Hm. cbn [obind]. rewrite Hkd. cbn [obind]. rewrite Hr'. eexists. split; [reflexivity|]. intros s. destruct (hp_select M v s) as (w, s'). apply Hs.
  - (* while *) destruct (end_ok A M lb end_ && id_ok (seqb $"True") c) eqn:G; [|discriminate]. apply andb_true_iff in G as (G1 & G2).
    apply obind_inv in E as (v & Hv & E). apply obind_inv in E as (kb & Hkb & E). injection E as <-. destruct (id_ok_sim _ c v G2 Hv) as (x & Hx & Hm & Hbad).
    destruct (seq_sim b kb K Hkb) as (ob & Hob & (_ & kb' & Hkb' & Hsb) & _). cbn [conv_hstm conv_hitem]. rewrite Hx. cbn [bind]. rewrite Hob. cbn [bind].
    assert (m_test A x = Some (Some v)) as Ht.
    { unfold m_test. rewrite Hm. destruct x as [s| | | | | | | |]; try reflexivity. specialize (Hbad s eq_refl). destruct (seqb s $"True") eqn:Es; [|reflexivity]. apply seqb_eq in Es. subst s. rewrite (proj2 (seqb_eq _ _) eq_refl) in Hbad. discriminate. }
    exists (SWhile match lb with Some l => push_label l (end_hdr end_) | None => end_hdr end_ end x ob). split; [destruct lb; reflexivity|]. split; [discriminate|]. cbn [VhdlStmSpec.mh_stm]. rewrite Ht. cbn [obind]. rewrite Hkb'.
    eexists. split; [reflexivity|]. apply hloop_same; [apply own_mine; exact G1|exact Hsb].
  - (* for *) destruct (end_ok A M lb end_) eqn:G; [|discriminate]. apply obind_inv in E as (v & Hv & E). apply obind_inv in E as (kb & Hkb & E). injection E as <-.
    destruct (range_sim A r v) as (x & Hx & Hm); [destruct r as [e|e1 d e2]; cbn [h_rng]; [apply hconv_sim|split; apply hconv_sim]|exact Hv|].
    destruct (seq_sim b kb K Hkb) as (ob & Hob & (_ & kb' & Hkb' & Hsb) & _). cbn [conv_hstm conv_hitem]. rewrite Hx. cbn [bind]. rewrite Hob. cbn [bind].
    exists (SForIn match lb with Some l => push_label l (end_hdr end_) | None => end_hdr end_ end [SExpr hdr0 (EId i)] x ob). split; [destruct lb; reflexivity|]. split; [discriminate|]. cbn [VhdlStmSpec.mh_stm]. rewrite Hm. cbn [obind]. rewrite Hkb'.
    eexists. split; [reflexivity|]. intros s. unfold VhdlStmSpec.hfor. destruct (hp_elems M v s) as (vs, s'). apply heach_same; [apply own_mine; exact G|exact Hsb].
  - (* loop *) destruct (end_ok A M lb end_) eqn:G; [|discriminate]. apply obind_inv in E as (kb & Hkb & E). injection E as <-.
    destruct (seq_sim b kb K Hkb) as (ob & Hob & (_ & kb' & Hkb' & Hsb) & _). cbn [conv_hstm conv_hitem]. rewrite Hob. cbn [bind].
    exists (SWhile match lb with Some l => push_label l (end_hdr end_) | None => end_hdr end_ end (EId $"True") ob). split; [destruct lb; reflexivity|]. split; [discriminate|]. cbn [VhdlStmSpec.mh_stm].
    change (m_test A (EId $"True")) with (Some (@None (HV A))). cbn [obind]. rewrite Hkb'.
    eexists. split; [reflexivity|]. apply hloop_same; [apply own_mine; exact G|exact Hsb].
  - (* next *) apply obind_inv in E as (v & Hv & E). injection E as <-. destruct (jump_sim "NEXT" (fun l s => HNext l s) l c v) as (o & Ho & Hl & Hg); [reflexivity|exact Hv|]. exact (plain_item lb (J_next l c) o _ Ho Hl Hg).
  - (* exit *) apply obind_inv in E as (v & Hv & E). injection E as <-. destruct (jump_sim "EXIT" (fun l s => HExit l s) l c v) as (o & Ho & Hl & Hg); [reflexivity|exact Hv|]. exact (plain_item lb (J_exit l c) o _ Ho Hl Hg).
  - (* return *) destruct e as [e|].
    + apply obind_inv in E as (v & Hv & E). injection E as <-. destruct (hconv_sim A e v Hv) as (x & Hx & Hm & _).
      apply (plain_item lb _ (SReturn hdr0 (Some x))); [cbn [conv_hitem]; rewrite Hx; reflexivity|reflexivity|]. split; [discriminate|]. cbn [VhdlStmSpec.mh_stm]. rewrite Hm. eexists. split; [reflexivity|auto].
    + injection E as <-. apply (plain_item lb _ (SReturn hdr0 None)); [reflexivity|reflexivity|]. split; [discriminate|]. eexists. split; [reflexivity|auto].
  - (* null *) injection E as <-. apply (plain_item lb _ (SNop hdr0)); [reflexivity|reflexivity|]. split; [discriminate|]. eexists. split; [reflexivity|auto].
Qed.

(** Concurrent assignments. *)
Definition asg (t w : expr) : stm := SAssign hdr0 t w None None false.
Lemma selwaves_ok t l : t <> ENull -> Forall (fun p => snd p <> ENull) l -> forall cases d moved cs,
  map (fun p => (fst p, asg t (snd p))) l = cases ++ match d with Some s => [(ESym symb_OTHERS, s)] | None => [] end ->
  Forall (fun q : expr * stm => is_others (fst q) = false) cases -> (moved = true -> cs <> []) ->
  conv_selwaves l t moved cs None false = Ok (cs ++ cases, d).
Proof.
  intros Ht Hl. induction Hl as [|(c, w) l Hw Hl IH]; intros cases d moved cs E Hc Hm.
  - destruct cases as [|? ?]; [|discriminate]. destruct d; [discriminate|]. cbn [conv_selwaves]. rewrite app_nil_r. reflexivity.
  - cbn [map fst snd] in E, Hw. cbn [conv_selwaves].
    assert (match cs with [] => if moved then ENull else t | _ => t end = t) as ->.
    { destruct cs; [|reflexivity]. destruct moved; [|reflexivity]. exfalso. exact (Hm eq_refl eq_refl). }
    rewrite (hmk_assign_ok hdr0 t w false Ht Hw). cbn [bind]. destruct cases as [|q cases].
    + destruct d as [s|]; [|discriminate]. cbn [app] in E. injection E as -> <- E. destruct l; [|discriminate]. cbn [is_others conv_selwaves]. rewrite app_nil_r. reflexivity.
    + injection E as <- E. inversion Hc as [|? ? Hq Hc']; subst. cbn [fst] in Hq. rewrite Hq. change (SAssign hdr0 t w None None false) with (asg t w). rewrite (IH cases d true (cs ++ [(c, asg t w)]) E Hc'); [|intros _ X; destruct cs; discriminate].
      rewrite <- app_assoc. reflexivity.
Qed.
Lemma sel_alts_sim t d l : mean t = Some d -> forall bs,
  omapM (fun p : selwave => v <~ hv_wave A (fst p) ;; Some (map (fun c => (c, hact_ (hp_assign M false d v))) (snd p))) l = Some bs ->
  (forall c b, In (c, b) (List.concat bs) -> exists x, conv_choice hconv c = Ok x) ->
  exists qs, mapM (fun p : selwave => cs <- mapM (conv_choice hconv) (snd p) ;; ws <- mapM (fun _ => conv_wave (fst p)) (snd p) ;; Ok (combine cs ws)) l = Ok qs /\
    Forall (fun p => snd p <> ENull) (List.concat qs) /\ Forall2 csim (List.concat bs) (map (fun p => (fst p, asg t (snd p))) (List.concat qs)).
Proof.
  intros Ht. induction l as [|(w, cs) l IH]; intros bs E Hc; cbn [omapM] in E.
  - injection E as <-. exists []. split; [reflexivity|split; constructor].
  - apply obind_inv in E as (y & Hy & E). apply obind_inv in E as (bs0 & Hbs & E). injection E as <-. cbn [fst snd] in *. apply obind_inv in Hy as (v & Hv & Hy). injection Hy as <-. cbn [List.concat] in Hc.
    destruct (IH bs0 Hbs) as (qs & Hqs & H1 & H2); [intros c b' Hi; apply (Hc c b'); apply in_or_app; right; exact Hi|]. destruct (wave_sim w v Hv) as (a & Ha & Hm).
    assert (exists xs, mapM (conv_choice hconv) cs = Ok xs /\ mapM (fun _ => conv_wave w) cs = Ok (map (fun _ => a) cs) /\
      Forall (fun p => snd p <> ENull) (combine xs (map (fun _ => a) cs)) /\
      Forall2 csim (map (fun c => (c, hact_ (hp_assign M false d v))) cs) (map (fun p => (fst p, asg t (snd p))) (combine xs (map (fun _ => a) cs)))) as (xs & Hxs & Hma & H3 & H4).
    { assert (forall c, In c cs -> exists x, conv_choice hconv c = Ok x) as Hcs by (intros c Hi; apply (Hc c (hact_ (hp_assign M false d v))); apply in_or_app; left; apply in_map_iff; exists c; auto).
      clear - Ha Hm Hcs Ht. induction cs as [|c cs IHc].
      - exists []. repeat split; constructor.
      - destruct (Hcs c (or_introl eq_refl)) as (x & Hx). destruct IHc as (xs & Hxs & Hma & H3 & H4); [intros c' Hi; apply Hcs; right; exact Hi|]. exists (x :: xs). cbn [mapM map combine]. rewrite Hx. cbn [bind].
        rewrite Hxs, Ha. cbn [bind]. rewrite Ha in Hma. rewrite Hma. split; [reflexivity|]. split; [reflexivity|]. split; [constructor; [exact (mean_nn a v Hm)|exact H3]|]. cbn [map fst snd]. constructor; [|exact H4].
        split; [exact Hx|]. cbn [fst snd asg VhdlStmSpec.mh_stm]. unfold asg. cbn [VhdlStmSpec.mh_stm]. rewrite Ht. cbn [obind]. rewrite (source_plain false d a v Hm). eexists. split; [reflexivity|auto]. }
    exists (combine xs (map (fun _ => a) cs) :: qs). cbn [mapM fst snd]. rewrite Hxs. cbn [bind]. rewrite Hma. cbn [bind]. rewrite Hqs. split; [reflexivity|]. cbn [List.concat]. rewrite map_app. split; [apply Forall_app; auto|apply Forall2_app; assumption].
Qed.
Theorem conc_sim c k : hv_conc A M c = Some k -> exists o, conv_conc c = Ok o /\ hgood o k.
Proof.
  destruct c as [t w|t w|[] sel t l]; cbn [hv_conc conv_conc]; intros E; try discriminate.
  - apply obind_inv in E as (d & Hd & E). apply obind_inv in E as (v & Hv & E). injection E as <-.
    destruct (hconv_sim A t d Hd) as (td & -> & Hmd & _). destruct (wave_sim w v Hv) as (a & -> & Hm). cbn [bind]. eexists. split; [apply hmk_assign_ok; [exact (mean_nn td d Hmd)|exact (mean_nn a v Hm)]|].
    apply (assign_good td d a _ false _ _ Hmd (mean_nn a v Hm) (source_plain false d a v Hm) (hsame_refl _) eq_refl).
  - apply obind_inv in E as (d & Hd & E). destruct (hconv_sim A t d Hd) as (td & -> & Hmd & _). destruct (condwave_sim d w k E) as (a & k' & -> & Hn & Hk & Hs). cbn [bind].
    eexists. split; [apply hmk_assign_ok; [exact (mean_nn td d Hmd)|exact Hn]|]. apply (assign_good td d a _ false _ _ Hmd Hn Hk Hs eq_refl).
  - apply obind_inv in E as (v & Hv & E). apply obind_inv in E as (d & Hd & E). unfold hv_select in E. apply obind_inv in E as (bs & Hbs & E). apply obind_inv in E as (r & Hr & E). injection E as <-.
    destruct (hconv_sim A sel v Hv) as (x & -> & Hmx & _). destruct (hconv_sim A t d Hd) as (td & -> & Hmd & _). cbn [bind]. unfold conv_select.
    destruct (sel_alts_sim td d l Hmd bs Hbs (hv_alts_inv _ r Hr)) as (qs & -> & Hn & H2). cbn [bind].
    destruct (alts_sim _ _ H2 r Hr) as (cases & dd & _ & Hq & Hall & kd & r' & Hkd & Hr' & Hs).
    rewrite (selwaves_ok td _ (mean_nn td d Hmd) Hn cases dd false [] Hq Hall); [|discriminate]. cbn [bind app fst snd]. eexists. split; [reflexivity|]. split; [discriminate|].
    cbn [VhdlStmSpec.mh_stm]. rewrite Hmx. cbn [obind]. rewrite Hkd. cbn [obind]. rewrite Hr'. eexists. split; [reflexivity|]. intros s. destruct (hp_select M v s) as (w, s'). apply Hs.
Qed.

(** Processes. *)
Lemma stms_sim l ks : omapM hv_stm l = Some ks -> exists os ks', mapM conv_hstm l = Ok os /\ omapM mh_stm os = Some ks' /\ Forall2 hsame ks' ks.
Proof.
  revert ks. induction l as [|s l IH]; intros ks E; cbn [omapM] in E.
  - injection E as <-. exists [], []. auto.
  - apply obind_inv in E as (k & Hk & E). apply obind_inv in E as (ks0 & Hks & E). injection E as <-. destruct (IH ks0 Hks) as (os & ks' & Ho & Hm & Hf). destruct (hstm_sim s k Hk) as (o & Hc & _ & k' & Hk' & He).
    exists (o :: os), (k' :: ks'). cbn [mapM]. rewrite Hc. cbn [bind]. rewrite Ho. split; [reflexivity|]. split; [cbn [omapM]; rewrite Hk'; cbn [obind]; rewrite Hm; reflexivity|constructor; assumption].
Qed.
Lemma homapM_app {X Y} (f : X -> option Y) l l' r r' : omapM f l = Some r -> omapM f l' = Some r' -> omapM f (l ++ l') = Some (r ++ r').
Proof.
  revert r. induction l as [|x l IH]; intros r H H'; cbn [omapM app] in *; [injection H as <-; exact H'|].
  apply obind_inv in H as (y & Hy & H). apply obind_inv in H as (r0 & Hr & H). injection H as <-. rewrite Hy. cbn [obind]. rewrite (IH r0 Hr H'). reflexivity.
Qed.
Lemma list_hconv l r : omapM hv l = Some r -> exists xs, mapM hconv l = Ok xs /\ omapM mean xs = Some r.
Proof.
  revert r. induction l as [|e l IH]; intros r E; cbn [omapM] in E.
  - injection E as <-. exists []. auto.
  - apply obind_inv in E as (v & Hv & E). apply obind_inv in E as (r0 & Hr & E). injection E as <-. destruct (IH r0 Hr) as (xs & Hx & Hm). destruct (hconv_sim A e v Hv) as (a & Ha & Hma & _).
    exists (a :: xs). cbn [mapM]. rewrite Ha. cbn [bind]. rewrite Hx. split; [reflexivity|]. cbn [omapM]. rewrite Hma. cbn [obind]. rewrite Hm. reflexivity.
Qed.
Theorem process_sim se ds l x k : hv_process A M n se ds l = Some (x, k) ->
  exists o k', conv_process se ds l = Ok o /\ mh_process A M n o = Some (x, k') /\ k' == k.
Proof.
  unfold hv_process, conv_process. intros E. apply obind_inv in E as (x0 & Hx & E). apply obind_inv in E as (kd & Hkd & E). apply obind_inv in E as (ks & Hks & E). injection E as <- <-.
  destruct (stms_sim l ks Hks) as (os & ks' & -> & Hos & Hf).
  assert (exists se', match se with HSens_none => Ok None | HSens_all => Ok (Some [ESym symb_ALL]) | HSens l => r <- mapM hconv l ;; Ok (Some r) end = Ok se' /\ m_sens A se' = Some x0) as (se' & -> & Hse).
  { destruct se as [| |l0]; cbn [hv_sens] in Hx.
    - injection Hx as <-. eexists. split; reflexivity.
    - injection Hx as <-. eexists. split; reflexivity.
    - apply obind_inv in Hx as (r & Hr & Hx). injection Hx as <-. destruct (list_hconv l0 r Hr) as (xs & -> & Hm). cbn [bind]. eexists. split; [reflexivity|].
      unfold m_sens. rewrite Hm. destruct xs as [|[| | | | |[]| | |] [|? ?]]; try reflexivity. discriminate. }
  cbn [bind]. do 2 eexists. split; [reflexivity|]. cbn [mh_process]. rewrite Hse. cbn [obind VhdlStmSpec.mh_stm].
  assert (omapM mh_stm ds = Some kd) as Hds.
  { clear - Hkd. revert kd Hkd. induction ds as [|d ds IH]; intros kd E; cbn [omapM] in *; [exact E|]. apply obind_inv in E as (y & Hy & E). apply obind_inv in E as (r & Hr & E). injection E as <-.
    destruct d; try discriminate. rewrite Hy. cbn [obind]. rewrite (IH r Hr). reflexivity. }
  rewrite (homapM_app mh_stm ds os kd ks' Hds Hos). split; [reflexivity|]. intros s. rewrite hseqs_app. apply hseq_same; [auto|]. apply hseqs_same. exact Hf.
Qed.
End Sim.
