(** Facts about the macro database, valid for every outcome of a run. *)
From Verif Require Import Base BaseFacts OutBufferModel RegexModel PpLexerModel PpParserModel MacroDefModel
  StrUtilsModel PpModel PpFacts PpSpec.

Lemma db_find_None d k : db_find d k = None <-> ~ In k (map fst d).
Proof.
  induction d as [|[k' e] d IH]; cbn [db_find map fst In]; [tauto|].
  destruct (seqb k' k) eqn:E.
  - apply seqb_eq in E. subst. split; [discriminate|]. intros H. exfalso. apply H. left; reflexivity.
  - apply seqb_neq in E. rewrite IH. tauto.
Qed.
Lemma db_find_app d d' k : db_find (d ++ d') k = match db_find d k with Some e => Some e | None => db_find d' k end.
Proof.
  induction d as [|[k' e] d IH]; cbn [db_find app]; [reflexivity|]. destruct (seqb k' k); [reflexivity|exact IH].
Qed.
Lemma db_find_insert d k e k' :
  db_find (db_insert d k e) k' = match db_find d k' with
                                 | Some x => Some x
                                 | None => if seqb k k' then Some e else None
                                 end.
Proof.
  unfold db_insert. destruct (db_find d k) as [x|] eqn:E.
  - destruct (db_find d k') eqn:E'; [reflexivity|]. destruct (seqb k k') eqn:K; [|reflexivity].
    apply seqb_eq in K. congruence.
  - rewrite db_find_app. reflexivity.
Qed.
Lemma uniq_insert d k e : uniq d -> uniq (db_insert d k e).
Proof.
  unfold uniq, db_insert. intros H. destruct (db_find d k) eqn:E; [exact H|].
  apply db_find_None in E. rewrite map_app. cbn [map fst].
  apply NoDup_Add with (a := k) (l := map fst d); [|auto].
  rewrite <- (app_nil_r (map fst d)) at 1. apply Add_app.
Qed.
Lemma uniq_filter f d : uniq d -> uniq (filter f d).
Proof.
  unfold uniq. induction d as [|x d IH]; cbn [filter map]; [auto|]. intros H. inversion H as [|? ? Hn Hd]; subst.
  destruct (f x); cbn [map]; [|auto]. constructor; [|auto]. intros Hin. apply Hn.
  apply in_map_iff in Hin as (y & E & Hy). apply filter_In in Hy as [Hy _]. apply in_map_iff. eauto.
Qed.
Lemma db_find_erase d k k' : db_find (db_erase d k) k' = if seqb k k' then None else db_find d k'.
Proof.
  unfold db_erase. induction d as [|[a e] d IH]; cbn [filter fst db_find].
  - destruct (seqb k k'); reflexivity.
  - destruct (seqb a k) eqn:E; cbn [negb].
    + rewrite IH. destruct (seqb k k') eqn:K; [reflexivity|].
      apply seqb_eq in E. subst a. rewrite K. reflexivity.
    + cbn [db_find]. rewrite IH. destruct (seqb a k') eqn:A; [|reflexivity].
      apply seqb_eq in A. subst a. destruct (seqb k k') eqn:K; [|reflexivity].
      apply seqb_eq in K. subst. rewrite seqb_refl in E. discriminate.
Qed.
Lemma np_insert d k e : e_persistent e = false ->
  delete_non_persistent (db_insert d k e) = delete_non_persistent d.
Proof.
  intros H. unfold db_insert, delete_non_persistent. destruct (db_find d k); [reflexivity|].
  rewrite filter_app. cbn [filter snd]. rewrite H. apply app_nil_r.
Qed.
Lemma np_np d : delete_non_persistent (delete_non_persistent d) = delete_non_persistent d.
Proof.
  unfold delete_non_persistent. induction d as [|x d IH]; cbn [filter]; [reflexivity|].
  destruct (e_persistent (snd x)) eqn:E; cbn [filter]; rewrite ?E, IH; reflexivity.
Qed.
Lemma np_erase d k e : uniq d -> db_find d k = Some e -> e_persistent e = false ->
  delete_non_persistent (db_erase d k) = delete_non_persistent d.
Proof.
  unfold delete_non_persistent, db_erase, uniq.
  induction d as [|[a x] d IH]; cbn [filter map fst snd db_find]; [reflexivity|].
  intros HU HF HP. inversion HU as [|? ? Hn Hd]; subst. destruct (seqb a k) eqn:E; cbn [negb].
  - inversion HF; subst x. rewrite HP. apply seqb_eq in E. subst a.
    assert (filter (fun p : str * entry => negb (seqb (fst p) k)) d = d) as ->; [|reflexivity].
    clear -Hn. induction d as [|[a x] d IH]; cbn [filter fst map In] in *; [reflexivity|].
    destruct (seqb a k) eqn:E; [apply seqb_eq in E; tauto|]. cbn [negb]. f_equal. apply IH. tauto.
  - cbn [filter snd]. rewrite (IH Hd HF HP). reflexivity.
Qed.
Lemma np_find d k : uniq d -> db_find (delete_non_persistent d) k =
  match db_find d k with Some e => if e_persistent e then Some e else None | None => None end.
Proof.
  unfold delete_non_persistent, uniq. induction d as [|[a x] d IH]; cbn [filter map fst snd db_find]; [reflexivity|].
  intros HU. inversion HU as [|? ? Hn Hd]; subst. destruct (e_persistent x) eqn:P; cbn [db_find].
  - destruct (seqb a k); [rewrite P; reflexivity|]. apply IH; exact Hd.
  - rewrite (IH Hd). destruct (seqb a k) eqn:E; [|reflexivity].
    apply seqb_eq in E. subst a. apply db_find_None in Hn. rewrite Hn, P. reflexivity.
Qed.

(** ** Relations between states that every run respects, whatever its outcome *)
Section Preserve.
  Variable R : pst -> pst -> Prop.
  Hypothesis R_refl : forall s, R s s.
  Hypothesis R_trans : forall a b c, R a b -> R b c -> R a c.
  (** blind to everything but the database *)
  Hypothesis R_db : forall s s', ps_db s' = ps_db s -> R s s'.
  Hypothesis R_insert : forall s k m, R s (set_db s (db_insert (ps_db s) k (mkEntry false (MUser m)))).
  Hypothesis R_undef : forall s k e, db_find (ps_db s) k = Some e -> e_persistent e = false ->
    R s (set_db s (db_erase (ps_db s) k)).
  Hypothesis R_undefall : forall s, R s (set_db s (delete_non_persistent (ps_db s))).

  Definition keeps {A} (m : MM A) : Prop := forall st, R st (snd (m st)).
  Lemma keeps_bind {A B} (m : MM A) (f : A -> MM B) : keeps m -> (forall a, keeps (f a)) -> keeps (mbind m f).
  Proof.
    intros H1 H2 st. unfold mbind. specialize (H1 st). destruct (m st) as [[a|e|w|] st']; cbn [snd] in *; auto.
    eapply R_trans; [exact H1|apply H2].
  Qed.
  Lemma keeps_lift {A} (m : outcome A) : keeps (lift m). Proof. intros st. apply R_refl. Qed.
  Lemma keeps_ret {A} (a : A) : keeps (ret a). Proof. intros st. apply R_refl. Qed.
  Lemma keeps_get : keeps get. Proof. intros st. apply R_refl. Qed.
  Lemma keeps_modify f : (forall s, ps_db (f s) = ps_db s) -> keeps (modify f).
  Proof. intros H st. apply R_db. apply H. Qed.

  Variable l : lang.
  Variable fs : fsys.

  Section Lv.
    Variable rs rf : str -> outbuf -> MM outbuf.
    Hypothesis Hrs : forall i o, keeps (rs i o).
    Hypothesis Hrf : forall i o, keeps (rf i o).
    Variable src : str.
    Variable added : bool.

    Lemma keeps_call m out : keeps (call_text l rs src m out).
    Proof.
      unfold call_text. apply keeps_bind; [apply keeps_get|]. intros st.
      apply keeps_bind; [apply keeps_lift|]. intros r. apply keeps_bind.
      - destruct (find [bt] r); [|apply keeps_ret]. destruct (_ <=? _); [apply keeps_lift|].
        apply keeps_bind; [apply keeps_modify; reflexivity|]. intros _.
        apply keeps_bind; [apply keeps_lift|]. intros b0. apply keeps_bind; [apply Hrs|]. intros b.
        apply keeps_bind; [apply keeps_modify; reflexivity|]. intros _. apply keeps_ret.
      - intros r'. destruct (lang_ge l SV2005); [apply keeps_lift|apply keeps_ret].
    Qed.
    Lemma keeps_include tok arg out : keeps (visit_include l fs rs rf src added tok arg out).
    Proof.
      unfold visit_include. apply keeps_bind; [destruct arg; [apply keeps_ret|apply keeps_call]|]. intros p.
      apply keeps_bind; [apply keeps_get|]. intros st. apply keeps_bind; [apply keeps_lift|]. intros [name|]; [|apply keeps_lift].
      destruct (_ <? _); [apply keeps_lift|]. apply keeps_bind.
      - destruct added; [|apply keeps_ret]. destruct (rev (ps_incdirs st)); [apply keeps_lift|apply keeps_modify; reflexivity].
      - intros _. apply keeps_bind; [apply keeps_lift|]. intros b0. apply keeps_bind; [apply Hrf|]. intros b.
        apply keeps_bind; [|intros; apply keeps_ret]. destruct added; [apply keeps_modify; reflexivity|apply keeps_ret].
    Qed.
    Lemma keeps_define d : keeps (visit_define src d).
    Proof.
      intros st. unfold visit_define. destruct (body <- define_body d;; _); cbn [snd]; auto.
    Qed.
    Lemma keeps_undef n : keeps (visit_undef n).
    Proof.
      intros st. unfold visit_undef. destruct (db_find (ps_db st) n) as [e|] eqn:E; [|apply R_refl].
      destruct (e_persistent e) eqn:P; cbn [snd]; [apply R_refl|]. eapply R_undef; eassumption.
    Qed.
    Lemma keeps_visit :
      (forall ts out, keeps (visit_texts l fs rs rf src added ts out)) /\
      (forall t out, keeps (visit_text l fs rs rf src added t out)) /\
      (forall bs neg els out, (forall o, keeps (els o)) -> keeps (visit_branches l fs rs rf src added neg bs els out)) /\
      (forall e out, keeps (visit_else l fs rs rf src added e out)).
    Proof.
      apply tree_mut.
      - intros out. apply keeps_ret.
      - intros t IHt ts IHts out. cbn [visit_texts]. apply keeps_bind; auto.
      - intros t out. cbn [visit_text]. apply keeps_bind; [apply keeps_lift|]. intros; apply keeps_ret.
      - intros d out. cbn [visit_text]. apply keeps_bind; [apply keeps_define|]. intros; apply keeps_ret.
      - intros neg bs IHb e IHe out. cbn [visit_text]. apply IHb. exact IHe.
      - intros m out. cbn [visit_text]. unfold visit_call. apply keeps_bind; [apply keeps_call|]. intros r.
        apply keeps_bind; [apply keeps_lift|]. intros; apply keeps_ret.
      - intros n out. cbn [visit_text]. apply keeps_bind; [apply keeps_undef|]. intros; apply keeps_ret.
      - intros tok a out. cbn [visit_text]. apply keeps_include.
      - intros n f out. cbn [visit_text]. apply keeps_lift.
      - intros out. cbn [visit_text]. apply keeps_bind; [|intros; apply keeps_ret]. intros st. apply R_undefall.
      - intros t out. apply keeps_ret.
      - intros neg els out H. cbn [visit_branches]. apply H.
      - intros n line g IHg bs IHb neg els out H. cbn [visit_branches]. apply keeps_bind; [apply keeps_get|]. intros st.
        cbv zeta. destruct (Bool.eqb _ _); [|apply IHb; exact H].
        apply keeps_bind; [apply keeps_lift|]. intros; apply IHg.
      - intros out. apply keeps_ret.
      - intros line g IHg out. cbn [visit_else]. apply keeps_bind; [apply keeps_lift|]. intros; apply IHg.
    Qed.
    Lemma keeps_preproc input out : keeps (run_preproc l fs rs rf src added input out).
    Proof.
      unfold run_preproc. apply keeps_bind; [apply keeps_lift|]. intros tree.
      destruct (negb (is_verilog l)); [apply keeps_lift|apply keeps_visit].
    Qed.
  End Lv.

  Lemma keeps_run : forall fuel, (forall i o, keeps (run_str fuel l fs i o)) /\ (forall i o, keeps (run_file fuel l fs i o)).
  Proof.
    induction fuel as [|fuel (IHs & IHf)]; [split; intros i o st; apply R_refl|]. split; intros i o; cbn [run_str run_file].
    - apply keeps_bind; [apply keeps_get|]. intros st. cbv zeta. apply keeps_bind; [apply keeps_lift|]. intros out'.
      apply keeps_preproc; assumption.
    - apply keeps_bind; [apply keeps_get|]. intros st. cbv zeta.
      apply keeps_bind; [apply keeps_modify; intros s; destruct (negb _); reflexivity|]. intros _.
      apply keeps_bind; [apply keeps_modify; reflexivity|]. intros _.
      destruct (fs i); [|apply keeps_lift]. apply keeps_bind; [apply keeps_lift|]. intros out'.
      apply keeps_bind; [apply keeps_preproc; assumption|]. intros b.
      apply keeps_bind; [apply keeps_modify; reflexivity|]. intros _.
      apply keeps_bind; [apply keeps_modify; intros s0; destruct (negb _); reflexivity|]. intros _. apply keeps_ret.
  Qed.
  Lemma keeps_pp_str d dirs s : R (pp_init l d dirs) (snd (verilog_pp_str l fs d dirs s)).
  Proof. apply (proj1 (keeps_run enough_fuel)). Qed.
  Lemma keeps_pp_file d dirs s : R (pp_init l d dirs) (snd (verilog_pp_file l fs d dirs s)).
  Proof. apply (proj2 (keeps_run enough_fuel)). Qed.
End Preserve.

(** The persistent part of the database never changes. *)
Definition same_persistent (s s' : pst) : Prop :=
  uniq (ps_db s) -> uniq (ps_db s') /\ delete_non_persistent (ps_db s') = delete_non_persistent (ps_db s).
Lemma uniq_init l d dirs : uniq d -> uniq (ps_db (pp_init l d dirs)).
Proof.
  intros H. unfold pp_init. cbn [ps_db]. unfold add_default_defs.
  assert (uniq (delete_non_persistent d)) by (apply uniq_filter; exact H).
  destruct (lang_ge l SV2009); [|assumption]. repeat apply uniq_insert. assumption.
Qed.
Lemma np_init l d dirs : delete_non_persistent (ps_db (pp_init l d dirs)) = delete_non_persistent d.
Proof.
  unfold pp_init. cbn [ps_db]. unfold add_default_defs. destruct (lang_ge l SV2009); rewrite ?np_insert by reflexivity; apply np_np.
Qed.

Lemma sp_all l fs d dirs :
  (forall s, same_persistent (pp_init l d dirs) (snd (verilog_pp_str l fs d dirs s))) /\
  (forall s, same_persistent (pp_init l d dirs) (snd (verilog_pp_file l fs d dirs s))).
Proof.
  split; intros s; (apply keeps_pp_str || apply keeps_pp_file); unfold same_persistent.
  all: try (intros s0 Hu; split; [exact Hu|reflexivity]).
  all: try (intros a b c H1 H2 Hu; destruct (H1 Hu) as (U1 & E1); destruct (H2 U1) as (U2 & E2); split; congruence).
  all: try (intros s0 s' -> Hu; split; [exact Hu|reflexivity]).
  all: try (intros s0 k m Hu; cbn [set_db ps_db]; split; [apply uniq_insert; exact Hu|apply np_insert; reflexivity]).
  all: try (intros s0 k e HF HP Hu; cbn [set_db ps_db]; split; [apply uniq_filter; exact Hu|eapply np_erase; eassumption]).
  all: intros s0 Hu; cbn [set_db ps_db]; split; [apply uniq_filter; exact Hu|apply np_np].
Qed.

Lemma persistent_survive l fs d dirs s : uniq d ->
  let st' := snd (verilog_pp_str l fs d dirs s) in
  delete_non_persistent (ps_db st') = delete_non_persistent d
  /\ (forall k e, db_find d k = Some e -> e_persistent e = true -> db_find (ps_db st') k = Some e)
  /\ forall l2 dirs2, pp_init l2 (ps_db st') dirs2 = pp_init l2 d dirs2.
Proof.
  intros Hu st'. destruct (proj1 (sp_all l fs d dirs) s (uniq_init l d dirs Hu)) as (Hu' & E).
  fold st' in Hu', E. rewrite np_init in E. split; [exact E|]. split.
  - intros k e HF HP. pose proof (np_find d k Hu) as F1. pose proof (np_find _ k Hu') as F2.
    rewrite E, F1, HF, HP in F2. destruct (db_find (ps_db st') k) as [e'|]; [|discriminate].
    destruct (e_persistent e'); congruence.
  - intros l2 dirs2. unfold pp_init. rewrite E. reflexivity.
Qed.
Lemma persistent_survive_file l fs d dirs s : uniq d ->
  let st' := snd (verilog_pp_file l fs d dirs s) in
  delete_non_persistent (ps_db st') = delete_non_persistent d
  /\ (forall k e, db_find d k = Some e -> e_persistent e = true -> db_find (ps_db st') k = Some e)
  /\ forall l2 dirs2, pp_init l2 (ps_db st') dirs2 = pp_init l2 d dirs2.
Proof.
  intros Hu st'. destruct (proj2 (sp_all l fs d dirs) s (uniq_init l d dirs Hu)) as (Hu' & E).
  fold st' in Hu', E. rewrite np_init in E. split; [exact E|]. split.
  - intros k e HF HP. pose proof (np_find d k Hu) as F1. pose proof (np_find _ k Hu') as F2.
    rewrite E, F1, HF, HP in F2. destruct (db_find (ps_db st') k) as [e'|]; [|discriminate].
    destruct (e_persistent e'); congruence.
  - intros l2 dirs2. unfold pp_init. rewrite E. reflexivity.
Qed.
