(** Line accounting and the line map of the output buffer. *)
From Verif Require Import Base BaseFacts OutBufferModel OutBufferProofs PpModel PpSpec PpRunProofs.
Local Open Scope Z_scope.

Lemma history_accounted b : history b -> accounted b.
Proof.
  induction 1 as [k b H|b s _ IH|b _ IH|b n b' _ IH H|b f n b' _ IH H|b o _ IHb _ IHo].
  - eapply accounted_new; exact H.
  - apply accounted_put; exact IH.
  - rewrite buf_endl_put. apply accounted_put; exact IH.
  - eapply accounted_set_line; eassumption.
  - eapply accounted_set_file; eassumption.
  - apply accounted_append; assumption.
Qed.

(** the documented relation right after a re-synchronisation *)
Lemma set_line_relation b n b' : set_line b n = Ok b' -> cong (cur_line b') n.
Proof.
  unfold set_line. destruct ((0 <? lines_to_add b n) && (lines_to_add b n <=? NEWLINE_TRESHOLD)) eqn:E.
  - intros H; inversion H as [H1]; clear H. apply andb_prop in E as [E1 E2]. apply Z.ltb_lt in E1.
    unfold cur_line. rewrite (buf_endls_eq _ b). cbn [ob_off ob_begin]. cbn [ob_line].
    eapply cong_trans.
    + apply cong_add; [apply cong_add; [apply buf_endls_line|apply cong_refl]|apply cong_refl].
    + rewrite Z2Nat.id by lia. unfold lines_to_add.
      eapply cong_trans; [|apply (cong_refl n)].
      replace n with (ob_line b + (n - (ob_line b + ob_off b + ob_begin b)) + ob_off b + ob_begin b) at 2 by lia.
      repeat (apply cong_add; [|apply cong_refl]). apply cong_add; [apply cong_refl|apply to_size_cong].
  - destruct (rev (ob_map b)) as [|x r]; [discriminate|]. intros H; inversion H; subst b'; clear H.
    unfold cur_line. cbn [ob_line ob_off ob_begin].
    eapply cong_trans.
    + apply cong_add; [apply cong_add; [apply cong_refl|apply to_ssize_cong]|apply cong_refl].
    + unfold lines_to_add.
      replace n with (ob_line b + (ob_off b + (n - (ob_line b + ob_off b + ob_begin b))) + ob_begin b) at 2 by lia.
      apply cong_add; [|apply cong_refl]. apply cong_add; [apply cong_refl|].
      apply cong_add; [apply cong_refl|apply to_size_cong].
Qed.
Lemma set_file_relation b f n b' : ob_begin b = 0 -> set_file_line b f n = Ok b' -> cong (cur_line b') n.
Proof.
  intros Hb. unfold set_file_line.
  assert (forall m : list lm_item, cong (cur_line (mkBuf (ob_text b) m (ob_line b) (to_ssize (ob_begin b + n - ob_line b)) (ob_begin b))) n) as F.
  { intros m. unfold cur_line. cbn [ob_line ob_off ob_begin]. rewrite Hb.
    replace n with (ob_line b + (0 + n - ob_line b) + 0) at 2 by lia.
    apply cong_add; [|apply cong_refl]. apply cong_add; [apply cong_refl|apply to_ssize_cong]. }
  destruct (rev (ob_map b)) as [|x r].
  - intros H; inversion H; subst. apply F.
  - destruct (seqb (lm_file x) f); [apply set_line_relation|]. intros H; inversion H; subst. apply F.
Qed.

Lemma origin_snoc : forall m it n acc, lm_line it <= n ->
  origin (m ++ [it]) n acc = Some (lm_file it, lm_over it + (n - lm_line it)).
Proof.
  induction m as [|x m IH]; intros it n acc H; cbn [app origin].
  - destruct (Z.leb_spec (lm_line it) n); [reflexivity|lia].
  - apply IH. exact H.
Qed.

(** the last entry of the map agrees with the offset *)
Definition agree (b : outbuf) (f : option str) : Prop :=
  ob_begin b = 0 /\
  match f with
  | None => ob_map b = []
  | Some f => exists m it, ob_map b = m ++ [it] /\ lm_file it = f
                           /\ cong (lm_over it - lm_line it) (ob_off b)
  end.
Lemma set_line_agree b f n b' : agree b f -> set_line b n = Ok b' -> agree b' f.
Proof.
  intros (Hb & Hf) H. pose proof (set_line_relation _ _ _ H) as R. unfold set_line in H.
  destruct ((0 <? lines_to_add b n) && (lines_to_add b n <=? NEWLINE_TRESHOLD)).
  - inversion H as [E]. rewrite (buf_endls_eq _ b). split; [exact Hb|]. exact Hf.
  - destruct (rev (ob_map b)) as [|x r] eqn:Er; [discriminate|]. inversion H; subst b'; clear H.
    split; [exact Hb|]. destruct f as [f|].
    + destruct Hf as (m & it & Em & Ef & _). rewrite Em, rev_app_distr in Er. cbn in Er. inversion Er; subst x.
      exists (ob_map b), (mkItem (ob_line b) (lm_file it) n). cbn [ob_map lm_file lm_over lm_line ob_off].
      repeat split; [exact Ef|]. unfold cur_line in R. cbn [ob_line ob_off ob_begin] in R. rewrite Hb in R.
      apply cong_sym. set (o := to_ssize (ob_off b + lines_to_add b n)) in *.
      replace o with (ob_line b + o + 0 - ob_line b) by lia. apply cong_sub; [exact R|apply cong_refl].
    + rewrite Hf in Er. discriminate.
Qed.
Lemma in_file_agree b f : in_file b f -> agree b f.
Proof.
  induction 1 as [|b f s _ IH|b f _ IH|b f n b' _ IH H|b f g n b' _ IH H].
  - split; reflexivity.
  - exact IH.
  - exact IH.
  - eapply set_line_agree; eassumption.
  - destruct IH as (Hb & Hf). unfold set_file_line in H.
    assert (forall b2, Ok (mkBuf (ob_text b) (ob_map b ++ [mkItem (ob_line b) g n]) (ob_line b)
               (to_ssize (ob_begin b + n - ob_line b)) (ob_begin b)) = Ok b2 -> agree b2 (Some g)) as F.
    { intros b2 E; inversion E; subst b2. split; [exact Hb|]. exists (ob_map b), (mkItem (ob_line b) g n).
      repeat split. cbn [lm_over lm_line ob_off]. rewrite Hb. apply cong_sym.
      replace (n - ob_line b) with (0 + n - ob_line b) by lia. apply to_ssize_cong. }
    destruct (rev (ob_map b)) as [|x r] eqn:Er; [apply F; exact H|].
    destruct (seqb (lm_file x) g) eqn:S; [|apply F; exact H].
    apply seqb_eq in S. destruct f as [f|].
    + eapply set_line_agree; [|exact H]. split; [exact Hb|]. destruct Hf as (m & it & Em & Ef & C).
      exists m, it. rewrite Em, rev_app_distr in Er. cbn in Er. inversion Er; subst x. auto.
    + rewrite Hf in Er. discriminate.
Qed.
Lemma in_file_history b f : in_file b f -> history b.
Proof.
  induction 1.
  - apply (h_new 0). reflexivity.
  - apply h_put; assumption.
  - apply h_endl; assumption.
  - eapply h_line; eassumption.
  - eapply h_file; eassumption.
Qed.

Lemma agree_origin b f : agree b (Some f) -> accounted b -> Z.of_nat (count_nl (ob_text b)) < two64 ->
  exists z, origin (ob_map b) (ob_line b) None = Some (f, z) /\ cong z (cur_line b).
Proof.
  intros (Hb & m & it & Em & Ef & C) (_ & A) Hn. destruct (A Hn) as (_ & F). rewrite Em in F.
  apply Forall_app in F as [_ F]. inversion F as [|? ? Hit _]; subst.
  exists (lm_over it + (ob_line b - lm_line it)). rewrite Em, origin_snoc by lia. split; [reflexivity|].
  unfold cur_line. rewrite Hb.
  replace (lm_over it + (ob_line b - lm_line it)) with (ob_line b + (lm_over it - lm_line it) + 0) by lia.
  apply cong_add; [|apply cong_refl]. apply cong_add; [apply cong_refl|exact C].
Qed.

Lemma line_origin b f n b' : in_file b (Some f) -> set_line b n = Ok b' -> Z.of_nat (count_nl (ob_text b')) < two64 ->
  exists z, origin (ob_map b') (ob_line b') None = Some (f, z) /\ cong z n.
Proof.
  intros H E Hc.
  assert (in_file b' (Some f)) as H' by (eapply if_line; eassumption).
  destruct (agree_origin b' f (in_file_agree _ _ H') (history_accounted _ (in_file_history _ _ H')) Hc) as (z & O & C).
  exists z. split; [exact O|]. eapply cong_trans; [exact C|]. eapply set_line_relation; exact E.
Qed.
Lemma file_origin b f g n b' : in_file b f -> set_file_line b g n = Ok b' -> Z.of_nat (count_nl (ob_text b')) < two64 ->
  exists z, origin (ob_map b') (ob_line b') None = Some (g, z) /\ cong z n.
Proof.
  intros H E Hc.
  assert (in_file b' (Some g)) as H' by (eapply if_file; eassumption).
  destruct (agree_origin b' g (in_file_agree _ _ H') (history_accounted _ (in_file_history _ _ H')) Hc) as (z & O & C).
  exists z. split; [exact O|]. eapply cong_trans; [exact C|].
  eapply set_file_relation; [|exact E]. exact (proj1 (in_file_agree _ _ H)).
Qed.
Lemma run_accounted l fs d dirs s b st : db_ok d ->
  verilog_pp_str l fs d dirs s = (Ok b, st) -> accounted b.
Proof.
  intros Hd E. pose proof (verilog_pp_str_spec l fs d dirs s Hd) as P. rewrite E in P. cbn in P.
  destruct P as (_ & _ & (_ & _ & A) & _). exact A.
Qed.
Lemma run_accounted_file l fs d dirs s b st : db_ok d ->
  verilog_pp_file l fs d dirs s = (Ok b, st) -> accounted b.
Proof.
  intros Hd E. pose proof (verilog_pp_file_spec l fs d dirs s Hd) as P. rewrite E in P. cbn in P.
  destruct P as (_ & _ & (_ & _ & A) & _). exact A.
Qed.
