(** Proofs about macro definitions: substitution, arguments, absence of out-of-range accesses. *)
From Verif Require Import Base BaseFacts MacroDefModel MacroSpec.
From Coq Require Import Permutation Sorted ZifyBool ZifyNat ZifyN.

(** ** Argument binding *)

Lemma nth_error_firstn {A} (l : list A) n i : i < n -> nth_error (firstn n l) i = nth_error l i.
Proof.
  revert n i; induction l as [|x l IH]; intros [|n] [|i] H; cbn; try lia; try reflexivity.
  apply IH. lia.
Qed.

Lemma replace_nth {A} (l : list A) i x : i < length l ->
  forall j, nth_error (firstn i l ++ x :: skipn (S i) l) j
            = if j =? i then Some x else nth_error l j.
Proof.
  intros H j. assert (length (firstn i l) = i) as Hl by (rewrite firstn_length; lia).
  destruct (Nat.eqb_spec j i) as [->|Hj].
  - rewrite nth_error_app2 by lia. rewrite Hl, Nat.sub_diag. reflexivity.
  - destruct (Nat.lt_ge_cases j i).
    + rewrite nth_error_app1 by lia. apply nth_error_firstn. lia.
    + rewrite nth_error_app2 by lia. rewrite Hl. replace (j - i) with (S (j - S i)) by lia.
      cbn [nth_error]. rewrite <- (firstn_skipn (S i) l) at 2.
      rewrite nth_error_app2 by (rewrite firstn_length; lia).
      f_equal. rewrite firstn_length. lia.
Qed.

(** State of the default-filling loop before parameter [i]. *)
Definition fill_inv (ps : list param_info) (args0 args : list str) (i : nat) : Prop :=
  length args = Nat.max i (length args0)
  /\ (forall j, i <= j -> nth_error args j = nth_error args0 j)
  /\ (forall j p v, j < i -> nth_error ps j = Some p -> nth_error args j = Some v ->
                    binds (p_has_def p) (p_def p) args0 j v).

Lemma fill_spec m args0 : forall ps' i args,
  length args0 <= length (m_params m) ->
  skipn i (m_params m) = ps' -> i <= length (m_params m) ->
  fill_inv (m_params m) args0 args i ->
  (exists vals, fill_defaults m (length args0) ps' i args = Ok vals
                /\ bound (m_params m) args0 vals)
  \/ (exists msg, fill_defaults m (length args0) ps' i args = Throw (ParseException msg)
                  /\ forall vals, ~ bound (m_params m) args0 vals).
Proof.
  induction ps' as [|p ps' IH]; intros i args Hlen Hsk Hi (H1 & H2 & H3).
  - left. exists args. split; [reflexivity|].
    assert (i = length (m_params m)) as ->.
    { assert (length (skipn i (m_params m)) = 0) by (rewrite Hsk; reflexivity).
      rewrite skipn_length in H. lia. }
    split; [lia|]. intros j q v Hq Hv. apply H3; [|exact Hq|exact Hv].
    apply nth_error_Some. congruence.
  - assert (nth_error (m_params m) i = Some p) as Hp.
    { rewrite <- (firstn_skipn i (m_params m)), nth_error_app2; rewrite firstn_length.
      - rewrite Hsk. replace (i - Nat.min i (length (m_params m))) with 0 by lia. reflexivity.
      - lia. }
    assert (i < length (m_params m)) as Hi' by (apply nth_error_Some; congruence).
    assert (skipn (S i) (m_params m) = ps') as Hsk'.
    { replace (S i) with (1 + i) by lia. rewrite <- skipn_skipn, Hsk. reflexivity. }
    assert (forall v, fill_inv (m_params m) args0 args i ->
              nth_error args0 i = None -> binds (p_has_def p) (p_def p) args0 i v ->
              fill_inv (m_params m) args0 (args ++ [v]) (S i)) as Happ.
    { intros v (G1 & G2 & G3) Hn Hb. apply nth_error_None in Hn.
      assert (length args = i) as La by lia.
      split; [rewrite app_length; cbn [length]; lia|]. split.
      - intros j Hj. transitivity (@None str); [|symmetry]; apply nth_error_None;
          rewrite ?app_length; cbn [length]; lia.
      - intros j q w Hj Hq Hw. destruct (Nat.eq_dec j i) as [->|Hne].
        + rewrite Hp in Hq. inversion Hq; subst q.
          rewrite nth_error_app2, La, Nat.sub_diag in Hw by lia. inversion Hw; subst. exact Hb.
        + rewrite nth_error_app1 in Hw by lia. apply (G3 j q w); [lia|exact Hq|exact Hw]. }
    assert (forall a, nth_error args0 i = Some a -> nth_error args i = Some a) as Hat
      by (intros a Ha; rewrite H2 by lia; exact Ha).
    assert (forall a, nth_error args0 i = Some a -> binds (p_has_def p) (p_def p) args0 i a ->
              fill_inv (m_params m) args0 args (S i)) as Hkeep.
    { intros a Ha Hb. assert (i < length args0) by (apply nth_error_Some; congruence).
      split; [lia|]. split; [intros j Hj; apply H2; lia|].
      intros j q w Hj Hq Hw. destruct (Nat.eq_dec j i) as [->|Hne].
      - rewrite Hp in Hq. inversion Hq; subst q. rewrite (Hat a Ha) in Hw. inversion Hw; subst. exact Hb.
      - apply (H3 j q w); [lia|exact Hq|exact Hw]. }
    cbn [fill_defaults]. destruct (Nat.leb_spec (length args0) i) as [Hr|Hr].
    + (* no actual for this parameter *)
      assert (nth_error args0 i = None) as Hn by (apply nth_error_None; exact Hr).
      cbn [bind orb]. destruct (p_has_def p) eqn:Hd; cbn [negb].
      * rewrite (proj2 (Nat.ltb_ge _ _)) by lia. apply IH; try assumption; try lia.
        apply Happ; [split; auto|exact Hn|]. unfold binds. rewrite Hn. left; auto.
      * destruct (Nat.eqb_spec (length args) 0) as [Hz|Hz].
        -- assert (i = 0) by lia. assert (args0 = []) by (destruct args0; [reflexivity|cbn in *; lia]).
           apply IH; try assumption; try lia. apply Happ; [split; auto|exact Hn|].
           unfold binds. rewrite Hn. right; auto.
        -- right. eexists. split; [reflexivity|]. intros vals (L & HB).
           assert (exists v, nth_error vals i = Some v) as (v & Hv).
           { destruct (nth_error vals i) eqn:E; [eauto|]. apply nth_error_None in E. lia. }
           specialize (HB i p v Hp Hv). unfold binds in HB. rewrite Hn, Hd in HB.
           destruct HB as [(? & _)|(_ & -> & -> & _)]; [discriminate|]. cbn in *. lia.
    + destruct (nth_error args0 i) as [a|] eqn:Ha; [|apply nth_error_None in Ha; lia].
      rewrite (Hat a eq_refl). cbn [bind orb].
      destruct (Nat.eqb_spec (length a) 0) as [Hz|Hz].
      * assert (a = []) by (destruct a; [reflexivity|cbn in *; lia]). subst a.
        destruct (p_has_def p) eqn:Hd; cbn [negb].
        -- rewrite (proj2 (Nat.ltb_lt _ _)) by lia. apply IH; try assumption; try lia.
           split; [|split].
           ++ rewrite app_length, firstn_length. cbn [length]. rewrite skipn_length. lia.
           ++ intros j Hj. rewrite replace_nth by lia. destruct (Nat.eqb_spec j i); [lia|]. apply H2. lia.
           ++ intros j q w Hj Hq Hw. rewrite replace_nth in Hw by lia.
              destruct (Nat.eqb_spec j i) as [->|Hne].
              ** rewrite Hp in Hq. inversion Hq; subst q. inversion Hw; subst.
                 unfold binds. rewrite Ha, Hd. reflexivity.
              ** apply (H3 j q w); [lia|exact Hq|exact Hw].
        -- apply IH; try assumption; try lia. eapply Hkeep; [reflexivity|].
           unfold binds. rewrite Ha. reflexivity.
      * apply IH; try assumption; try lia. eapply Hkeep; [reflexivity|].
        unfold binds. rewrite Ha. assert (seqb a [] = false) as -> by (destruct a; [cbn in *; lia|reflexivity]).
        rewrite andb_false_r. reflexivity.
Qed.

Lemma fill_top m args : length args <= length (m_params m) ->
  (exists vals, fill_defaults m (length args) (m_params m) 0 args = Ok vals /\ bound (m_params m) args vals)
  \/ (exists msg, fill_defaults m (length args) (m_params m) 0 args = Throw (ParseException msg)
                  /\ forall vals, ~ bound (m_params m) args vals).
Proof.
  intros H. apply fill_spec; [exact H|reflexivity|lia|]. split; [cbn; lia|]. split; [reflexivity|].
  intros; lia.
Qed.

Lemma bound_unique ps args vals vals' : bound ps args vals -> bound ps args vals' -> vals = vals'.
Proof.
  intros (L & H) (L' & H'). assert (forall i, nth_error vals i = nth_error vals' i) as E.
  { intros i. destruct (nth_error ps i) as [p|] eqn:Hp.
    - assert (i < length ps) by (apply nth_error_Some; congruence).
      destruct (nth_error vals i) as [v|] eqn:Hv; [|apply nth_error_None in Hv; lia].
      destruct (nth_error vals' i) as [v'|] eqn:Hv'; [|apply nth_error_None in Hv'; lia].
      specialize (H i p v Hp Hv). specialize (H' i p v' Hp Hv'). unfold binds in *.
      destruct (nth_error args i); [congruence|].
      destruct H as [(? & ->)|(? & _ & _ & ->)], H' as [(? & ->)|(? & _ & _ & ->)]; congruence.
    - apply nth_error_None in Hp. transitivity (@None str); [|symmetry]; apply nth_error_None; lia. }
  revert vals' E L L' H H'. clear. intros vals'. revert vals'.
  induction vals as [|v vals IH]; intros [|v' vals'] E L L' H H'; try reflexivity.
  - specialize (E 0); discriminate.
  - specialize (E 0); discriminate.
  - pose proof (E 0) as E0. cbn in E0. inversion E0; subst. f_equal.
    clear - E. revert vals' E. induction vals as [|x vals IH]; intros [|y vals'] E; try reflexivity.
    + specialize (E 1); discriminate.
    + specialize (E 1); discriminate.
    + pose proof (E 1) as E1. cbn in E1. inversion E1; subst. f_equal. apply IH.
      intros [|i]; [reflexivity|]. apply (E (S (S i))).
Qed.

(** ** Rendering *)
Lemma render_ok fs vals : (forall i, In (FArg i) fs -> i < length vals) ->
  exists t, render fs vals = Ok t.
Proof.
  induction fs as [|[s|i] fs IH]; intros H; cbn [render].
  - eexists; reflexivity.
  - destruct IH as (t & ->); [intros i Hi; apply H; right; exact Hi|]. eexists; reflexivity.
  - assert (i < length vals) as Hi by (apply H; left; reflexivity).
    destruct (nth_error vals i) eqn:E; [|apply nth_error_None in E; lia].
    destruct IH as (t & ->); [intros j Hj; apply H; right; exact Hj|]. eexists; reflexivity.
Qed.

(** ** Safety of the constructor *)
Lemma collect_scan_ok t : forall fuel done rest prev acc, t = done ++ rest -> length rest < fuel ->
  exists r, collect_loop fuel t (length done) prev acc = Ok r.
Proof.
  induction fuel as [|fuel IH]; intros done rest prev acc E Hf; [lia|].
  cbn [collect_loop]. rewrite E, find_from_app. destruct (find [dq] rest) as [i|] eqn:F; cbn [option_map].
  2:{ eexists; reflexivity. }
  apply find_Some in F as (a & b & E2 & Hl & _). subst rest i. rewrite <- E.
  assert (t = (done ++ a ++ [dq]) ++ b) as E3 by (rewrite E, <- !app_assoc; reflexivity).
  replace (S (length done + length a)) with (length (done ++ a ++ [dq])) by len.
  assert (exists b, match length done + length a with
                    | 0 => Ok false
                    | S j => c <- char_at t j;; Ok (ceqb c bt || ceqb c bs)
                    end = Ok b) as (esc & ->).
  { destruct (length done + length a) as [|j] eqn:Ej; [eexists; reflexivity|].
    destruct (char_at_lt t j) as (c & -> & _); [rewrite E; len|]. eexists; reflexivity. }
  cbn [bind]. assert (length b < fuel) by (revert Hf; len).
  destruct esc; [apply (IH _ b); assumption|].
  destruct prev; apply (IH _ b); assumption.
Qed.
Lemma collect_ok name t : exists r, collect_string_intervals name t = r
  /\ ((exists ivs, r = Ok ivs) \/ exists msg, r = Throw (ParseException msg)).
Proof.
  unfold collect_string_intervals.
  destruct (collect_scan_ok t (S (length t)) [] t None [] eq_refl ltac:(lia)) as ([prev acc] & E).
  cbn [length] in E. rewrite E. cbn [bind]. destruct prev; eauto.
Qed.

Lemma find_from_Some p s pos i : find_from p s pos = Some i ->
  pos <= i /\ i + length p <= length s /\ exists a b, s = a ++ p ++ b /\ length a = i.
Proof.
  unfold find_from. destruct (Nat.ltb_spec (length s) pos); [discriminate|].
  destruct (find p (skipn pos s)) as [j|] eqn:F; cbn; [|discriminate]. intros Q; inversion Q; subst.
  apply find_Some in F as (a & b & E & Hl & _).
  assert (length (skipn pos s) = length s - pos) as Ls by apply skipn_length.
  rewrite E in Ls. rewrite !app_length in Ls. split; [lia|]. split; [lia|].
  exists (firstn pos s ++ a), b. split.
  - rewrite <- app_assoc, <- E. symmetry. apply firstn_skipn.
  - rewrite app_length, firstn_length. lia.
Qed.

Lemma char_at_le s i : i <= length s -> exists c, char_at s i = Ok c.
Proof.
  intros H. destruct (Nat.eq_dec i (length s)) as [->|Hne].
  - exists c0. apply char_at_end.
  - destruct (char_at_lt s i) as (c & -> & _); [lia|]. eexists; reflexivity.
Qed.

Lemma check_in_string_spec ivs p a n : check_is_in_string ivs p = Some (a, n) -> a <= p < a + n.
Proof.
  unfold check_is_in_string. intros H. apply List.find_some in H as [_ H]. cbn [fst snd] in H. apply andb_prop in H as [H1 H2]. apply Nat.leb_le in H1. apply Nat.ltb_lt in H2. lia.
Qed.

Lemma usage_loop_ok ivs body name : forall fuel pos, S (length body) - pos < fuel ->
  exists us, usage_loop fuel ivs body name pos = Ok us
             /\ forall u, In u us -> u + length name <= length body.
Proof.
  induction fuel as [|fuel IH]; intros pos Hf; [lia|]. cbn [usage_loop].
  destruct (find_from name body pos) as [p|] eqn:F; [|eexists; split; [reflexivity|intros u []]].
  apply find_from_Some in F as (Hp & Hlen & _).
  assert (exists b, match p with
                    | 0 => Ok false
                    | S j => c <- char_at body j;; Ok (part_pre c)
                    end = Ok b) as (pre & ->).
  { destruct p as [|j]; [eexists; reflexivity|].
    destruct (char_at_le body j) as (c & ->); [lia|]. eexists; reflexivity. }
  cbn [bind]. destruct pre; [apply IH; lia|].
  destruct (char_at_le body (p + length name)) as (c & ->); [lia|]. cbn [bind].
  destruct (part_post c); [apply IH; lia|].
  destruct (check_is_in_string ivs p) as [[a n]|] eqn:C.
  - apply check_in_string_spec in C. apply IH. lia.
  - destruct (IH (S p)) as (us & -> & Hu); [lia|]. cbn [bind]. eexists; split; [reflexivity|].
    intros u [<-|Hin]; [exact Hlen|apply Hu; exact Hin].
Qed.

Definition usage_ok (body : str) (params : list param_info) (x : nat * nat) : Prop :=
  exists p, nth_error params (snd x) = Some p /\ fst x + length (p_name p) <= length body.

Lemma all_usages_ok ivs body all : forall ps i, skipn i all = ps ->
  exists us, all_usages ivs body ps i = Ok us /\ Forall (usage_ok body all) us.
Proof.
  induction ps as [|p ps IH]; intros i Hsk; cbn [all_usages].
  - eexists; split; [reflexivity|constructor].
  - destruct (usage_loop_ok ivs body (p_name p) (S (S (length body))) 0) as (us & -> & Hu); [lia|].
    cbn [bind]. destruct (IH (S i)) as (rest & -> & Hr).
    { replace (S i) with (1 + i) by lia. rewrite <- skipn_skipn, Hsk. reflexivity. }
    cbn [bind]. eexists; split; [reflexivity|]. apply Forall_app. split; [|exact Hr].
    apply Forall_forall. intros x Hx. apply in_map_iff in Hx as (u & <- & Hin).
    exists p. cbn. split; [|apply Hu; exact Hin].
    assert (i < length all) as Hi.
    { destruct (Nat.lt_ge_cases i (length all)); [assumption|]. rewrite skipn_all2 in Hsk by lia. discriminate. }
    rewrite <- (firstn_skipn i all), nth_error_app2; rewrite firstn_length; [|lia].
    rewrite Hsk. replace (i - Nat.min i (length all)) with 0 by lia. reflexivity.
Qed.

Lemma insert_pair_perm x l : Permutation (x :: l) (insert_pair x l).
Proof.
  induction l as [|y l IH]; cbn [insert_pair]; [apply Permutation_refl|].
  destruct (pair_le x y); [apply Permutation_refl|].
  eapply perm_trans; [apply perm_swap|]. apply perm_skip. exact IH.
Qed.
Lemma sort_pairs_perm l : Permutation l (sort_pairs l).
Proof.
  induction l as [|x l IH]; cbn; [constructor|].
  eapply perm_trans; [apply perm_skip; exact IH|]. apply insert_pair_perm.
Qed.

Lemma cut_ok body params : forall us start, Forall (usage_ok body params) us -> start <= length body ->
  exists fs, cut body params us start = Ok fs /\ forall i, In (FArg i) fs -> i < length params.
Proof.
  induction us as [|[pos i] us IH]; intros start HF Hs; cbn [cut].
  - destruct (Nat.eqb_spec start (length body)); [eexists; split; [reflexivity|intros i []]|].
    unfold substr. rewrite (proj2 (Nat.ltb_ge _ _)) by lia. cbn [bind].
    eexists; split; [reflexivity|]. intros i [H|[]]; discriminate.
  - inversion HF as [|x l (p & Hp & Hl) HF']; subst. cbn [fst snd] in *. rewrite Hp.
    assert (exists pre, (if start <? pos then s <- substr body start (pos - start);; Ok [FStr s] else Ok [])
                        = Ok pre /\ forall j, ~ In (FArg j) pre) as (pre & -> & Hpre).
    { destruct (start <? pos); [|eexists; split; [reflexivity|intros j []]].
      unfold substr. rewrite (proj2 (Nat.ltb_ge _ _)) by lia. cbn [bind].
      eexists; split; [reflexivity|]. intros j [H|[]]; discriminate. }
    cbn [bind]. destruct (IH (pos + length (p_name p)) HF' Hl) as (fs & -> & Hfs). cbn [bind].
    eexists; split; [reflexivity|]. intros j Hj. apply in_app_or in Hj as [Hj|[Hj|Hj]].
    + exfalso. exact (Hpre j Hj).
    + inversion Hj; subst. apply nth_error_Some. congruence.
    + apply Hfs; exact Hj.
Qed.

Lemma parse_body_ok name params body :
  (exists fs, parse_body name params body = Ok fs /\ forall i, In (FArg i) fs -> i < length params)
  \/ exists msg, parse_body name params body = Throw (ParseException msg).
Proof.
  unfold parse_body. destruct (collect_ok name body) as (r & -> & [(ivs & ->)|(msg & ->)]); cbn [bind].
  2:{ right; eauto. }
  left. destruct body as [|c body]; [eexists; split; [reflexivity|intros i []]|].
  destruct params as [|p ps].
  - eexists; split; [reflexivity|]. intros i [H|[]]; discriminate.
  - remember (c :: body) as bd eqn:Eb. remember (p :: ps) as all eqn:Ea.
    destruct (all_usages_ok ivs bd all all 0 eq_refl) as (us & -> & HF). cbn [bind].
    apply cut_ok; [|lia]. eapply Permutation_Forall; [apply sort_pairs_perm|exact HF].
Qed.

(** Expansion of any macro built by the constructor. *)
Lemma macro_replace_safe name hp params body m args spec :
  new_macro name hp params body = Ok m ->
  (exists t, macro_replace m args spec = Ok t)
  \/ (exists msg, macro_replace m args spec = Throw (ParseException msg)).
Proof.
  unfold new_macro. destruct (parse_body_ok name params body) as [(fs & -> & Hfs)|(msg & ->)];
    cbn [bind]; [|discriminate].
  intros E; inversion E; subst. unfold macro_replace. cbn [m_has_params m_name m_params m_body].
  destruct (hp && negb spec); [right; eauto|]. destruct (negb hp && spec); [right; eauto|].
  destruct (Nat.leb_spec (length args) (length params)) as [Hl|Hl]; [|right; cbn [bind]; eauto].
  pose proof (fill_top (mkMacro name hp params fs) args Hl) as HT. cbn [m_params] in HT.
  destruct HT as [(vals & -> & (L & _))|(msg & -> & _)]; cbn [bind]; [|right; eauto].
  left. apply render_ok. intros i Hi. cbn in L. rewrite L. apply Hfs. exact Hi.
Qed.

(** ** Acceptance *)
Definition acceptable (params : list param_info) (args : list str) : Prop :=
  length args <= length params
  /\ forall i p, nth_error params i = Some p -> nth_error args i = None ->
                 p_has_def p = true \/ (args = [] /\ i = 0).

Lemma bound_acceptable params args : length args <= length params ->
  ((exists vals, bound params args vals) <-> acceptable params args).
Proof.
  intros Hl. split.
  - intros (vals & L & H). split; [exact Hl|]. intros i p Hp Ha.
    assert (i < length vals) as Hi by (rewrite L; apply nth_error_Some; congruence).
    destruct (nth_error vals i) as [v|] eqn:Hv; [|apply nth_error_None in Hv; lia].
    specialize (H i p v Hp Hv). unfold binds in H. rewrite Ha in H.
    destruct H as [(? & _)|(_ & -> & -> & _)]; auto.
  - intros (_ & H).
    assert (forall ps i, skipn i params = ps -> exists vals, length vals = length ps /\
              forall j p v, nth_error ps j = Some p -> nth_error vals j = Some v ->
                            binds (p_has_def p) (p_def p) args (i + j) v) as HX.
    { induction ps as [|p ps IH]; intros i Hsk.
      - exists []. split; [reflexivity|]. intros [|j] p v Hp; discriminate.
      - destruct (IH (S i)) as (vals & L & HV).
        { replace (S i) with (1 + i) by lia. rewrite <- skipn_skipn, Hsk. reflexivity. }
        assert (nth_error params i = Some p) as Hp.
        { assert (i < length params) as Hi.
          { destruct (Nat.lt_ge_cases i (length params)); [assumption|]. rewrite skipn_all2 in Hsk by lia. discriminate. }
          rewrite <- (firstn_skipn i params), nth_error_app2; rewrite firstn_length; [|lia].
          rewrite Hsk. replace (i - Nat.min i (length params)) with 0 by lia. reflexivity. }
        assert (exists v, binds (p_has_def p) (p_def p) args i v) as (v & Hv).
        { unfold binds. destruct (nth_error args i) as [a|] eqn:Ha; [eexists; reflexivity|].
          destruct (H i p Hp Ha) as [Hd|(-> & ->)].
          - exists (p_def p). left. auto.
          - destruct (p_has_def p); [exists (p_def p); left; auto|]. exists []. right. auto. }
        exists (v :: vals). split; [cbn; lia|]. intros [|j] q w Hq Hw.
        + cbn in Hq, Hw. inversion Hq; inversion Hw; subst. rewrite Nat.add_0_r. exact Hv.
        + cbn in Hq, Hw. replace (i + S j) with (S i + j) by lia. apply HV; assumption. }
    destruct (HX params 0 eq_refl) as (vals & L & HV). exists vals. split; [exact L|exact HV].
Qed.

Lemma macro_replace_cases name hp params body m args spec :
  new_macro name hp params body = Ok m ->
  (spec = hp /\ acceptable params args /\
   exists vals t, bound params args vals /\ macro_replace m args spec = Ok t
                  /\ render (m_body m) vals = Ok t)
  \/ (~ (spec = hp /\ acceptable params args) /\
      exists msg, macro_replace m args spec = Throw (ParseException msg)).
Proof.
  unfold new_macro. destruct (parse_body_ok name params body) as [(fs & -> & Hfs)|(msg & ->)];
    cbn [bind]; [|discriminate].
  intros E; inversion E; subst. unfold macro_replace. cbn [m_has_params m_name m_params m_body].
  destruct hp, spec; cbn [andb negb]; try (right; split; [intros (? & _); discriminate|eauto]).
  all: destruct (Nat.leb_spec (length args) (length params)) as [Hl|Hl];
    [|right; split; [intros (_ & ? & _); lia|cbn [bind]; eauto]].
  all: pose proof (bound_acceptable params args Hl) as HB.
  - pose proof (fill_top (mkMacro name true params fs) args Hl) as HT. cbn [m_params] in HT.
    destruct HT as [(vals & -> & HBV)|(msg & -> & HN)]; cbn [bind].
    + left. split; [reflexivity|]. split; [apply HB; eauto|].
      destruct (render_ok fs vals) as (t & Et); [intros i Hi; destruct HBV as (-> & _); apply Hfs; exact Hi|].
      exists vals, t. auto.
    + right. split; [|eauto]. intros (_ & HA). apply HB in HA as (vals & HA). exact (HN vals HA).
  - pose proof (fill_top (mkMacro name false params fs) args Hl) as HT. cbn [m_params] in HT.
    destruct HT as [(vals & -> & HBV)|(msg & -> & HN)]; cbn [bind].
    + left. split; [reflexivity|]. split; [apply HB; eauto|].
      destruct (render_ok fs vals) as (t & Et); [intros i Hi; destruct HBV as (-> & _); apply Hfs; exact Hi|].
      exists vals, t. auto.
    + right. split; [|eauto]. intros (_ & HA). apply HB in HA as (vals & HA). exact (HN vals HA).
Qed.

Lemma new_macro_safe name hp params body :
  (exists m, new_macro name hp params body = Ok m)
  \/ (exists msg, new_macro name hp params body = Throw (ParseException msg)).
Proof.
  unfold new_macro. destruct (parse_body_ok name params body) as [(fs & -> & _)|(msg & ->)]; cbn [bind]; eauto.
Qed.
