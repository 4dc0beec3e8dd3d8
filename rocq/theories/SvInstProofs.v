From Verif Require Import Base BaseFacts AstModel LitModel LitSpec SvExprModel SvExprSpec SvExprProofs SvTypeModel SvDeclModel SvInstSpec.

(** ** Copies *)
Fixpoint esize (e : expr) : nat :=
  match e with EArr l | EOp _ l => S (list_sum (map esize l)) | _ => 1 end.
Lemma esize_in x l : In x l -> esize x <= list_sum (map esize l).
Proof. induction l as [|y l IH]; [intros []|]. intros [->|H]; cbn; [lia|]. specialize (IH H). unfold list_sum in IH. lia. Qed.
Lemma mapM_id (f : expr -> outcome expr) l : Forall (fun x => f x = Ok x) l -> mapM f l = Ok l.
Proof. induction 1 as [|x l H _ IH]; [reflexivity|]. cbn. rewrite H. cbn [bind]. fold (mapM f) in *. rewrite IH. reflexivity. Qed.
Lemma mapM_ok_in {X Y} (f : X -> outcome Y) l r : mapM f l = Ok r -> Forall2 (fun x y => f x = Ok y) l r.
Proof.
  revert r. induction l as [|x l IH]; intros r H; cbn in H.
  - injection H as <-. constructor.
  - destruct (f x) as [y| | |] eqn:E; cbn [bind] in H; try discriminate. fold (mapM f l) in H. destruct (mapM f l) as [r'| | |] eqn:E2; cbn [bind] in H; try discriminate.
    injection H as <-. constructor; auto.
Qed.
Lemma mapM_of_F2 {X Y} (f : X -> outcome Y) l r : Forall2 (fun x y => f x = Ok y) l r -> mapM f l = Ok r.
Proof. induction 1 as [|x y l r H _ IH]; [reflexivity|]. cbn. rewrite H. cbn [bind]. fold (mapM f l). rewrite IH. reflexivity. Qed.
(** A copy equals the original. *)
Lemma clone_same : forall n e x, esize e < n -> clone_e e = Ok x -> x = e.
Proof.
  induction n as [|n IH]; intros e x Hn H; [lia|]. destruct e; cbn [clone_e] in H; try (injection H as <-; reflexivity); try discriminate.
  - destruct (mapM clone_e l) as [r| | |] eqn:E; cbn [bind] in H; try discriminate. injection H as <-. f_equal. cbn [esize] in Hn.
    assert (Hs : forall y, In y l -> esize y < n) by (intros y Hy; apply esize_in in Hy; lia).
    apply mapM_ok_in in E. clear Hn. induction E as [|a b l' r' Hab E IHE]; [reflexivity|]. rewrite (IH a b); [|apply Hs; left; reflexivity|exact Hab]. f_equal. apply IHE. intros y Hy. apply Hs. right. exact Hy.
  - destruct (mapM clone_e l) as [r| | |] eqn:E; cbn [bind] in H; try discriminate. injection H as <-. f_equal. cbn [esize] in Hn.
    assert (Hs : forall y, In y l -> esize y < n) by (intros y Hy; apply esize_in in Hy; lia).
    apply mapM_ok_in in E. clear Hn. induction E as [|a b l' r' Hab E IHE]; [reflexivity|]. rewrite (IH a b); [|apply Hs; left; reflexivity|exact Hab]. f_equal. apply IHE. intros y Hy. apply Hs. right. exact Hy.
Qed.
Lemma clone_e_same e x : clone_e e = Ok x -> x = e.
Proof. apply (clone_same (S (esize e))). lia. Qed.
Lemma clone_es_same l x : clone_es l = Ok x -> x = l.
Proof. intros H. apply mapM_ok_in in H. induction H as [|a b l r E _ IH]; [reflexivity|]. rewrite IH. f_equal. exact (clone_e_same a b E). Qed.

Section Sim.
Context (A : algebra).
Notation mean := (meaning A).
(** Expressions with a meaning have no null operand. *)
Lemma clone_mean_n : forall n e v, esize e < n -> mean e = Some v -> clone_e e = Ok e.
Proof.
  induction n as [|n IH]; intros e v Hn H; [lia|].
  assert (Harg : forall ab x r, esize x < n -> m_arg A ab mean x = Some r -> (forall y, ab y = true -> clone_e y = Ok y) -> clone_e x = Ok x).
  { intros ab x r Hx Hr Hab. unfold m_arg in Hr.
    assert (Hplain : (if ab x then Some (None, None) else x0 <~ mean x ;; Some (None, Some x0)) = Some r -> clone_e x = Ok x).
    { destruct (ab x) eqn:E; [intros _; apply Hab; exact E|]. intros E2. apply obind_inv in E2 as (w & E2 & _). exact (IH x w Hx E2). }
    destruct x as [| | | | | | |o l|]; try exact (Hplain Hr).
    destruct (op_eq_dec o MAP_ASSOCIATION) as [->|Ho].
    - destruct l as [|k [|y [|z l]]]; try exact (Hplain Hr).
      + destruct k; exact (Hplain Hr).
      + destruct k; try exact (Hplain Hr). cbn [clone_e]. cbn [esize map list_sum fold_right] in Hx.
        assert (Hy : clone_e y = Ok y).
        { destruct (ab y) eqn:E; [apply Hab; exact E|]. apply obind_inv in Hr as (w & Hw & _). apply (IH y w); [cbn in Hx; lia|exact Hw]. }
        rewrite (mapM_id clone_e [EId s; y]); [reflexivity|]. repeat constructor. exact Hy.
      + destruct k; exact (Hplain Hr).
    - apply Hplain. destruct o; try exact Hr. congruence. }
  assert (Hargs : forall ab l r, list_sum (map esize l) < n -> omapM (m_arg A ab mean) l = Some r -> (forall y, ab y = true -> clone_e y = Ok y) -> mapM clone_e l = Ok l).
  { intros ab l. induction l as [|x l IHl]; intros r Hl Hr Hab; [reflexivity|]. cbn in Hr. apply obind_inv in Hr as (a & Ha & Hr). apply obind_inv in Hr as (r' & Hr' & _).
    cbn in Hl. cbn. rewrite (Harg ab x a); [|lia|exact Ha|exact Hab]. cbn [bind]. fold (mapM clone_e l). fold (mapM clone_e). rewrite (IHl r'); [reflexivity|unfold list_sum; lia|exact Hr'|exact Hab]. }
  assert (Hvoid : forall y, is_void y = true -> clone_e y = Ok y) by (intros y; destruct y; try discriminate; reflexivity).
  assert (Hnull : forall y, is_null y = true -> clone_e y = Ok y) by (intros y; destruct y; try discriminate; reflexivity).
  assert (H1 : forall o x w, S (esize x) < S n -> mean x = Some w -> clone_e (EOp o [x]) = Ok (EOp o [x])).
  { intros o x w Hs Hx. cbn [clone_e]. rewrite (mapM_id clone_e [x]); [reflexivity|]. repeat constructor. apply (IH x w); [lia|exact Hx]. }
  assert (H2 : forall o x y w w', S (esize x + esize y) < S n -> mean x = Some w -> mean y = Some w' -> clone_e (EOp o [x; y]) = Ok (EOp o [x; y])).
  { intros o x y w w' Hs Hx Hy. cbn [clone_e]. rewrite (mapM_id clone_e [x; y]); [reflexivity|]. repeat constructor; [apply (IH x w)|apply (IH y w')]; try lia; assumption. }
  destruct e as [s|w b|t|s|l|s| |o l|]; try reflexivity; try discriminate.
  - cbn [meaning] in H. apply obind_inv in H as (r & Hr & _). cbn [clone_e]. rewrite mapM_id; [reflexivity|].
    cbn [esize] in Hn. assert (Hs : list_sum (map esize l) < n) by lia. clear Hn v. revert r Hr Hs. induction l as [|x l IHl]; intros r Hr Hs; [constructor|].
    cbn in Hr. apply obind_inv in Hr as (a & Ha & Hr). apply obind_inv in Hr as (r' & Hr' & _). cbn in Hs.
    constructor; [|apply (IHl r' Hr'); unfold list_sum; lia].
    unfold m_elem in Ha.
    assert (Hplain : (x0 <~ mean x ;; Some (None, x0)) = Some a -> clone_e x = Ok x).
    { intros E2. apply obind_inv in E2 as (w & E2 & _). apply (IH x w); [lia|exact E2]. }
    destruct x as [| | | | | | |o l0|]; try exact (Hplain Ha).
    destruct (op_eq_dec o MAP_ASSOCIATION) as [->|Ho].
    + destruct l0 as [|k [|y [|z l0]]]; try exact (Hplain Ha).
      apply obind_inv in Ha as (w1 & Hw1 & Ha). apply obind_inv in Ha as (w2 & Hw2 & _). apply (H2 MAP_ASSOCIATION k y w1 w2); [cbn in Hs; lia|exact Hw1|exact Hw2].
    + apply Hplain. destruct o; try exact Ha. congruence.
  - cbn [esize] in Hn.
    destruct l as [|x [|y [|z l]]].
    + destruct o; discriminate.
    + assert (Hs : S (esize x) < S n) by (cbn in Hn; lia).
      destruct o; cbn [meaning omapM m_unop m_step] in H; try discriminate; apply obind_inv in H as (w & Hw & _); exact (H1 _ x w Hs Hw).
    + assert (Hs : S (esize x + esize y) < S n) by (cbn in Hn; lia).
      destruct o; cbn [meaning m_binop obind m_unop m_step] in H; try discriminate;
        try (apply obind_inv in H as (w & Hw & H); apply obind_inv in H as (w' & Hw' & _); exact (H2 _ x y w w' Hs Hw Hw')).
      * (* INDEX *) apply obind_inv in H as (w & Hw & H).
        assert (Hy : clone_e y = Ok y).
        { destruct y as [| | | | | | |o l|]; try (apply obind_inv in H as (w' & Hw' & _); apply (IH _ w'); [lia|exact Hw']).
          destruct l as [|a [|b [|c l]]]; try (apply obind_inv in H as (w' & Hw' & _); apply (IH _ w'); [lia|exact Hw']).
          destruct (m_slicing o) eqn:Eo; [|apply obind_inv in H as (w' & Hw' & _); apply (IH _ w'); [lia|exact Hw']].
          apply obind_inv in H as (wa & Ha & H). apply obind_inv in H as (wb & Hb & _). cbn in Hs. apply (H2 o a b wa wb); [lia|exact Ha|exact Hb]. }
        cbn [clone_e]. rewrite (mapM_id clone_e [x; y]); [reflexivity|]. repeat constructor; [|exact Hy]. apply (IH x w); [lia|exact Hw].
      * (* DOT *) destruct y; try discriminate. apply obind_inv in H as (w & Hw & _). cbn [clone_e]. rewrite (mapM_id clone_e [x; EId s]); [reflexivity|]. repeat constructor. apply (IH x w); [lia|exact Hw].
      * (* DOUBLE_COLON *) destruct y; try discriminate. apply obind_inv in H as (w & Hw & _). cbn [clone_e]. rewrite (mapM_id clone_e [x; EId s]); [reflexivity|]. repeat constructor. apply (IH x w); [lia|exact Hw].
      * (* CALL *) apply obind_inv in H as (w & Hw & H). apply obind_inv in H as (r & Hr & _). cbn [clone_e].
        assert (E : mapM clone_e [y] = Ok [y]) by (apply (Hargs is_void [y] r); [cbn; lia|exact Hr|exact Hvoid]).
        change (mapM clone_e [x; y]) with (x' <- clone_e x ;; r' <- mapM clone_e [y] ;; Ok (x' :: r')). rewrite (IH x w); [|lia|exact Hw]. cbn [bind]. rewrite E. reflexivity.
      * (* PARAMETRIZATION *) apply obind_inv in H as (w & Hw & H). apply obind_inv in H as (r & Hr & _). cbn [clone_e].
        assert (E : mapM clone_e [y] = Ok [y]) by (apply (Hargs is_null [y] r); [cbn; lia|exact Hr|exact Hnull]).
        change (mapM clone_e [x; y]) with (x' <- clone_e x ;; r' <- mapM clone_e [y] ;; Ok (x' :: r')). rewrite (IH x w); [|lia|exact Hw]. cbn [bind]. rewrite E. reflexivity.
    + assert (Hs : esize x + list_sum (map esize (y :: z :: l)) < n) by (cbn in Hn; cbn; lia).
      assert (Hcall : forall ab r w, mean x = Some w -> omapM (m_arg A ab mean) (y :: z :: l) = Some r -> (forall y, ab y = true -> clone_e y = Ok y) ->
                clone_e (EOp o (x :: y :: z :: l)) = Ok (EOp o (x :: y :: z :: l))).
      { intros ab r w Hw Hr Hab. cbn [clone_e]. assert (E : mapM clone_e (y :: z :: l) = Ok (y :: z :: l)) by (apply (Hargs ab _ r); [lia|exact Hr|exact Hab]).
        change (mapM clone_e (x :: y :: z :: l)) with (x' <- clone_e x ;; r' <- mapM clone_e (y :: z :: l) ;; Ok (x' :: r')). rewrite (IH x w); [|lia|exact Hw]. cbn [bind]. rewrite E. reflexivity. }
      destruct o; cbn [meaning] in H; try discriminate; try (destruct y; discriminate).
      * destruct l as [|z' l]; [|discriminate]. apply obind_inv in H as (w & Hw & H). apply obind_inv in H as (w1 & Hw1 & H). apply obind_inv in H as (w2 & Hw2 & _).
        cbn in Hs. cbn [clone_e]. rewrite (mapM_id clone_e [x; y; z]); [reflexivity|]. repeat constructor; [apply (IH x w)|apply (IH y w1)|apply (IH z w2)]; try lia; assumption.
      * apply obind_inv in H as (w & Hw & H). apply obind_inv in H as (r & Hr & _). exact (Hcall is_void r w Hw Hr Hvoid).
      * apply obind_inv in H as (w & Hw & H). apply obind_inv in H as (r & Hr & _). exact (Hcall is_null r w Hw Hr Hnull).
Qed.
Lemma clone_mean e v : mean e = Some v -> clone_e e = Ok e.
Proof. apply (clone_mean_n (S (esize e))). lia. Qed.

Lemma mapM_sim {X Y E} (f : X -> option Y) (g : X -> outcome E) (h : E -> option Y) (P : E -> Prop) :
  (forall x y, f x = Some y -> exists e, g x = Ok e /\ h e = Some y /\ P e) ->
  forall l r, omapM f l = Some r -> exists es, mapM g l = Ok es /\ omapM h es = Some r /\ Forall P es.
Proof.
  intros H. induction l as [|x l IH]; intros r E0.
  - injection E0 as <-. exists []. repeat split. constructor.
  - cbn in E0. apply obind_inv in E0 as (y & Hy & E0). apply obind_inv in E0 as (r' & Hr & E0). injection E0 as <-.
    destruct (H x y Hy) as (e & He & Hh & HP). destruct (IH r' Hr) as (es & Hes & Hhs & HPs). exists (e :: es). repeat split.
    + cbn. rewrite He. cbn [bind]. fold (mapM g l). rewrite Hes. reflexivity.
    + cbn. rewrite Hh. cbn [obind]. fold (omapM h es). rewrite Hhs. reflexivity.
    + constructor; assumption.
Qed.
Lemma value_sim e v : v_value A e = Some v -> exists a, conv e = Ok a /\ mean a = Some v /\ is_null a = false.
Proof. unfold v_value. destruct (null_like e) eqn:N; [discriminate|]. intros H. destruct (conv_sim A e v H) as (a & Ha & Hm & Hn). exists a. auto. Qed.
Lemma pexp_sim p v : v_pexp A p = Some v -> exists a, conv_pexp p = Ok a /\ mean a = Some v /\ is_null a = false.
Proof. destruct p as [e|t]; cbn [v_pexp conv_pexp]; [apply value_sim|discriminate]. Qed.
Definition clones (e : expr) : Prop := clone_e e = Ok e.
Lemma clones_list l : Forall clones l -> clone_es l = Ok l.
Proof. intros H. apply mapM_id. exact H. Qed.
Lemma clones_assoc k v : clones v -> clones (EOp MAP_ASSOCIATION [EId k; v]).
Proof. intros H. unfold clones. cbn [clone_e]. rewrite (mapM_id clone_e [EId k; v]); [reflexivity|]. repeat constructor. exact H. Qed.
Lemma gvalues_sim g r : v_gvalues A g = Some r ->
  exists xs, conv_gvalues g = Ok xs /\ omapM (m_arg A is_null mean) xs = Some r /\ Forall clones xs.
Proof.
  destruct g as [l|l]; cbn [v_gvalues conv_gvalues]; revert l r; apply mapM_sim.
  - intros p y H. apply obind_inv in H as (x & Hx & H). injection H as <-. destruct (pexp_sim p x Hx) as (a & Ha & Hm & Hn).
    exists a. repeat split; [exact Ha|exact (arg_pos A is_null a x Hm Hn)|exact (clone_mean a x Hm)].
  - intros (i, p) y H. cbn [fst snd] in *. apply obind_inv in H as (k & Hk & H). destruct (ident_sim i k Hk) as (Hi & _). rewrite Hi. cbn [bind].
    destruct p as [p|]; cbn [conv_or_null bind].
    + apply obind_inv in H as (x & Hx & H). injection H as <-. destruct (pexp_sim p x Hx) as (a & Ha & Hm & Hn). rewrite Ha. cbn [bind].
      exists (EOp MAP_ASSOCIATION [EId k; a]). rewrite (mk2_key k a (mean_not_ENull A a x Hm)). repeat split; [exact (arg_named A is_null k a x Hm Hn)|apply clones_assoc; exact (clone_mean a x Hm)].
    + injection H as <-. eexists. split; [reflexivity|]. split; [reflexivity|]. apply clones_assoc. reflexivity.
Qed.
Lemma dim_sim r d : v_dim A r = Some d -> exists a, conv_range r = Ok a /\ m_dim A a = Some d /\ a <> ENull.
Proof.
  destruct r as [e|k x y]; cbn [v_dim conv_range]; intros H.
  - apply obind_inv in H as (v & Hv & H). injection H as <-. destruct (conv_sim A e v Hv) as (a & Ha & Hm & _). exists a. repeat split; [exact Ha| |exact (mean_not_ENull A a v Hm)].
    unfold m_dim. destruct a as [| | | | | | |o l|]; try (rewrite Hm; reflexivity).
    destruct l as [|y [|z [|w l]]]; try (rewrite Hm; reflexivity). destruct (mean_notassoc A o y z v Hm) as (_ & E). rewrite E, Hm. reflexivity.
  - apply obind_inv in H as (vx & Hx & H). apply obind_inv in H as (vy & Hy & H). injection H as <-.
    destruct (conv_sim A x vx Hx) as (a & Ha & Hma & _). destruct (conv_sim A y vy Hy) as (b & Hb & Hmb & _). rewrite Ha. cbn [bind]. rewrite Hb. cbn [bind].
    rewrite (mk2_ok A a _ b vx vy Hma Hmb). eexists. repeat split; [|discriminate]. destruct k; cbn [visit_rangekind m_dim m_slicing]; rewrite Hma; cbn [obind]; rewrite Hmb; reflexivity.
Qed.
Lemma udims_sim l : forall t s d0 ds, t <> ENull -> m_name A t = Some (s, d0) -> omapM (v_dim A) l = Some ds ->
  exists t', apply_udims t l = Ok t' /\ m_name A t' = Some (s, d0 ++ ds).
Proof.
  induction l as [|r l IH]; intros t s d0 ds Ht Hm H.
  - injection H as <-. exists t. rewrite app_nil_r. split; [reflexivity|exact Hm].
  - cbn in H. apply obind_inv in H as (d & Hd & H). apply obind_inv in H as (ds' & Hds & H). injection H as <-.
    destruct (dim_sim r d Hd) as (a & Ha & Hda & Hna).
    assert (E : mk2 t INDEX a = EOp INDEX [t; a]) by (unfold mk2; destruct t; try congruence; destruct a; try congruence; reflexivity).
    destruct (IH (EOp INDEX [t; a]) s (d0 ++ [d]) ds') as (t' & Ht' & Hm'); [discriminate| |exact Hds|].
    + cbn [m_name]. change (is_index INDEX) with true. cbv iota. rewrite Hm. cbn [obind]. rewrite Hda. reflexivity.
    + exists t'. split; [|rewrite Hm', <- app_assoc; reflexivity]. cbn [apply_udims]. rewrite Ha. cbn [bind]. rewrite E. exact Ht'.
Qed.
Lemma mean_not_all e v : mean e = Some v -> is_all e = false.
Proof.
  destruct e as [| | | | | | |o l|]; try reflexivity. intros H. destruct l as [|x [|y l]]; try reflexivity; [destruct x as [| | | | |y| | |]; try reflexivity; destruct y; reflexivity|].
  destruct l as [|z l]; [|destruct x as [| | | | |s| | |]; try reflexivity; destruct s; try reflexivity; destruct y as [| | | | |s| | |]; try reflexivity; destruct s; reflexivity].
  destruct (mean_notassoc A o x y v H) as (Ho & _). cbn [is_all]. destruct x as [| | | | |s| | |]; try reflexivity. destruct s; try reflexivity.
  destruct y as [| | | | |s| | |]; try reflexivity. destruct s; try reflexivity. destruct (op_eq_dec o MAP_ASSOCIATION); [contradiction|reflexivity].
Qed.
Lemma value_conn e v : v_value A e = Some v -> exists a, conv e = Ok a /\ m_conn A a = Some (Conn A None (Some v)).
Proof.
  intros H. destruct (value_sim e v H) as (a & Ha & Hm & Hn). exists a. split; [exact Ha|]. unfold m_conn. rewrite (mean_not_all a v Hm), (arg_pos A is_null a v Hm Hn). reflexivity.
Qed.
Lemma nconn_sim sh c r : (match c with NC_name _ => False | _ => True end) -> v_nconn A sh c = Some r -> exists e, conv_nconn c = Ok e /\ m_conn A e = Some r.
Proof.
  destruct c as [|i|i [e|]]; cbn [v_nconn conv_nconn]; intros Hc H.
  - injection H as <-. eexists. split; reflexivity.
  - destruct Hc.
  - apply obind_inv in H as (k & Hk & H). apply obind_inv in H as (x & Hx & H). injection H as <-. destruct (ident_sim i k Hk) as (Hi & _). destruct (value_sim e x Hx) as (a & Ha & Hm & Hn).
    rewrite Hi. cbn [bind conv_or_null]. rewrite Ha. cbn [bind]. rewrite (mk2_key k a (mean_not_ENull A a x Hm)). eexists. split; [reflexivity|].
    unfold m_conn. change (is_all (EOp MAP_ASSOCIATION [EId k; a])) with false. cbv iota. rewrite (arg_named A is_null k a x Hm Hn). reflexivity.
  - apply obind_inv in H as (k & Hk & H). injection H as <-. destruct (ident_sim i k Hk) as (Hi & _). rewrite Hi. cbn [bind conv_or_null]. eexists. split; reflexivity.
Qed.
Definition no_short (c : conns) : Prop := match c with CO_named l => Forall (fun c => match c with NC_name _ => False | _ => True end) l | _ => True end.
Lemma conns_sim sh c r : no_short c -> v_conns A sh c = Some r -> exists es, conv_conns c = Ok es /\ omapM (m_conn A) es = Some r.
Proof.
  destruct c as [l|l]; cbn [no_short v_conns conv_conns]; intros Hs H.
  - destruct (mapM_sim (fun o => match o with Some e => x <~ v_value A e ;; Some (Conn A None (Some x)) | None => Some (Conn A None None) end) (conv_or_null conv) (m_conn A) (fun _ => True)) with (l := l) (r := r) as (es & H1 & H2 & _).
    + intros o y Hy. destruct o as [e|]; cbn [conv_or_null].
      * apply obind_inv in Hy as (x & Hx & Hy). injection Hy as <-. destruct (value_conn e x Hx) as (a & Ha & Hm). exists a. auto.
      * injection Hy as <-. eexists. repeat split.
    + exact H.
    + exists es. auto.
  - revert r H. induction Hs as [|c l Hc Hs IH]; intros r H.
    + injection H as <-. exists []. split; reflexivity.
    + cbn in H. apply obind_inv in H as (x & Hx & H). apply obind_inv in H as (r' & Hr & H). injection H as <-. destruct (nconn_sim sh c x Hc Hx) as (e & He & Hm). destruct (IH r' Hr) as (es & Hes & Hms).
      exists (e :: es). split; cbn; [rewrite He; cbn [bind]; fold (mapM conv_nconn l); rewrite Hes; reflexivity|rewrite Hm; cbn [obind]; fold (omapM (m_conn A) es); rewrite Hms; reflexivity].
Qed.
Lemma hinst_sim sh (s : inst) h i g : no_short (hi_conns h) -> v_hinst A sh s h = Some i ->
  (forall p, match in_params s with Some g => v_gvalues A g | None => Some [] end = Some p -> omapM (m_arg A is_null mean) g = Some p) ->
  exists c, conv_hinst (raw_text (in_module s)) g h = Ok c /\ m_inst A c = Some i.
Proof.
  intros Hs H Hg. unfold v_hinst in H. apply obind_inv in H as (m & Hm & H). apply obind_inv in H as (p & Hp & H). apply obind_inv in H as (n & Hn & H).
  apply obind_inv in H as (d & Hd & H). apply obind_inv in H as (c & Hc & H). injection H as <-.
  destruct (ident_sim (hi_name h) n Hn) as (Hi & _). destruct (udims_sim (hi_dims h) (EId n) n [] d) as (t & Ht & Hmt); [discriminate|reflexivity|exact Hd|].
  destruct (conns_sim sh _ c Hs Hc) as (es & Hes & Hme). unfold conv_hinst. rewrite Hi. cbn [bind]. rewrite Ht. cbn [bind]. rewrite Hes. cbn [bind].
  eexists. split; [reflexivity|]. unfold m_inst. cbn [ci_module ci_generics ci_name ci_ports]. rewrite (Hg p Hp). cbn [obind]. rewrite Hmt. cbn [obind]. rewrite Hme. cbn [obind fst snd app].
  destruct (in_module s) as [t0|t0]; cbn [v_ident raw_text] in *; [|discriminate]. destruct (seqb t0 $"void"); [discriminate|]. injection Hm as ->. reflexivity.
Qed.
Lemma short_false s h : uses_shorthand s = false -> In h (in_list s) -> no_short (hi_conns h).
Proof.
  unfold uses_shorthand. intros H Hin. destruct (hi_conns h) as [l|l] eqn:E; cbn [no_short]; [exact I|]. apply Forall_forall. intros c Hc. destruct c as [|i|i e]; try exact I.
  assert (existsb (fun h => match hi_conns h with CO_named l => existsb (fun c => match c with NC_name _ => true | _ => false end) l | _ => false end) (in_list s) = true); [|congruence].
  apply existsb_exists. exists h. split; [exact Hin|]. rewrite E. apply existsb_exists. exists (NC_name i). split; [exact Hc|reflexivity].
Qed.
Lemma inst_sim sh (s : inst) l : in_list s <> [] -> uses_shorthand s = false -> v_inst A sh s = Some l -> exists cs, conv_inst s = Ok cs /\ omapM (m_inst A) cs = Some l.
Proof.
  intros Hne Hs H. pose proof (fun h => short_false s h Hs) as Hsh. unfold v_inst in H. unfold conv_inst. destruct (in_list s) as [|h hs] eqn:Eh; [congruence|].
  cbn in H. apply obind_inv in H as (i & Hi & H). apply obind_inv in H as (r & Hr & H). injection H as <-.
  assert (Hgv : exists g, match in_params s with Some g => conv_gvalues g | None => Ok [] end = Ok g /\ clone_es g = Ok g /\
    (forall p, match in_params s with Some g => v_gvalues A g | None => Some [] end = Some p -> omapM (m_arg A is_null mean) g = Some p)).
  { unfold v_hinst in Hi. apply obind_inv in Hi as (m & _ & Hi). apply obind_inv in Hi as (p & Hp & _). destruct (in_params s) as [g|].
    - destruct (gvalues_sim g p Hp) as (xs & H1 & H2 & H3). exists xs. repeat split; [exact H1|exact (clones_list xs H3)|]. intros p' Hp'. congruence.
    - exists []. repeat split. intros p' Hp'. injection Hp' as <-. reflexivity. }
  destruct Hgv as (g & Hg & Hcl & Hgm). rewrite Hg. cbn [bind].
  destruct (hinst_sim sh s h i g (Hsh h (or_introl eq_refl)) Hi Hgm) as (c & Hc & Hmc). rewrite Hc. cbn [bind].
  assert (Eg : ci_generics c = g).
  { unfold conv_hinst in Hc. destruct (visit_ident (hi_name h)) as [x| | |]; cbn [bind] in Hc; try discriminate. destruct (apply_udims x (hi_dims h)) as [y| | |]; cbn [bind] in Hc; try discriminate.
    destruct (conv_conns (hi_conns h)) as [z| | |]; cbn [bind] in Hc; try discriminate. injection Hc as <-. reflexivity. }
  rewrite Eg, Hcl. fold (omapM (v_hinst A sh s) hs) in Hr.
  assert (Hrest : exists cs, mapM (fun h' => g' <- Ok g ;; conv_hinst (raw_text (in_module s)) g' h') hs = Ok cs /\ omapM (m_inst A) cs = Some r).
  { assert (Hsh' : forall h, In h hs -> no_short (hi_conns h)) by (intros h' Hh; apply Hsh; right; exact Hh). clear - Hsh' Hr Hgm. revert r Hr Hsh'. induction hs as [|h hs IH]; intros r Hr Hsh'.
    - injection Hr as <-. exists []. split; reflexivity.
    - cbn in Hr. apply obind_inv in Hr as (i & Hi & Hr). apply obind_inv in Hr as (r' & Hr' & E). injection E as <-.
      destruct (hinst_sim sh s h i g (Hsh' h (or_introl eq_refl)) Hi Hgm) as (c & Hc & Hmc). destruct (IH r' Hr') as (cs & Hcs & Hms); [intros h' Hh; apply Hsh'; right; exact Hh|].
      exists (c :: cs). split; cbn [mapM omapM bind]; [rewrite Hc; cbn [bind]; fold (mapM (fun h' => conv_hinst (raw_text (in_module s)) g h')); cbn [bind] in Hcs; rewrite Hcs; reflexivity|].
      rewrite Hmc. cbn [obind]. fold (omapM (m_inst A)). rewrite Hms. reflexivity. }
  destruct Hrest as (cs & Hcs & Hms). exists (c :: cs). rewrite Hcs. cbn [bind]. split; [reflexivity|]. cbn. rewrite Hmc. cbn [obind]. fold (omapM (m_inst A) cs). rewrite Hms. reflexivity.
Qed.

(** ** Gates *)
Lemma gkind_name t : m_gkind (gate_name t) = Some t.
Proof. destruct t; reflexivity. Qed.
Lemma mean_list_sim l r : omapM (vmeaning A) l = Some r -> exists xs, mapM conv l = Ok xs /\ omapM mean xs = Some r.
Proof.
  intros H. destruct (mapM_sim (vmeaning A) conv mean (fun _ => True)) with (l := l) (r := r) as (es & H1 & H2 & _); [|exact H|exists es; auto].
  intros x y Hy. destruct (conv_sim A x y Hy) as (a & Ha & Hm & _). exists a. auto.
Qed.
Lemma ogate_sim t nm o i l : v_ogate A t (nm, [o], i) = Some l -> exists x y, conv_ogate t (nm, [o], i) = Ok (GO_assign x y) /\ exists g, m_gobj A (GO_assign x y) = Some g /\ l = [g].
Proof.
  cbn [v_ogate omapM]. intros H. apply obind_inv in H as (os & Ho & H). apply obind_inv in Ho as (vo & Ho & E). injection E as <-. apply obind_inv in H as (vi & Hi & H). injection H as <-.
  destruct (conv_sim A o vo Ho) as (a & Ha & Hma & _). destruct (conv_sim A i vi Hi) as (b & Hb & Hmb & _). cbn [conv_ogate mapM]. rewrite Ha. cbn [bind]. rewrite Hb. cbn [bind].
  eexists. eexists. split; [reflexivity|]. eexists. split; [|reflexivity]. cbn [m_gobj reduce fold_left]. rewrite Hma. cbn [obind].
  destruct t; [rewrite Hmb; reflexivity|]. change (op1 NEG b) with (op1 (visit_unop U_NEG) b). rewrite (mean_unop A U_NEG b vi Hmb). reflexivity.
Qed.
Lemma igate_sim t g l : v_igate A t g = Some l -> exists c, conv_igate t g = Ok (GO_inst c) /\ exists x, m_gobj A (GO_inst c) = Some x /\ l = [x].
Proof.
  destruct g as ((nm, o), is). cbn [v_igate conv_igate]. intros H. apply obind_inv in H as (n & Hn & H). apply obind_inv in H as (vo & Ho & H). apply obind_inv in H as (vs & Hs & H). injection H as <-.
  destruct (conv_sim A o vo Ho) as (a & Ha & Hma & _). destruct (mean_list_sim is vs Hs) as (xs & Hxs & Hmx). rewrite Ha. cbn [bind]. rewrite Hxs. cbn [bind].
  assert (E : exists s, match nm with Some (i, _) => visit_ident i | None => Ok (EId $" ") end = Ok (EId s) /\ (if seqb s $" " then None else Some s) = n).
  { destruct nm as [(i, ds)|]; [|injection Hn as <-; exists $" "; split; reflexivity]. destruct ds as [|d ds]; [|discriminate]. apply obind_inv in Hn as (k & Hk & Hn).
    destruct (ident_sim i k Hk) as (Hi & _). exists k. split; [exact Hi|]. destruct (seqb k $" ") eqn:E; [discriminate|]. injection Hn as <-. reflexivity. }
  destruct E as (s & Es & En). rewrite Es. cbn [bind]. eexists. split; [reflexivity|]. eexists. split; [|reflexivity].
  cbn [m_gobj ci_name ci_module ci_generics ci_ports]. rewrite gkind_name. cbn [obind]. rewrite Hma. cbn [obind]. rewrite Hmx. cbn [obind]. rewrite En. reflexivity.
Qed.
Lemma gates_sim g l : single_outputs g = true -> v_gates A g = Some l -> exists os, conv_gates g = Ok os /\ omapM (m_gobj A) os = Some l.
Proof.
  destruct g as [t gs|t gs|]; cbn [single_outputs v_gates conv_gates]; intros H1 H; [| |discriminate]; apply obind_inv in H as (r & Hr & H); injection H as <-.
  - revert r Hr. induction gs as [|((nm, outs), i) gs IH]; intros r Hr; [injection Hr as <-; exists []; split; reflexivity|].
    cbn [omapM] in Hr. apply obind_inv in Hr as (x & Hx & Hr). apply obind_inv in Hr as (r' & Hr' & E). injection E as <-. fold (omapM (v_ogate A t)) in Hr'.
    cbn [forallb] in H1. apply andb_true_iff in H1 as (H1 & H2). destruct outs as [|o [|o2 outs]]; try discriminate.
    destruct (ogate_sim t nm o i x Hx) as (d & s & E & g & Hg & ->). destruct (IH H2 r' Hr') as (os & Hos & Hms). exists (GO_assign d s :: os). cbn [mapM omapM List.concat app]. rewrite E. cbn [bind].
    fold (mapM (conv_ogate t)). rewrite Hos. split; [reflexivity|]. rewrite Hg. cbn [obind]. fold (omapM (m_gobj A)). rewrite Hms. reflexivity.
  - clear H1. revert r Hr. induction gs as [|g gs IH]; intros r Hr; [injection Hr as <-; exists []; split; reflexivity|].
    cbn [omapM] in Hr. apply obind_inv in Hr as (x & Hx & Hr). apply obind_inv in Hr as (r' & Hr' & E). injection E as <-. fold (omapM (v_igate A t)) in Hr'.
    destruct (igate_sim t g x Hx) as (c & E & y & Hg & ->). destruct (IH r' Hr') as (os & Hos & Hms). exists (GO_inst c :: os). cbn [mapM omapM List.concat app]. rewrite E. cbn [bind].
    fold (mapM (conv_igate t)). rewrite Hos. split; [reflexivity|]. rewrite Hg. cbn [obind]. fold (omapM (m_gobj A)). rewrite Hms. reflexivity.
Qed.
(** Several outputs: one drive of the concatenation. *)
Lemma reduce_list l : forall a, fold_left (fun acc p => mk2 acc CONCAT p) l a <> ENull \/ (l = [] /\ a = ENull).
Proof. induction l as [|x l IH]; intros a; [destruct a; auto; left; discriminate|]. cbn [fold_left]. destruct (IH (mk2 a CONCAT x)) as [H|(-> & H)]; [left; exact H|]. unfold mk2 in H. discriminate. Qed.
Lemma ogate_law t nm outs i r vi : omapM (vmeaning A) outs = Some r -> r <> [] -> vmeaning A i = Some vi ->
  exists o d, conv_ogate t (nm, outs, i) = Ok o /\ concat A r = Some d /\ m_gobj A o = Some (Drive A d (match t with G_BUF => vi | G_NOT => a_unary A BitNot vi end)).
Proof.
  intros Hr Hne Hi. destruct (mean_list_sim outs r Hr) as (xs & Hxs & Hmx). destruct (conv_sim A i vi Hi) as (b & Hb & Hmb & _).
  cbn [conv_ogate]. rewrite Hxs. cbn [bind]. rewrite Hb. cbn [bind].
  assert (F : Forall2 (fun a v => mean a = Some v) xs r).
  { clear - Hmx. revert r Hmx. induction xs as [|x xs IH]; intros r H; [injection H as <-; constructor|]. cbn in H. apply obind_inv in H as (v & Hv & H). apply obind_inv in H as (r' & Hr' & H). injection H as <-. constructor; auto. }
  destruct r as [|v r]; [congruence|]. inversion F as [|x v' xs' r' Hx F' E1 E2]. subst. eexists. eexists. split; [reflexivity|]. split; [reflexivity|].
  cbn [m_gobj]. rewrite (concat_sim A (x :: xs') (v :: r) _ F eq_refl). cbn [obind]. destruct t; [rewrite Hmb; reflexivity|]. change (op1 NEG b) with (op1 (visit_unop U_NEG) b). rewrite (mean_unop A U_NEG b vi Hmb). reflexivity.
Qed.
End Sim.

(** A statement with several instances equals one statement for each of them. *)
Lemma inst_each s cs : conv_inst s = Ok cs -> Forall2 (fun h c => conv_inst (only s h) = Ok [c]) (in_list s) cs.
Proof.
  unfold conv_inst, only. cbn [in_module in_params in_list]. destruct (match in_params s with Some g => conv_gvalues g | None => Ok [] end) as [g| | |]; cbn [bind]; try discriminate.
  destruct (in_list s) as [|h l]; [intros H; injection H as <-; constructor|].
  destruct (conv_hinst (raw_text (in_module s)) g h) as [c| | |] eqn:E; cbn [bind]; try discriminate.
  destruct (mapM _ l) as [r| | |] eqn:Er; cbn [bind]; try discriminate. intros H. injection H as <-. constructor; [rewrite E; reflexivity|].
  assert (Eg : ci_generics c = g).
  { unfold conv_hinst in E. destruct (visit_ident (hi_name h)) as [x| | |]; cbn [bind] in E; try discriminate. destruct (apply_udims x (hi_dims h)) as [y| | |]; cbn [bind] in E; try discriminate.
    destruct (conv_conns (hi_conns h)) as [z| | |]; cbn [bind] in E; try discriminate. injection E as <-. reflexivity. }
  rewrite Eg in Er. apply mapM_ok_in in Er. induction Er as [|h' c' l' r' H Er IH]; [constructor|]. constructor; [|exact IH].
  destruct (clone_es g) as [g'| | |] eqn:Ec; cbn [bind] in H; try discriminate. apply clone_es_same in Ec as ->. rewrite H. reflexivity.
Qed.
