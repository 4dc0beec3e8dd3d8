(** The Python view of the database of macros refines a dict. *)
From Verif Require Import Base BaseFacts MacroDefModel MacroSpec MacroDefProofs MacroSubstProofs PpModel PyDbModel PyDbSpec.
From Coq Require Import Permutation Sorted.

(** ** Maps *)
Lemma dget_nil k : dget [] k = None. Proof. reflexivity. Qed.
Lemma dget_cons k' a d k : dget ((k', a) :: d) k = if seqb k' k then Some a else dget d k.
Proof. unfold dget. cbn [List.find fst]. destruct (seqb k' k); reflexivity. Qed.
Lemma mfind_dget m k : mfind m k = dget m k.
Proof. induction m as [|[k' a] m IH]; [reflexivity|]. rewrite dget_cons. cbn [mfind]. rewrite IH. reflexivity. Qed.
Lemma seqb_refl s : seqb s s = true. Proof. apply seqb_eq. reflexivity. Qed.
Lemma seqb_sym a b : seqb a b = seqb b a.
Proof. destruct (seqb a b) eqn:E; symmetry; [apply seqb_eq in E; subst; apply seqb_refl|]. destruct (seqb b a) eqn:E2; [|reflexivity]. apply seqb_eq in E2. subst. rewrite seqb_refl in E. discriminate. Qed.
Lemma seqb_neq a b : seqb a b = false <-> a <> b.
Proof. rewrite <- Bool.not_true_iff_false, seqb_eq. reflexivity. Qed.
Lemma mset_get m k a k' : dget (mset m k a) k' = if seqb k k' then Some a else dget m k'.
Proof.
  induction m as [|[j b] m IH]; cbn [mset].
  - rewrite dget_cons. destruct (seqb k k'); reflexivity.
  - destruct (seqb j k) eqn:E.
    + apply seqb_eq in E as ->. rewrite !dget_cons. destruct (seqb k k'); reflexivity.
    + destruct (str_ltb k j); rewrite !dget_cons; [reflexivity|]. rewrite IH. destruct (seqb j k') eqn:E1; [|reflexivity]. destruct (seqb k k') eqn:E2; [|reflexivity].
      apply seqb_eq in E1 as <-. apply seqb_eq in E2 as <-. rewrite seqb_refl in E. discriminate.
Qed.
Lemma dget_app d e k : dget (d ++ e) k = match dget d k with Some a => Some a | None => dget e k end.
Proof. induction d as [|[j b] d IH]; [reflexivity|]. cbn [app]. rewrite !dget_cons. destruct (seqb j k); [reflexivity|exact IH]. Qed.
Lemma dget_map d k a k' : dget (map (fun p => if seqb (fst p) k then (k, a) else p) d) k' = if seqb k k' then option_map (fun _ => a) (dget d k') else dget d k'.
Proof.
  induction d as [|[j b] d IH]; [destruct (seqb k k'); reflexivity|]. cbn [map fst]. destruct (seqb j k) eqn:E.
  - apply seqb_eq in E as ->. rewrite !dget_cons, IH. destruct (seqb k k'); reflexivity.
  - rewrite !dget_cons, IH. destruct (seqb j k') eqn:E1; [|reflexivity]. apply seqb_eq in E1 as <-. rewrite (seqb_sym k j), E. reflexivity.
Qed.
Lemma dset_get d k a k' : dget (dset d k a) k' = if seqb k k' then Some a else dget d k'.
Proof.
  unfold dset. destruct (dget d k) as [b|] eqn:E.
  - rewrite dget_map. destruct (seqb k k') eqn:E1; [|reflexivity]. apply seqb_eq in E1 as <-. rewrite E. reflexivity.
  - rewrite dget_app, dget_cons, dget_nil. destruct (seqb k k') eqn:E1.
    + apply seqb_eq in E1 as <-. rewrite E. reflexivity.
    + destruct (dget d k'); reflexivity.
Qed.
Lemma ddel_get d k k' : dget (ddel d k) k' = if seqb k k' then None else dget d k'.
Proof.
  induction d as [|[j b] d IH]; [destruct (seqb k k'); reflexivity|]. unfold ddel in *. cbn [filter fst]. destruct (seqb j k) eqn:E; cbn [negb].
  - apply seqb_eq in E as ->. rewrite IH, dget_cons. destruct (seqb k k'); reflexivity.
  - rewrite !dget_cons, IH. destruct (seqb j k') eqn:E1; [|reflexivity]. apply seqb_eq in E1 as <-. rewrite (seqb_sym k j), E. reflexivity.
Qed.
Lemma dget_In d k a : NoDup (map fst d) -> (dget d k = Some a <-> In (k, a) d).
Proof.
  induction d as [|[j b] d IH]; intros N; [split; [discriminate|contradiction]|]. cbn [map fst] in N. inversion N as [|? ? Hn Nd]; subst. rewrite dget_cons. destruct (seqb j k) eqn:E.
  - apply seqb_eq in E as ->. split; [intros H; injection H as ->; left; reflexivity|]. intros [H|H]; [injection H as ->; reflexivity|]. exfalso. apply Hn. apply in_map_iff. exists (k, a). split; [reflexivity|exact H].
  - rewrite IH by assumption. split; [intros H; right; exact H|]. intros [H|H]; [|exact H]. injection H as -> ->. rewrite seqb_refl in E. discriminate.
Qed.
Lemma dget_None d k : dget d k = None <-> ~ In k (map fst d).
Proof.
  induction d as [|[j b] d IH]; [split; [intros _ []|reflexivity]|]. rewrite dget_cons. cbn [map fst In]. destruct (seqb j k) eqn:E.
  - apply seqb_eq in E as ->. split; [discriminate|intros H; exfalso; apply H; left; reflexivity].
  - rewrite IH. apply seqb_neq in E. tauto.
Qed.
Lemma mset_keys m k a : forall x, In x (map fst (mset m k a)) -> x = k \/ In x (map fst m).
Proof.
  induction m as [|[j b] m IH]; cbn [mset]; intros x Hx; [cbn in Hx; intuition|].
  destruct (seqb j k) eqn:E; [apply seqb_eq in E as ->; cbn in Hx |- *; intuition|]. destruct (str_ltb k j); cbn [map fst In] in Hx |- *; [intuition|]. destruct Hx as [Hx|Hx]; [tauto|]. apply IH in Hx. tauto.
Qed.
(** ** The order of std::map *)
Lemma ltb_trans a : forall b c, str_ltb a b = true -> str_ltb b c = true -> str_ltb a c = true.
Proof.
  induction a as [|x a IH]; intros [|y b] [|z c] H1 H2; cbn [str_ltb] in *; try discriminate; try reflexivity.
  destruct (Nat.ltb_spec (nat_of_ascii x) (nat_of_ascii y)); destruct (Nat.ltb_spec (nat_of_ascii y) (nat_of_ascii z)); destruct (Nat.ltb_spec (nat_of_ascii x) (nat_of_ascii z)); try reflexivity; try lia.
  - destruct (Nat.ltb_spec (nat_of_ascii z) (nat_of_ascii y)); [discriminate|lia].
  - destruct (Nat.ltb_spec (nat_of_ascii y) (nat_of_ascii x)); [discriminate|lia].
  - destruct (Nat.ltb_spec (nat_of_ascii y) (nat_of_ascii x)); [discriminate|]. destruct (Nat.ltb_spec (nat_of_ascii z) (nat_of_ascii y)); [discriminate|].
    destruct (Nat.ltb_spec (nat_of_ascii z) (nat_of_ascii x)); [lia|]. eapply IH; eassumption.
Qed.
Lemma ltb_irrefl a : str_ltb a a = false.
Proof. induction a as [|x a IH]; [reflexivity|]. cbn [str_ltb]. rewrite Nat.ltb_irrefl. exact IH. Qed.
Lemma ltb_total a : forall b, str_ltb a b = false -> a <> b -> str_ltb b a = true.
Proof.
  induction a as [|x a IH]; intros [|y b] H1 H2; cbn [str_ltb] in *; try discriminate; try reflexivity; [congruence|].
  destruct (Nat.ltb_spec (nat_of_ascii x) (nat_of_ascii y)); [discriminate|]. destruct (Nat.ltb_spec (nat_of_ascii y) (nat_of_ascii x)); [reflexivity|].
  apply IH; [exact H1|]. intros ->. apply H2. f_equal. rewrite <- (ascii_nat_embedding x), <- (ascii_nat_embedding y). f_equal. lia.
Qed.
Definition sorted (m : list (str * nat)) : Prop := StronglySorted (fun a b => str_ltb a b = true) (map fst m).
Lemma sorted_NoDup m : sorted m -> NoDup (map fst m).
Proof.
  unfold sorted. induction (map fst m) as [|x l IH]; intros H; [constructor|]. inversion H as [|? ? S F]; subst. constructor; [|apply IH; exact S].
  intros N. rewrite Forall_forall in F. specialize (F _ N). rewrite ltb_irrefl in F. discriminate.
Qed.
Lemma mset_sorted m k a : sorted m -> sorted (mset m k a).
Proof.
  unfold sorted. induction m as [|[j b] m IH]; cbn [mset map fst]; intros N; [repeat constructor|]. inversion N as [|? ? Hs F]; subst.
  destruct (seqb j k) eqn:E; [apply seqb_eq in E as ->; exact N|]. apply seqb_neq in E. destruct (str_ltb k j) eqn:L; cbn [map fst].
  - constructor; [exact N|]. constructor; [exact L|]. eapply Forall_impl; [|exact F]. intros x Hx. exact (ltb_trans _ _ _ L Hx).
  - constructor; [apply IH; exact Hs|]. rewrite Forall_forall. intros x Hx. apply mset_keys in Hx as [->|Hx]; [apply ltb_total; [exact L|congruence]|]. rewrite Forall_forall in F. apply F, Hx.
Qed.
Lemma filter_sorted f (m : list (str * nat)) : sorted m -> sorted (filter f m).
Proof.
  unfold sorted. induction m as [|[j b] m IH]; cbn [filter map fst]; intros N; [exact N|]. inversion N as [|? ? Hs F]; subst. destruct (f (j, b)); [|apply IH; exact Hs]. cbn [map fst]. constructor; [apply IH; exact Hs|].
  rewrite Forall_forall in *. intros x Hx. apply F. apply in_map_iff in Hx as (p & <- & Hp). apply filter_In in Hp as [Hp _]. apply in_map. exact Hp.
Qed.
Lemma dset_NoDup d k a : NoDup (map fst d) -> NoDup (map fst (dset d k a)).
Proof.
  intros N. unfold dset. destruct (dget d k) as [b|] eqn:E.
  - rewrite map_map. replace (map _ d) with (map fst d); [exact N|]. apply map_ext. intros [j c]. cbn [fst]. destruct (seqb j k) eqn:Q; [apply seqb_eq in Q as ->|]; reflexivity.
  - rewrite map_app. apply dget_None in E. cbn [map fst]. apply (Permutation_NoDup (Permutation_app_comm [k] (map fst d))). constructor; assumption.
Qed.

(** ** Reading back a macro *)
Lemma subst_same stop f : forall s w inside prev t,
  (forall a x b v, w ++ s = a ++ x ++ b -> f x = Some v -> v = x) -> (inside = true -> w = []) ->
  subst_body stop f w inside prev s = Some t -> t = w ++ s.
Proof.
  assert (W : forall w n a s0, (forall a x b v, w ++ s0 = a ++ x ++ b -> f x = Some v -> v = x) -> a = subst_word stop f w n -> a = w).
  { intros w n a s0 H ->. unfold subst_word. destruct (f w) as [v|] eqn:E; [|reflexivity]. destruct n as [c|]; [destruct (stop c); [reflexivity|]|]; apply (H [] w s0 v); try reflexivity; exact E. }
  induction s as [|c s IH]; intros w inside prev t H Hi; cbn [subst_body].
  - destruct inside; [discriminate|]. intros E. injection E as <-. rewrite app_nil_r. eapply (W w None _ []); [|reflexivity]. intros a x b v E Ef. exact (H a x b v E Ef).
  - destruct inside.
    + rewrite (Hi eq_refl) in *. destruct (subst_body _ _ _ _ _ _) as [r|] eqn:E; [|discriminate]. intros Q. injection Q as <-. cbn [app]. f_equal. apply IH in E; [exact E| |reflexivity].
      intros a x b v Ea. apply (H (c :: a) x b v). cbn [app] in Ea |- *. f_equal. exact Ea.
    + destruct (word_char c).
      * intros E. apply IH in E; [rewrite E, <- app_assoc; reflexivity| |discriminate]. intros a x b v Ea. apply (H a x b v). rewrite <- Ea, <- app_assoc. reflexivity.
      * destruct (subst_body _ _ _ _ _ _) as [r|] eqn:E; [|discriminate]. cbn [option_map]. intros Q. injection Q as <-. apply IH in E; [| |reflexivity].
        -- f_equal; [|f_equal; exact E]. eapply (W w (Some c) _ (c :: s)); [|reflexivity]. intros a x b v Ea. apply (H a x b v). exact Ea.
        -- intros a x b v Ea. apply (H (w ++ c :: a) x b v). rewrite <- app_assoc. cbn [app] in Ea |- *. rewrite <- Ea. reflexivity.
Qed.
(** The names the parameters are shown as. *)
Definition shown (ps : list param_info) : list str := match ps with [] => [] | _ :: l => [] :: map p_name l end.
Lemma get_body_render ps : forall fs, (forall i, In (FArg i) fs -> i < length ps) -> get_body ps fs = render fs (shown ps).
Proof.
  induction fs as [|[s|[|i]] fs IH]; intros H; cbn [get_body render]; [reflexivity|..]; (rewrite IH; [|intros j Hj; apply H; right; exact Hj]); cbn [bind].
  - reflexivity.
  - specialize (H 0 (or_introl eq_refl)). destruct ps as [|p ps]; [cbn in H; lia|]. reflexivity.
  - specialize (H (S i) (or_introl eq_refl)). destruct ps as [|p ps]; [cbn in H; lia|]. cbn [nth_error shown]. rewrite nth_error_map.
    destruct (nth_error ps i) as [q|] eqn:E; [reflexivity|]. apply nth_error_None in E. cbn in H. lia.
Qed.
Lemma shown_length ps : length (shown ps) = length ps.
Proof. destruct ps; [reflexivity|]. cbn. rewrite map_length. reflexivity. Qed.
(** get_body gives the text with every use of parameter 0 removed. *)
Lemma body_law name hp ps body m : Forall (fun p => identifier (p_name p)) ps -> NoDup (map p_name ps) -> new_macro name hp ps body = Ok m ->
  exists t, get_body (m_params m) (m_body m) = Ok t /\ subst_no_bracket (lookup (map p_name ps) (shown ps)) body = Some t.
Proof.
  intros Hi Hn E. pose proof (new_macro_body _ _ _ _ _ E) as B. assert (P : m_params m = ps) by (unfold new_macro in E; apply bind_ok in E as (b & _ & Q); injection Q as <-; reflexivity).
  pose proof (parse_body_subst name ps (shown ps) body Hi Hn (shown_length ps)) as S1. destruct (parse_body_ok name ps body) as [(fs & E1 & Hr)|(msg & E1)]; [|rewrite B in E1; discriminate].
  rewrite B in E1. injection E1 as <-. destruct (subst_no_bracket _ body) as [t|].
  - destruct S1 as (fs & E2 & R). rewrite B in E2. injection E2 as <-. exists t. split; [|reflexivity]. rewrite P, get_body_render by exact Hr. exact R.
  - exfalso. rewrite B in S1. discriminate.
Qed.
Lemma lookup_shown ps x v : lookup (map p_name ps) (shown ps) x = Some v -> v = x \/ exists p l, ps = p :: l /\ x = p_name p.
Proof.
  destruct ps as [|p ps]; [discriminate|]. cbn [map shown lookup]. destruct (seqb (p_name p) x) eqn:E; [apply seqb_eq in E; intros _; right; eauto|].
  intros H. left. induction ps as [|q ps IH]; [discriminate|]. cbn [map lookup] in H. destruct (seqb (p_name q) x) eqn:E1; [apply seqb_eq in E1; congruence|apply IH; exact H].
Qed.
Lemma body_back name hp ps body m : Forall (fun p => identifier (p_name p)) ps -> NoDup (map p_name ps) -> new_macro name hp ps body = Ok m ->
  (forall p l a b, ps = p :: l -> body <> a ++ p_name p ++ b) -> get_body (m_params m) (m_body m) = Ok body.
Proof.
  intros Hi Hn E H0. destruct (body_law _ _ _ _ _ Hi Hn E) as (t & G & S1). rewrite G. f_equal. unfold subst_no_bracket in S1. apply subst_same in S1; [exact S1| |discriminate].
  intros a x b v Ea Hl. destruct (lookup_shown _ _ _ Hl) as [->|(p & l & -> & ->)]; [reflexivity|]. exfalso. exact (H0 p l a b eq_refl Ea).
Qed.

(** ** The refinement *)
Definition is_some {A} (o : option A) : bool := match o with Some _ => true | None => false end.
Definition params_of (ps : option (list (str * option str))) : list param_info := cpp_params (match ps with Some l => l | None => [] end).
Definition built (m : made) (d : macro_def) : Prop := new_macro (mk_name m) (is_some (mk_params m)) (params_of (mk_params m)) (mk_body m) = Ok d /\ good_params (mk_params m).
Record inv (s : pydb) (w : world) : Prop := mkInv {
  i_len : length (pd_heap s) = length (w_objs w);
  i_obj : forall a m, nth_error (w_objs w) a = Some m -> ~ In a (w_gone w) -> exists d p, nth_error (pd_heap s) a = Some (Some (mkObj (MUser d) p)) /\ built m d;
  i_map : forall k, dget (pd_map s) k = dget (w_dict w) k;
  i_sorted : sorted (pd_map s);
  i_nodup : NoDup (map fst (w_dict w));
  i_live : forall k a, dget (w_dict w) k = Some a -> a < length (w_objs w) /\ ~ In a (w_gone w) }.
Lemma inv0 : inv db0 world0.
Proof. constructor; cbn; try reflexivity; try constructor; try discriminate. intros a m H. destruct a; discriminate. Qed.

Lemma good_cpp ps : good_params ps -> Forall (fun p => identifier (p_name p)) (params_of ps) /\ NoDup (map p_name (params_of ps))
  /\ match ps with Some l => map (fun p => (p_name p, if p_has_def p then Some (p_def p) else None)) (params_of ps) = l | None => True end.
Proof.
  destruct ps as [l|]; [|intros _; repeat constructor]. unfold params_of. cbn [good_params]. intros [F N].
  assert (E : map (fun p => (p_name p, if p_has_def p then Some (p_def p) else None)) (cpp_params l) = l).
  { clear N. induction F as [|[n [d|]] l [Hd Hi] F IH]; [reflexivity| |cbn in Hd; congruence]. unfold cpp_params in *. cbn [flat_map snd fst app map p_name p_has_def p_def]. f_equal. exact IH. }
  assert (N2 : map p_name (cpp_params l) = map fst l) by (rewrite <- E at 2; rewrite map_map; reflexivity).
  split; [|split; [rewrite N2; exact N|exact E]]. clear E N N2. induction F as [|[n [d|]] l [Hd Hi] F IH]; [constructor| |cbn in Hd; congruence]. unfold cpp_params in *. cbn [flat_map snd fst app]. constructor; [exact Hi|exact IH].
Qed.
Lemma make_ok h n ps b : good_params ps -> terminated b -> exists d, new_proxy h n ps b = Ok (h ++ [Some (mkObj (MUser d) false)], length h) /\ built (mkMade n ps b) d.
Proof.
  intros G T. destruct (good_cpp ps G) as (Hi & Hn & _). destruct (proj2 (new_macro_constructible n (is_some ps) (params_of ps) b Hi Hn) T) as (d & E). exists d. split; [|split; [exact E|exact G]].
  unfold new_proxy. change (match ps with Some _ => true | None => false end) with (is_some ps). fold (params_of ps). rewrite E. reflexivity.
Qed.
Lemma nth_snoc {A} (l : list A) x a : nth_error (l ++ [x]) a = if a <? length l then nth_error l a else if a =? length l then Some x else None.
Proof.
  destruct (Nat.ltb_spec a (length l)); [apply nth_error_app1; assumption|]. rewrite nth_error_app2 by assumption. destruct (Nat.eqb_spec a (length l)) as [->|].
  - rewrite Nat.sub_diag. reflexivity.
  - destruct (a - length l) as [|j] eqn:E; [lia|]. cbn. destruct j; reflexivity.
Qed.
Lemma inv_new s w n ps b d : inv s w -> built (mkMade n ps b) d -> ~ In (length (w_objs w)) (w_gone w) ->
  inv (mkDb (pd_heap s ++ [Some (mkObj (MUser d) false)]) (pd_map s)) (mkWorld (w_objs w ++ [mkMade n ps b]) (w_dict w) (w_gone w)).
Proof.
  intros [L O M1 S1 N1 V] B G. constructor; cbn [pd_heap pd_map w_objs w_dict w_gone]; try assumption.
  - rewrite !app_length, L. reflexivity.
  - intros a m H Hg. rewrite nth_snoc in H. rewrite nth_snoc, L. destruct (a <? length (w_objs w)); [apply O; assumption|]. destruct (a =? length (w_objs w)); [|discriminate]. injection H as <-. eauto.
  - intros k a H. apply V in H as [H1 H2]. split; [rewrite app_length; cbn; lia|exact H2].
Qed.
Lemma hset_nth h a o b : a < length h -> nth_error (hset h a o) b = if b =? a then Some o else nth_error h b.
Proof. intros H. unfold hset. apply replace_nth. exact H. Qed.
Lemma hset_len h a o : a < length h -> length (hset h a o) = length h.
Proof. intros H. unfold hset. rewrite app_length, firstn_length_le by lia. cbn [length]. rewrite skipn_length. lia. Qed.
Lemma live_obj s w a : inv s w -> a < length (w_objs w) -> ~ In a (w_gone w) -> exists m d p, nth_error (w_objs w) a = Some m /\ deref (pd_heap s) a = Ok (mkObj (MUser d) p) /\ built m d.
Proof.
  intros I H G. destruct (nth_error (w_objs w) a) as [m|] eqn:E; [|apply nth_error_None in E; lia]. destruct (i_obj _ _ I _ _ E G) as (d & p & E1 & B). exists m, d, p. repeat split; try apply B. unfold deref. rewrite E1. reflexivity.
Qed.
Lemma inv_store s w k a : inv s w -> a < length (w_objs w) -> ~ In a (w_gone w) ->
  exists d p, deref (pd_heap s) a = Ok (mkObj (MUser d) p) /\
  inv (mkDb (hset (pd_heap s) a (Some (mkObj (MUser d) true))) (mset (pd_map s) k a)) (mkWorld (w_objs w) (dset (w_dict w) k a) (w_gone w)).
Proof.
  intros I H G. destruct (live_obj s w a I H G) as (m & d & p & E & D & B). exists d, p. split; [exact D|]. destruct I as [L O M1 S1 N1 V].
  constructor; cbn [pd_heap pd_map w_objs w_dict w_gone].
  - rewrite hset_len; [exact L|rewrite L; exact H].
  - intros b m' E' G'. rewrite hset_nth by (rewrite L; exact H). destruct (Nat.eqb_spec b a) as [->|]; [|apply O; assumption]. rewrite E in E'. injection E' as <-. eauto.
  - intros k'. rewrite mset_get, dset_get, M1. reflexivity.
  - apply mset_sorted, S1.
  - apply dset_NoDup, N1.
  - intros k' b. rewrite dset_get. destruct (seqb k k'); [intros Q; injection Q as <-; tauto|apply V].
Qed.
(** The objects that are gone existed. *)
Definition gone_ok (w : world) : Prop := forall a, In a (w_gone w) -> a < length (w_objs w).
Lemma set_item_ok s w k v : inv s w -> gone_ok w -> storable w v ->
  exists s' w' r, set_item s k v = Ok (s', r) /\ set_entry w k v = (w', r) /\ inv s' w' /\ gone_ok w'.
Proof.
  intros I G [U T].
  assert (F : forall t, terminated t -> exists s' w' r,
    ('(h, a) <- new_proxy (pd_heap s) k None t ;; o <- deref h a ;; Ok (mkDb (hset h a (Some (mkObj (co_def o) true))) (mset (pd_map s) k a), RUnit)) = Ok (s', r) /\
    (mkWorld (w_objs w ++ [mkMade k None t]) (dset (w_dict w) k (length (w_objs w))) (w_gone w), RUnit) = (w', r) /\ inv s' w' /\ gone_ok w').
  { intros t Ht. destruct (make_ok (pd_heap s) k None t Logic.I Ht) as (d & E & B). rewrite E. cbn [bind].
    assert (NG : ~ In (length (w_objs w)) (w_gone w)) by (intros N; apply G in N; lia).
    pose proof (inv_new s w k None t d I B NG) as I1.
    destruct (inv_store _ _ k (length (w_objs w)) I1 ltac:(cbn; rewrite app_length; cbn; lia) NG) as (d' & p & D & I2). cbn [pd_heap pd_map w_objs w_dict w_gone] in D, I2. rewrite (i_len _ _ I), D. cbn [bind co_def].
    eexists _, _, _. split; [reflexivity|]. split; [reflexivity|]. split; [exact I2|]. intros a Ha. cbn in *. rewrite app_length. apply G in Ha. lia. }
  destruct v as [|t|a|]; unfold set_item, set_entry.
  - apply (F []). discriminate.
  - apply (F t). exact T.
  - destruct U as [U1 U2]. destruct (inv_store s w k a I U1 U2) as (d & p & D & I1). rewrite D. cbn [bind co_def]. eexists _, _, _. split; [reflexivity|]. split; [reflexivity|]. split; [exact I1|exact G].
  - eexists _, _, _. split; [reflexivity|]. split; [reflexivity|]. split; assumption.
Qed.
Lemma update_ok : forall l s w, inv s w -> gone_ok w -> all_storable w l ->
  exists s' w' r, update s l = Ok (s', r) /\ set_all w l = (w', r) /\ inv s' w' /\ gone_ok w'.
Proof.
  induction l as [|[k v] l IH]; intros s w I G H; cbn [update set_all].
  - eexists _, _, _. split; [reflexivity|]. split; [reflexivity|]. split; assumption.
  - cbn [all_storable] in H. destruct H as [H1 H2]. destruct (set_item_ok s w k v I G H1) as (s1 & w1 & r & E1 & E2 & I1 & G1). rewrite E1, E2. cbn [bind]. rewrite E2 in H2. cbn [fst] in H2.
    destruct r; try (apply IH; assumption). eexists _, _, _. split; [reflexivity|]. split; [reflexivity|]. split; assumption.
Qed.
Lemma value_ok s w a : inv s w -> a < length (w_objs w) -> ~ In a (w_gone w) -> value_of (pd_heap s) a = Ok (PMacro a).
Proof. intros I H G. destruct (live_obj s w a I H G) as (m & d & p & _ & D & _). unfold value_of. rewrite D. reflexivity. Qed.
Lemma found_ok s w k : inv s w -> match dget (w_dict w) k with Some a => mfind (pd_map s) k = Some a /\ value_of (pd_heap s) a = Ok (PMacro a) | None => mfind (pd_map s) k = None end.
Proof.
  intros I. rewrite mfind_dget, (i_map _ _ I). destruct (dget (w_dict w) k) as [a|] eqn:E; [|reflexivity]. split; [reflexivity|]. apply (i_live _ _ I) in E as [E1 E2]. exact (value_ok s w a I E1 E2).
Qed.
Lemma perm_maps s w : inv s w -> Permutation (pd_map s) (w_dict w).
Proof.
  intros I. assert (K : forall d : list (str * nat), NoDup (map fst d) -> NoDup d) by (intros d; apply NoDup_map_inv).
  pose proof (sorted_NoDup _ (i_sorted _ _ I)) as N1. pose proof (i_nodup _ _ I) as N2. apply NoDup_Permutation; [apply K, N1|apply K, N2|].
  intros [k a]. rewrite <- !dget_In by assumption. rewrite (i_map _ _ I). reflexivity.
Qed.
Lemma values_ok s w : inv s w -> values_of (pd_heap s) (pd_map s) = Ok (map (fun p => PMacro (snd p)) (pd_map s)).
Proof.
  intros I. assert (H : forall k a, In (k, a) (pd_map s) -> value_of (pd_heap s) a = Ok (PMacro a)).
  { intros k a Hin. apply (Permutation_in _ (perm_maps s w I)) in Hin. apply dget_In in Hin; [|apply (i_nodup _ _ I)]. apply (i_live _ _ I) in Hin as [H1 H2]. exact (value_ok s w a I H1 H2). }
  induction (pd_map s) as [|[k a] m IH]; [reflexivity|]. cbn [values_of map snd]. rewrite (H k a (or_introl eq_refl)). cbn [bind]. rewrite IH; [reflexivity|]. intros k' b Hb. apply (H k'). right. exact Hb.
Qed.
Lemma combine_items (m : list (str * nat)) : combine (map fst m) (map (fun p => PMacro (snd p)) m) = map (fun p => (fst p, PMacro (snd p))) m.
Proof. induction m as [|p m IH]; [reflexivity|]. cbn [map combine]. rewrite IH. reflexivity. Qed.
Lemma agree_refl r : agree r r. Proof. destruct r; cbn; auto. Qed.

Lemma step_ok s w o : inv s w -> gone_ok w -> covered w o ->
  exists s' w' r r', step s o = Ok (s', r) /\ dict_step w o = (w', r') /\ inv s' w' /\ gone_ok w' /\ agree r r'.
Proof.
  intros I G C. destruct o as [n ps b|k d|k|k v|k|k d|k d|k| | | | | |l| | |v|v|v]; cbn [step dict_step covered] in *.
  - destruct C as [C1 C2]. assert (T : terminated (match b with Some t => t | None => [] end)) by (destruct b; [exact C2|discriminate]).
    destruct (make_ok (pd_heap s) n ps _ C1 T) as (d & E & B). rewrite E. cbn [bind]. assert (NG : ~ In (length (w_objs w)) (w_gone w)) by (intros N; apply G in N; lia).
    eexists _, _, _, _. split; [reflexivity|]. split; [reflexivity|]. split; [apply inv_new; assumption|]. split; [|rewrite (i_len _ _ I); apply agree_refl]. intros a Ha. cbn in *. rewrite app_length. apply G in Ha. lia.
  - pose proof (found_ok s w k I) as F. unfold lookup_or. destruct (dget (w_dict w) k) as [a|]; [destruct F as [F1 F2]; rewrite F1, F2|rewrite F]; cbn [bind];
      (eexists _, _, _, _; split; [reflexivity|]; split; [reflexivity|]; split; [exact I|]; split; [exact G|apply agree_refl]).
  - pose proof (found_ok s w k I) as F. unfold lookup_or. destruct (dget (w_dict w) k) as [a|]; [destruct F as [F1 F2]; rewrite F1, F2|rewrite F]; cbn [bind];
      (eexists _, _, _, _; split; [reflexivity|]; split; [reflexivity|]; split; [exact I|]; split; [exact G|apply agree_refl]).
  - destruct (set_item_ok s w k v I G C) as (s' & w' & r & E1 & E2 & I1 & G1). exists s', w', r, r. split; [exact E1|]. split; [exact E2|]. split; [exact I1|]. split; [exact G1|apply agree_refl].
  - pose proof (found_ok s w k I) as F. destruct (dget (w_dict w) k) as [a|] eqn:Dk.
    + destruct F as [F1 F2]. rewrite F1. destruct (i_live _ _ I _ _ Dk) as [L1 L2]. destruct (live_obj s w a I L1 L2) as (m & d & p & _ & D & _). rewrite D. cbn [bind].
      eexists _, _, _, _. split; [reflexivity|]. split; [reflexivity|]. split; [|split; [|apply agree_refl]].
      * destruct I as [L O M1 S1 N1 V]. constructor; cbn [pd_heap pd_map w_objs w_dict w_gone].
        -- rewrite hset_len; [exact L|rewrite L; exact L1].
        -- intros b m' E' G'. rewrite hset_nth by (rewrite L; exact L1). destruct (Nat.eqb_spec b a) as [->|]; [exfalso; apply G'; left; reflexivity|]. apply O; [exact E'|]. intros N. apply G'. right. exact N.
        -- intros k'. change (merase (pd_map s) k) with (ddel (pd_map s) k). rewrite !ddel_get, M1. reflexivity.
        -- apply filter_sorted, S1.
        -- unfold ddel. clear - N1. induction (w_dict w) as [|[j c] d IH]; [constructor|]. cbn [map fst] in N1. inversion N1 as [|? ? Hn Nd]; subst. cbn [filter fst]. destruct (negb (seqb j k)); [|apply IH; exact Nd].
           cbn [map fst]. constructor; [|apply IH; exact Nd]. intros N. apply Hn. apply in_map_iff in N as (q & <- & Hq). apply filter_In in Hq as [Hq _]. apply in_map. exact Hq.
        -- intros k' b. rewrite ddel_get. destruct (seqb k k') eqn:E; [discriminate|]. intros Hb. destruct (V _ _ Hb) as [V1 V2]. split; [exact V1|]. intros [<-|N]; [|exact (V2 N)].
           apply seqb_neq in E. apply E. symmetry. apply (C a k' eq_refl Hb).
      * intros b [<-|Hb]; [exact L1|apply G, Hb].
    + rewrite F. eexists _, _, _, _. split; [reflexivity|]. split; [reflexivity|]. split; [exact I|]. split; [exact G|apply agree_refl].
  - pose proof (found_ok s w k I) as F. rewrite C in *. unfold lookup_or. rewrite F. eexists _, _, _, _. split; [reflexivity|]. split; [reflexivity|]. split; [exact I|]. split; [exact G|apply agree_refl].
  - pose proof (found_ok s w k I) as F. destruct (dget (w_dict w) k) as [a|] eqn:Dk.
    + destruct F as [F1 F2]. rewrite F1, F2. cbn [bind]. eexists _, _, _, _. split; [reflexivity|]. split; [reflexivity|]. split; [exact I|]. split; [exact G|apply agree_refl].
    + rewrite F. specialize (C eq_refl). destruct (set_item_ok s w k d I G) as (s' & w' & r & E1 & E2 & I1 & G1); [destruct d; try contradiction; (split; [exact C|exact Logic.I])|].
      rewrite E1, E2. cbn [bind]. destruct d as [| |a|]; try contradiction; unfold set_entry in E2.
      * injection E2 as <- <-. eexists _, _, _, _. split; [reflexivity|]. split; [reflexivity|]. split; [exact I1|]. split; [exact G1|]. cbn [w_dict]. rewrite dset_get, seqb_refl. apply agree_refl.
      * injection E2 as <- <-. eexists _, _, _, _. split; [reflexivity|]. split; [reflexivity|]. split; [exact I1|]. split; [exact G1|]. apply agree_refl.
  - rewrite mfind_dget, (i_map _ _ I). eexists _, _, _, _. split; [reflexivity|]. split; [reflexivity|]. split; [exact I|]. split; [exact G|apply agree_refl].
  - eexists _, _, _, _. split; [reflexivity|]. split; [reflexivity|]. split; [exact I|]. split; [exact G|]. cbn [agree]. rewrite (Permutation_length (perm_maps s w I)). reflexivity.
  - eexists _, _, _, _. split; [reflexivity|]. split; [reflexivity|]. split; [exact I|]. split; [exact G|]. cbn [agree]. apply Permutation_map, (perm_maps s w I).
  - rewrite (values_ok s w I). cbn [bind]. eexists _, _, _, _. split; [reflexivity|]. split; [reflexivity|]. split; [exact I|]. split; [exact G|]. cbn [agree]. apply (Permutation_map (fun p => PMacro (snd p))), (perm_maps s w I).
  - rewrite (values_ok s w I). cbn [bind]. eexists _, _, _, _. split; [reflexivity|]. split; [reflexivity|]. split; [exact I|]. split; [exact G|]. cbn [agree]. rewrite combine_items. apply (Permutation_map (fun p => (fst p, PMacro (snd p)))), (perm_maps s w I).
  - rewrite (values_ok s w I). cbn [bind]. eexists _, _, _, _. split; [reflexivity|]. split; [reflexivity|]. split; [|split; [exact G|apply agree_refl]].
    destruct I as [L O M1 S1 N1 V]. constructor; cbn [pd_heap pd_map w_objs w_dict w_gone]; try assumption; try reflexivity; try constructor. discriminate. discriminate.
  - destruct (update_ok l s w I G C) as (s' & w' & r & E1 & E2 & I1 & G1). exists s', w', r, r. split; [exact E1|]. split; [exact E2|]. split; [exact I1|]. split; [exact G1|apply agree_refl].
  - contradiction.
  - contradiction.
  - unfold with_macro, attribute. destruct C as [U Cb]. destruct v as [|t|a|]; try (eexists _, _, _, _; split; [reflexivity|]; split; [reflexivity|]; split; [exact I|]; split; [exact G|apply agree_refl]).
    destruct U as [U1 U2]. destruct (live_obj s w a I U1 U2) as (m & d & p & E & D & [B1 B2]). rewrite D, E. cbn [bind co_def]. destruct (good_cpp _ B2) as (Hi & Hn & Hp). specialize (Cb a m eq_refl E).
    rewrite (body_back _ _ _ _ _ Hi Hn B1).
    + cbn [bind]. eexists _, _, _, _. split; [reflexivity|]. split; [reflexivity|]. split; [exact I|]. split; [exact G|apply agree_refl].
    + intros q l x y El. unfold first_unused in Cb. destruct (mk_params m) as [lp|]; [|discriminate El]. rewrite El in Hp. subst lp. cbn [map fst] in Cb. exact (Cb x y).
  - unfold with_macro, attribute. destruct v as [|t|a|]; try (eexists _, _, _, _; split; [reflexivity|]; split; [reflexivity|]; split; [exact I|]; split; [exact G|apply agree_refl]).
    destruct C as [U1 U2]. destruct (live_obj s w a I U1 U2) as (m & d & p & E & D & [B1 B2]). rewrite D, E. cbn [bind co_def]. eexists _, _, _, _. split; [reflexivity|]. split; [reflexivity|]. split; [exact I|]. split; [exact G|].
    destruct (good_cpp _ B2) as (_ & _ & Hp). unfold new_macro in B1. apply bind_ok in B1 as (bd & _ & Q). injection Q as <-. unfold get_params. cbn [m_has_params m_params agree]. destruct (mk_params m) as [lp|]; cbn [is_some]; [rewrite Hp|]; reflexivity.
  - unfold with_macro, attribute. destruct v as [|t|a|]; try (eexists _, _, _, _; split; [reflexivity|]; split; [reflexivity|]; split; [exact I|]; split; [exact G|apply agree_refl]).
    destruct C as [U1 U2]. destruct (live_obj s w a I U1 U2) as (m & d & p & E & D & [B1 B2]). rewrite D, E. cbn [bind co_def]. eexists _, _, _, _. split; [reflexivity|]. split; [reflexivity|]. split; [exact I|]. split; [exact G|].
    unfold new_macro in B1. apply bind_ok in B1 as (bd & _ & Q). injection Q as <-. reflexivity.
Qed.
Theorem run_refines : forall l s w, inv s w -> gone_ok w -> history w l ->
  exists s' rs, run_ops s l = Ok (s', rs) /\ Forall2 agree rs (snd (dict_run w l)).
Proof.
  induction l as [|o l IH]; intros s w I G H; cbn [run_ops dict_run].
  - exists s, []. split; [reflexivity|constructor].
  - cbn [history] in H. destruct H as [C H]. destruct (step_ok s w o I G C) as (s1 & w1 & r & r' & E1 & E2 & I1 & G1 & A). rewrite E1, E2 in *. cbn [bind fst] in *.
    destruct (IH s1 w1 I1 G1 H) as (s2 & rs & E3 & F). rewrite E3. cbn [bind]. destruct (dict_run w1 l) as [w2 rs'] eqn:E4. cbn [snd] in *. exists s2, (r :: rs). split; [reflexivity|constructor; assumption].
Qed.
