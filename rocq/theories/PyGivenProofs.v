(** The macros given by Python are those that the preprocessor finds. *)
From Verif Require Import Base BaseFacts MacroDefModel MacroSpec MacroSubstProofs PpModel PpSpec PpSrcSpec PpSrcRunProofs PyDbModel PyDbSpec PyDbProofs PyGivenModel PyGivenSpec.

Definition holds (s : pydb) (e : macros) : Prop :=
  NoDup (map fst (pd_map s)) /\ Forall (fun p => exists m, nth_error (pd_heap s) (snd p) = Some (Some (mkObj (MUser m) true))) (pd_map s) /\
  forall n, match body_of e n with
            | Some b => exists a m, mfind (pd_map s) n = Some a /\ nth_error (pd_heap s) a = Some (Some (mkObj (MUser m) true)) /\ stands n b m
            | None => mfind (pd_map s) n = None
            end.
Lemma mfind_mset m k a k' : mfind (mset m k a) k' = if seqb k k' then Some a else mfind m k'.
Proof. rewrite !mfind_dget. apply mset_get. Qed.
Lemma mfind_none m k : mfind m k = None -> ~ In k (map fst m).
Proof. induction m as [|[k' a] m IH]; cbn [mfind map fst]; intros H; [intros []|]. destruct (seqb k' k) eqn:E; [discriminate|]. intros [->|I]; [rewrite seqb_refl in E; discriminate|exact (IH H I)]. Qed.
Lemma mset_nodup m k a : NoDup (map fst m) -> ~ In k (map fst m) -> NoDup (map fst (mset m k a)).
Proof.
  induction m as [|[k' a'] m IH]; cbn [mset map fst]; intros N I; [constructor; [intros []|constructor]|]. inversion N as [|? ? N1 N2]; subst. destruct (seqb k' k) eqn:E; [apply seqb_eq in E; subst; exfalso; apply I; left; reflexivity|]. destruct (str_ltb k k'); [constructor; assumption|].
  cbn [map fst]. constructor; [|apply IH; [exact N2|intros H; apply I; right; exact H]]. intros H. apply mset_keys in H as [->|H]; [apply I; left; reflexivity|exact (N1 H)].
Qed.
Lemma mset_in m k a p : In p (mset m k a) -> p = (k, a) \/ In p m.
Proof. induction m as [|[k' a'] m IH]; cbn [mset]; [intros [<-|[]]; auto|]. destruct (seqb k' k); [intros [<-|H]; [auto|right; right; exact H]|]. destruct (str_ltb k k'); [intros [<-|H]; [auto|right; exact H]|]. intros [<-|H]; [right; left; reflexivity|]. destruct (IH H) as [->|G]; [auto|right; right; exact G]. Qed.
Lemma body_app e n b k : body_of (e ++ [(n, b)]) k = match body_of e k with Some x => Some x | None => if seqb n k then Some b else None end.
Proof. induction e as [|[k' b'] e IH]; cbn [app body_of]; [reflexivity|]. destruct (seqb k' k); [reflexivity|exact IH]. Qed.
Lemma set_text s e n b : holds s e -> body_of e n = None -> final_inside false None b = false ->
  exists s', set_item s n (PText b) = Ok (s', RUnit) /\ holds s' (e ++ [(n, (None, b))]).
Proof.
  intros (H1 & H2 & H3) N B. destruct (new_plain n b B) as (m & M & P). unfold set_item, new_proxy. cbn [cpp_params flat_map]. rewrite M. cbn [bind]. set (h := pd_heap s) in *.
  assert (D : deref (h ++ [Some (mkObj (MUser m) false)]) (length h) = Ok (mkObj (MUser m) false)) by (unfold deref; rewrite nth_error_app2, Nat.sub_diag by lia; reflexivity). rewrite D. cbn [bind co_def].
  eexists. split; [reflexivity|]. assert (HL : length h < length (h ++ [Some (mkObj (MUser m) false)])) by (rewrite app_length; cbn; lia).
  assert (X : nth_error (hset (h ++ [Some (mkObj (MUser m) false)]) (length h) (Some (mkObj (MUser m) true))) (length h) = Some (Some (mkObj (MUser m) true))) by (rewrite hset_nth, Nat.eqb_refl by exact HL; reflexivity).
  assert (Y : forall a o, nth_error h a = Some o -> nth_error (hset (h ++ [Some (mkObj (MUser m) false)]) (length h) (Some (mkObj (MUser m) true))) a = Some o).
  { intros a o Ha. assert (LA : a < length h) by (apply nth_error_Some; congruence). rewrite hset_nth by exact HL. destruct (Nat.eqb_spec a (length h)); [lia|]. rewrite nth_error_app1 by exact LA. exact Ha. }
  pose proof (H3 n) as Hn. rewrite N in Hn. split; [|split]; cbn [pd_heap pd_map].
  - apply mset_nodup; [exact H1|apply mfind_none; exact Hn].
  - rewrite Forall_forall in *. intros p I. apply mset_in in I as [->|I]; [exists m; exact X|]. destruct (H2 p I) as (m' & E). exists m'. exact (Y _ _ E).
  - intros k. rewrite body_app, mfind_mset. specialize (H3 k). destruct (body_of e k) as [x|] eqn:Ek.
    + destruct H3 as (a & m' & F & E & S). destruct (seqb n k) eqn:Q; [apply seqb_eq in Q; subst k; congruence|]. exists a, m'. split; [exact F|split; [exact (Y _ _ E)|exact S]].
    + destruct (seqb n k) eqn:Q; [|exact H3]. apply seqb_eq in Q. subst k. exists (length h), m. split; [reflexivity|split; [exact X|exact P]].
Qed.
Lemma body_none l n : ~ In n (map fst l) -> body_of (as_defined l) n = None.
Proof. induction l as [|[k b] l IH]; cbn [as_defined map fst snd body_of]; intros H; [reflexivity|]. destruct (seqb k n) eqn:E; [apply seqb_eq in E; subst; exfalso; apply H; left; reflexivity|]. apply IH. intros I. apply H. right. exact I. Qed.
Lemma update_all l : forall done s, NoDup (map fst (done ++ l)) -> Forall (fun p => final_inside false None (snd p) = false) l -> holds s (as_defined done) ->
  exists s', update s (map (fun p => (fst p, PText (snd p))) l) = Ok (s', RUnit) /\ holds s' (as_defined (done ++ l)).
Proof.
  induction l as [|[n b] l IH]; intros done s N F H; [exists s; rewrite app_nil_r; split; [reflexivity|exact H]|]. inversion F as [|? ? F1 F2]; subst. cbn [fst snd] in *.
  assert (NB : body_of (as_defined done) n = None) by (apply body_none; rewrite map_app in N; cbn [map fst] in N; apply NoDup_remove_2 in N; intros I; apply N, in_or_app; left; exact I).
  destruct (set_text s _ n b H NB F1) as (s1 & E1 & H1). cbn [map update fst snd]. rewrite E1. cbn [bind].
  destruct (IH (done ++ [(n, b)]) s1) as (s' & E & H'); [rewrite <- app_assoc; exact N|exact F2|unfold as_defined in *; rewrite map_app; exact H1|]. exists s'. split; [exact E|]. rewrite <- app_assoc in H'. exact H'.
Qed.
Lemma view_given h m : Forall (fun p => exists x, nth_error h (snd p) = Some (Some (mkObj (MUser x) true))) m ->
  exists d, view h m = Ok d /\ map fst d = map fst m /\ delete_non_persistent d = d
    /\ forall n, db_find d n = match mfind m n with Some a => match nth_error h a with Some (Some o) => Some (mkEntry true (co_def o)) | _ => None end | None => None end.
Proof.
  induction 1 as [|[k a] m (x & E) _ (d & V & K & P & F)]; [exists []; repeat split|]. cbn [view snd] in *. unfold deref. rewrite E. cbn [bind co_persistent co_def]. rewrite V. cbn [bind]. eexists. split; [reflexivity|].
  cbn [map fst db_find mfind]. rewrite K. split; [reflexivity|]. split; [unfold delete_non_persistent in *; cbn [filter snd e_persistent]; rewrite P; reflexivity|]. intros n. destruct (seqb k n); [rewrite E; reflexivity|apply F].
Qed.
Lemma given_python l : NoDup (map fst l) -> Forall (fun p => final_inside false None (snd p) = false) l ->
  exists s d, run_ops db0 [update_with l] = Ok (s, [RUnit]) /\ define_db s = Ok d /\ uniq d /\ given_by (as_defined l) d.
Proof.
  intros N F. destruct (update_all l [] db0 N F) as (s & E & H1 & H2 & H3); [split; [constructor|split; [constructor|intros n; reflexivity]]|]. cbn [app] in *.
  destruct (view_given _ _ H2) as (d & V & K & P & Fd). exists s, d. split; [cbn [run_ops step update_with]; rewrite E; reflexivity|]. split; [exact V|]. split; [unfold uniq; rewrite K; exact H1|].
  unfold given_by, agree. rewrite P. intros n _. specialize (H3 n). rewrite Fd. destruct (body_of (as_defined l) n) as [b|]; [|rewrite H3; reflexivity]. destruct H3 as (a & m & -> & -> & S). exists true, m. split; [reflexivity|exact S].
Qed.

(** ** Any history *)
(** What is in the map was stored, so it is persistent. *)
Definition stored (s : pydb) : Prop := forall k a, dget (pd_map s) k = Some a -> exists d, nth_error (pd_heap s) a = Some (Some (mkObj d true)).
Lemma stored_more s h o : stored (mkDb h (pd_map s)) -> stored (mkDb (h ++ [o]) (pd_map s)).
Proof. intros H k a E. destruct (H k a E) as (d & D). cbn [pd_heap] in *. exists d. rewrite nth_error_app1; [exact D|apply nth_error_Some; congruence]. Qed.
Lemma stored_store s h a o k : stored (mkDb h (pd_map s)) -> deref h a = Ok o -> stored (mkDb (hset h a (Some (mkObj (co_def o) true))) (mset (pd_map s) k a)).
Proof.
  intros H D k' a'. cbn [pd_map pd_heap] in *. rewrite mset_get. assert (L : a < length h) by (unfold deref in D; apply nth_error_Some; destruct (nth_error h a); congruence). rewrite hset_nth by exact L.
  destruct (seqb k k'); intros E; [injection E as <-; rewrite Nat.eqb_refl; eauto|]. destruct (Nat.eqb_spec a' a); [eauto|]. exact (H k' a' E).
Qed.
Lemma stored_set s k v s' r : stored s -> set_item s k v = Ok (s', r) -> stored s'.
Proof.
  destruct s as [h0 m0]. intros H E. unfold set_item in E. cbn [pd_heap pd_map] in E.
  assert (F : forall t, ('(h, a) <- new_proxy h0 k None t ;; (o <- deref h a ;; Ok (mkDb (hset h a (Some (mkObj (co_def o) true))) (mset m0 k a), RUnit))) = Ok (s', r) -> stored s').
  { intros t Q. apply bind_ok in Q as ([h a] & N & Q). unfold new_proxy in N. destruct (new_macro _ _ _ _) as [m| | |]; try discriminate N. injection N as <- <-. apply bind_ok in Q as (o & D & Q). injection Q as <- _.
    apply (stored_store (mkDb h0 m0)); [|exact D]. apply (stored_more (mkDb h0 m0)). exact H. }
  destruct v as [|t|a|]; [exact (F [] E)|exact (F t E)| |injection E as <- _; exact H]. apply bind_ok in E as (o & D & E). injection E as <- _. apply (stored_store (mkDb h0 m0)); [exact H|exact D].
Qed.
Lemma stored_update : forall l s s' r, stored s -> update s l = Ok (s', r) -> stored s'.
Proof.
  induction l as [|[k v] l IH]; intros s s' r H E; cbn [update] in E; [injection E as <- _; exact H|]. apply bind_ok in E as ([s1 r1] & E1 & E). apply stored_set in E1; [|exact H].
  destruct r1; try (exact (IH _ _ _ E1 E)). injection E as <- _. exact E1.
Qed.
Lemma stored_step s w o s' r : inv s w -> covered w o -> stored s -> step s o = Ok (s', r) -> stored s'.
Proof.
  intros I C H E. destruct o; cbn [step] in E;
  try (unfold lookup_or in E; destruct (mfind (pd_map s) k); [apply bind_ok in E as (x & _ & E)|]; injection E as <- _; exact H);
  try (injection E as <- _; exact H);
  try (apply bind_ok in E as (x & _ & E); injection E as <- _; exact H);
  try (unfold with_macro in E; destruct v; try (injection E as <- _; exact H); apply bind_ok in E as (x & _ & E); destruct (co_def x); try discriminate E; apply bind_ok in E as (y & _ & E); injection E as <- _; exact H).
  - apply bind_ok in E as ([h a] & N & E). injection E as <- _. unfold new_proxy in N. destruct (new_macro _ _ _ _) as [m| | |]; try discriminate N. injection N as <- <-. apply stored_more. destruct s. exact H.
  - exact (stored_set _ _ _ _ _ H E).
  - destruct (mfind (pd_map s) k) as [a|] eqn:M; [|injection E as <- _; exact H]. apply bind_ok in E as (x & D & E). injection E as <- _. cbn [covered] in C. rewrite mfind_dget in M. intros k' a'. cbn [pd_map pd_heap]. change (merase (pd_map s) k) with (ddel (pd_map s) k). rewrite ddel_get. destruct (seqb k k') eqn:Q; [discriminate|].
    intros F. destruct (H k' a' F) as (d & D'). exists d. assert (L : a < length (pd_heap s)) by (unfold deref in D; apply nth_error_Some; destruct (nth_error (pd_heap s) a); congruence). rewrite hset_nth by exact L.
    destruct (Nat.eqb_spec a' a) as [->|]; [|exact D']. rewrite (i_map _ _ I) in M, F. specialize (C a k' M F). subst k'. rewrite seqb_refl in Q. discriminate.
  - destruct (mfind (pd_map s) k); [apply bind_ok in E as (x & _ & E); injection E as <- _; exact H|]. apply bind_ok in E as ([s1 r1] & E1 & E). apply stored_set in E1; [|exact H]. destruct r1; injection E as <- _; exact E1.
  - apply bind_ok in E as (x & _ & E). injection E as <- _. intros k a. discriminate.
  - exact (stored_update _ _ _ _ H E).
Qed.
Lemma run_stored : forall l s w, inv s w -> gone_ok w -> history w l -> stored s ->
  exists s' rs, run_ops s l = Ok (s', rs) /\ Forall2 PyDbSpec.agree rs (snd (dict_run w l)) /\ inv s' (fst (dict_run w l)) /\ stored s'.
Proof.
  induction l as [|o l IH]; intros s w I G H P; cbn [run_ops dict_run].
  - exists s, []. split; [reflexivity|split; [constructor|split; assumption]].
  - cbn [history] in H. destruct H as [C H]. destruct (step_ok s w o I G C) as (s1 & w1 & r & r' & E1 & E2 & I1 & G1 & A). pose proof (stored_step s w o s1 r I C P E1) as P1. rewrite E1, E2 in *. cbn [bind fst] in *.
    destruct (IH s1 w1 I1 G1 H P1) as (s2 & rs & E3 & F & I2 & P2). rewrite E3. cbn [bind]. destruct (dict_run w1 l) as [w2 rs'] eqn:E4. cbn [fst snd] in *. exists s2, (r :: rs). split; [reflexivity|split; [constructor; assumption|split; assumption]].
Qed.
Lemma plain_of n b m : new_macro n false [] b = Ok m -> plain_macro b m.
Proof.
  intros E. pose proof (proj1 (new_macro_defined n false [] b (Forall_nil _) (NoDup_nil _)) (ex_intro _ m E)) as F. destruct (new_plain n b F) as (m' & E' & P). rewrite E in E'. injection E' as <-. exact P.
Qed.
Lemma held_get w n : NoDup (map fst (w_dict w)) -> (forall k a, dget (w_dict w) k = Some a -> a < length (w_objs w)) ->
  body_of (held w) n = match dget (w_dict w) n with Some a => option_map (fun m => (mk_params m, mk_body m)) (nth_error (w_objs w) a) | None => None end.
Proof.
  unfold held. induction (w_dict w) as [|[k a] d IH]; intros N L; [reflexivity|]. cbn [map fst] in N. inversion N as [|? ? N1 N2]; subst. cbn [flat_map fst snd]. rewrite dget_cons.
  assert (LA : a < length (w_objs w)) by (apply (L k); rewrite dget_cons, seqb_refl; reflexivity). destruct (nth_error (w_objs w) a) as [m|] eqn:E; [|apply nth_error_None in E; lia]. cbn [app body_of].
  destruct (seqb k n) eqn:Q; [rewrite E; reflexivity|]. apply IH; [exact N2|]. intros k' a' F. apply (L k'). rewrite dget_cons. destruct (seqb k k') eqn:Q'; [|exact F]. apply seqb_eq in Q'. subst k'. exfalso. apply N1. destruct (in_dec (list_eq_dec Ascii.ascii_dec) k (map fst d)) as [i|i]; [exact i|]. apply dget_None in i. congruence.
Qed.
Lemma built_stands k m d : built m d -> stands k (mk_params m, mk_body m) d.
Proof.
  intros [B G]. unfold stands. cbn [fst snd]. destruct (mk_params m) as [l|]; cbn [PyDbProofs.is_some] in B; [|exact (plain_of _ _ _ B)]. destruct (good_cpp (Some l) G) as (Hi & Hn & _).
  assert (E : params_of (Some l) = map pinfo l).
  { destruct G as [F _]. clear - F. unfold params_of, cpp_params. induction F as [|[n [x|]] l [Hd _] _ IH]; [reflexivity| |cbn in Hd; congruence]. cbn [flat_map map fst snd app]. rewrite IH. reflexivity. }
  rewrite E in *. rewrite pinfo_names in Hn. split; [|split; [exact Hn|]].
  - clear - Hi. induction l as [|[n [x|]] l IH]; [constructor|inversion Hi; subst; constructor; [assumption|apply IH; assumption] ..].
  - exists (mk_name m). exact B.
Qed.
Lemma given_history l : history world0 l ->
  exists s rs d, run_ops db0 l = Ok (s, rs) /\ define_db s = Ok d /\ uniq d /\ given_by (held (fst (dict_run world0 l))) d.
Proof.
  intros H. destruct (run_stored l db0 world0 inv0 ltac:(intros a []) H ltac:(intros k a; discriminate)) as (s & rs & R & _ & I & P). set (w := fst (dict_run world0 l)) in *. clearbody w.
  assert (ND : NoDup (map fst (pd_map s))) by (apply sorted_NoDup, (i_sorted _ _ I)).
  assert (X : forall k a, dget (pd_map s) k = Some a -> exists m d, nth_error (w_objs w) a = Some m /\ nth_error (pd_heap s) a = Some (Some (mkObj (MUser d) true)) /\ stands k (mk_params m, mk_body m) d).
  { intros k a E. pose proof E as E'. rewrite (i_map _ _ I) in E'. destruct (i_live _ _ I k a E') as [L G]. destruct (nth_error (w_objs w) a) as [m|] eqn:Em; [|apply nth_error_None in Em; lia]. destruct (i_obj _ _ I a m Em G) as (d & p & D & B1). destruct (P k a E) as (d' & D'). rewrite D in D'. injection D' as <- ->.
    exists m, d. split; [reflexivity|split; [exact D|]]. exact (built_stands k m d B1). }
  destruct (view_given (pd_heap s) (pd_map s)) as (d & V & K & PS & Fd).
  { apply Forall_forall. intros [k a] J. apply (dget_In _ k a ND) in J. destruct (X k a J) as (m & d & _ & D & _). exists d. exact D. }
  exists s, rs, d. split; [exact R|split; [exact V|]]. split; [unfold uniq; rewrite K; exact ND|]. unfold given_by, agree. rewrite PS. intros n _. rewrite Fd, mfind_dget. rewrite held_get; [|exact (i_nodup _ _ I)|intros k a E; exact (proj1 (i_live _ _ I k a E))]. rewrite <- (i_map _ _ I).
  destruct (dget (pd_map s) n) as [a|] eqn:E; [|reflexivity]. destruct (X n a E) as (m & d0 & -> & -> & S). cbn [option_map]. exists true, d0. split; [reflexivity|exact S].
Qed.
