From Verif Require Import Base BaseFacts AstModel StmModel SvTypeModel SvDeclModel SvModuleSpec SvDeclProofs.

Lemma seqb_refl s : seqb s s = true. Proof. apply seqb_eq. reflexivity. Qed.
Lemma seqb_sym a b : seqb a b = seqb b a.
Proof. destruct (seqb a b) eqn:E; symmetry; [apply seqb_eq in E; subst; apply seqb_refl|]. destruct (seqb b a) eqn:E'; [|reflexivity]. apply seqb_eq in E'. subst. rewrite seqb_refl in E. discriminate. Qed.

(** ** One update *)
Lemma find_none_names n l : find_port n l = None <-> existsb (seqb n) (map d_name l) = false.
Proof.
  unfold find_port. induction l as [|p l IH]; cbn [List.find map existsb]; [split; reflexivity|]. rewrite (seqb_sym (d_name p) n). destruct (seqb n (d_name p)); cbn [orb]; [split; discriminate|exact IH].
Qed.
Lemma update_some n f l : (forall p, d_name (f p) = d_name p) -> find_port n l <> None ->
  exists r, update_port n f l = Some r /\ map d_name r = map d_name l /\
    forall m, find_port m r = if seqb n m then match find_port m l with Some p => Some (f p) | None => None end else find_port m l.
Proof.
  intros Hf. unfold find_port. induction l as [|p l IH]; cbn [List.find update_port]; intros H; [congruence|]. destruct (seqb (d_name p) n) eqn:E.
  - exists (f p :: l). split; [reflexivity|]. cbn [map]. rewrite Hf. split; [reflexivity|]. intros m. cbn [List.find]. rewrite Hf. apply seqb_eq in E. rewrite <- E. destruct (seqb (d_name p) m) eqn:Em; [reflexivity|]. reflexivity.
  - destruct (IH H) as (r & Hr & Hn & Hm). rewrite Hr. exists (p :: r). split; [reflexivity|]. split; [cbn [map]; congruence|]. intros m. cbn [List.find]. destruct (seqb (d_name p) m) eqn:Em.
    + destruct (seqb n m) eqn:Enm; [|reflexivity]. apply seqb_eq in Em, Enm. subst. rewrite seqb_refl in E. discriminate.
    + apply Hm.
Qed.
Lemma update_none n f l : find_port n l = None -> update_port n f l = None.
Proof.
  unfold find_port. induction l as [|p l IH]; cbn [List.find update_port]; [reflexivity|]. destruct (seqb (d_name p) n); [discriminate|]. intros H. rewrite (IH H). reflexivity.
Qed.
Lemma insert_end d l : forallb no_star l = true -> insert_port d l = l ++ [d].
Proof.
  induction l as [|p l IH]; [reflexivity|]. cbn [forallb]. intros H. apply andb_prop in H as [Hp Hl]. destruct l as [|q l].
  - cbn [insert_port]. unfold no_star in Hp. apply negb_true_iff in Hp. rewrite Hp. reflexivity.
  - change (insert_port d (p :: q :: l)) with (p :: insert_port d (q :: l)). rewrite (IH Hl). reflexivity.
Qed.
Lemma find_app n l d : find_port n (l ++ [d]) = match find_port n l with Some p => Some p | None => if seqb (d_name d) n then Some d else None end.
Proof. unfold find_port. induction l as [|p l IH]; cbn [app List.find]; [reflexivity|]. destruct (seqb (d_name p) n); [reflexivity|exact IH]. Qed.

(** ** The declarations *)
Definition look1 (o : option iddef) (d : iddef) : option iddef := Some (match o with Some p => merge_decl p d | None => d end).
Definition look2 (o : option iddef) (v : iddef) : option iddef := match o with Some p => Some (merge_var p v) | None => None end.
Lemma add_decl_ok P d P' : forallb no_star P = true -> add_decl P d = Ok P' ->
  map d_name P' = add_name (map d_name P) (d_name d) /\ forall n, find_port n P' = if named n d then look1 (find_port n P) d else find_port n P.
Proof.
  intros Hs H. unfold add_decl in H. unfold add_name. destruct (find_port (d_name d) P) as [p|] eqn:Ef.
  - destruct (update_some (d_name d) (fun p => merge_decl p d) P) as (r & Hr & Hn & Hm); [reflexivity|congruence|]. rewrite Hr in H.
    assert (E : r = P') by (destruct (d_value d), (d_value p); try discriminate; congruence). subst r.
    destruct (existsb (seqb (d_name d)) (map d_name P)) eqn:Ee; [|apply find_none_names in Ee; congruence]. split; [exact Hn|]. intros n. rewrite Hm. unfold named, look1. destruct (seqb (d_name d) n) eqn:E; [|reflexivity]. apply seqb_eq in E. subst n. rewrite Ef. reflexivity.
  - injection H as <-. pose proof (proj1 (find_none_names _ _) Ef) as Ee. rewrite Ee. rewrite (insert_end d P Hs). split; [apply map_app|]. intros n. rewrite find_app. unfold named, look1. destruct (seqb (d_name d) n) eqn:E.
    + apply seqb_eq in E. subst n. rewrite Ef. reflexivity.
    + destruct (find_port n P); reflexivity.
Qed.
Lemma no_star_names P P' d : forallb no_star P = true -> no_star d = true -> map d_name P' = add_name (map d_name P) (d_name d) -> forallb no_star P' = true.
Proof.
  intros HP Hd E. assert (K : forall l, forallb no_star l = forallb (fun n => negb (seqb n $".*")) (map d_name l)) by (induction l as [|x l IH]; [reflexivity|]; cbn [forallb map]; rewrite IH; reflexivity).
  rewrite K, E. unfold add_name. rewrite K in HP. destruct (existsb _ _); [exact HP|]. rewrite forallb_app, HP. unfold no_star in Hd. cbn [forallb andb]. rewrite Hd. reflexivity.
Qed.
Definition looks1 n (l : list iddef) (o : option iddef) : option iddef := fold_left look1 (about n l) o.
Definition looks2 n (l : list iddef) (o : option iddef) : option iddef := fold_left look2 (about n l) o.
Lemma foldM_decls l : forall P P', forallb no_star P = true -> forallb no_star l = true -> foldM add_decl P l = Ok P' ->
  forallb no_star P' = true /\ map d_name P' = fold_left add_name (map d_name l) (map d_name P) /\ forall n, find_port n P' = looks1 n l (find_port n P).
Proof.
  induction l as [|d l IH]; intros P P' HP Hl H.
  - injection H as <-. repeat split; auto.
  - cbn [foldM] in H. apply bind_inv in H as (P1 & H1 & H). cbn [forallb] in Hl. apply andb_prop in Hl as [Hd Hl]. destruct (add_decl_ok P d P1 HP H1) as (Hn & Hf). pose proof (no_star_names P P1 d HP Hd Hn) as HP1.
    destruct (IH P1 P' HP1 Hl H) as (A & B & C). split; [exact A|]. split; [cbn [map fold_left]; rewrite <- Hn; exact B|]. intros n. rewrite C, Hf. unfold looks1, about. cbn [filter]. destruct (named n d); reflexivity.
Qed.
Lemma about_app n a b : about n (a ++ b) = about n a ++ about n b. Proof. apply filter_app. Qed.
Lemma foldM_items {T0} (items : list (mitem T0)) : forall P O st, forallb no_star P = true -> forallb no_star (decls_of items) = true -> foldM run_item (P, O) items = Ok st ->
  snd st = O ++ objs_of items /\ map d_name (fst st) = fold_left add_name (map d_name (decls_of items)) (map d_name P) /\ forall n, find_port n (fst st) = looks1 n (decls_of items) (find_port n P).
Proof.
  induction items as [|i items IH]; intros P O st HP Hl H.
  - injection H as <-. cbn. rewrite app_nil_r. auto.
  - cbn [foldM] in H. apply bind_inv in H as (st1 & H1 & H). destruct i as [l|l]; cbn [run_item fst snd] in H1.
    + apply bind_inv in H1 as (P1 & H1 & E). injection E as <-. unfold decls_of in Hl. cbn [flat_map] in Hl. fold (decls_of items) in Hl. rewrite forallb_app in Hl. apply andb_prop in Hl as [Hl Hr].
      destruct (foldM_decls l P P1 HP Hl H1) as (A & B & C). destruct (IH P1 O st A Hr H) as (X & Y & Z). split; [exact X|]. unfold decls_of. cbn [flat_map]. fold (decls_of items). split.
      * rewrite map_app, fold_left_app, <- B. exact Y.
      * intros n. rewrite Z, C. unfold looks1. rewrite about_app, fold_left_app. reflexivity.
    + injection H1 as <-. destruct (IH P (O ++ l) st HP Hl H) as (X & Y & Z). split; [|auto]. rewrite X, <- app_assoc. reflexivity.
Qed.

(** ** The variables *)
Lemma consume_ok {T0} (O : list (mobj T0)) : forall P P' O', consume P O = (P', O') ->
  map d_name P' = map d_name P /\ O' = filter (not_port (map d_name P)) O /\
  forall n, find_port n P' = looks2 n (flat_map (fun o => match o with MO_id v => [v] | MO_other _ => [] end) O) (find_port n P).
Proof.
  induction O as [|o O IH]; intros P P' O' H; cbn [consume] in H.
  - injection H as <- <-. auto.
  - destruct o as [v|k].
    + destruct (find_port (d_name v) P) as [p|] eqn:Ef.
      * destruct (update_some (d_name v) (fun p => merge_var p v) P) as (r & Hr & Hn & Hm); [reflexivity|congruence|]. rewrite Hr in H. destruct (IH r P' O' H) as (A & B & C). split; [congruence|]. split.
        -- cbn [filter not_port]. destruct (existsb (seqb (d_name v)) (map d_name P)) eqn:Ee; [|apply find_none_names in Ee; congruence]. cbn [negb]. rewrite <- Hn. exact B.
        -- intros n. rewrite C, Hm. cbn [flat_map app]. unfold looks2, about. cbn [filter]. fold (about n). unfold named at 2. destruct (seqb (d_name v) n); [|reflexivity]. cbn [fold_left]. unfold look2 at 2. destruct (find_port n P); reflexivity.
      * rewrite (update_none _ _ _ Ef) in H. destruct (consume P O) as (P1, O1) eqn:Ec. injection H as <- <-. destruct (IH P P1 O1 Ec) as (A & B & C). split; [exact A|]. split.
        -- cbn [filter not_port]. rewrite (proj1 (find_none_names _ _) Ef). cbn [negb]. congruence.
        -- intros n. rewrite C. cbn [flat_map app]. unfold looks2, about. cbn [filter]. unfold named at 2. destruct (seqb (d_name v) n) eqn:E; [|reflexivity]. apply seqb_eq in E. subst n. rewrite Ef. reflexivity.
    + destruct (consume P O) as (P1, O1) eqn:Ec. injection H as <- <-. destruct (IH P P1 O1 Ec) as (A & B & C). repeat split; [exact A|cbn [filter not_port]; congruence|exact C].
Qed.

(** ** What the lookups give *)
Lemma last_some_app {X} (a b : list (option X)) : last_some (a ++ b) = match last_some b with Some x => Some x | None => last_some a end.
Proof.
  unfold last_some. rewrite fold_left_app. generalize (fold_left (fun a x => match x with Some _ => x | None => a end) a None) as o. induction b as [|x b IH]; intros o; [reflexivity|]. cbn [fold_left]. rewrite (IH (match x with Some _ => x | None => o end)), (IH (match x with Some _ => x | None => None end)). destruct x as [x|]; destruct (fold_left _ b None); reflexivity.
Qed.
(** The state of a port, as far as the theorem is about it. *)
Definition state_of (l : list iddef) (x : iddef) : Prop :=
  given_type x = last_some (map given_type l) /\ d_value x = last_some (map d_value l) /\ d_latched x = existsb d_latched l.
Lemma state_one x : state_of [x] x.
Proof. unfold state_of, last_some. cbn. repeat split; [destruct (given_type x)|destruct (d_value x)|rewrite orb_false_r]; reflexivity. Qed.
Lemma state_merge l p d : state_of l p -> typed d = true -> (forall x, given_type x = given_type d -> d_value x = (match d_value d with Some v => Some v | None => d_value p end) -> d_latched x = d_latched p || d_latched d -> state_of (l ++ [d]) x).
Proof.
  intros (A & B & C) Ht x X Y Z. unfold state_of. rewrite !map_app, !last_some_app, existsb_app. cbn [map existsb]. rewrite orb_false_r. repeat split; [| |congruence].
  - rewrite X. unfold given_type, typed in *. destruct (d_type d); try discriminate; reflexivity.
  - rewrite Y, B. unfold last_some at 2. cbn [fold_left]. destruct (d_value d); reflexivity.
Qed.
Lemma looks1_state l : forall o h, forallb typed l = true -> (match o with Some p => state_of h p /\ last_some (map (fun d => Some (d_dir d)) h) = Some (d_dir p) | None => h = [] end) ->
  match fold_left look1 l o with Some p => state_of (h ++ l) p /\ last_some (map (fun d => Some (d_dir d)) (h ++ l)) = Some (d_dir p) | None => h ++ l = [] end.
Proof.
  induction l as [|d l IH]; intros o h Ht Ho.
  - cbn [fold_left]. rewrite app_nil_r. exact Ho.
  - cbn [forallb] in Ht. apply andb_prop in Ht as [Hd Ht]. cbn [fold_left]. replace (h ++ d :: l) with ((h ++ [d]) ++ l) by (rewrite <- app_assoc; reflexivity). apply IH; [exact Ht|]. cbn [look1]. destruct o as [p|].
    + destruct Ho as [Ho Hdir]. split; [apply (state_merge h p d Ho Hd); reflexivity|]. rewrite map_app, last_some_app. reflexivity.
    + subst h. split; [apply state_one|reflexivity].
Qed.
Lemma looks2_state l : forall p h, forallb typed l = true -> state_of h p -> exists x, fold_left look2 l (Some p) = Some x /\ state_of (h ++ l) x /\ d_dir x = d_dir p.
Proof.
  induction l as [|d l IH]; intros p h Ht Ho.
  - exists p. rewrite app_nil_r. auto.
  - cbn [forallb] in Ht. apply andb_prop in Ht as [Hd Ht]. cbn [fold_left look2]. destruct (IH (merge_var p d) (h ++ [d]) Ht) as (x & A & B & C).
    + apply (state_merge h p d Ho Hd); reflexivity.
    + exists x. rewrite <- app_assoc in B. auto.
Qed.
Lemma look2_none l : fold_left look2 l None = None. Proof. induction l; auto. Qed.

(** ** Names *)
Lemma add_name_nodup l n : NoDup l -> NoDup (add_name l n).
Proof.
  intros H. unfold add_name. destruct (existsb (seqb n) l) eqn:E; [exact H|]. apply NoDup_rev in H. rewrite <- (rev_involutive (l ++ [n])). apply NoDup_rev. rewrite rev_app_distr. cbn. constructor; [|exact H].
  rewrite <- in_rev. intros Hin. assert (existsb (seqb n) l = true) by (apply existsb_exists; exists n; split; [exact Hin|apply seqb_refl]). congruence.
Qed.
Lemma names_nodup ns : forall l, NoDup l -> NoDup (fold_left add_name ns l).
Proof. induction ns as [|n ns IH]; intros l H; [exact H|]. cbn. apply IH, add_name_nodup, H. Qed.
Lemma find_in l : NoDup (map d_name l) -> forall x, In x l -> find_port (d_name x) l = Some x.
Proof.
  induction l as [|p l IH]; intros Hn x Hx; [destruct Hx|]. inversion Hn as [|? ? Hnot Hn']. subst. unfold find_port. cbn [List.find]. destruct Hx as [-> | Hx].
  - rewrite seqb_refl. reflexivity.
  - destruct (seqb (d_name p) (d_name x)) eqn:E; [|exact (IH Hn' x Hx)]. apply seqb_eq in E. exfalso. apply Hnot. rewrite E. apply in_map. exact Hx.
Qed.
Lemma about_find n l : NoDup (map d_name l) -> about n l = match find_port n l with Some p => [p] | None => [] end.
Proof.
  induction l as [|p l IH]; intros Hn; [reflexivity|]. inversion Hn as [|? ? Hnot Hn']. subst. unfold about, find_port. cbn [filter List.find]. fold (about n l). fold (find_port n l). unfold named. destruct (seqb (d_name p) n) eqn:E; [|exact (IH Hn')].
  f_equal. rewrite (IH Hn'). apply seqb_eq in E. subst n. destruct (find_port (d_name p) l) eqn:Ef; [|reflexivity]. exfalso. apply Hnot. unfold find_port in Ef. apply find_some in Ef as [Hin E]. apply seqb_eq in E. rewrite <- E. apply in_map. exact Hin.
Qed.
Lemma forallb_filter {X} (f g : X -> bool) l : forallb f l = true -> forallb f (filter g l) = true.
Proof. induction l as [|x l IH]; [reflexivity|]. cbn. intros H. apply andb_prop in H as [Hx Hl]. destruct (g x); cbn; [rewrite Hx|]; auto. Qed.
Lemma fill_dirs_known prev l : forallb directed l = true -> fill_dirs prev l = map fill_type l.
Proof.
  revert prev. induction l as [|p l IH]; intros prev H; [reflexivity|]. cbn [forallb] in H. apply andb_prop in H as [Hp Hl]. cbn [fill_dirs map]. unfold directed in Hp. unfold is_unknown. destruct (d_dir p); try discriminate; rewrite (IH _ Hl); reflexivity.
Qed.

Definition described {X} (header : list iddef) (items : list (mitem X)) (x : iddef) : Prop :=
  d_type x = port_type header items (d_name x) /\ d_value x = port_value header items (d_name x) /\
  Some (d_dir x) = port_dir header items (d_name x) /\ d_latched x = port_latched header items (d_name x).

Lemma module_ok {X} header (items : list (mitem X)) ps os : NoDup (map d_name header) -> regular header items = true -> conv_module header items = Ok (ps, os) ->
  map d_name ps = port_names header items /\ os = filter (not_port (port_names header items)) (objs_of items) /\ Forall (described header items) ps.
Proof.
  intros Hnd Hr H. unfold regular in Hr. rewrite !forallb_app in Hr. repeat (apply andb_prop in Hr as [Hr ?]). repeat match goal with H : _ && _ = true |- _ => apply andb_prop in H as [? ?] end.
  rename H2 into Hsd, Hr into Hsh, H1 into Hdh, H4 into Hdd, H0 into Htd, H3 into Htv.
  unfold conv_module in H. apply bind_inv in H as (st & Hst & H). destruct (foldM_items items header [] st Hsh Hsd Hst) as (A & B & C). destruct (consume (fst st) (snd st)) as (P, O) eqn:Ec. injection H as <- <-.
  destruct (consume_ok _ _ _ _ Ec) as (D & E & F). assert (HP : map d_name P = port_names header items) by (unfold port_names; congruence).
  assert (HndP : NoDup (map d_name P)) by (rewrite HP; apply names_nodup; exact Hnd).
  assert (Hall : forall x, In x P -> state_of (about (d_name x) header ++ about (d_name x) (decls_of items) ++ about (d_name x) (vars_of items)) x /\ port_dir header items (d_name x) = Some (d_dir x)).
  { intros x Hx. set (n := d_name x). pose proof (find_in P HndP x Hx) as Hf. fold n in Hf. rewrite F, C in Hf. unfold looks2, looks1 in Hf. cbn [app] in A. rewrite A in Hf. fold (vars_of items) in Hf.
    pose proof (looks1_state (about n (decls_of items)) (find_port n header) (about n header)) as L1. rewrite (about_find n header Hnd) in *.
    assert (Ho : match find_port n header with Some p => state_of (match find_port n header with Some p => [p] | None => [] end) p /\ last_some (map (fun d => Some (d_dir d)) (match find_port n header with Some p => [p] | None => [] end)) = Some (d_dir p) | None => match find_port n header with Some p => [p] | None => [] end = [] end).
    { destruct (find_port n header) as [p|]; [split; [apply state_one|reflexivity]|reflexivity]. }
    specialize (L1 (forallb_filter _ _ _ Htd) Ho). destruct (fold_left look1 (about n (decls_of items)) (find_port n header)) as [p|] eqn:E1; [|rewrite look2_none in Hf; discriminate]. destruct L1 as (L1 & Ld).
    destruct (looks2_state (about n (vars_of items)) p _ (forallb_filter _ _ _ Htv) L1) as (y & Hy & Sy & Dy). assert (y = x) by congruence. subst y. rewrite <- app_assoc in Sy. split; [exact Sy|]. unfold port_dir. rewrite (about_find n header Hnd). rewrite Dy. exact Ld. }
  assert (Hdir : forallb directed P = true).
  { apply forallb_forall. intros x Hx. destruct (Hall x Hx) as (_ & Hd). unfold port_dir in Hd. set (l := about (d_name x) header ++ about (d_name x) (decls_of items)) in Hd.
    assert (Hl : forallb directed l = true) by (unfold l; rewrite forallb_app; apply andb_true_intro; split; apply forallb_filter; assumption).
    clearbody l. induction l as [|y l IH] using rev_ind; [discriminate|]. rewrite map_app, last_some_app in Hd. cbn in Hd. rewrite forallb_app in Hl. apply andb_prop in Hl as [_ Hl]. cbn in Hl. rewrite andb_true_r in Hl. injection Hd as Hd. unfold directed in *. rewrite <- Hd. exact Hl. }
  rewrite (fill_dirs_known _ _ Hdir). split; [|split].
  - rewrite map_map. rewrite <- HP. apply map_ext. intros x. unfold fill_type. destruct (d_type x); reflexivity.
  - rewrite E, A, B. cbn [app]. reflexivity.
  - apply Forall_forall. intros x Hx. apply in_map_iff in Hx as (y & <- & Hy). destruct (Hall y Hy) as ((S1 & S2 & S3) & Hd). unfold described.
    assert (En : d_name (fill_type y) = d_name y) by (unfold fill_type; destruct (d_type y); reflexivity).
    assert (Ev : d_value (fill_type y) = d_value y) by (unfold fill_type; destruct (d_type y); reflexivity).
    assert (Ed : d_dir (fill_type y) = d_dir y) by (unfold fill_type; destruct (d_type y); reflexivity).
    assert (El : d_latched (fill_type y) = d_latched y) by (unfold fill_type; destruct (d_type y); reflexivity).
    rewrite En, Ev, Ed, El. unfold port_type, port_value, port_latched. rewrite Hd, <- S1, <- S2, <- S3. split; [|auto]. unfold fill_type, given_type. destruct (d_type y) eqn:Et; first [exact Et|reflexivity].
Qed.
