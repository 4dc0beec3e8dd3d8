(** Conditional directives, definitions, includes and undefined macros. *)
From Verif Require Import Base BaseFacts OutBufferModel RegexModel PpLexerModel PpParserModel MacroDefModel
  StrUtilsModel PpModel PpFacts PpSpec PpDbProofs.

Lemma visit_branches_code l fs rs rf src added neg e out st : forall bs,
  visit_branches l fs rs rf src added neg bs (visit_else l fs rs rf src added e) out st
  = visit_body l fs rs rf src added
      (first_true (code_conditions (ps_db st) neg (branch_names bs)) (branch_bodies bs) (else_body e)) out st.
Proof.
  induction bs as [|n line g bs IH].
  - cbn. destruct e; reflexivity.
  - cbn [visit_branches branch_names branch_bodies code_conditions map first_true].
    unfold mbind at 1, get. fold (defined (ps_db st) n).
    assert (Bool.eqb (defined (ps_db st) n) (negb neg) = xorb neg (defined (ps_db st) n)) as ->
      by (destruct neg, (defined (ps_db st) n); reflexivity).
    destruct (xorb neg (defined (ps_db st) n)); [reflexivity|]. apply IH.
Qed.
Lemma code_std d neg names : neg = false \/ length names <= 1 ->
  code_conditions d neg names = std_conditions d neg names.
Proof.
  destruct names as [|n ns]; [reflexivity|]. unfold code_conditions, std_conditions. cbn [map length].
  intros [->|H]; [f_equal; apply map_ext; intros x; destruct (defined d x); reflexivity|]. destruct ns; [reflexivity|cbn in H; lia].
Qed.

(** ** definitions *)
Lemma visit_define_Ok src d st st' : visit_define src d st = (Ok tt, st') ->
  exists m, macro_of d = Ok m /\
    st' = set_db st (db_insert (ps_db st) (dd_name d) (mkEntry false (MUser m))).
Proof.
  unfold visit_define, macro_of. destruct (define_body d) as [b|e|w|]; cbn [bind]; try discriminate.
  destruct (new_macro (dd_name d) _ _ b) as [m|e|w|]; cbn [wrap_parse_exn]; try discriminate.
  - intros H; inversion H. eauto.
  - destruct e; discriminate.
Qed.
Lemma define_effect src d st st' : visit_define src d st = (Ok tt, st') ->
  (exists m, macro_of d = Ok m /\
    (db_find (ps_db st) (dd_name d) = None ->
     db_find (ps_db st') (dd_name d) = Some (mkEntry false (MUser m)))) /\
  (forall e, db_find (ps_db st) (dd_name d) = Some e -> db_find (ps_db st') (dd_name d) = Some e) /\
  (forall k, k <> dd_name d -> db_find (ps_db st') k = db_find (ps_db st) k).
Proof.
  intros H. apply visit_define_Ok in H as (m & Hm & ->). cbn [set_db ps_db]. repeat split.
  - exists m. split; [exact Hm|]. intros E. rewrite db_find_insert, E, seqb_refl. reflexivity.
  - intros e E. rewrite db_find_insert, E. reflexivity.
  - intros k Hk. rewrite db_find_insert. destruct (db_find (ps_db st) k); [reflexivity|].
    destruct (seqb (dd_name d) k) eqn:S; [apply seqb_eq in S; congruence|reflexivity].
Qed.
Lemma defines_effect l fs rs rf src added : forall ds st st' out out',
  visit_texts l fs rs rf src added (defines ds) out st = (Ok out', st') ->
  out' = out /\
  (forall k e, db_find (ps_db st) k = Some e -> db_find (ps_db st') k = Some e) /\
  (forall k, ~ In k (map dd_name ds) -> db_find (ps_db st') k = db_find (ps_db st) k) /\
  (NoDup (map dd_name ds) -> forall d, In d ds -> db_find (ps_db st) (dd_name d) = None ->
     exists m, macro_of d = Ok m /\ db_find (ps_db st') (dd_name d) = Some (mkEntry false (MUser m))).
Proof.
  induction ds as [|d ds IH]; intros st st' out out' H.
  - cbn in H. inversion H. repeat split; auto. intros _ d [].
  - cbn [defines visit_texts visit_text] in H. unfold mbind in H.
    destruct (visit_define src d st) as [[[]|e|w|] st1] eqn:E; try discriminate. cbn [ret] in H.
    unfold ret in H.
    destruct (define_effect _ _ _ _ E) as ((m & Hm & D1) & D2 & D3).
    destruct (IH _ _ _ _ H) as (-> & I1 & I2 & I3). split; [reflexivity|]. split; [|split].
    + intros k e Hk. apply I1. destruct (seqb k (dd_name d)) eqn:S.
      * apply seqb_eq in S. subst. apply D2. exact Hk.
      * apply seqb_neq in S. rewrite D3 by exact S. exact Hk.
    + intros k Hk. cbn [map In] in Hk. rewrite I2 by tauto. apply D3. intros ->. tauto.
    + cbn [map]. intros Hn d' Hin Hnone. inversion Hn as [|? ? Hx Hd]; subst. destruct Hin as [<-|Hin].
      * exists m. split; [exact Hm|]. apply I1. apply D1. exact Hnone.
      * apply I3; [exact Hd|exact Hin|]. rewrite D3; [exact Hnone|].
        intros Ee. apply Hx. rewrite <- Ee. apply in_map. exact Hin.
Qed.

Lemma undef_safe name st : (forall e, db_find (ps_db st) name = Some e -> e_persistent e = true) ->
  visit_undef name st = (Ok tt, st).
Proof.
  intros H. unfold visit_undef. destruct (db_find (ps_db st) name) as [e|]; [|reflexivity].
  rewrite (H e eq_refl). reflexivity.
Qed.
Lemma undef_exact name st e : db_find (ps_db st) name = Some e -> e_persistent e = false ->
  fst (visit_undef name st) = UB "visitUndef: m->second after defineDB.erase(m)".
Proof. intros H1 H2. unfold visit_undef. rewrite H1, H2. reflexivity. Qed.
Lemma undef_lenient_effect name st st' : visit_undef_lenient name st = (Ok tt, st') ->
  (forall e, db_find (ps_db st') name = Some e -> e_persistent e = true) /\
  (forall k, k <> name -> db_find (ps_db st') k = db_find (ps_db st) k).
Proof.
  unfold visit_undef_lenient. destruct (db_find (ps_db st) name) as [e|] eqn:E.
  - destruct (e_persistent e) eqn:P; intros H; inversion H; subst.
    + split; [|reflexivity]. intros e' He. congruence.
    + cbn [set_db ps_db]. split.
      * intros e' He. rewrite db_find_erase, seqb_refl in He. discriminate.
      * intros k Hk. rewrite db_find_erase. destruct (seqb name k) eqn:S; [apply seqb_eq in S; congruence|reflexivity].
  - intros H; inversion H; subst. split; [|reflexivity]. intros e' He. congruence.
Qed.

(** ** includes *)
Lemma find_include_spec fs p : p <> [] -> forall dirs,
  match find_include fs dirs p with
  | Ok (Some name) => first_dir_with fs dirs (file_of_arg p) name
  | Ok None => forall d, In d dirs -> fs (path_join d (file_of_arg p)) = None
  | _ => False
  end.
Proof.
  intros Hp. destruct p as [|q r]; [congruence|]. cbn [file_of_arg].
  induction dirs as [|d dirs IH]; cbn [find_include bind]; [intros d []|].
  destruct (fs (path_join d (removelast r))) as [c|] eqn:E.
  - exists [], d, dirs. repeat split; auto; [congruence|intros d' []].
  - destruct (find_include fs dirs (q :: r)) as [[name|]|e|w|]; try contradiction.
    + destruct IH as (pre & d0 & post & -> & -> & Hf & Hpre). exists (d :: pre), d0, post.
      repeat split; auto. intros d' [<-|Hin]; auto.
    + intros d' [<-|Hin]; auto.
Qed.
Lemma first_dir_unique fs dirs f n n' : first_dir_with fs dirs f n -> first_dir_with fs dirs f n' -> n = n'.
Proof.
  intros (a & d & b & E & -> & H1 & H2) (a' & d' & b' & E' & -> & H1' & H2'). subst dirs.
  revert a' E' H2'. induction a as [|x a IH]; intros [|y a'] E' H2'; cbn in E'; inversion E'; subst; auto.
  - exfalso. apply H1. apply H2'. left; reflexivity.
  - exfalso. apply H1'. apply H2. left; reflexivity.
  - apply (IH (fun d0 H => H2 d0 (or_intror H)) a' H3). intros d0 H. apply H2'. right; exact H.
Qed.
Lemma include_missing l fs rs rf src added tok p out st : p <> [] ->
  (forall d, In d (ps_incdirs st) -> fs (path_join d (file_of_arg p)) = None) ->
  visit_include l fs rs rf src added tok (inl p) out st
  = (input_error src tok (p ++ $" was not found in include directories" ++ [nl]), st).
Proof.
  intros Hp H. unfold visit_include, mbind, ret, get, lift.
  pose proof (find_include_spec fs p Hp (ps_incdirs st)) as S.
  destruct (find_include fs (ps_incdirs st) p) as [[name|]|e|w|]; try contradiction; [|reflexivity].
  exfalso. destruct S as (pre & d & post & E & -> & Hf & _). apply Hf. apply H. rewrite E. apply in_elt.
Qed.
Lemma include_found l fs rs rf src added tok p out st out' st' : p <> [] ->
  visit_include l fs rs rf src added tok (inl p) out st = (Ok out', st') ->
  exists name b st0 st1, first_dir_with fs (ps_incdirs st) (file_of_arg p) name /\
    ps_db st0 = ps_db st /\
    rf name (mkBuf [] [] 0 0 0) st0 = (Ok b, st1) /\
    out' = buf_append out b /\ ps_db st' = ps_db st1.
Proof.
  intros Hp. unfold visit_include, mbind, ret, get, lift, modify.
  pose proof (find_include_spec fs p Hp (ps_incdirs st)) as S.
  destruct (find_include fs (ps_incdirs st) p) as [[name|]|e|w|]; try contradiction; [|discriminate].
  destruct (_ <? _); [discriminate|].
  destruct added.
  - destruct (rev (ps_incdirs st)); [discriminate|]. cbn [new_buf Z.ltb Z.compare].
    destruct (rf name _ _) as [[b|e|w|] s1] eqn:E; try discriminate. intros H; inversion H; subst.
    exists name, b, (set_incdirs st (removelast (ps_incdirs st))), s1. repeat split; auto.
  - cbn [new_buf Z.ltb Z.compare].
    destruct (rf name _ _) as [[b|e|w|] s1] eqn:E; try discriminate. intros H; inversion H; subst.
    exists name, b, st, st'. repeat split; auto.
Qed.

(** ** undefined macros *)
Lemma undefined_call l fs rs rf src added m out st : db_find (ps_db st) (call_name (mc_tok m)) = None ->
  visit_text l fs rs rf src added (TCall m) out st
  = (input_error src (mc_tok m) (call_name (mc_tok m) ++ $" is not defined"), st).
Proof.
  intros H. cbn [visit_text]. unfold visit_call, call_text, mbind, get, lift, expand_call. rewrite H. reflexivity.
Qed.
Lemma undefined_in_sequence l fs rs rf src added m ts out st : db_find (ps_db st) (call_name (mc_tok m)) = None ->
  visit_texts l fs rs rf src added (TCons (TCall m) ts) out st
  = (input_error src (mc_tok m) (call_name (mc_tok m) ++ $" is not defined"), st).
Proof.
  intros H. change (mbind (visit_text l fs rs rf src added (TCall m) out) (visit_texts l fs rs rf src added ts) st
    = (input_error src (mc_tok m) (call_name (mc_tok m) ++ $" is not defined"), st)).
  unfold mbind. rewrite undefined_call by exact H. reflexivity.
Qed.
Lemma undefined_include l fs rs rf src added tok m out st : db_find (ps_db st) (call_name (mc_tok m)) = None ->
  visit_text l fs rs rf src added (TInclude tok (inr m)) out st
  = (input_error src (mc_tok m) (call_name (mc_tok m) ++ $" is not defined"), st).
Proof.
  intros H. cbn [visit_text]. unfold visit_include, call_text, mbind, get, lift, expand_call. rewrite H. reflexivity.
Qed.
Lemma defined_call l src m out d t : expand_call l src m out d = Ok t ->
  exists e, db_find d (call_name (mc_tok m)) = Some e.
Proof. unfold expand_call. destruct (db_find d (call_name (mc_tok m))) as [e|]; [eauto|discriminate]. Qed.
