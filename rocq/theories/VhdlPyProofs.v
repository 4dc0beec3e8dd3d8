From Verif Require Import Base BaseFacts StrSpec StrUtilsModel StrUtilsProofs AstModel StmModel LitModel LitSpec LitProofs EncodingSpec SvExprModel SvExprProofs SvStmModel SvTypeModel SvDeclModel SvInstProofs SvDeclProofs
  VhdlExprModel VhdlExprProofs VhdlStmModel VhdlStmProofs VhdlDeclModel VhdlDeclProofs PySpec Utf8Proofs PyObjSpec PySeenSpec VhdlTextSpec.

Notation printables := (Forall printable).
Ltac winv H := repeat (first [apply Forall_app in H as [?W H] | apply Forall_cons_iff in H as [?W H]]).
Lemma readable_op o l : forallb readable l = true -> readable (EOp o l) = true. Proof. intros H. exact H. Qed.
Lemma readable_op2 o a b : readable a = true -> readable b = true -> readable (op2 o a b) = true.
Proof. intros A B. unfold op2. cbn [readable forallb]. rewrite A, B. reflexivity. Qed.
Lemma readable_op1 o a : readable a = true -> readable (op1 o a) = true.
Proof. intros A. unfold op1. cbn [readable forallb]. rewrite A. reflexivity. Qed.
Lemma readable_call o f l : readable f = true -> forallb readable l = true -> readable (call_op o f l) = true.
Proof. intros A B. unfold call_op. cbn [readable forallb]. rewrite A, B. reflexivity. Qed.
Lemma readable_unwrap a : readable a = true -> readable (unwrap1 a) = true.
Proof. intros H. destruct a as [| | | |[|x [|y l]]| | | |]; try exact H. cbn [unwrap1]. cbn [readable forallb] in H. rewrite andb_true_r in H. exact H. Qed.
Lemma mapM_readable {X} (f : X -> outcome expr) l r : Forall (fun x => forall y, f x = Ok y -> readable y = true) l -> mapM f l = Ok r -> forallb readable r = true.
Proof.
  intros H E. apply mapM_ok_in in E. revert H. induction E as [|x y l r Hxy E IH]; intros H; [reflexivity|]. inversion H; subst. cbn [forallb]. apply andb_true_intro; auto.
Qed.
(** ** Literals *)
Lemma name_readable s : printable (W_name s) -> readable (EId s) = true.
Proof. intros [N H]. cbn [readable]. rewrite H. destruct s; [congruence|reflexivity]. Qed.
Lemma plain_sub s n : plain_text s = true -> plain_text (firstn n s) = true.
Proof. unfold plain_text. rewrite !forallb_forall. intros H c Hc. apply H. rewrite <- (firstn_skipn n s). apply in_or_app. left. exact Hc. Qed.
Lemma plain_skip s n : plain_text s = true -> plain_text (skipn n s) = true.
Proof. unfold plain_text. rewrite !forallb_forall. intros H c Hc. apply H. rewrite <- (firstn_skipn n s). apply in_or_app. right. exact Hc. Qed.
Lemma plain_substr s a n t : plain_text s = true -> substr s a n = Ok t -> plain_text t = true.
Proof. unfold substr. destruct (length s <? a); [discriminate|]. intros H E. injection E as <-. apply plain_sub, plain_skip, H. Qed.
Lemma nlit_readable l x : printables (nlit_words l) -> conv_nlit l = Ok x -> readable x = true.
Proof.
  destruct l; cbn [conv_nlit nlit_words]; intros W H; winv W.
  - injection H as <-. apply name_readable. exact W0.
  - destruct W0 as [(b & ->) T]. unfold visit_vhdl_string in H. binv H. binv H. injection H as <-. cbn [readable].
    assert (A : is_ascii dq) by (cbv; reflexivity). apply (sendable_split [] dq _ A) in T as [_ T]. apply (sendable_split b dq [] A) in T as [T _].
    assert (x0 = b) as ->.
    { unfold substr in Hx. destruct (_ <? 1); [discriminate|]. injection Hx as <-. cbn [skipn]. cbn [length]. rewrite app_length. cbn [length Nat.sub].
      replace (S (length b + 1) <? 2) with false by (symmetry; apply Nat.ltb_ge; lia). replace (length b + 1 - 1) with (length b) by lia. rewrite firstn_app, Nat.sub_diag, firstn_all. cbn [firstn]. apply app_nil_r. }
    destruct (replace_substring_spec b [dq; dq] [dq]) as (t & E & R); [discriminate|]. rewrite E in Hx0. injection Hx0 as <-. eapply sendable_replaced; eassumption.
  - cbn [printable] in W0. unfold visit_character in H. binv H. injection H as <-. cbn [readable]. apply sendable_plain. eapply plain_substr; eassumption.
Qed.
Lemma decimal_readable t x : visit_decimal t = Ok x -> readable x = true.
Proof. unfold visit_decimal. destruct (existsb _ t); intros H; [|binv H]; injection H as <-; reflexivity. Qed.
Lemma based_readable t x : plain_text t = true -> visit_based_literal t = Ok x -> readable x = true.
Proof. intros W. unfold visit_based_literal. destruct (find _ t); [|discriminate]. intros H. repeat binv H. injection H as <-. cbn [readable]. apply sendable_plain. eapply plain_substr; eassumption. Qed.
Lemma lower_plain c : plain_char c = true -> plain_char (tolower c) = true.
Proof. destruct c as [[] [] [] [] [] [] [] []]; cbv; congruence. Qed.
Lemma c_string_plain s : forallb (fun c => (N_of_ascii c <? 128)%N) s = true -> plain_text (LitModel.c_string s) = true.
Proof.
  induction s as [|c s IH]; cbn [forallb LitModel.c_string]; intros H; [reflexivity|]. apply andb_prop in H as [H1 H2]. destruct (ceqb c c0) eqn:E; [reflexivity|].
  cbn [plain_text forallb]. rewrite H1, E. exact (IH H2).
Qed.
Lemma bits_readable t x : plain_text t = true -> visit_bit_string t = Ok x -> readable x = true.
Proof.
  intros W. unfold visit_bit_string. destruct (find [dq] t) as [[|k]|]; try discriminate. intros H. binv H.
  set (p := if ceqb x0 "b" then _ else _) in H. clearbody p. destruct p as (radix, ratio). repeat binv H.
  match type of H with context [if ?b then UB _ else _] => destruct b end; [discriminate|]. injection H as <-. cbn [readable]. apply sendable_plain. apply c_string_plain.
  apply forallb_forall. intros c Hc. assert (I : In c (remove_us (removelast (lower t) ++ [c0]))).
  { rewrite <- (firstn_skipn (k + 2)). apply in_or_app. right. exact Hc. }
  unfold remove_us in I. apply filter_In in I as [I _]. apply in_app_or in I as [I|[<-|[]]]; [|reflexivity].
  assert (J : In c (lower t)). { destruct (lower t) as [|a l]; [destruct I|]. rewrite (app_removelast_last a (l := a :: l)) by discriminate. apply in_or_app. left. exact I. }
  unfold lower in J. apply in_map_iff in J as (d & <- & J). unfold plain_text in W. rewrite forallb_forall in W. specialize (W d J). apply lower_plain in W. apply andb_prop in W as [W _]. exact W.
Qed.
(** ** Expressions *)
Definition rd (e : hexpr) : Prop := forall x, printables (words e) -> hconv e = Ok x -> readable x = true.
Lemma range_rd r x : h_rng rd r -> printables (range_words words r) -> conv_range hconv r = Ok x -> readable x = true.
Proof.
  destruct r as [e|a d b]; cbn [h_rng conv_range range_words]; [intros H; apply H|]. intros (Ha & Hb) W H. winv W. repeat binv H. injection H as <-. apply readable_op2; auto.
Qed.
Lemma choice_rd c x : h_ch rd c -> printables (choice_words words c) -> conv_choice hconv c = Ok x -> readable x = true.
Proof. destruct c; cbn [h_ch conv_choice choice_words]; [intros _ _ H; injection H as <-; reflexivity|apply range_rd]. Qed.
Lemma Forall_both {X} (P Q R : X -> Prop) l : Forall P l -> Forall Q l -> (forall x, P x -> Q x -> R x) -> Forall R l.
Proof. intros F G H. rewrite Forall_forall in *. auto. Qed.
Lemma choices_rd l r : Forall (h_ch rd) l -> printables (flat_map (choice_words words) l) -> mapM (conv_choice hconv) l = Ok r -> forallb readable r = true.
Proof. intros K W. apply Forall_flat_map in W. apply mapM_readable. eapply Forall_both; [exact K|exact W|]. intros c Hc Wc y. apply choice_rd; assumption. Qed.
Lemma element_rd p x : h_el rd p -> printables (element_words words p) -> conv_element hconv p = Ok x -> readable x = true.
Proof.
  intros (Hc & He) W H. unfold element_words in W. winv W. unfold conv_element in H. binv H. destruct (fst p) as [|c cs] eqn:E; [injection H as <-; auto|].
  binv H. destruct x1 as [|c' cs']; [discriminate|]. injection H as <-. apply readable_op2; [|auto].
  pose proof (choices_rd _ _ Hc W0 Hx0) as K. cbn [forallb] in K. apply andb_prop in K as [K _]. exact K.
Qed.
Lemma finish_rd l : forallb readable l = true -> readable (finish_aggregate l) = true.
Proof.
  intros H. destruct l as [|x [|y l]]; [exact H| |].
  - assert (G : readable x = true) by (cbn [forallb] in H; apply andb_prop in H as [H _]; exact H).
    assert (finish_aggregate [x] = x \/ finish_aggregate [x] = EArr [x]) as [-> | ->]; [|exact G|exact H].
    destruct x as [| | | | | | |o l|]; try (left; reflexivity). destruct o; try (left; reflexivity). right. reflexivity.
  - destruct x as [| | | | | | |o m|]; try exact H. destruct o; exact H.
Qed.
Lemma aggregate_rd l x : Forall (h_el rd) l -> printables (flat_map (element_words words) l) -> conv_aggregate hconv l = Ok x -> readable x = true.
Proof.
  intros K W H. apply Forall_flat_map in W. unfold conv_aggregate in H. binv H. injection H as <-. apply finish_rd. refine (mapM_readable _ l _ _ Hx).
  eapply Forall_both; [exact K|exact W|]. intros a Ha Wa y. apply element_rd; assumption.
Qed.
Lemma desig_rd d x : h_ds rd d -> printables (desig_words words d) -> conv_desig hconv d = Ok x -> readable x = true.
Proof. destruct d; cbn [h_ds conv_desig desig_words]; [intros H; apply H|intros _ _ H; injection H as <-; reflexivity]. Qed.
Lemma assoc_rd a x : h_as rd a -> printables (assoc_words words a) -> conv_assoc hconv a = Ok x -> readable x = true.
Proof.
  destruct a as [fp ac]. intros (H1 & H2) W H. cbn [conv_assoc assoc_words] in *. apply Forall_app in W as [W1 W2]. binv H.
  assert (readable x0 = true) as K.
  { destruct ac as [d|n d]; cbn [h_ac conv_actual actual_words] in *; [eapply desig_rd; eassumption|]. destruct H2 as (Hn & Hd). apply Forall_app in W2 as [W2 W3]. repeat binv Hx. injection Hx as <-.
    apply readable_call; [auto|]. cbn [forallb]. rewrite (desig_rd d x1 Hd W3 Hx0). reflexivity. }
  destruct fp as [(n, m)|]; [|injection H as <-; exact K]. binv H. injection H as <-. apply readable_op2; [|exact K].
  unfold conv_formal in Hx0. cbn [fst snd h_fp opt_words] in *. unfold formal_words in W1. cbn [fst snd] in W1. apply Forall_app in W1 as [W1 W3]. destruct H1 as (Hn & Hm). binv Hx0. destruct m as [m|]; [|injection Hx0 as <-; auto].
  binv Hx0. injection Hx0 as <-. apply readable_call; [auto|]. cbn [o_kid opt_words forallb] in *. rewrite (Hm x2); auto.
Qed.
Lemma assocs_rd l r : Forall (h_as rd) l -> printables (flat_map (assoc_words words) l) -> mapM (conv_assoc hconv) l = Ok r -> forallb readable r = true.
Proof. intros K W. apply Forall_flat_map in W. apply mapM_readable. eapply Forall_both; [exact K|exact W|]. intros c Hc Wc y. apply assoc_rd; assumption. Qed.
Lemma ranges_rd l r : Forall (h_rng rd) l -> printables (flat_map (range_words words) l) -> mapM (conv_range hconv) l = Ok r -> forallb readable r = true.
Proof. intros K W. apply Forall_flat_map in W. apply mapM_readable. eapply Forall_both; [exact K|exact W|]. intros c Hc Wc y. apply range_rd; assumption. Qed.
Lemma constraint_rd t c x : readable t = true -> h_orl rd c -> printables (opt_words (flat_map (range_words words)) c) -> conv_array_constraint hconv t c = Ok x -> readable x = true.
Proof.
  intros Ht Hc W H. destruct c as [l|]; cbn [conv_array_constraint h_orl opt_words] in *; [|injection H as <-; apply readable_op2; [exact Ht|reflexivity]].
  binv H. injection H as <-. apply readable_call; [exact Ht|]. eapply ranges_rd; eassumption.
Qed.
Lemma hconv_rd e : rd e.
Proof.
  apply hexpr_ind'. clear e. intros e K x W H. destruct e; cbn [hkids] in K; cbn [hconv] in H; cbn [words] in W.
  - eapply nlit_readable; eassumption.
  - destruct K as (K1 & K2 & K3). winv W. repeat binv H. injection H as <-. repeat apply readable_op2; auto.
  - winv W. binv H. injection H as <-. apply readable_op2; [auto|apply name_readable; assumption].
  - winv W. repeat binv H. injection H as <-. apply readable_op2; [auto|eapply nlit_readable; eassumption].
  - binv H. injection H as <-. apply readable_op2; [auto|reflexivity].
  - destruct K as (K1 & K2). winv W. repeat binv H. injection H as <-. apply readable_call; [auto|]. eapply assocs_rd; eassumption.
  - injection H as <-. reflexivity.
  - winv W. binv H. binv H. injection H as <-. cbn [printable] in W0.
    assert (readable x1 = true) as G1 by (destruct based; [eapply based_readable|eapply decimal_readable]; eassumption).
    destruct unit_ as [u|]; [|injection Hx as <-; exact G1]. binv Hx. injection Hx as <-. apply readable_op2; [exact G1|]. cbn [o_kid opt_words] in *. auto.
  - winv W. eapply bits_readable; eassumption.
  - injection H as <-. reflexivity.
  - binv H. injection H as <-. apply readable_op2; [reflexivity|auto].
  - eapply aggregate_rd; eassumption.
  - destruct K as (K1 & K2). winv W. repeat binv H. injection H as <-. apply readable_op2; [auto|eapply aggregate_rd; eassumption].
  - destruct K as (K1 & K2). winv W. repeat binv H. injection H as <-. apply readable_op2; apply readable_unwrap; auto.
  - repeat binv H. injection H as <-. apply readable_op1. apply readable_unwrap; auto.
  - destruct K as (K1 & K2). winv W. repeat binv H. injection H as <-. apply readable_op2; apply readable_unwrap; auto.
  - destruct K as (K1 & K2). winv W. repeat binv H. injection H as <-. apply readable_op2; apply readable_unwrap; auto.
  - binv H. injection H as <-. apply readable_unwrap; auto.
  - destruct K as (K1 & K2). winv W. repeat binv H. injection H as <-. apply readable_op2; auto.
  - destruct K as (K1 & K2). winv W. repeat binv H. injection H as <-. apply readable_op2; auto.
  - destruct K as (K1 & K2). winv W. repeat binv H. injection H as <-. apply readable_op2; auto.
  - destruct K as (K1 & K2 & K3). apply Forall_app in W as [W1 W]. apply Forall_app in W as [W2 W3]. binv H. binv H. binv H. injection H as <-.
    assert (readable x1 = true) as G1 by auto.
    assert (readable x2 = true) as G2.
    { destruct c as [[r|l rec]|]; cbn [conv_constr h_co opt_words constr_words] in *.
      - binv Hx1. injection Hx1 as <-. apply readable_op2; [exact G1|eapply range_rd; eassumption].
      - binv Hx1. injection Hx1 as <-. destruct rec; [reflexivity|].
        clear - G1 K3 Hx2 W3. apply Forall_flat_map in W3. revert x1 G1 Hx2. induction K3 as [|c l Hc K3 IH]; intros t Gt H; [injection H as <-; exact Gt|].
        inversion W3 as [|? ? Wc Wl]; subst.
        change (bind (conv_array_constraint hconv t c) (fun u => conv_array_constraints hconv u l) = Ok x) in H. binv H. eapply IH; [exact Wl|eapply constraint_rd; eassumption|exact H].
      - injection Hx1 as <-. exact G1. }
    destruct ri as [[n|]|]; cbn [conv_res h_re opt_words res_words] in *.
    + repeat binv Hx. injection Hx as <-. apply readable_op2; auto.
    + cbn in Hx. injection Hx as <-. apply readable_op2; [reflexivity|exact G2].
    + injection Hx as <-. exact G2.
Qed.
