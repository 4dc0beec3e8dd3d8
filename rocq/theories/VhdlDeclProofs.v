From Verif Require Import Base BaseFacts AstModel StmModel LitModel LitSpec LitProofs SvExprModel SvExprSpec SvExprProofs SvTypeModel SvDeclModel SvInstProofs SvDeclProofs VhdlExprModel VhdlExprSpec VhdlExprProofs VhdlStmModel VhdlDeclModel VhdlDeclSpec.

(** ** Converted expressions can be copied *)
Definition good (x : expr) : Prop := clone_e x = Ok x.
Lemma good_list l : Forall good l -> mapM clone_e l = Ok l.
Proof. intros H. induction H as [|x l Hx H IH]; [reflexivity|]. cbn. fold (mapM clone_e l). rewrite Hx, IH. reflexivity. Qed.
Lemma good_op o l : Forall good l -> good (EOp o l).
Proof. intros H. unfold good. cbn [clone_e]. rewrite (good_list l H). reflexivity. Qed.
Lemma good_arr l : Forall good l -> good (EArr l).
Proof. intros H. unfold good. cbn [clone_e]. rewrite (good_list l H). reflexivity. Qed.
Lemma good_arr_inv l : good (EArr l) -> Forall good l.
Proof.
  unfold good. cbn [clone_e]. intros H. apply bind_inv in H as (r & Hr & H). injection H as ->. apply mapM_ok_in in Hr.
  remember l as l' eqn:E in Hr at 1. assert (H : Forall2 (fun x y => clone_e x = Ok y) l' l) by exact Hr. clear Hr.
  assert (E' : l' = l) by (symmetry; symmetry; exact E). clear E.
  assert (forall a b, Forall2 (fun x y => clone_e x = Ok y) a b -> a = b -> Forall good a) as K.
  { intros a b F. induction F as [|x y a b Hxy F IH]; intros Q; [constructor|]. injection Q as <- ->. constructor; [exact Hxy|apply IH; reflexivity]. }
  rewrite <- E'. exact (K _ _ H E').
Qed.
Lemma good_op2 o a b : good a -> good b -> good (op2 o a b).
Proof. intros. apply good_op. auto. Qed.
Lemma good_unwrap a : good a -> good (unwrap1 a).
Proof. intros H. destruct a as [| | | |[|x [|y l]]| | | |]; try exact H. cbn [unwrap1]. apply good_arr_inv in H. inversion H; assumption. Qed.
Lemma mapM_good {X} (f : X -> outcome expr) l r : Forall (fun x => forall y, f x = Ok y -> good y) l -> mapM f l = Ok r -> Forall good r.
Proof.
  intros H E. apply mapM_ok_in in E. revert H. induction E as [|x y l r Hxy E IH]; intros H; [constructor|]. inversion H; subst. constructor; auto.
Qed.
Ltac binv H := lazymatch type of H with bind _ _ = _ => let x := fresh "x" in let Hx := fresh "Hx" in apply bind_inv in H as (x & Hx & H) end.
Lemma nlit_good l x : conv_nlit l = Ok x -> good x.
Proof.
  destruct l; cbn [conv_nlit]; unfold visit_vhdl_string, visit_character; intros H; [injection H as <-; reflexivity| |]; repeat binv H; injection H as <-; reflexivity.
Qed.
Lemma decimal_good t x : visit_decimal t = Ok x -> good x.
Proof. unfold visit_decimal. destruct (existsb _ t); intros H; [|binv H]; injection H as <-; reflexivity. Qed.
Lemma based_good t x : visit_based_literal t = Ok x -> good x.
Proof. unfold visit_based_literal. destruct (find _ t); [|discriminate]. intros H. repeat binv H. injection H as <-. reflexivity. Qed.
Lemma bits_good t x : visit_bit_string t = Ok x -> good x.
Proof.
  unfold visit_bit_string. destruct (find [dq] t) as [[|k]|]; try discriminate. intros H. binv H.
  set (p := if ceqb x0 "b" then _ else _) in H. clearbody p. destruct p as (radix, ratio). repeat binv H.
  match type of H with context [if ?b then UB _ else _] => destruct b end; [discriminate|]. injection H as <-. reflexivity.
Qed.
Definition cl (e : hexpr) : Prop := forall x, hconv e = Ok x -> good x.
Lemma range_good r x : h_rng cl r -> conv_range hconv r = Ok x -> good x.
Proof.
  destruct r as [e|a d b]; cbn [h_rng conv_range]; [intros H; apply H|]. intros (Ha & Hb) H. repeat binv H. injection H as <-. apply good_op2; auto.
Qed.
Lemma choice_good c x : h_ch cl c -> conv_choice hconv c = Ok x -> good x.
Proof. destruct c; cbn [h_ch conv_choice]; [intros _ H; injection H as <-; reflexivity|apply range_good]. Qed.
Lemma element_good p x : h_el cl p -> conv_element hconv p = Ok x -> good x.
Proof.
  intros (Hc & He) H. unfold conv_element in H. binv H. destruct (fst p) as [|c cs] eqn:E; [injection H as <-; auto|].
  binv H. destruct x1 as [|c' cs']; [discriminate|]. injection H as <-. apply good_op2; [|auto].
  assert (Forall good (c' :: cs')) as K.
  { refine (mapM_good (conv_choice hconv) (c :: cs) _ _ Hx0). eapply Forall_impl; [|exact Hc]. intros a Ha y. apply choice_good. exact Ha. }
  inversion K; assumption.
Qed.
Lemma finish_good l : Forall good l -> good (finish_aggregate l).
Proof.
  intros H. destruct l as [|x [|y l]]; [exact (good_arr [] H)| |].
  { assert (good x) as G by (inversion H; assumption).
  assert (finish_aggregate [x] = x \/ finish_aggregate [x] = EArr [x]) as [-> | ->].
  { destruct x as [| | | | | | |o l|]; try (left; reflexivity). destruct o; try (left; reflexivity). right. reflexivity. }
  - exact G.
  - apply good_arr. exact H. }
   destruct x as [| | | | | | |o m|]; try exact (good_arr _ H). destruct o; exact (good_arr _ H).
Qed.
Lemma aggregate_good l x : Forall (h_el cl) l -> conv_aggregate hconv l = Ok x -> good x.
Proof.
  intros K H. unfold conv_aggregate in H. binv H. injection H as <-. apply finish_good. refine (mapM_good _ l _ _ Hx).
  eapply Forall_impl; [|exact K]. intros a Ha y. apply element_good. exact Ha.
Qed.
Lemma desig_good d x : h_ds cl d -> conv_desig hconv d = Ok x -> good x.
Proof. destruct d; cbn [h_ds conv_desig]; [intros H; apply H|intros _ H; injection H as <-; reflexivity]. Qed.
Lemma assoc_good a x : h_as cl a -> conv_assoc hconv a = Ok x -> good x.
Proof.
  destruct a as [fp ac]. intros (H1 & H2) H. cbn [conv_assoc] in H. binv H.
  assert (good x0) as K.
  { destruct ac as [d|n d]; cbn [h_ac conv_actual] in *; [eapply desig_good; eassumption|]. destruct H2 as (Hn & Hd). repeat binv Hx. injection Hx as <-.
    apply good_op. constructor; [auto|]. constructor; [eapply desig_good; eassumption|constructor]. }
  destruct fp as [(n, m)|]; [|injection H as <-; exact K]. binv H. injection H as <-. apply good_op2; [|exact K].
  unfold conv_formal in Hx0. cbn [fst snd h_fp] in *. destruct H1 as (Hn & Hm). binv Hx0. destruct m as [m|]; [|injection Hx0 as <-; auto].
  binv Hx0. injection Hx0 as <-. apply good_op. cbn [o_kid] in Hm. auto.
Qed.
Lemma constraint_good t c x : good t -> h_orl cl c -> conv_array_constraint hconv t c = Ok x -> good x.
Proof.
  intros Ht Hc H. destruct c as [l|]; cbn [conv_array_constraint h_orl] in *; [|injection H as <-; apply good_op2; [exact Ht|reflexivity]].
  binv H. injection H as <-. apply good_op. constructor; [exact Ht|]. refine (mapM_good _ l _ _ Hx). eapply Forall_impl; [|exact Hc]. intros a Ha y. apply range_good. exact Ha.
Qed.
Lemma hconv_good e : cl e.
Proof.
  apply hexpr_ind'. clear e. intros e K x H. destruct e; cbn [hkids] in K; cbn [hconv] in H.
  - eapply nlit_good; eassumption.
  - destruct K as (K1 & K2 & K3). repeat binv H. injection H as <-. repeat apply good_op2; auto.
  - binv H. injection H as <-. apply good_op2; [auto|reflexivity].
  - repeat binv H. injection H as <-. apply good_op2; [auto|eapply nlit_good; eassumption].
  - binv H. injection H as <-. apply good_op2; [auto|reflexivity].
  - destruct K as (K1 & K2). repeat binv H. injection H as <-. apply good_op. constructor; [auto|]. refine (mapM_good _ _ _ _ Hx0).
    eapply Forall_impl; [|exact K2]. intros a Ha y. apply assoc_good. exact Ha.
  - injection H as <-. reflexivity.
  - binv H. binv H. injection H as <-.
    assert (good x1) as G1 by (destruct based; [eapply based_good|eapply decimal_good]; eassumption).
    destruct unit_ as [u|]; [|injection Hx as <-; exact G1]. binv Hx. injection Hx as <-. apply good_op2; [exact G1|]. cbn [o_kid] in K. auto.
  - eapply bits_good; eassumption.
  - injection H as <-. reflexivity.
  - binv H. injection H as <-. apply good_op2; [reflexivity|auto].
  - eapply aggregate_good; eassumption.
  - destruct K as (K1 & K2). repeat binv H. injection H as <-. apply good_op2; [auto|eapply aggregate_good; eassumption].
  - destruct K as (K1 & K2). repeat binv H. injection H as <-. apply good_op2; apply good_unwrap; auto.
  - repeat binv H. injection H as <-. apply good_op. constructor; [apply good_unwrap; auto|constructor].
  - destruct K as (K1 & K2). repeat binv H. injection H as <-. apply good_op2; apply good_unwrap; auto.
  - destruct K as (K1 & K2). repeat binv H. injection H as <-. apply good_op2; apply good_unwrap; auto.
  - binv H. injection H as <-. apply good_unwrap; auto.
  - destruct K as (K1 & K2). repeat binv H. injection H as <-. apply good_op2; auto.
  - destruct K as (K1 & K2). repeat binv H. injection H as <-. apply good_op2; auto.
  - destruct K as (K1 & K2). repeat binv H. injection H as <-. apply good_op2; auto.
  - destruct K as (K1 & K2 & K3). binv H. binv H. binv H. injection H as <-.
    assert (good x1) as G1 by auto.
    assert (good x2) as G2.
    { destruct c as [[r|l rec]|]; cbn [conv_constr h_co] in *.
      - binv Hx1. injection Hx1 as <-. apply good_op2; [exact G1|eapply range_good; eassumption].
      - binv Hx1. injection Hx1 as <-. destruct rec; [reflexivity|].
        clear - G1 K3 Hx2. revert x1 G1 Hx2. induction K3 as [|c l Hc K3 IH]; intros t Gt H; [injection H as <-; exact Gt|].
        change (bind (conv_array_constraint hconv t c) (fun u => conv_array_constraints hconv u l) = Ok x) in H. binv H. eapply IH; [eapply constraint_good; eassumption|exact H].
      - injection Hx1 as <-. exact G1. }
    destruct ri as [[n|]|]; cbn [conv_res h_re] in *.
    + repeat binv Hx. injection Hx as <-. apply good_op2; auto.
    + cbn in Hx. injection Hx as <-. apply good_op2; [reflexivity|exact G2].
    + injection Hx as <-. exact G2.
Qed.
