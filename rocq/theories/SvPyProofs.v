(** What the converter makes of written Verilog expressions and statements can be converted to Python. *)
From Verif Require Import Base BaseFacts StrSpec StrUtilsModel AstModel StmModel LitModel LitProofs EncodingSpec SvExprModel SvExprProofs SvStmModel SvTypeModel SvDeclModel SvDeclProofs SvInstProofs.
From Verif Require Import SvSyntaxModel SvSyntaxSpec SvStmSyntaxModel SvStmSyntaxSpec PySpec Utf8Proofs PyObjModel PyObjSpec PySeenSpec VhdlTextSpec.

Ltac binv H := lazymatch type of H with bind _ _ = _ => let x := fresh "x" in let Hx := fresh "Hx" in apply bind_inv in H as (x & Hx & H) end.
Ltac winv H := repeat (first [apply Forall_app in H as [?W H] | apply Forall_cons_iff in H as [?W H]]).
(** ** Tokens *)
(** Texts that Python can store: identifiers and numbers are ASCII, strings are UTF-8, and there is no NUL. *)
Definition good (t : tok) : Prop :=
  match t with
  | KId s => s <> [] /\ plain_text s = true
  | KEscId s => exists u, s = "\"%char :: u /\ u <> [] /\ plain_text u = true
  | KUnsigned s | KBased s | KSized s | KUnbased s => plain_text s = true
  | KString s => exists u, s = dq :: u ++ [dq] /\ sendable_text u = true
  | _ => True
  end.
Definition good_s (t : stk) : Prop := match t with X t => good t | _ => True end.
Lemma good_X l : Forall good_s (map X l) <-> Forall good l.
Proof. rewrite Forall_map. reflexivity. Qed.

Lemma plain_skip s n : plain_text s = true -> plain_text (skipn n s) = true.
Proof. unfold plain_text. rewrite !forallb_forall. intros H c Hc. apply H. rewrite <- (firstn_skipn n s). apply in_or_app. right. exact Hc. Qed.
Lemma plain_sub s n : plain_text s = true -> plain_text (firstn n s) = true.
Proof. unfold plain_text. rewrite !forallb_forall. intros H c Hc. apply H. rewrite <- (firstn_skipn n s). apply in_or_app. left. exact Hc. Qed.
Lemma plain_substr s a n t : plain_text s = true -> substr s a n = Ok t -> plain_text t = true.
Proof. unfold substr. destruct (length s <? a); [discriminate|]. intros H E. injection E as <-. apply plain_sub, plain_skip, H. Qed.
Lemma plain_us s : plain_text s = true -> plain_text (remove_us s) = true.
Proof. unfold plain_text, remove_us. rewrite !forallb_forall. intros H c Hc. apply filter_In in Hc as [Hc _]. exact (H c Hc). Qed.
Lemma lower_char c : plain_char c = true -> plain_char (tolower c) = true.
Proof. destruct c as [[] [] [] [] [] [] [] []]; cbv; congruence. Qed.
Lemma plain_lower s : plain_text s = true -> plain_text (lower s) = true.
Proof. unfold plain_text, lower. rewrite !forallb_forall. intros H c Hc. apply in_map_iff in Hc as (d & <- & Hd). exact (lower_char d (H d Hd)). Qed.
Lemma plain_id s : s <> [] -> plain_text s = true -> readable (EId s) = true.
Proof. intros N H. cbn [readable]. rewrite (sendable_plain s H). destruct s; [congruence|reflexivity]. Qed.
(** ** Expressions *)
Lemma op_readable o l : forallb readable l = true -> readable (EOp o l) = true. Proof. intros H. exact H. Qed.
Lemma op2_readable o a b : readable a = true -> readable b = true -> readable (op2 o a b) = true.
Proof. intros A B. unfold op2. cbn [readable forallb]. rewrite A, B. reflexivity. Qed.
Lemma op1_readable o a : readable a = true -> readable (op1 o a) = true.
Proof. intros A. unfold op1. cbn [readable forallb]. rewrite A. reflexivity. Qed.
Lemma mk2_readable o a b : readable a = true -> readable b = true -> readable (mk2 a o b) = true.
Proof. intros A B. assert (mk2 a o b = EOp o [a; b]) as -> by (destruct a, b; (discriminate || reflexivity)). exact (op2_readable o a b A B). Qed.
Lemma call_readable o f l : readable f = true -> forallb readable l = true -> readable (call_op o f l) = true.
Proof. intros A B. unfold call_op. cbn [readable forallb]. rewrite A, B. reflexivity. Qed.
Lemma reduce_readable o l : l <> [] -> forallb readable l = true -> readable (reduce l o) = true.
Proof.
  destruct l as [|x l]; [congruence|]. intros _ H. cbn [forallb] in H. apply andb_prop in H as [Hx H]. cbn [reduce]. revert x Hx. induction l as [|y l IH]; intros x Hx; [exact Hx|].
  cbn [forallb] in H. apply andb_prop in H as [Hy H]. cbn [fold_left]. apply (IH H). apply mk2_readable; assumption.
Qed.
Lemma mapM_all {X Y} (f : X -> outcome Y) (Q : Y -> Prop) l r : Forall (fun x => forall y, f x = Ok y -> Q y) l -> mapM f l = Ok r -> Forall Q r.
Proof. intros H E. apply mapM_ok_in in E. revert H. induction E as [|x y l r Hxy E IH]; intros H; [constructor|]. inversion H; subst. constructor; auto. Qed.
Lemma mapM_length {X Y} (f : X -> outcome Y) l r : mapM f l = Ok r -> length r = length l.
Proof. intros E. apply mapM_ok_in in E. induction E; [reflexivity|cbn [length]; congruence]. Qed.
Lemma mapM_nonempty {X Y} (f : X -> outcome Y) l r : l <> [] -> mapM f l = Ok r -> r <> [].
Proof. intros N E. apply mapM_length in E. destruct l; [congruence|]. destruct r; [discriminate|congruence]. Qed.
Lemma concatM_all {X Y} (f : X -> outcome (list Y)) (Q : Y -> Prop) l r : Forall (fun x => forall y, f x = Ok y -> Forall Q y) l -> concatM f l = Ok r -> Forall Q r.
Proof.
  revert r. induction l as [|x l IH]; intros r H E; [injection E as <-; constructor|]. inversion H; subst. change (bind (f x) (fun a => bind (concatM f l) (fun r => Ok (a ++ r))) = Ok r) in E. repeat binv E. injection E as <-.
  apply Forall_app. split; auto.
Qed.
Lemma Forall_readable l : Forall (fun x => readable x = true) l <-> forallb readable l = true.
Proof. rewrite forallb_forall, Forall_forall. reflexivity. Qed.
Lemma ident_good i s : good (id_tok i) -> ident_str i = Ok s -> s <> [] /\ plain_text s = true.
Proof.
  destruct i as [t|t]; cbn [id_tok good ident_str]; [intros H E; injection E as <-; exact H|]. intros (u & -> & N & P). unfold visit_escaped_id, substr. destruct (_ <? 1); [discriminate|].
  rewrite firstn_all2 by (rewrite skipn_length; lia). cbn [skipn]. intros H. injection H as <-. split; assumption.
Qed.
Lemma text_good i : good (id_tok i) -> ident_text i <> [] /\ plain_text (ident_text i) = true.
Proof.
  destruct i as [t|t]; cbn [id_tok good ident_text]; [trivial|]. intros (u & -> & N & P). split; [discriminate|]. unfold plain_text in *. cbn [forallb]. rewrite P. reflexivity.
Qed.
Lemma ident_rd i x : good (id_tok i) -> visit_ident i = Ok x -> readable x = true.
Proof. intros G H. unfold visit_ident in H. binv H. injection H as <-. destruct (ident_good i x0 G Hx). apply plain_id; assumption. Qed.
Lemma based_rd s n x : plain_text s = true -> visit_based s n = Ok x -> readable x = true.
Proof.
  intros P H. unfold visit_based in H. binv H. destruct (negb _); [discriminate|]. repeat binv H. injection H as <-. cbn [readable]. apply sendable_plain. eapply plain_substr; [|eassumption]. apply plain_lower, plain_us, P.
Qed.
Lemma lit_rd l x : Forall good (lit_toks l) -> visit_lit l = Ok x -> readable x = true.
Proof.
  destruct l as [t|t|t|t|t| | |]; cbn [lit_toks visit_lit]; intros G H; try (injection H as <-; reflexivity).
  - destruct t as [t|[u|] t|t]; cbn [visit_integral] in H; winv G.
    + destruct (find _ t); [|discriminate]. binv H. eapply based_rd; [apply plain_skip; exact W|exact H].
    + binv H. eapply based_rd; [exact W0|exact H].
    + eapply based_rd; [exact W|exact H].
    + injection H as <-. cbn [readable]. apply sendable_plain, plain_us, W.
  - winv G. destruct W as (u & -> & S). unfold visit_string, substr in H. cbn [length] in H. rewrite app_length in H. cbn [length] in H. replace (Datatypes.S (length u + 1) <? 1) with false in H by (symmetry; apply Nat.ltb_ge; lia).
    replace (Datatypes.S (length u + 1) <? 2) with false in H by (symmetry; apply Nat.ltb_ge; lia). cbn [bind skipn] in H. injection H as <-. cbn [readable].
    replace (length u + 1 - 1) with (length u) by lia. rewrite firstn_app, Nat.sub_diag, firstn_all. cbn [firstn]. rewrite app_nil_r. exact S.
  - winv G. unfold visit_unbased in H. destruct (negb _); [discriminate|]. binv H. injection H as <-. cbn [readable]. apply sendable_plain. eapply plain_substr; eassumption.
Qed.
Lemma items_rd l : Forall (fun x : ident * option (pva vexpr) => snd x = None) l -> Forall good (path_toks l) -> forall sel r, match sel with Some e => readable e = true | None => True end ->
  conv_items conv sel l = Ok r -> match r with Some e => readable e = true | None => sel = None /\ l = [] end.
Proof.
  induction l as [|[i v] l IH]; intros F G sel r S H; [injection H as <-; destruct sel; [exact S|split; reflexivity]|].
  inversion F as [|? ? E F']; subst. cbn [snd] in E. subst v.
  assert (good (id_tok i) /\ Forall good (path_toks l)) as [Gi Gl]. { destruct l as [|[j w] l]; cbn [path_toks] in G; winv G; [split; [assumption|constructor]|]. split; [assumption|]. exact G. }
  change (bind (SvExprModel.conv_item conv sel (i, None)) (fun x => conv_items conv (Some x) l) = Ok r) in H. binv H. unfold SvExprModel.conv_item in Hx. cbn [fst snd] in Hx. binv Hx. injection Hx as <-.
  pose proof (ident_rd i _ Gi Hx0) as R. apply (IH F' Gl) in H; [destruct r; [exact H|destruct H; discriminate]|]. destruct sel; [apply op2_readable; assumption|exact R].
Qed.
Lemma path_rd l x : l <> [] -> Forall (fun x : ident * option (pva vexpr) => snd x = None) l -> Forall good (path_toks l) -> conv_path conv (VPathOf false H_none l) = Ok x -> readable x = true.
Proof.
  intros N F G H. destruct l as [|i l]; [congruence|]. cbn [conv_path] in H. binv H. apply (items_rd _ F G None) in Hx; [|exact Logic.I]. destruct x0; [injection H as <-; exact Hx|]. destruct Hx; discriminate.
Qed.
Definition rd (e : vexpr) : Prop := proper e -> Forall good (show e) -> forall x, conv e = Ok x -> readable x = true.
Lemma commas_good (f : vexpr -> list tok) (Q : vexpr -> Prop) l : all_of Q l -> Forall good (comma_toks f l) -> Forall (fun e => Q e /\ Forall good (f e)) l.
Proof.
  induction l as [|e l IH]; intros A G; [constructor|]. destruct A as [Ae A]. destruct l as [|e' l]; [constructor; [split; assumption|constructor]|]. change (comma_toks f (e :: e' :: l)) with (f e ++ KComma :: comma_toks f (e' :: l)) in G.
  winv G. constructor; [split; assumption|]. apply IH; assumption.
Qed.
Lemma exprs_rd l r : Forall rd l -> Forall (fun e => proper e /\ Forall good (show e)) l -> mapM conv l = Ok r -> forallb readable r = true.
Proof. intros K G H. apply Forall_readable. refine (mapM_all conv _ l r _ H). rewrite Forall_forall in *. intros e I y E. destruct (G e I). exact (K e I H0 H1 y E). Qed.
Lemma args_rd l : Forall (k_arg rd) l -> separated l -> all_args proper l -> Forall good (arg_toks show l) -> forall b r, conv_args conv b l = Ok r -> forallb readable r = true.
Proof.
  induction l as [|a l IH]; intros K S A G b r H; [injection H as <-; reflexivity|]. inversion K as [|? ? Ka K']; subst.
  assert (separated l) as S' by (destruct a as [|e|]; [exact S| |destruct S]; destruct l as [|[]]; [exact S|exact S|destruct S|destruct S]).
  destruct a as [|e|n v]; [| |destruct l as [|[]]; destruct S].
  - change (bind (conv_args conv true l) (fun r => Ok (if b then EId $"void" :: r else r)) = Ok r) in H. binv H. injection H as <-. cbn [arg_toks all_args] in *. winv G. specialize (IH K' S' A G true _ Hx). destruct b; cbn [forallb]; rewrite IH; reflexivity.
  - change (bind (conv e) (fun x => bind (conv_args conv false l) (fun r => Ok (x :: r))) = Ok r) in H. repeat binv H. injection H as <-. cbn [arg_toks all_args] in *. destruct A as [Ae A]. apply Forall_app in G as [Ge G].
    cbn [forallb]. rewrite (IH K' S' A G false _ Hx0), (Ka Ae Ge _ Hx). reflexivity.
Qed.
Lemma nn {T} e (a b : T) : readable e = true -> match e with ENull => a | _ => b end = b. Proof. destruct e; (discriminate || reflexivity). Qed.
Theorem expr_rd e : rd e.
Proof.
  apply vexpr_ind'. clear e. intros e K P G x H. destruct e; cbn [kids] in K; cbn [proper] in P; try (destruct P; fail); cbn [conv] in H.
  - eapply lit_rd; [exact G|exact H].
  - destruct p as [[] [] l]; try (destruct P; fail). destruct P as [N F]. eapply path_rd; eassumption.
  - destruct typ_max as [[t m]|]; cbn [show] in G; winv G; [destruct P as (P & _)|]; eapply K; eassumption.
  - cbn [show] in G. destruct P as (_ & P1 & P2). destruct K as [K1 K2]. winv G. repeat binv H. specialize (K1 P1 W _ Hx). specialize (K2 P2 W1 _ Hx0). rewrite (nn _ _ _ K1) in H. injection H as <-. apply mk2_readable; assumption.
  - cbn [show] in G. destruct P as (_ & P1). winv G. repeat binv H. specialize (K P1 W _ Hx). rewrite (nn _ _ _ K) in H. injection H as <-. apply mk2_readable; [assumption|eapply ident_rd; eassumption].
  - cbn [show] in G. destruct P as (_ & P1 & P2 & P3). destruct K as (K1 & K2 & K3). apply Forall_app in G as [W G]. apply Forall_cons_iff in G as [_ G]. apply Forall_app in G as [W1 G]. apply Forall_app in G as [_ G]. apply Forall_app in G as [W2 _]. repeat binv H.
    specialize (K1 P1 W _ Hx). rewrite (nn _ _ _ K1) in H. injection H as <-. apply mk2_readable; [assumption|]. apply mk2_readable; [exact (K2 P2 W1 _ Hx0)|exact (K3 P3 W2 _ Hx1)].
  - cbn [show] in G. destruct P as [N P]. winv G. binv H. injection H as <-. apply reduce_readable; [exact (mapM_nonempty _ _ _ N Hx)|]. exact (exprs_rd l _ K (commas_good show proper l P W0) Hx).
  - cbn [show] in G. destruct P as (P1 & P2 & _). destruct K as [K1 K2]. winv G. repeat binv H. injection H as <-. apply mk2_readable; auto.
  - destruct method; [destruct P|]. destruct args as [l|]; destruct with_; try (destruct P; fail); cbn [show k_args] in *; destruct K as [K1 K2].
    + destruct P as (_ & P & N & S & A). winv G. repeat binv H. injection H as <-. apply call_readable; [auto|]. eapply args_rd; eassumption.
    + destruct P as (_ & P). winv G. binv H. injection H as <-. auto.
  - cbn [show] in G. destruct P as (_ & P). winv G. binv H. injection H as <-. apply op1_readable. auto.
  - cbn [show] in G. destruct P as (P1 & P2 & _). destruct K as [K1 K2]. winv G. repeat binv H. injection H as <-. apply mk2_readable; auto.
  - cbn [show] in G. destruct P as (P1 & P2 & P3 & _). destruct K as (K1 & K2 & K3). winv G. repeat binv H. specialize (K3 P3 G _ Hx1). rewrite (nn _ _ _ K3) in H. injection H as <-. unfold ternary, opt_l. cbn [readable forallb]. rewrite (K1 P1 W _ Hx), (K2 P2 W1 _ Hx0), K3. reflexivity.
Qed.
(** ** Left hand sides *)
Definition ld (d : vexpr) : Prop := lv_proper d -> Forall good (lv_toks d) -> forall x, conv d = Ok x -> readable x = true.
Lemma selects_rd l : Forall proper l -> Forall good (sel_toks l) -> forall r x, readable r = true -> conv_selects conv r l = Ok x -> readable x = true.
Proof.
  induction l as [|e l IH]; intros P G r x R H; [injection H as <-; exact R|]. inversion P; subst. unfold sel_toks in G. cbn [flat_map] in G. winv G. winv W.
  change (bind (conv e) (fun y => conv_selects conv (mk2 r INDEX y) l) = Ok x) in H. binv H. eapply IH; [assumption|exact G| |exact H]. apply mk2_readable; [exact R|]. eapply expr_rd; eassumption.
Qed.
Theorem lv_rd d : ld d.
Proof.
  apply vexpr_ind'. clear d. intros e K P G x H. destruct e; cbn [kids] in K; cbn [lv_proper] in P; try (destruct P; fail); cbn [conv] in H.
  - destruct P as [N P]. cbn [lv_toks] in G. winv G. pose proof (commas_good lv_toks lv_proper l P W0) as F.
    assert (B : forall r, mapM conv l = Ok r -> forallb readable r = true). { intros r E. apply Forall_readable. refine (mapM_all conv _ l r _ E). rewrite Forall_forall in *. intros e I y E'. destruct (F e I) as [F1 F2]. exact (K e I F1 F2 y E'). }
    destruct l as [|y [|z l]]; [congruence| |].
    + assert (E : mapM conv [y] = Ok [x]) by (cbn [mapM]; rewrite H; reflexivity). apply B in E. cbn [forallb] in E. rewrite andb_true_r in E. exact E.
    + binv H. injection H as <-. apply reduce_readable; [|exact (B _ Hx)]. exact (mapM_nonempty _ _ _ N Hx).
  - destruct p as [[] [] l]; try (destruct P; fail). destruct P as ((N & F) & P & _ & Pr). cbn [lv_toks] in G. apply Forall_app in G as [G1 G]. apply Forall_app in G as [G2 G]. apply Forall_app in G as [_ G]. binv H. binv H.
    assert (R : readable x1 = true) by (eapply (selects_rd sel P G2); [|exact Hx0]; eapply path_rd; eassumption).
    destruct r as [[[k a] b]|]; [|injection H as <-; exact R]. destruct Pr as [Pa Pb]. cbn [last_range] in G. apply Forall_cons_iff in G as [_ G]. apply Forall_app in G as [Ga G]. apply Forall_app in G as [_ G]. apply Forall_app in G as [Gb _].
    repeat binv H. injection H as <-. apply mk2_readable; [exact R|]. apply mk2_readable; [exact (expr_rd _ Pa Ga _ Hx1)|exact (expr_rd _ Pb Gb _ Hx2)].
Qed.
(** ** Statements *)
Lemma xs_rd e x : proper e -> Forall good_s (xs e) -> conv e = Ok x -> readable x = true.
Proof. intros P G. apply good_X in G. exact (expr_rd e P G x). Qed.
Lemma lvs_rd e x : lv_proper e -> Forall good_s (lv e) -> conv e = Ok x -> readable x = true.
Proof. intros P G. apply good_X in G. exact (lv_rd e P G x). Qed.
Lemma par_rd e x : proper e -> Forall good_s (par e) -> conv e = Ok x -> readable x = true.
Proof. unfold par. intros P G. winv G. apply (xs_rd e x P). assumption. Qed.
Ltac rdx := first [solve [eapply xs_rd; [| |eassumption]; assumption] | solve [eapply lvs_rd; [| |eassumption]; assumption] | solve [eapply par_rd; [| |eassumption]; assumption]].
Lemma opt_rd e : opt_proper e -> Forall good_s (opt_xs e) -> match e with Some e => forall x, conv e = Ok x -> readable x = true | None => True end.
Proof. destruct e as [e|]; [|trivial]. intros P G x. exact (xs_rd e x P G). Qed.
Notation rs := (fun s => readable_obj (of_stm s) = true).
Lemma event_rd e ts : w_event e ts -> Forall good_s ts -> forall r, conv_event e = Ok r -> Forall (fun x => readable x = true) r.
Proof.
  intros W G r H. assert (exists ed x i, e = EvItem ed x i /\ proper x /\ Forall good_s (xs x)) as (ed & x & i & -> & P & Gx).
  { destruct W; winv G; repeat eexists; try eassumption. }
  cbn [conv_event] in H. binv H. injection H as <-. constructor; [|constructor]. pose proof (xs_rd x _ P Gx Hx) as R. destruct ed as [[]|]; cbn [conv_edge]; try exact R; apply op1_readable; exact R.
Qed.
Lemma events_rd l ts : w_events l ts -> Forall good_s ts -> forall r, mapM conv_event l = Ok r -> Forall (fun x => readable x = true) (List.concat r).
Proof.
  induction 1 as [e ts W|e l ts sep ts' W S Ws IH]; intros G r H.
  - cbn [mapM] in H. repeat binv H. injection Hx0 as <-. injection H as <-. cbn [List.concat]. rewrite app_nil_r. eapply event_rd; eassumption.
  - change (bind (conv_event e) (fun y => bind (mapM conv_event l) (fun r => Ok (y :: r))) = Ok r) in H. repeat binv H. injection H as <-. winv G. cbn [List.concat]. apply Forall_app. split; [eapply event_rd; eassumption|]. apply IH; assumption.
Qed.
Lemma evctl_rd c ts r : w_evctl c ts -> Forall good_s ts -> conv_evctl c = Ok r -> forallb readable r = true.
Proof.
  intros W G H. apply Forall_readable. destruct W as [| |l ts W|l N F]; cbn [conv_evctl] in H.
  - injection H as <-. repeat constructor.
  - injection H as <-. repeat constructor.
  - binv H. injection H as <-. winv G. eapply events_rd; eassumption.
  - binv H. injection H as <-. winv G. apply good_X in G. constructor; [|constructor]. refine (lv_rd (VLvHier (VPathOf false H_none l) [] [] None) _ _ _ Hx); cbn [lv_proper lv_toks sel_toks dot_toks flat_map last_range app].
    + repeat split; try assumption; constructor.
    + rewrite app_nil_r. exact G.
Qed.
Lemma delay_rd d ts x : w_delay d ts -> Forall good_s ts -> conv_delay d = Ok x -> readable x = true.
Proof.
  intros W G H. destruct W; cbn [conv_delay] in H; winv G.
  - refine (lit_rd _ _ _ H). constructor; [assumption|constructor].
  - injection H as <-. reflexivity.
  - injection H as <-. reflexivity.
  - refine (expr_rd (VPath (VPathOf false H_none [(i, None)])) _ _ _ H).
    + split; [discriminate|]. constructor; [reflexivity|constructor].
    + cbn [show path_toks]. constructor; [assumption|constructor].
  - rdx.
  - rdx.
Qed.
Lemma dectl_rd d ts r : w_dectl d ts -> Forall good_s ts -> conv_dectl d = Ok r -> opt_all readable (fst r) = true /\ opt_all (forallb readable) (snd r) = true.
Proof.
  intros W G H. destruct W as [d ts W|c ts W|n c ts P W]; cbn [conv_dectl] in H; binv H; injection H as <-; cbn [fst snd opt_all]; (split; [|]); try reflexivity.
  - eapply delay_rd; eassumption.
  - eapply evctl_rd; eassumption.
  - winv G. eapply evctl_rd; eassumption.
Qed.
Lemma leaf_assign h d s t e b : readable_hdr h = true -> readable d = true -> readable s = true -> opt_all readable t = true -> opt_all (forallb readable) e = true -> readable_obj (of_stm (SAssign h d s t e b)) = true.
Proof. intros A B C D E. cbn [of_stm readable_obj readable_leaf]. rewrite A, B, C, D, E. reflexivity. Qed.
Lemma mk_assign_rd h d s t e b y : readable_hdr h = true -> readable d = true -> readable s = true -> opt_all readable t = true -> opt_all (forallb readable) e = true -> mk_assign h d s t e b = Ok y -> rs y.
Proof. intros A B C D E H. assert (mk_assign h d s t e b = Ok (SAssign h d s t e b)) as K by (destruct d, s; (discriminate || reflexivity)). rewrite K in H. injection H as <-. apply leaf_assign; assumption. Qed.
Lemma branches_rd {X} (g : X -> obj) l : Forall (fun p => readable (fst p) = true /\ readable_obj (g (snd p)) = true) l ->
  forallb (fun p => match p with (e, b) => readable e && readable_obj b end) (map (fun p => match p with (e, b) => (e, g b) end) l) = true.
Proof. induction 1 as [|[e b] l [H1 H2] _ IH]; [reflexivity|]. cbn [map forallb fst snd] in *. rewrite H1, H2, IH. reflexivity. Qed.
Lemma branches_inv {X} (g : X -> obj) l : forallb (fun p => match p with (e, b) => readable e && readable_obj b end) (map (fun p => match p with (e, b) => (e, g b) end) l) = true ->
  Forall (fun p => readable (fst p) = true /\ readable_obj (g (snd p)) = true) l.
Proof. induction l as [|[e b] l IH]; intros H; [constructor|]. cbn [map forallb] in H. apply andb_prop in H as [H1 H]. apply andb_prop in H1 as [H1 H2]. constructor; [split; assumption|exact (IH H)]. Qed.
Lemma all_rd {X} (g : X -> obj) l : Forall (fun s => readable_obj (g s) = true) l <-> forallb readable_obj (map g l) = true.
Proof. rewrite forallb_forall, Forall_forall. split; intros H x I; [apply in_map_iff in I as (y & <- & I); auto|apply H, in_map, I]. Qed.
Lemma collapse_rd s t : rs s -> collapse_elifs s = Ok t -> rs t.
Proof.
  intros R H. destruct s as [| | |h c a l [f|]| | | | | | | | | | | | | |]; try (injection H as <-; exact R). destruct f as [| | |h2 c2 a2 l2 f2| | | | | | | | | | | | | |]; try (injection H as <-; exact R).
  cbn [collapse_elifs] in H. destruct (Bool.eqb _ _); [|discriminate]. injection H as <-. cbn [of_stm readable_obj] in R. apply andb_prop in R as [R Rf]. apply andb_prop in R as [R Rl]. apply andb_prop in R as [R Ra]. apply andb_prop in R as [Rh Rc].
  apply andb_prop in Rf as [Rf Rf2]. apply andb_prop in Rf as [Rf Rl2]. apply andb_prop in Rf as [Rf Ra2]. apply andb_prop in Rf as [Rh2 Rc2]. apply branches_inv in Rl, Rl2.
  cbn [of_stm readable_obj]. rewrite Rc, Ra, Rf2, !andb_true_r. apply andb_true_intro. split.
  - unfold readable_hdr in *. cbn [doc labels attrs]. apply andb_prop in Rh as [Rh Rat]. apply andb_prop in Rh as [Rd Rlb]. rewrite Rat, Rlb. rewrite !andb_true_r. apply andb_prop in Rh2 as [Rh2 _]. apply andb_prop in Rh2 as [Rd2 _].
    destruct (doc h2) as [|b1 d2] eqn:E2; [exact Rd|]. destruct (doc h) as [|b2 d1] eqn:E1; [exact Rd2|]. apply sendable_app; [exact Rd|]. change (sendable_text ([nl] ++ b1 :: d2) = true). apply sendable_app; [reflexivity|exact Rd2].
  - apply branches_rd. apply Forall_app. split; [exact Rl|]. constructor; [split; assumption|exact Rl2].
Qed.
Lemma split_rd l : Forall (fun p => opt_all readable (fst p) = true /\ readable_obj (of_stm (snd p)) = true) l -> forall d r, match d with Some s => rs s | None => True end -> split_cases l d = Ok r ->
  Forall (fun p => readable (fst p) = true /\ readable_obj (of_stm (snd p)) = true) (fst r) /\ match snd r with Some s => rs s | None => True end.
Proof.
  induction 1 as [|[[e|] s] l [H1 H2] _ IH]; intros d r D H; cbn [split_cases] in H.
  - injection H as <-. split; [constructor|exact D].
  - binv H. injection H as <-. destruct (IH d _ D Hx) as [A B]. split; [constructor; [split; assumption|exact A]|exact B].
  - destruct d; [discriminate|]. exact (IH (Some s) r H2 H).
Qed.
Lemma labels_good l : all_of proper l -> Forall good_s (label_toks l) -> Forall (fun e => proper e /\ Forall good_s (xs e)) l.
Proof.
  induction l as [|e l IH]; intros A G; [constructor|]. destruct A as [Ae A]. destruct l as [|e' l]; [constructor; [split; assumption|constructor]|]. change (label_toks (e :: e' :: l)) with (xs e ++ X KComma :: label_toks (e' :: l)) in G.
  winv G. constructor; [split; assumption|]. apply IH; assumption.
Qed.
Lemma set_label_rd i s : good (id_tok i) -> rs s -> rs (set_hdr (fun h => mk_hdr (ident_text i :: labels h) (doc h) (attrs h) (in_preproc h)) s).
Proof.
  intros G R. destruct (text_good i G) as [_ T]. apply sendable_plain in T.
  assert (K : forall h, readable_hdr h = true -> readable_hdr (mk_hdr (ident_text i :: labels h) (doc h) (attrs h) (in_preproc h)) = true).
  { intros h. unfold readable_hdr. cbn [doc labels attrs forallb]. rewrite T. trivial. }
  destruct s; cbn [set_hdr of_stm readable_obj readable_leaf] in *; try exact R; repeat match goal with R : (_ && _) = true |- _ => apply andb_prop in R as [R ?] end; rewrite ?(K _ R); repeat match goal with E : ?a = true |- context [?a] => rewrite E end; reflexivity.
Qed.
Lemma no_attrs s y : add_attrs [] s = Ok y -> y = s.
Proof. unfold add_attrs. cbn [mapM bind]. intros H. injection H as <-. assert (K : forall h, mk_hdr (labels h) (doc h) (attrs h ++ []) (in_preproc h) = h) by (intros []; cbn; rewrite app_nil_r; reflexivity). destruct s; cbn [set_hdr]; rewrite ?K; reflexivity. Qed.
Lemma inits_rd l ts : w_inits l ts -> Forall good_s ts -> Forall (fun p => forall y, conv_var_assign p = Ok y -> rs y /\ exists h d x t e b, y = SAssign h d x t e b) l.
Proof.
  intros W. induction W as [d e Pd Pe|d e l ts Pd Pe W IH]; intros G; winv G; (constructor; [|auto]); unfold conv_var_assign; cbn [fst snd]; intros y H; repeat binv H.
  all: assert (readable x = true) as A by (rdx); assert (readable x0 = true) as B by (rdx).
  all: split; [eapply mk_assign_rd; [| | | | |exact H]; first [assumption|reflexivity]|]. all: destruct x, x0; try discriminate; injection H as <-; repeat eexists.
Qed.
Lemma incdec_rd p i d x : lv_proper d -> Forall good_s (lv d) -> conv (VIncDec p i d) = Ok x -> readable x = true.
Proof. intros P G H. cbn [conv] in H. binv H. injection H as <-. apply op1_readable. rdx. Qed.
Lemma assignment_rd d o e x : lv_proper d -> proper e -> Forall good_s (lv d) -> Forall good_s (xs e) -> conv_assignment d o e = Ok x -> readable x = true.
Proof. intros Pd Pe Gd Ge H. unfold conv_assignment in H. repeat binv H. injection H as <-. apply mk2_readable; rdx. Qed.
Lemma step_rd s ts y : w_step s ts -> Forall good_s ts -> conv_for_step s = Ok y -> rs y.
Proof.
  intros W G H. destruct W; cbn [conv_for_step] in H; winv G; binv H; injection H as <-; cbn [of_stm readable_obj readable_leaf].
  - eapply assignment_rd; eassumption.
  - eapply incdec_rd; eassumption.
  - eapply incdec_rd; eassumption.
  - rdx.
Qed.
Lemma steps_rd l ts r : w_steps_opt l ts -> Forall good_s ts -> mapM conv_for_step l = Ok r -> Forall rs r.
Proof.
  intros W G. apply mapM_all. destruct W as [|l ts W]; [constructor|]. induction W as [s ts W|s l ts ts' W Ws IH]; [constructor; [|constructor]; intros y; eapply step_rd; eassumption|].
  winv G. constructor; [intros y; eapply step_rd; eassumption|]. apply IH. assumption.
Qed.
Section Stm.
Context (same : bool).
Theorem stms_rd :
  (forall s ts, w_stm same s ts -> Forall good_s ts -> forall y, conv_stm s = Ok y -> rs y) /\
  (forall i ts, w_item same i ts -> Forall good_s ts -> forall y, conv_item conv_stm [] i = Ok y -> rs y) /\
  (forall l ts, w_stms same l ts -> Forall good_s ts -> forall r, mapM conv_stm l = Ok r -> Forall rs r) /\
  (forall l ts, w_citems same l ts -> Forall good_s ts -> forall r, mapM (conv_citem conv_stm) l = Ok r -> Forall (fun p => opt_all readable (fst p) = true /\ readable_obj (of_stm (snd p)) = true) (List.concat r)).
Proof.
  apply (w_mutind same (fun s ts _ => Forall good_s ts -> forall y, conv_stm s = Ok y -> rs y)
    (fun i ts _ => Forall good_s ts -> forall y, conv_item conv_stm [] i = Ok y -> rs y)
    (fun l ts _ => Forall good_s ts -> forall r, mapM conv_stm l = Ok r -> Forall rs r)
    (fun l ts _ => Forall good_s ts -> forall r, mapM (conv_citem conv_stm) l = Ok r -> Forall (fun p => opt_all readable (fst p) = true /\ readable_obj (of_stm (snd p)) = true) (List.concat r))).
  - intros _ y H. cbn [conv_stm] in H. apply no_attrs in H as ->. reflexivity.
  - intros i ts W IH G y H. cbn [conv_stm] in H. binv H. apply no_attrs in H as ->. exact (IH G _ Hx).
  - intros n i ts W IH G y H. cbn [conv_stm] in H. binv H. apply no_attrs in H as ->. winv G. apply set_label_rd; [assumption|]. exact (IH G _ Hx).
  - intros d o e Pd Pe G y H. cbn [conv_item] in H. binv H. injection H as <-. winv G. cbn [of_stm readable_obj readable_leaf]. eapply assignment_rd; eassumption.
  - intros d c e ts Pd Pe Wc G y H. cbn [conv_item] in H. repeat binv H. winv G. destruct (dectl_rd _ _ _ Wc W1 Hx1). eapply mk_assign_rd; [| | | | |exact H]; try assumption; [reflexivity|rdx|rdx].
  - intros d e Pd Pe G y H. cbn [conv_item] in H. repeat binv H. winv G. eapply mk_assign_rd; [| | | | |exact H]; try reflexivity; [rdx|rdx].
  - intros d c e ts Pd Pe Wc G y H. cbn [conv_item] in H. repeat binv H. winv G. destruct (dectl_rd _ _ _ Wc W1 Hx1). eapply mk_assign_rd; [| | | | |exact H]; try assumption; [reflexivity|rdx|rdx].
  - intros incr d Pd G y H. cbn [conv_item] in H. binv H. injection H as <-. winv G. cbn [of_stm readable_obj readable_leaf]. eapply incdec_rd; eassumption.
  - intros incr d Pd G y H. cbn [conv_item] in H. binv H. injection H as <-. winv G. cbn [of_stm readable_obj readable_leaf]. eapply incdec_rd; eassumption.
  - intros e Pe _ G y H. cbn [conv_item] in H. binv H. injection H as <-. winv G. cbn [of_stm readable_obj readable_leaf]. rdx.
  - intros e Pe G y H. cbn [conv_item] in H. binv H. injection H as <-. winv G. cbn [of_stm readable_obj readable_leaf]. apply mk2_readable; [reflexivity|rdx].
  - intros u k e l ts _ Pe N Wl IH G y H. cbn [conv_item] in H. repeat binv H. injection H as <-. winv G. destruct (split_rd _ (IH W2 _ Hx0) None _ Logic.I Hx1) as [A B]. cbn [of_stm readable_obj]. rewrite (par_rd e _ Pe W1 Hx), (branches_rd of_stm _ A).
    destruct (snd x1); [rewrite B|]; reflexivity.
  - intros u c t ts _ Pc Wt IH G y H. cbn [conv_item] in H. repeat binv H. injection Hx1 as <-. winv G. refine (collapse_rd _ _ _ H). cbn [of_stm readable_obj]. rewrite (par_rd c _ Pc W1 Hx), (IH G _ Hx0). reflexivity.
  - intros u c t f ts fs _ Pc Wt IH _ Wf IHf G y H. cbn [conv_item] in H. repeat binv H. binv Hx1. injection Hx1 as <-. winv G. refine (collapse_rd _ _ _ H). cbn [of_stm readable_obj]. rewrite (par_rd c _ Pc W1 Hx), (IH W2 _ Hx0), (IHf G _ Hx2). reflexivity.
  - intros b ts Wb IH G y H. cbn [conv_item] in H. binv H. injection H as <-. winv G. cbn [of_stm readable_obj]. rewrite (IH G _ Hx). reflexivity.
  - intros n b ts Pn Wb IH G y H. cbn [conv_item] in H. repeat binv H. injection H as <-. winv G. cbn [of_stm readable_obj]. rewrite (IH G _ Hx), (par_rd n _ Pn W0 Hx0). reflexivity.
  - intros c b ts Pc Wb IH G y H. cbn [conv_item] in H. repeat binv H. injection H as <-. winv G. cbn [of_stm readable_obj]. rewrite (IH G _ Hx), (par_rd c _ Pc W0 Hx0). reflexivity.
  - intros b c ts Wb IH Pc G y H. cbn [conv_item] in H. repeat binv H. injection H as <-. winv G. cbn [of_stm readable_obj]. rewrite (IH W0 _ Hx), (par_rd c _ Pc W2 Hx0). reflexivity.
  - intros i c st b is sts ts Wi Pc Ws Wb IH G y H. cbn [conv_item] in H. repeat binv H. injection H as <-. winv G. cbn [of_stm readable_obj].
    assert (A : forallb readable_obj (map of_stm x0) = true).
    { apply all_rd. destruct Wi as [|l ts' W9]; [injection Hx0 as <-; constructor|]. cbn [conv_for_init] in Hx0. refine (mapM_all _ _ _ _ _ Hx0). apply inits_rd in W9; [|assumption]. eapply Forall_impl; [|exact W9]. cbn beta. intros p K y Hy. apply (K y Hy). }
    assert (B : readable x1 = true) by (pose proof (opt_rd c Pc ltac:(assumption)) as K; destruct c; [exact (K _ Hx1)|injection Hx1 as <-; reflexivity]).
    assert (C : forallb readable_obj (map of_stm x2) = true) by (apply all_rd; eapply steps_rd; eassumption). rewrite A, B, C, (IH G _ Hx). reflexivity.
  - intros e Pe G y H. cbn [conv_item] in H. winv G. pose proof (opt_rd e Pe ltac:(assumption)) as K. destruct e as [e|]; [binv H|]; injection H as <-; cbn [of_stm readable_obj readable_leaf opt_all]; [rewrite (K _ Hx)|]; reflexivity.
  - intros _ y H. injection H as <-. reflexivity.
  - intros _ y H. injection H as <-. reflexivity.
  - intros j n m l ts _ Wl IH G y H. cbn [conv_item] in H. repeat binv H. injection H as <-. winv G. cbn [of_stm readable_obj app]. apply andb_true_intro. split; [|apply all_rd; exact (IH W1 _ Hx)].
    destruct n as [i|]; [|injection Hx0 as <-; reflexivity]. binv Hx0. injection Hx0 as <-. cbn [name_toks] in W0. winv W0. destruct (ident_good i _ W4 Hx1) as [_ T]. unfold readable_hdr. cbn [doc labels attrs forallb]. rewrite (sendable_plain _ T). reflexivity.
  - intros d b ds ts Wd Wb IH G y H. cbn [conv_item conv_timing] in H. binv H. binv H. binv Hx. injection Hx as <-. injection H as <-. winv G. pose proof (delay_rd _ _ _ Wd W Hx1) as A. specialize (IH G _ Hx0). cbn [of_stm readable_obj readable_hdr hdr_doc opt_all].
    assert (E : readable_obj (of_stm (match x0 with SBlock h j l => SBlock h j (SWait hdr0 [x1] :: l) | _ => SBlock hdr0 SEQ [SWait hdr0 [x1]; x0] end)) = true).
    { assert (B : readable_obj (of_stm (SBlock hdr0 SEQ [SWait hdr0 [x1]; x0])) = true) by (cbn [of_stm map readable_obj forallb readable_leaf]; rewrite A, IH; reflexivity).
      destruct x0; try exact B. cbn [of_stm readable_obj map forallb readable_leaf] in *. rewrite A. exact IH. }
    rewrite E. reflexivity.
  - intros c b cs ts Wc Wb IH G y H. cbn [conv_item conv_timing] in H. binv H. binv H. binv Hx. injection Hx as <-. injection H as <-. winv G. cbn [of_stm readable_obj opt_all]. rewrite (evctl_rd _ _ _ Wc W Hx1), (IH G _ Hx0). reflexivity.
  - intros _ r H. injection H as <-. constructor.
  - intros s l ts ts' Ws IHs Wl IHl G r H. winv G. change (bind (conv_stm s) (fun y => bind (mapM conv_stm l) (fun r => Ok (y :: r))) = Ok r) in H. repeat binv H. injection H as <-. constructor; [exact (IHs W _ Hx)|exact (IHl G _ Hx0)].
  - intros _ r H. injection H as <-. constructor.
  - intros es s l ts ts' N P Ws IHs Wl IHl G r H. winv G. change (bind (conv_citem conv_stm (es, s)) (fun y => bind (mapM (conv_citem conv_stm) l) (fun r => Ok (y :: r))) = Ok r) in H. repeat binv H. injection H as <-. cbn [List.concat]. apply Forall_app. split; [|exact (IHl G _ Hx0)].
    pose proof (labels_good es P W) as F. destruct es as [|e es]; [congruence|]. unfold conv_citem in Hx. cbn [fst snd] in Hx. refine (mapM_all _ _ _ _ _ Hx). eapply Forall_impl; [|exact F]. cbn beta. intros e' [Pe Ge] y E. repeat binv E. injection E as <-. cbn [fst snd].
    pose proof (xs_rd e' _ Pe Ge Hx1) as R. rewrite (nn _ _ _ R). split; [exact R|exact (IHs W1 _ Hx2)].
  - intros s l colon ts ts' _ Ws IHs Wl IHl G r H. winv G. change (bind (conv_citem conv_stm ([], s)) (fun y => bind (mapM (conv_citem conv_stm) l) (fun r => Ok (y :: r))) = Ok r) in H. repeat binv H. injection H as <-. cbn [List.concat]. apply Forall_app. split; [|exact (IHl G _ Hx0)].
    unfold conv_citem in Hx. cbn [fst snd] in Hx. binv Hx. injection Hx as <-. constructor; [|constructor]. split; [reflexivity|exact (IHs W1 _ Hx1)].
Qed.
Lemma stm_rd s ts y : w_stm same s ts -> Forall good_s ts -> conv_stm s = Ok y -> rs y.
Proof. intros W G. exact (proj1 stms_rd s ts W G y). Qed.
Lemma always_rd k s ts y : w_stm same s ts -> Forall good_s ts -> conv_always k [] s = Ok y -> rs y.
Proof.
  intros W G H. unfold conv_always in H. binv H. pose proof (stm_rd s ts x W G Hx) as R.
  destruct k; injection H as <-; [exact R| | |]; destruct x; try (cbn [of_stm readable_obj opt_all] in *; exact R).
Qed.
Lemma initial_rd s ts y : w_stm same s ts -> Forall good_s ts -> conv_initial s = Ok y -> rs y.
Proof.
  intros W G H. unfold conv_initial in H. binv H. injection H as <-. pose proof (stm_rd s ts x W G Hx) as R. cbn [of_stm readable_obj opt_all].
  assert (E : readable_obj (of_stm (match x with SBlock h j l => SBlock h j (l ++ [SWait hdr0 []]) | _ => SBlock hdr0 SEQ [x; SWait hdr0 []] end)) = true); [|rewrite E; reflexivity].
  assert (B : readable_obj (of_stm (SBlock hdr0 SEQ [x; SWait hdr0 []])) = true) by (cbn [of_stm map readable_obj forallb readable_leaf]; rewrite R; reflexivity).
  destruct x; try exact B. cbn [of_stm readable_obj] in *. rewrite map_app, forallb_app. apply andb_prop in R as [-> ->]. reflexivity.
Qed.
End Stm.
