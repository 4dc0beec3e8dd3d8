From Verif Require Import Base BaseFacts AstModel StmModel LitModel SvExprModel SvExprSpec SvExprProofs SvTypeModel SvDeclModel SvInstProofs SvDeclProofs VhdlExprModel VhdlExprSpec VhdlExprProofs VhdlStmModel VhdlStmSpec VhdlStmProofs VhdlDeclModel VhdlDeclSpec VhdlDeclProofs VhdlDecl2Proofs.

(** ** Induction over concurrent statements *)
Section Ind.
Context (P : cstm -> Prop).
Definition g_all (b : gbody cstm) : Prop := match b with GB _ _ ss => Forall P ss end.
Definition o_all (e : option (option str * gbody cstm)) : Prop := match e with Some p => g_all (snd p) | None => True end.
Definition c_kids (s : cstm) : Prop :=
  match s with
  | CS_block _ _ _ _ _ ss _ => Forall P ss
  | CS_for _ _ _ b _ => g_all b
  | CS_if _ _ _ b l e _ => g_all b /\ Forall (fun p => g_all (snd p)) l /\ o_all e
  | CS_case _ _ l _ => Forall (fun p => g_all (snd p)) l
  | _ => True
  end.
Context (H : forall s, c_kids s -> P s).
Fixpoint cstm_ind' (s : cstm) : P s :=
  let g (b : gbody cstm) : g_all b := match b with GB _ _ ss => Forall_fix P cstm_ind' ss end in
  H s (match s return c_kids s with
       | CS_block _ _ _ _ _ ss _ => Forall_fix P cstm_ind' ss
       | CS_for _ _ _ b _ => g b
       | CS_if _ _ _ b l e _ =>
           conj (g b) (conj (Forall_fix (fun p => g_all (snd p)) (fun p => match p return g_all (snd p) with (_, b) => g b end) l)
             (match e return o_all e with Some (_, b) => g b | None => I end))
       | CS_case _ _ l _ => Forall_fix (fun p => g_all (snd p)) (fun p => match p return g_all (snd p) with (_, b) => g b end) l
       | CS_inst _ _ _ _ => I
       | CS_simple _ _ _ => I
       end).
End Ind.

(** ** Elaboration *)
Definition conv_leaf (ho : bool) (l : leaf) : outcome (list hobj) := match l with Lf_decl d => conv_decl ho d | Lf_stm s => conv_cstm ho s end.
Definition atomic (o : hobj) : bool := match o with O_block _ _ | O_for _ _ _ _ | O_if _ _ _ _ _ | O_case _ _ _ _ => false | _ => true end.
Lemma mapM_len {X Y} (f : X -> outcome Y) l r : mapM f l = Ok r -> length r = length l.
Proof. intros H. apply mapM_ok_in in H. induction H; cbn; auto. Qed.
Lemma atomic_id l (f : iddef -> iddef) : forallb atomic (map (fun d => O_id (f d)) l) = true.
Proof. induction l; auto. Qed.
Lemma decl_atomic ho d r : conv_decl ho d = Ok r -> forallb atomic r = true.
Proof.
  destruct d as [ns t v|ns t k v|sh ns t v|n [t|]|n t|d t n s|s|s ds ss|n g ds|n ds|c|l|]; cbn [conv_decl]; intros H.
  - binv H. injection H as <-. apply (atomic_id x set_const).
  - binv H. injection H as <-. apply (atomic_id x (fun d => d)).
  - binv H. injection H as <-. apply (atomic_id x (fun d => set_shared sh (set_latched d))).
  - binv H. injection H as <-. reflexivity.
  - injection H as <-. reflexivity.
  - binv H. injection H as <-. reflexivity.
  - binv H. binv H. injection H as <-. reflexivity.
  - binv H. injection H as <-. destruct s; cbn [conv_subprog] in Hx; repeat binv Hx; injection Hx as <-; reflexivity.
  - binv H. binv H. binv H. binv H. injection H as <-. destruct s; cbn [conv_subprog] in Hx2; repeat binv Hx2; injection Hx2 as <-; reflexivity.
  - binv H. injection H as <-. reflexivity.
  - binv H. injection H as <-. reflexivity.
  - binv H. injection H as <-. unfold conv_component in Hx. repeat binv Hx. injection Hx as <-. reflexivity.
  - revert r H. induction l as [|n l IH]; intros r H; [injection H as <-; reflexivity|].
    change (mapM conv_use (n :: l)) with (x <- conv_use n ;; y <- mapM conv_use l ;; Ok (x :: y)) in H. binv H. binv H. injection H as <-.
    unfold conv_use in Hx. binv Hx. injection Hx as <-. cbn [forallb atomic andb]. apply IH. exact Hx0.
  - injection H as <-. reflexivity.
Qed.
Lemma decls_atomic ho l r : conv_decls ho l = Ok r -> forallb atomic r = true.
Proof.
  revert r. induction l as [|d l IH]; intros r H; [injection H as <-; reflexivity|]. apply concatM_inv in H as (a & b & Ha & Hb & ->).
  rewrite forallb_app, (decl_atomic _ _ _ Ha). apply IH. exact Hb.
Qed.
Section Elab.
Context (A : halgebra) (N : Type) (test : env N -> HV A -> bool) (range : env N -> HV A -> list N) (matches : env N -> HV A -> HV A -> bool) (ho : bool).
Notation hv := (hvmeaning A). Notation hm := (hmeaning A).
Notation s_el := (s_elab A N test range matches). Notation a_el := (a_elab A N test range matches).
Notation a_els := (a_elabs A N test range matches). Notation s_els := (s_elabs A N test range matches).
Definition conv_item (it : item N leaf) : outcome (list (item N hobj)) := o <- conv_leaf ho (snd it) ;; Ok (map (fun x => (fst it, x)) o).
Definition conv_items (l : list (item N leaf)) : outcome (list (item N hobj)) := concatM conv_item l.
Lemma a_els_app p e l l' r r' : a_els p e l = Some r -> a_els p e l' = Some r' -> a_els p e (l ++ l') = Some (r ++ r').
Proof.
  unfold a_elabs. intros H K. oinv H. oinv K. injection H as <-. injection K as <-. rewrite (homapM_app _ _ _ _ _ Hv Hv0). cbn [obind]. rewrite List.concat_app. reflexivity.
Qed.
Lemma a_els_1 p e o r : a_el o p e = Some r -> a_els p e [o] = Some r.
Proof. intros H. unfold a_elabs. cbn. rewrite H. cbn. rewrite app_nil_r. reflexivity. Qed.
Lemma a_els_1' p e o : a_els p e [o] = a_el o p e.
Proof. unfold a_elabs. cbn. destruct (a_el o p e); [|reflexivity]. cbn. rewrite app_nil_r. reflexivity. Qed.
Lemma atomic_el p e l : forallb atomic l = true -> a_els p e l = Some (map (fun x => (p, e, x)) l).
Proof.
  induction l as [|o l IH]; intros H; [reflexivity|]. cbn [forallb] in H. apply andb_prop in H as (Ho & H). change (o :: l) with ([o] ++ l). rewrite map_app.
  apply a_els_app; [|apply IH; exact H]. apply a_els_1. destruct o; try discriminate; reflexivity.
Qed.
Lemma decls_items p e ds r : conv_decls ho ds = Ok r -> conv_items (map (fun d => (p, e, Lf_decl d)) ds) = Ok (map (fun x => (p, e, x)) r).
Proof.
  unfold conv_decls, conv_items. revert r. induction ds as [|d ds IH]; intros r H; [injection H as <-; reflexivity|]. apply concatM_inv in H as (a & b & Ha & Hb & ->).
  cbn [map]. rewrite map_app. apply concatM_cons; [|apply IH; exact Hb]. unfold conv_item. cbn [snd fst conv_leaf]. rewrite Ha. reflexivity.
Qed.
Definition elab_ok (s : cstm) : Prop := forall p e r items, conv_cstm ho s = Ok r -> s_el s p e = Some items -> exists os, conv_items items = Ok os /\ a_els p e r = Some os.
Lemma stms_items p e ss : Forall elab_ok ss -> forall r its, concatM (conv_cstm ho) ss = Ok r -> omapM (fun s => s_el s p e) ss = Some its ->
  exists os, conv_items (List.concat its) = Ok os /\ a_els p e r = Some os.
Proof.
  intros F. induction F as [|s ss Hs F IH]; intros r its H K; [injection H as <-; injection K as <-; exists []; split; reflexivity|].
  apply concatM_inv in H as (a & b & Ha & Hb & ->). change (omapM (fun s => s_el s p e) (s :: ss)) with (y <~ s_el s p e ;; r <~ omapM (fun s => s_el s p e) ss ;; Some (y :: r)) in K.
  oinv K. oinv K. injection K as <-. destruct (Hs p e a v Ha Hv) as (o1 & H1 & E1). destruct (IH b v0 Hb Hv0) as (o2 & H2 & E2).
  exists (o1 ++ o2). split; [apply concatM_app; assumption|apply a_els_app; assumption].
Qed.
Lemma block_items p e ds ss r s its : Forall elab_ok ss -> conv_decls ho ds = Ok r -> concatM (conv_cstm ho) ss = Ok s -> s_body N p e (fun s => s_el s p e) (GB true ds ss) = Some its ->
  exists os, conv_items its = Ok os /\ a_els p e (r ++ s) = Some os.
Proof.
  intros F Hr Hs H. cbn [s_body] in H. oinv H. injection H as <-. destruct (stms_items p e ss F s v Hs Hv) as (o & Ho & Eo).
  exists (map (fun x => (p, e, x)) r ++ o). split; [apply concatM_app; [apply decls_items; exact Hr|exact Ho]|].
  apply a_els_app; [|exact Eo]. apply atomic_el, (decls_atomic ho ds), Hr.
Qed.
Lemma block_el h l p e : a_el (O_block h l) p e = a_els (p ++ scope N h None) e l.
Proof. reflexivity. Qed.
Lemma body_items p e b o its : g_all elab_ok b -> conv_gbody ho (conv_cstm ho) b = Ok o -> s_body N p e (fun s => s_el s p e) b = Some its ->
  exists os, conv_items its = Ok os /\ a_el o p e = Some os.
Proof.
  destruct b as [bg ds ss]. intros F H K. cbn [conv_gbody] in H. binv H. binv H.
  destruct (block_items p e ds ss x x0 its F Hx Hx0 K) as (os & Hos & Eos). exists os. split; [exact Hos|]. injection H as <-.
  assert (a_el (O_block (gen_hdr []) (x ++ x0)) p e = Some os) as Hb by (rewrite block_el; cbn [scope labels gen_hdr]; rewrite app_nil_r; exact Eos).
  destruct ds; [|exact Hb]. destruct bg; [exact Hb|]. destruct (x ++ x0) as [|y [|z l]]; try exact Hb. rewrite a_els_1' in Eos. exact Eos.
Qed.
Lemma is_others_not x v : hm x = Some v -> is_others x = false.
Proof. destruct x as [| | | | |[]| | |]; intros H; try reflexivity; discriminate. Qed.
(** The alternatives of a case. *)
Definition a_pick (e : env N) (w : HV A) (f : hobj -> option (list (item N hobj))) (d : option (list (item N hobj))) : list (expr * hobj) -> option (list (item N hobj)) :=
  fix go l := match l with
  | [] => d
  | (c, o) :: l' => t <~ (if is_others c then Some true else x <~ hm c ;; Some (matches e w x)) ;; if t then f o else go l'
  end.
Lemma pick_alt e w f d o cs : forall xs t rest, mapM (conv_choice hconv) cs = Ok xs -> s_choose A N matches e w cs = Some t ->
  a_pick e w f d (map (fun c => (c, o)) xs ++ rest) = if t then f o else a_pick e w f d rest.
Proof.
  induction cs as [|c cs IH]; intros xs t rest H K.
  - injection H as <-. injection K as <-. reflexivity.
  - change (mapM (conv_choice hconv) (c :: cs)) with (y <- conv_choice hconv c ;; r <- mapM (conv_choice hconv) cs ;; Ok (y :: r)) in H. binv H. binv H. injection H as <-.
    destruct c as [|r]; cbn [s_choose conv_choice] in K, Hx.
    + injection K as <-. injection Hx as <-. reflexivity.
    + oinv K. destruct (range_ok A _ _ Hv) as (a & Ha & Ma). rewrite Ha in Hx. injection Hx as <-. cbn [map app a_pick]. rewrite (is_others_not _ _ Ma), Ma. cbn [obind].
      destruct (matches e w v); [injection K as <-; reflexivity|]. apply IH; assumption.
Qed.
Theorem elab_sim s : elab_ok s.
Proof.
  induction s as [s K] using cstm_ind'. intros p e r items H E. destruct s as [l gd ge po ds ss en|l u gm pm|l i rg b en|l a c b elifs el en|l sel alts en|l po s]; cbn [c_kids] in K.
  - cbn [conv_cstm s_elab] in H, E. binv H. binv H. injection H as <-.
    destruct (block_items (p ++ [(l, None)]) e ds ss x x0 items K Hx Hx0 E) as (os & Ho & Eo). exists os. split; [exact Ho|].
    rewrite a_els_1'. cbn [label_obj]. rewrite block_el. exact Eo.
  - cbn [s_elab] in E. injection E as <-. exists (map (fun x => (p, e, x)) r). split.
    + apply concatM_1. unfold conv_item. cbn [snd fst conv_leaf]. rewrite H. reflexivity.
    + apply atomic_el. cbn [conv_cstm] in H. binv H. injection H as <-. unfold conv_vinst in Hx. repeat binv Hx. injection Hx as <-. reflexivity.
  - cbn [conv_cstm s_elab] in H, E. binv H. binv H. injection H as <-. oinv E. oinv E. injection E as <-. destruct (range_ok A _ _ Hv) as (y & Hy & My). rewrite Hy in Hx. injection Hx as <-.
    assert (forall ns its, omapM (fun n => s_body N (p ++ [(l, Some n)]) ((i, n) :: e) (fun s => s_el s (p ++ [(l, Some n)]) ((i, n) :: e)) b) ns = Some its ->
      exists os, conv_items (List.concat its) = Ok (List.concat os) /\ omapM (fun n => a_el x0 (p ++ [(l, Some n)]) ((i, n) :: e)) ns = Some os) as Q.
    { intros ns. induction ns as [|n ns IH]; intros its Q; [injection Q as <-; exists []; split; reflexivity|].
      change (omapM (fun n => s_body N (p ++ [(l, Some n)]) ((i, n) :: e) (fun s => s_el s (p ++ [(l, Some n)]) ((i, n) :: e)) b) (n :: ns)) with
        (q <~ s_body N (p ++ [(l, Some n)]) ((i, n) :: e) (fun s => s_el s (p ++ [(l, Some n)]) ((i, n) :: e)) b ;;
         r <~ omapM (fun n => s_body N (p ++ [(l, Some n)]) ((i, n) :: e) (fun s => s_el s (p ++ [(l, Some n)]) ((i, n) :: e)) b) ns ;; Some (q :: r)) in Q.
      oinv Q. oinv Q. injection Q as <-. destruct (IH _ Hv2) as (os & Ho & Eo). destruct (body_items _ _ _ _ _ K Hx0 Hv1) as (o1 & H1 & E1).
      exists (o1 :: os). split; [cbn [List.concat]; apply concatM_app; assumption|].
      change (omapM (fun n => a_el x0 (p ++ [(l, Some n)]) ((i, n) :: e)) (n :: ns)) with (q <~ a_el x0 (p ++ [(l, Some n)]) ((i, n) :: e) ;; r <~ omapM (fun n => a_el x0 (p ++ [(l, Some n)]) ((i, n) :: e)) ns ;; Some (q :: r)).
      rewrite E1. cbn [obind]. rewrite Eo. reflexivity. }
    destruct (Q _ _ Hv0) as (os & Ho & Eo). exists (List.concat os). split; [exact Ho|]. rewrite a_els_1'.
    cbn [label_obj a_elab]. rewrite My. cbn [obind]. change (scope N (push_label l (gen_hdr (opt_list en)))) with (fun n : option N => [(l, n)]). cbn beta. rewrite Eo. reflexivity.
  - destruct K as (Kb & Ke & Kl). cbn [conv_cstm s_elab] in H, E. binv H. binv H. binv H. binv H. injection H as <-. oinv E.
    destruct (hv_ok A _ _ Hv) as (y & Hy & My). rewrite Hy in Hx. injection Hx as <-.
    set (q := p ++ [(l, None)]) in *.
    enough (exists os, conv_items items = Ok os /\ (if test e v then a_el x0 q e else (fix go es := match es with
            | [] => match x2 with Some o => a_el o q e | None => Some [] end
            | (c, o) :: es' => v <~ hm c ;; if test e v then a_el o q e else go es'
            end) x1) = Some os) as (os & Ho & Eo).
    { exists os. split; [exact Ho|]. rewrite a_els_1'. cbn [label_obj a_elab]. rewrite My. cbn [obind]. exact Eo. }
    destruct (test e v); [destruct a; [discriminate|]; exact (body_items _ _ _ _ _ Kb Hx0 E)|]. clear Hv My Hy. revert x1 Hx1 E. induction Ke as [|[[lb c'] b'] es Kes Ke IH]; intros x1 Hx1 E.
    + injection Hx1 as <-. destruct el as [[lb b']|].
      * binv Hx2. injection Hx2 as <-. destruct lb; [discriminate|]. exact (body_items _ _ _ _ _ Kl Hx E).
      * injection Hx2 as <-. injection E as <-. exists []. split; reflexivity.
    + change (bind (bind (hconv c') (fun y => bind (conv_gbody ho (conv_cstm ho) b') (fun o => Ok (y, o)))) (fun y => r <- mapM (fun p : option str * hexpr * gbody cstm => y <- hconv (snd (fst p)) ;; o <- conv_gbody ho (conv_cstm ho) (snd p) ;; Ok (y, o)) es ;; Ok (y :: r)) = Ok x1) in Hx1.
      binv Hx1. binv Hx1. injection Hx1 as <-. binv Hx. binv Hx. injection Hx as <-. oinv E. destruct (hv_ok A _ _ Hv) as (z & Hz & Mz). rewrite Hz in Hx1. injection Hx1 as <-.
      rewrite Mz. cbn [obind]. destruct (test e v0); [destruct lb; [discriminate|]; exact (body_items _ _ _ _ _ Kes Hx4 E)|]. apply IH; assumption.
  - cbn [conv_cstm s_elab] in H, E. binv H. binv H. injection H as <-. oinv E. destruct (hv_ok A _ _ Hv) as (y & Hy & My). rewrite Hy in Hx. injection Hx as <-.
    set (q := p ++ [(l, None)]) in *.
    enough (exists os, conv_items items = Ok os /\ a_pick e v (fun o => a_el o q e) (Some []) x0 = Some os) as (os & Ho & Eo).
    { exists os. split; [exact Ho|]. rewrite a_els_1'. cbn [label_obj a_elab]. rewrite My. cbn [obind]. exact Eo. }
    revert x0 Hx0 E. induction K as [|[[lb cs] b] alts Kb K IH]; intros x0 Hx0 E.
    + injection Hx0 as <-. injection E as <-. exists []. split; reflexivity.
    + apply concatM_inv in Hx0 as (a1 & a2 & H1 & H2 & ->). unfold conv_galt in H1. cbn [fst snd] in H1. binv H1. oinv E. cbn [snd] in Kb.
      destruct x as [|x0 xs].
      { assert (cs = []) as -> by (apply mapM_ok_in in Hx; inversion Hx; reflexivity). injection H1 as <-. injection Hv0 as <-. apply IH; assumption. }
      change (mapM (fun c => b <- conv_gbody ho (conv_cstm ho) b ;; Ok (c, b)) (x0 :: xs)) with (z <- (b <- conv_gbody ho (conv_cstm ho) b ;; Ok (x0, b)) ;; r <- mapM (fun c => b <- conv_gbody ho (conv_cstm ho) b ;; Ok (c, b)) xs ;; Ok (z :: r)) in H1.
      destruct (conv_gbody ho (conv_cstm ho) b) as [o| | |] eqn:Eb; try discriminate.
      assert (a1 = map (fun c => (c, o)) (x0 :: xs)) as ->.
      { rewrite (mapM_pure _ (fun c => (c, o))) in H1 by reflexivity. injection H1 as <-. reflexivity. }
      rewrite (pick_alt e v _ _ o cs (x0 :: xs) v0 a2 Hx Hv0). destruct v0; [destruct lb; [discriminate|]; exact (body_items _ _ _ _ _ Kb Eb E)|]. apply IH; assumption.
  - cbn [s_elab] in E. injection E as <-. exists (map (fun x => (p, e, x)) r). split.
    + apply concatM_1. unfold conv_item. cbn [snd fst conv_leaf]. rewrite H. reflexivity.
    + apply atomic_el. cbn [conv_cstm] in H. binv H. injection H as <-.
      assert (atomic x = true) as Hat by (destruct s; cbn [conv_csimple] in Hx; repeat binv Hx; injection Hx as <-; reflexivity).
      destruct l; cbn [forallb]; [|rewrite Hat; reflexivity]. destruct x; try discriminate; reflexivity.
Qed.
Theorem elabs_sim p e l r items : concatM (conv_cstm ho) l = Ok r -> s_els p e l = Some items -> exists os, conv_items items = Ok os /\ a_els p e r = Some os.
Proof.
  unfold s_elabs. intros H E. oinv E. injection E as <-. apply (stms_items p e l); [|exact H|exact Hv]. apply Forall_forall. intros. apply elab_sim.
Qed.
End Elab.
