(** The shape of converted if chains, cases, delays and events. *)
From Verif Require Import Base BaseFacts AstModel StmModel LitModel SvExprModel SvStmModel SvShapeSpec.

Lemma join_cons d l : join_docs (d :: l) = match join_docs l with [] => d | _ => match d with [] => join_docs l | _ => d ++ [nl] ++ join_docs l end end.
Proof.
  unfold join_docs. cbn [filter]. assert (forall x, In x (filter nonempty l) -> x <> []) as Hn by (intros x Hx; apply filter_In in Hx as (_ & Hx); intros ->; discriminate).
  destruct d as [|c d]; cbn [nonempty].
  - destruct (filter nonempty l) as [|x l']; [reflexivity|]. destruct (x ++ _) eqn:E; [|reflexivity]. apply app_eq_nil in E as (E & _). exfalso. apply (Hn x); [left; reflexivity|exact E].
  - destruct (filter nonempty l) as [|x l']; [cbn; rewrite app_nil_r; reflexivity|]. cbn [map concat]. destruct (x ++ concat (map (fun x0 => nl :: x0) l')) eqn:E.
    + apply app_eq_nil in E as (E & _). exfalso. apply (Hn x); [left; reflexivity|exact E].
    + change ((nl :: x) ++ concat (map (fun x0 => nl :: x0) l')) with (nl :: (x ++ concat (map (fun x0 : list ascii => nl :: x0) l'))). rewrite E. reflexivity.
Qed.
Definition else_ok (e : option vstm) (o : option stm) : Prop :=
  match e, o with None, None => True | Some e, Some o => conv_stm e = Ok o /\ (forall h c t l f, o <> SIf h c t l f) | _, _ => False end.
Lemma chain_flat rest : forall c s d e x o qs oe, conv c = Ok x -> conv_stm s = Ok o ->
  Forall2 (fun (p : link) (q : expr * stm) => conv (fst (fst p)) = Ok (fst q) /\ conv_stm (snd (fst p)) = Ok (snd q)) rest qs ->
  else_ok e oe -> conv_stm (chain c s d rest e) = Ok (SIf (mk_hdr [] (join_docs (d :: map snd rest)) [] false) x o qs oe).
Proof.
  induction rest as [|((c', s'), d') rest IH]; intros c s d e x o qs oe Hc Hs HF He.
  - inversion HF; subst. cbn [chain conv_stm conv_item]. rewrite Hc. cbn [bind]. rewrite Hs. cbn [bind]. cbn [map]. rewrite (join_cons d []). change (join_docs []) with (@nil ascii). cbn match.
    destruct e as [e|], oe as [oe|]; cbn [else_ok] in He; try contradiction.
    + destruct He as (He & Hn). rewrite He. cbn [bind]. destruct oe; try reflexivity. exfalso. exact (Hn _ _ _ _ _ eq_refl).
    + reflexivity.
  - inversion HF as [|? (x', o') ? qs' (Hc' & Hs') HF']; subst. cbn [fst snd] in Hc', Hs'.
    pose proof (IH c' s' d' e x' o' qs' oe Hc' Hs' HF' He) as Hi. cbn [chain]. cbn [conv_stm conv_item]. rewrite Hc. cbn [bind]. rewrite Hs. cbn [bind].
    fold (chain c' s' d' rest e). rewrite Hi. cbn [bind collapse_elifs in_preproc hdr_doc Bool.eqb labels attrs StmModel.doc app add_attrs mapM set_hdr map snd].
    rewrite (join_cons d (d' :: map snd rest)). reflexivity.
Qed.

Lemma split_two l d : (2 <= length (filter (fun p : option expr * stm => match fst p with None => true | _ => false end) l) + match d with Some _ => 1 | None => 0 end) ->
  split_cases l d = Throw (RuntimeError $"VerStatementParser.visitCase_statement case with multiple default").
Proof.
  revert d. induction l as [|([e|], s) l IH]; intros d H; cbn [filter fst length] in H; cbn [split_cases].
  - destruct d; lia.
  - rewrite IH; [reflexivity|exact H].
  - destruct d; [reflexivity|]. apply IH. lia.
Qed.
Definition is_none (p : option expr * stm) : bool := match fst p with None => true | _ => false end.
Lemma defaults_kept l : forall cs, mapM (conv_citem conv_stm) l = Ok cs -> ndefaults l <= length (filter is_none (concat cs)).
Proof.
  induction l as [|(ls, s) l IH]; intros cs E; cbn [mapM] in E; [injection E as <-; apply le_n|].
  destruct (conv_citem conv_stm (ls, s)) as [c| | |] eqn:Ec; cbn [bind] in E; try discriminate. destruct (mapM (conv_citem conv_stm) l) as [cs'| | |] eqn:El; cbn [bind] in E; try discriminate.
  injection E as <-. specialize (IH cs' eq_refl). cbn [concat]. rewrite filter_app, app_length. unfold ndefaults in *. cbn [filter]. unfold is_dflt at 1. cbn [fst]. destruct ls as [|e ls]; [|lia].
  unfold conv_citem in Ec. cbn [fst snd] in Ec. destruct (conv_stm s); cbn [bind] in Ec; try discriminate. injection Ec as <-. cbn. unfold ndefaults in IH. lia.
Qed.
Lemma two_defaults lb at_ d u k sel l x cs : conv sel = Ok x -> mapM (conv_citem conv_stm) l = Ok cs -> 2 <= ndefaults l ->
  conv_stm (TStm lb at_ d (I_case u k sel l)) = Throw (RuntimeError $"VerStatementParser.visitCase_statement case with multiple default").
Proof.
  intros Hx Hc H. cbn [conv_stm conv_item]. rewrite Hx. cbn [bind]. rewrite Hc. cbn [bind]. rewrite split_two; [reflexivity|].
  pose proof (defaults_kept l cs Hc). unfold is_none in *. lia.
Qed.

Lemma mapM_app {A B} (f : A -> outcome B) l l' r r' : mapM f l = Ok r -> mapM f l' = Ok r' -> mapM f (l ++ l') = Ok (r ++ r').
Proof.
  revert r. induction l as [|x l IH]; intros r H H'; cbn [mapM app] in *; [injection H as <-; exact H'|].
  destruct (f x); cbn [bind] in *; try discriminate. destruct (mapM f l); cbn [bind] in *; try discriminate. injection H as <-. rewrite (IH _ eq_refl H'). reflexivity.
Qed.
Lemma mapM_app_inv {A B} (f : A -> outcome B) l l' r : mapM f (l ++ l') = Ok r -> exists a b, mapM f l = Ok a /\ mapM f l' = Ok b /\ r = a ++ b.
Proof.
  revert r. induction l as [|x l IH]; intros r H; cbn [mapM app] in *; [exists [], r; auto|].
  destruct (f x); cbn [bind] in *; try discriminate. destruct (mapM f (l ++ l')) eqn:E; cbn [bind] in *; try discriminate. injection H as <-.
  destruct (IH _ eq_refl) as (a1 & b & -> & Hb & ->). cbn [bind]. exists (a :: a1), b. auto.
Qed.
Definition one_event (p : option edge * vexpr) : outcome expr := a <- conv (snd p) ;; Ok (conv_edge (fst p) a).
Fixpoint ev_size (e : evexpr) : nat := match e with EvList l => S (fold_right (fun e n => ev_size e + n) 0 l) | EvItem _ _ _ => 1 end.
Lemma flat_event : forall n e r, ev_size e <= n -> mapM one_event (leaves e) = Ok r -> conv_event e = Ok r.
Proof.
  induction n as [|n IH]; intros e r Hn H.
  - exfalso. destruct e; cbn in Hn; lia.
  - destruct e as [l|ed x iff].
    + cbn [leaves conv_event] in *. assert (exists rs, mapM conv_event l = Ok rs /\ concat rs = r) as (rs & -> & <-); [|reflexivity].
      cbn [ev_size] in Hn. apply le_S_n in Hn. revert r H. induction l as [|e l IHl]; intros r H; [injection H as <-; exists []; split; reflexivity|].
      cbn [flat_map] in H. apply mapM_app_inv in H as (a & b & Ha & Hb & ->). cbn [fold_right] in Hn. destruct (IHl ltac:(lia) b Hb) as (rs & Hrs & <-).
      exists (a :: rs). cbn [mapM]. rewrite (IH e a ltac:(lia) Ha). cbn [bind]. rewrite Hrs. split; reflexivity.
    + cbn [leaves mapM conv_event] in *. unfold one_event in H. cbn [fst snd] in H. destruct (conv x); cbn [bind] in *; try discriminate. injection H as <-. reflexivity.
Qed.
Lemma flat_events l r : mapM one_event (flat_map leaves l) = Ok r -> conv_evctl (EC_expr l) = Ok r.
Proof. intros H. exact (flat_event _ (EvList l) r (le_n _) H). Qed.
