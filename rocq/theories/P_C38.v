(** C38: VHDL waveform delays, assertions and wait clauses. *)
From Verif Require Import Base AstModel StmModel LitModel SvExprModel SvExprSpec VhdlExprModel VhdlExprSpec VhdlExprProofs SvStmDemo VhdlStmModel VhdlStmSpec VhdlStmProofs VhdlStmDemo.

Definition made (o : option hexpr) (x : option expr) : Prop := match o, x with Some e, Some a => hconv e = Ok a | None, None => True | _, _ => False end.
(** Waits with equal AST have equal clauses, if a time without until has a unit. *)
Theorem C38_wait_partial on u t on' u' t' o xs y z xs' y' z' : forallb is_name on = true -> forallb is_name on' = true ->
  mapM hconv on = Ok xs -> mapM hconv on' = Ok xs' -> made u y -> made u' y' -> made t z -> made t' z' ->
  match u, t with None, Some t => has_unit t = true | _, _ => True end -> match u', t' with None, Some t => has_unit t = true | _, _ => True end ->
  conv_hstm (hst (J_wait on u t)) = Ok o -> conv_hstm (hst (J_wait on' u' t')) = Ok o -> xs = xs' /\ y = y' /\ z = z'.
Proof.
  intros Hn Hn' Hx Hx' Hy Hy' Hz Hz' Hu Hu' E E'. cbn [hst conv_hstm conv_hitem] in E, E'. rewrite Hx in E. rewrite Hx' in E'. cbn [bind] in E, E'.
  assert (forall u t y z, made u y -> made t z -> match u, t with None, Some t => has_unit t = true | _, _ => True end ->
    (c <- match u with Some e => x <- hconv e ;; Ok [op1 NEG x] | None => Ok [] end ;; t <- opt_conv t ;; Ok (c, t)) = Ok (match y with Some a => [op1 NEG a] | None => [] end, match z with Some a => [a] | None => [] end)
    /\ match y, z with None, Some a => is_time a = true | _, _ => True end) as G.
  { clear. intros u t y z Hy Hz Hu. destruct u as [u|], y as [y|]; try contradiction; destruct t as [t|], z as [z|]; try contradiction; cbn [made opt_conv] in *; try rewrite Hy; cbn [bind]; try rewrite Hz; cbn [bind]; try (split; [reflexivity|exact I]).
    split; [reflexivity|]. destruct t as [| | | | | | |b x un| | | | | | | | | | | | | |]; try discriminate. destruct un; [|discriminate]. cbn [hconv] in Hz. destruct (hconv h); try discriminate. cbn [bind] in Hz.
    destruct (if b then visit_based_literal x else visit_decimal x); try discriminate. cbn [bind] in Hz. injection Hz as <-. reflexivity. }
  destruct (G u t y z Hy Hz Hu) as (G1 & G2). destruct (G u' t' y' z' Hy' Hz' Hu') as (G1' & G2'). clear G.
  set (c := match u with Some e => x <- hconv e ;; Ok [op1 NEG x] | None => Ok [] end) in *. set (c' := match u' with Some e => x <- hconv e ;; Ok [op1 NEG x] | None => Ok [] end) in *.
  destruct c as [c0| | |]; try discriminate. destruct c' as [c0'| | |]; try discriminate. cbn [bind] in *. destruct (opt_conv t) as [t0| | |]; try discriminate. destruct (opt_conv t') as [t0'| | |]; try discriminate. cbn [bind] in *.
  injection G1 as -> ->. injection G1' as -> ->. injection E as <-. injection E' as E'.
  assert (forall on xs, forallb is_name on = true -> mapM hconv on = Ok xs -> Forall (fun a => not_of a = None /\ is_time a = false) xs) as F.
  { clear. induction on as [|e on IH]; intros xs Hn Hx; cbn [mapM forallb] in *; [injection Hx as <-; constructor|]. apply andb_true_iff in Hn as (He & Hn). destruct (hconv e) as [a| | |] eqn:Ea; try discriminate. cbn [bind] in Hx.
    destruct (mapM hconv on) as [r| | |] eqn:Er; try discriminate. cbn [bind] in Hx. injection Hx as <-. constructor; [exact (name_shape e a He Ea)|exact (IH r Hn eq_refl)]. }
  pose proof (F on xs Hn Hx) as Fx. pose proof (F on' xs' Hn' Hx') as Fx'. clear - E' Fx Fx' G2 G2'. revert xs' Fx' E'.
  induction Fx as [|a xs (Ha1 & Ha2) Fx IH]; intros xs' Fx' E; destruct Fx' as [|a' xs' (Ha1' & Ha2') Fx']; cbn [app] in E.
  - destruct y as [y|], y' as [y'|], z as [z|], z' as [z'|]; cbn [app] in E; try discriminate; try (injection E as E); subst; auto; try discriminate; try (injection E as E E2; subst; auto).
  - exfalso. destruct y as [y|]; cbn [app] in E; [injection E as E _; subst a'; discriminate|]. destruct z as [z|]; [|discriminate]. injection E as E _. subst a'. rewrite G2 in Ha2'. discriminate.
  - exfalso. destruct y' as [y'|]; cbn [app] in E; [injection E as E _; subst a; discriminate|]. destruct z' as [z'|]; [|discriminate]. injection E as E _. subst a. rewrite G2' in Ha2. discriminate.
  - injection E as -> E. destruct (IH xs' Fx' E) as (-> & -> & ->). auto.
Qed.
Print Assumptions C38_wait_partial.
Example C38_wait_ex : map (fun s => match conv_hstm (hst s) with Ok (SWait _ l) => Some (length l) | _ => None end)
  [J_wait [hid "a"; hid "b"] None None; J_wait [hid "a"] (Some (hid "b")) None; J_wait [hid "a"] None (Some (hns "5")); J_wait [] (Some (hid "a")) (Some (hid "b"))] = [Some 2; Some 2; Some 2; Some 2].
Proof. vm_compute. reflexivity. Qed.
(** Assertions with equal AST are equal, if severity comes with report. *)
Theorem C38_assert_partial c r s c' r' s' o x y z x' y' z' : (r = None -> s = None) -> (r' = None -> s' = None) ->
  hconv c = Ok x -> hconv c' = Ok x' -> made r y -> made r' y' -> made s z -> made s' z' ->
  conv_hstm (hst (J_assert c r s)) = Ok o -> conv_hstm (hst (J_assert c' r' s')) = Ok o -> x = x' /\ y = y' /\ z = z'.
Proof.
  intros Hr Hr' Hc Hc' Hy Hy' Hz Hz' E E'. cbn [hst conv_hstm conv_hitem] in E, E'. rewrite Hc in E. rewrite Hc' in E'. cbn [bind] in E, E'.
  destruct r as [r|], y as [y|]; try contradiction; destruct s as [s|], z as [z|]; try contradiction; try (discriminate (Hr eq_refl));
  destruct r' as [r'|], y' as [y'|]; try contradiction; destruct s' as [s'|], z' as [z'|]; try contradiction; try (discriminate (Hr' eq_refl));
  cbn [opt_conv made] in *; rewrite ?Hy, ?Hz in E; rewrite ?Hy', ?Hz' in E'; cbn [bind] in E, E'; rewrite ?Hz in E; rewrite ?Hz' in E'; cbn [bind app] in E, E'; rewrite <- E in E'; unfold call_stm, call_op in E'; inversion E'; auto.
Qed.
Print Assumptions C38_assert_partial.
Example C38_assert_ex : exists o, conv_hstm (hst (J_assert (hid "c") (Some (hid "m")) (Some (hid "error")))) = Ok o.
Proof. eexists. vm_compute. reflexivity. Qed.

(** Delays are lost, for every waveform. *)
Theorem C38_after_refuted e t t' l : conv_wave (W_elems (e, t) l) = conv_wave (W_elems (e, t') l).
Proof. reflexivity. Qed.
Print Assumptions C38_after_refuted.
Theorem C38_delay_mechanism_refuted lb t d d' w : conv_hstm (HS lb (J_signal t d w)) = conv_hstm (HS lb (J_signal t d' w)).
Proof. reflexivity. Qed.
Print Assumptions C38_delay_mechanism_refuted.
(** A waveform of two elements is the selected name  a.b  *)
Theorem C38_elements_refuted a b t t' x s : hconv a = Ok x -> conv_nlit b = Ok s -> conv_wave (W_elems (a, t) [(HLit b, t')]) = conv_wave (w1 (HDot a b)).
Proof. intros Ha Hb. unfold w1. cbn [conv_wave]. unfold conv_welem. cbn [fst mapM hconv]. rewrite Ha, Hb. reflexivity. Qed.
Print Assumptions C38_elements_refuted.
(** assert c report e  is  assert c severity e *)
Theorem C38_severity_refuted lb c e : conv_hstm (HS lb (J_assert c (Some e) None)) = conv_hstm (HS lb (J_assert c None (Some e))).
Proof. cbn [conv_hstm conv_hitem opt_conv]. destruct (hconv c); try reflexivity. cbn [bind]. destruct (hconv e); reflexivity. Qed.
Print Assumptions C38_severity_refuted.
(** wait for t  is  wait on t;  wait until c  is  wait for not c *)
Theorem C38_wait_refuted lb e : conv_hstm (HS lb (J_wait [e] None None)) = conv_hstm (HS lb (J_wait [] None (Some e))).
Proof. cbn [conv_hstm conv_hitem opt_conv mapM]. destruct (hconv e); reflexivity. Qed.
Print Assumptions C38_wait_refuted.
Theorem C38_until_refuted lb (e : hexpr) : (forall a, hconv e = Ok a -> unwrap1 a = a) ->
  conv_hstm (HS lb (J_wait [] (Some e) None)) = conv_hstm (HS lb (J_wait [] None (Some (HUn O_NOT e)))).
Proof. intros H. cbn [conv_hstm conv_hitem opt_conv mapM hconv un_op]. destruct (hconv e) as [a| | |]; try reflexivity. cbn [bind]. rewrite (H a eq_refl). reflexivity. Qed.
Print Assumptions C38_until_refuted.
(** force is an ordinary assignment, release assigns the placeholder. *)
Theorem C38_force_refuted lb t m e : conv_hstm (HS lb (J_force t m e)) = conv_hstm (HS lb (J_signal t None (w1 e))).
Proof. cbn [conv_hstm conv_hitem w1 conv_wave]. unfold conv_welem. cbn [fst mapM]. destruct (hconv t); try reflexivity. cbn [bind]. destruct (hconv e); reflexivity. Qed.
Print Assumptions C38_force_refuted.
