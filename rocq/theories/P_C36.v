(** C36: VHDL selected assignments. *)
From Verif Require Import Base AstModel StmModel SvExprModel SvExprSpec SvStmModel VhdlExprModel VhdlExprSpec VhdlExprProofs SvStmDemo VhdlStmModel VhdlStmSpec VhdlStmProofs VhdlStmDemo.

(** Concurrent: the target is assigned the waveform of the first matching choice; others at the end. *)
Theorem C36_concurrent_partial (A : halgebra) (M : hmachine A) (n : nat) sel t l k : hv_conc A M (CC_select false sel t l) = Some k ->
  exists o k', conv_conc (CC_select false sel t l) = Ok o /\ mh_stm A M n o = Some k' /\ forall s, k' s = k s.
Proof. intros H. destruct (conc_sim A M n _ k H) as (o & Ho & _ & k' & Hk & Hs). exists o, k'. auto. Qed.
Print Assumptions C36_concurrent_partial.
Definition ch (s : string) : hchoice hexpr := Ch (R_name (hnum s)).
Definition ex_select : hconc := CC_select false (hid "s") (hid "t") [(w1 (hnum "10"), [ch "1"; ch "2"]); (w1 (hid "s"), [Ch (R_explicit (hnum "5") To (hnum "8"))]); (w1 (hnum "40"), [Ch_others])].
Definition run_conc_ast (v : Z) (c : hconc) := match conv_conc c with Ok o => match mh_stm hdemo hdemo_machine 0 o with Some k => match k ([($"s", v)], []) with HNormal s => Some (look (fst s) $"t") | _ => None end | None => None end | _ => None end.
Definition run_conc_src (v : Z) (c : hconc) := match hv_conc hdemo hdemo_machine c with Some k => match k ([($"s", v)], []) with HNormal s => Some (look (fst s) $"t") | _ => None end | None => None end.
Example C36_example : map (fun v => run_conc_src v ex_select) [1; 2; 6; 9]%Z = [Some 10; Some 10; Some 6; Some 40]%Z /\ map (fun v => run_conc_ast v ex_select) [1; 2; 6; 9]%Z = [Some 10; Some 10; Some 6; Some 40]%Z.
Proof. split; vm_compute; reflexivity. Qed.
(** Every assignment made of a concurrent selected assignment has the target of the source. *)
Theorem C36_target sel t l o td : hconv t = Ok td -> conv_conc (CC_select false sel t l) = Ok o ->
  exists x cases d, o = SCase hdr0 CASE_UNIQ_NONE CASE x cases d /\
    Forall (fun s => exists w, s = SAssign hdr0 td w None None false) (map snd cases ++ match d with Some s => [s] | None => [] end).
Proof.
  intros Ht H. cbn [conv_conc] in H. destruct (hconv sel) as [x| | |]; try discriminate. cbn [bind] in H. rewrite Ht in H. cbn [bind] in H. unfold conv_select in H.
  destruct (mapM _ l) as [qs| | |]; try discriminate. cbn [bind] in H. destruct (conv_selwaves _ td false [] None false) as [(cases, d)| | |] eqn:E; try discriminate. cbn [bind fst snd] in H. injection H as <-.
  exists x, cases, d. split; [reflexivity|]. set (ok := fun s => exists w, s = SAssign hdr0 td w None None false).
  assert (forall l moved cs d0 cases d, conv_selwaves l td moved cs d0 false = Ok (cases, d) -> Forall ok (map snd cs ++ match d0 with Some s => [s] | None => [] end) -> Forall ok (map snd cases ++ match d with Some s => [s] | None => [] end)) as G.
  { clear. induction l as [|(c, w) l IH]; intros moved cs d0 cases d E H; cbn [conv_selwaves] in E; [injection E as <- <-; exact H|].
    destruct (mk_assign _ _ _ _ _ _) as [a| | |] eqn:Ea; try discriminate. cbn [bind] in E.
    assert (ok a) as Hok.
    { exists w. unfold mk_assign in Ea. destruct cs as [|c0 cs]; [destruct moved|]; try (destruct td, w; try discriminate; injection Ea as <-; reflexivity). }
    apply Forall_app in H as (H1 & H2). destruct (is_others c).
    - apply (IH _ _ _ _ _ E). apply Forall_app. split; [exact H1|]. constructor; [exact Hok|constructor].
    - apply (IH _ _ _ _ _ E). rewrite map_app, <- app_assoc. apply Forall_app. split; [exact H1|]. constructor; [exact Hok|exact H2]. }
  apply (G _ _ _ _ _ _ E). constructor.
Qed.
Print Assumptions C36_target.
Example C36_target_ex : exists o, hconv (hid "t") = Ok (EId $"t") /\ conv_conc ex_select = Ok o.
Proof. eexists. split; [reflexivity|vm_compute; reflexivity]. Qed.
(** An alternative after others: the conversion fails, whatever the alternatives are. *)
Theorem C36_others_first_refuted sel t w c cs l : forall x d y, hconv sel = Ok x -> hconv t = Ok d -> conv_wave w = Ok y -> conv_choice hconv c = Ok (EId cs) ->
  conv_conc (CC_select false sel t [(w, [Ch_others]); (w, [c])]) <> Ok l.
Proof.
  intros x d y Hx Hd Hw Hc. cbn [conv_conc]. rewrite Hx. cbn [bind]. rewrite Hd. cbn [bind]. unfold conv_select. cbn [mapM fst snd conv_choice bind]. rewrite Hw, Hc. cbn [bind combine List.concat app conv_selwaves is_others].
  destruct (mk_assign hdr0 d y None None false) as [a| | |]; cbn [bind]; discriminate.
Qed.
Print Assumptions C36_others_first_refuted.
(** Sequential: no object is made; the statement that contains it is undefined behaviour. *)
Theorem C36_sequential_refuted sel t l : conv_hstm (hst (J_signal_select sel t l)) = Ok SNull /\
  (forall lb, exists m, conv_hstm (HS (Some lb) (J_signal_select sel t l)) = UB m) /\
  (forall lb e rest, exists m, conv_hstm (HS lb (J_loop (hst (J_signal_select sel t l) :: rest) e)) = UB m).
Proof. split; [reflexivity|]. split; intros; eexists; reflexivity. Qed.
Print Assumptions C36_sequential_refuted.
(** Variables: the target is not used; the selector is assigned. *)
Theorem C36_variable_refuted lb sel t t' l l' x : hconv sel = Ok x -> x <> ENull ->
  conv_hstm (HS lb (J_variable_select sel t l)) = conv_hstm (HS lb (J_variable_select sel t' l')) /\
  conv_hstm (hst (J_variable_select sel t l)) = Ok (SAssign hdr0 x ENotImpl None None true).
Proof. intros Hx Hn. split; [reflexivity|]. cbn [hst conv_hstm conv_hitem]. rewrite Hx. cbn [bind]. rewrite (hmk_assign_ok hdr0 x ENotImpl true Hn); [reflexivity|discriminate]. Qed.
Print Assumptions C36_variable_refuted.
(** select? is select, case? is case. *)
Theorem C36_matching_refuted sel t l : conv_conc (CC_select true sel t l) = conv_conc (CC_select false sel t l).
Proof. reflexivity. Qed.
Print Assumptions C36_matching_refuted.
