(** C35: VHDL conditional assignments. *)
From Verif Require Import Base AstModel StmModel SvExprModel SvExprSpec VhdlExprModel VhdlExprSpec VhdlExprProofs SvStmDemo VhdlStmModel VhdlStmSpec VhdlStmProofs VhdlStmDemo.

(** The AST assigns what the first true condition selects, tests the conditions in order and only up to
    that one, and assigns nothing if there is no final else and no condition holds; for any number of
    alternatives and any interpretation. *)
Theorem C35_concurrent_partial (A : halgebra) (M : hmachine A) (n : nat) t w k : hv_conc A M (CC_cond t w) = Some k ->
  exists o k', conv_conc (CC_cond t w) = Ok o /\ mh_stm A M n o = Some k' /\ forall s, k' s = k s.
Proof. intros H. destruct (conc_sim A M n _ k H) as (o & Ho & _ & k' & Hk & Hs). exists o, k'. auto. Qed.
Print Assumptions C35_concurrent_partial.
Theorem C35_sequential_partial (A : halgebra) (M : hmachine A) (n : nat) lb t w k : hv_stm A M n (HS lb (J_signal_cond t None w)) = Some k ->
  exists o k', conv_hstm (HS lb (J_signal_cond t None w)) = Ok o /\ mh_stm A M n o = Some k' /\ forall s, k' s = k s.
Proof. intros H. destruct (hstm_sim A M n _ k H) as (o & Ho & _ & k' & Hk & Hs). exists o, k'. auto. Qed.
Print Assumptions C35_sequential_partial.
Definition ex_when (e : option wave) : hstm := hst (J_signal_cond (hid "r") None (CW (w1 (hnum "10"), heq "a" "1") [(w1 (hnum "20"), heq "a" "2"); (w1 (hnum "30"), hid "b")] e)).
Example C35_example :
  map (fun v => hrun_src 5 [$"r"] (hall_ [hset "b" "0"; hset "a" v; ex_when (Some (w1 (hnum "40")))])) ["1"; "2"; "3"]%string = map (fun z => Some ([z], [])) [10; 20; 40]%Z /\
  map (fun v => hrun_ast 5 [$"r"] (conv_hstm (hall_ [hset "b" "0"; hset "a" v; ex_when (Some (w1 (hnum "40")))]))) ["1"; "2"; "3"]%string = map (fun z => Some ([z], [])) [10; 20; 40]%Z /\
  map (fun v => hrun_ast 5 [$"r"] (conv_hstm (hall_ [hset "r" "7"; hset "a" v; ex_when None]))) ["1"; "2"; "3"]%string = map (fun z => Some ([z], [])) [10; 20; 7]%Z.
Proof. repeat split; vm_compute; reflexivity. Qed.
(** The value only, without a machine: the first true condition. *)
Fixpoint first_true {X} (l : list (X * bool)) (e : X) : X := match l with [] => e | (x, true) :: _ => x | (_, false) :: l' => first_true l' e end.
Fixpoint choose (val : expr -> option Z) (e : expr) : option Z :=
  match e with EOp TERNARY [c; x; y] => match val c with Some 0%Z => choose val y | Some _ => choose val x | None => None end | _ => val e end.
Theorem C35_first_true (val : expr -> option Z) p l d cs xs dx :
  Forall2 (fun (q : wave * hexpr) c => hconv (snd q) = Ok c) (p :: l) cs -> Forall2 (fun (q : wave * hexpr) x => conv_wave (fst q) = Ok x) (p :: l) xs -> conv_wave d = Ok dx ->
  (forall x, In x (dx :: xs) -> forall a, x <> EOp TERNARY a) ->
  forall bs, Forall2 (fun c b => val c = Some (if b : bool then 1%Z else 0%Z)) cs bs ->
  exists a, conv_condwave (CW p l (Some d)) = Ok a /\ choose val a = val (first_true (combine xs bs) dx).
Proof.
  intros Hc Hx Hd Hn bs Hb. unfold conv_condwave.
  assert (forall m cs xs bs, Forall2 (fun (q : wave * hexpr) c => hconv (snd q) = Ok c) m cs -> Forall2 (fun (q : wave * hexpr) x => conv_wave (fst q) = Ok x) m xs ->
    Forall2 (fun c b => val c = Some (if b : bool then 1%Z else 0%Z)) cs bs -> (forall x, In x (dx :: xs) -> forall a, x <> EOp TERNARY a) ->
    exists a, conv_condwaves m (Some d) = Ok (Some a) /\ choose val a = val (first_true (combine xs bs) dx)) as G.
  { assert (forall e, (forall a, e <> EOp TERNARY a) -> choose val e = val e) as Hp.
    { intros e He. destruct e as [| | | | | | |o a|]; try reflexivity. destruct (op_eq_dec o TERNARY) as [->|N]; [exfalso; exact (He a eq_refl)|]. destruct o; try reflexivity. contradiction. }
    induction m as [|(w, c) m IH]; intros cs0 xs0 bs0 H1 H2 H3 H4; inversion H1 as [|? y ? cs1 Hy H1']; subst; inversion H2 as [|? x ? xs1 Hx' H2']; subst; inversion H3 as [|? b ? bs1 Hb' H3']; subst.
    - exists dx. cbn [conv_condwaves]. rewrite Hd. split; [reflexivity|]. cbn [combine first_true]. apply Hp. apply H4. left. reflexivity.
    - destruct (IH cs1 xs1 bs1 H1' H2' H3') as (a & Ha & Hv). { intros z [Hz|Hz]; apply H4; [left; exact Hz|right; right; exact Hz]. }
      cbn [fst snd] in *. cbn [conv_condwaves]. rewrite Ha. cbn [bind]. rewrite Hx'. cbn [bind]. rewrite Hy. cbn [bind]. eexists. split; [reflexivity|].
      unfold ternary, opt_l. cbn [app choose combine first_true]. rewrite Hb'. destruct b; [|exact Hv]. apply Hp. apply H4. right. left. reflexivity. }
  destruct (G (p :: l) cs xs bs Hc Hx Hb Hn) as (a & -> & Hv). exists a. cbn [bind]. auto.
Qed.
Print Assumptions C35_first_true.
(** Conditional variable assignments and conditional force lose all alternatives. *)
Theorem C35_variable_refuted lb t l l' e e' : conv_hstm (HS lb (J_variable_cond t l e)) = conv_hstm (HS lb (J_variable_cond t l' e')).
Proof. reflexivity. Qed.
Print Assumptions C35_variable_refuted.
Theorem C35_force_refuted lb t m m' l l' : conv_hstm (HS lb (J_force_cond t m l)) = conv_hstm (HS lb (J_force_cond t m' l')).
Proof. reflexivity. Qed.
Print Assumptions C35_force_refuted.
(** unaffected becomes the placeholder of things that are not implemented. *)
Theorem C35_unaffected_refuted t c d x : hconv t = Ok d -> d <> ENull -> hconv c = Ok x -> forall e, 
  conv_conc (CC_cond t (CW (W_unaffected, c) [] None)) = Ok e -> e = SAssign hdr0 d (EOp TERNARY [x; ENotImpl]) None None false.
Proof. intros Hd Hn Hx e. cbn [conv_conc]. rewrite Hd. cbn [bind]. unfold conv_condwave. cbn [conv_condwaves conv_wave bind]. rewrite Hx. cbn [bind]. rewrite (hmk_assign_ok hdr0 d _ false Hn); [|discriminate]. intros H. injection H as <-. reflexivity. Qed.
Print Assumptions C35_unaffected_refuted.
