(** Only statements are parsed, and the parser always comes to an end. *)
From Verif Require Import Base LitModel AstModel StmModel SvExprModel SvStmModel SvSyntaxModel SvSyntaxSpec SvSyntaxProofs SvSyntaxComplete.
From Verif Require Import SvStmSyntaxModel SvStmSyntaxSpec SvLvalueProofs SvStmSyntaxComplete.

(** What [o], a parser run on [u], has read; it has read at least [k] tokens. *)
Definition reads {A : Type} (k : nat) (W : A -> list stk -> Prop) (u : list stk) (o : outcome (A * list stk)) : Prop :=
  match o with
  | Ok (a, r) => length r + k <= length u /\ (no3 u -> exists q, u = q ++ r /\ W a q)
  | Throw _ => True
  | _ => False
  end.
Lemma reads_bind {A B : Type} k (W : A -> list stk -> Prop) u m j (W' : B -> list stk -> Prop) ts f :
  reads k W u m -> (forall a q r, length r + k <= length u -> (no3 u -> u = q ++ r /\ W a q) -> m = Ok (a, r) -> reads j W' ts (f (a, r))) -> reads j W' ts (bind m f).
Proof.
  intros H F. destruct m as [[a r]| | |]; cbn [bind]; try exact H; try exact I. destruct H as [L H]. apply (F a (firstn (length u - length r) u) r); [exact L| |reflexivity].
  intros N. destruct (H N) as (q & -> & Q). rewrite app_length, Nat.add_sub, firstn_app, Nat.sub_diag, firstn_all. cbn [firstn]. rewrite app_nil_r. auto.
Qed.
Lemma reads_no {A : Type} k (W : A -> list stk -> Prop) u : reads k W u no_parse.
Proof. exact I. Qed.
(** the facts collected on the way *)
Ltac use := repeat match goal with
  | H : no3 ?l -> _ /\ _, N : no3 ?l |- _ => let E := fresh "E" in let W := fresh "W" in destruct (H N) as [E W]; clear H; rewrite E in N; apply no3_app in N; try (subst l)
  | W : ?q = _ /\ _ |- _ => let E := fresh "E" in destruct W as [E W]; subst q
  | N : no3 (_ :: _) |- _ => apply no3_cons in N
  | N : no3 (_ ++ _) |- _ => apply no3_app in N
  end.
Ltac next L := eapply (reads_bind _ _ _ _ _ _ _ _ L); let a := fresh "a" in let q := fresh "q" in let r := fresh "r" in let LE := fresh "LE" in let H := fresh "H" in let EQ := fresh "EQ" in
  intros a q r LE H EQ; cbn beta iota.
Ltac lens := cbn [length] in *; lia.
Ltac eqs := cbn [app]; repeat (rewrite <- app_assoc; cbn [app]); reflexivity.
Ltac tok1 r := destruct r as [|[[]| | | | | | | |] r]; try exact I.
Ltac tok2 r := destruct r as [|[| | | | | | | |[]] r]; try exact I.

Lemma r_expr ts : reads 1 (fun e q => q = xs e /\ proper e) ts (x_expr ts).
Proof.
  destruct (x_expr_runs ts) as [F U]. pose proof (x_expr_shorter ts) as S. pose proof (x_expr_sound ts) as Q. destruct (x_expr ts) as [[e r]|x|w|]; cbn; try exact I; try contradiction; [|exact (U w eq_refl)].
  split; [specialize (S e r eq_refl); lia|]. intros N. destruct (Q e r eq_refl N) as [E P]. exists (xs e). auto.
Qed.
Lemma r_prim ts : reads 1 (fun e q => q = xs e /\ proper e /\ strength_of e = 15) ts (x_prim ts).
Proof.
  destruct (x_prim_runs ts) as [F U]. pose proof (x_prim_shorter ts) as S. pose proof (x_prim_sound ts) as Q. destruct (x_prim ts) as [[e r]|x|w|]; cbn; try exact I; try contradiction; [|exact (U w eq_refl)].
  split; [specialize (S e r eq_refl); lia|]. intros N. destruct (Q e r eq_refl N) as [E P]. exists (xs e). auto.
Qed.
Lemma r_lp ts : reads 1 (fun e q => q = par e /\ proper e) ts (lp_expr ts).
Proof.
  unfold lp_expr. destruct ts as [|[[]| | | | | | | |] ts]; try exact I. next (r_expr ts). tok1 r. split; [lens|]. intros N. use. exists (par a). split; [unfold par; eqs|auto].
Qed.

(** ** Timing *)
Lemma edge_read ts ed r : p_edge ts = (ed, r) -> ts = edge_toks ed ++ r.
Proof. unfold p_edge. destruct ts as [|[| | | | | | | |[]] ts]; intros H; injection H as <- <-; reflexivity. Qed.
Lemma no_lp_read l r : l <> [] -> starts_lp (l ++ r) = false -> no_lp l.
Proof. destruct l as [|[[]| | | | | | | |] l]; intros N H; try contradiction; try exact I. discriminate H. Qed.
Lemma r_event ts : reads 1 w_event ts (p_event ts).
Proof.
  unfold p_event. destruct (starts_lp ts) eqn:LP; [exact I|]. destruct (p_edge ts) as [ed r0] eqn:E. apply edge_read in E. subst ts. next (r_expr r0).
  assert (B : reads 1 w_event (edge_toks ed ++ r0) (Ok (EvItem ed a None, r))).
  { split; [rewrite app_length; lia|]. intros N. use. exists (edge_toks ed ++ xs a). split; [eqs|]. constructor; [exact W|]. apply (no_lp_read _ r); [apply ev_ne, W|rewrite <- app_assoc; exact LP]. }
  destruct r as [|[| | | | | | | |[]] r]; try exact B. clear B. next (r_expr r). split; [rewrite app_length; lens|]. intros N. use.
  exists (edge_toks ed ++ xs a ++ Kw k_iff :: xs a0). split; [eqs|]. constructor; [exact W|exact W0|]. apply (no_lp_read _ (Kw k_iff :: xs a0 ++ r1)); [apply ev_ne, W|rewrite <- app_assoc; exact LP].
Qed.
Lemma r_events n : forall ts, length ts <= n -> reads 1 w_events ts (p_events (S n) ts).
Proof.
  induction n as [|n IH]; intros ts L; cbn [p_events]; next (r_event ts).
  - lens.
  - assert (B : reads 1 w_events ts (Ok ([a], r))) by (split; [lia|]; intros N; use; exists q; split; [reflexivity|constructor; exact W]).
    assert (C : forall t r', r = t :: r' -> is_sep t -> reads 1 w_events ts ('(l, r2) <- p_events (S n) r' ;; Ok (a :: l, r2))).
    { intros t r' -> SP. next (IH r' ltac:(lens)). split; [lens|]. intros N. use. exists (q ++ t :: q0). split; [eqs|]. constructor; assumption. }
    destruct r as [|[[]| | | | | | | |[]] r]; try exact B; [exact (C _ _ eq_refl (or_intror eq_refl))|exact (C _ _ eq_refl (or_introl eq_refl))].
Qed.
Lemma r_path i r a b l r' : xsplit r = (a, b) -> more_items a = (l, r') -> length (map X r' ++ b) <= length r /\
  X (id_tok i) :: r = map X (path_toks ((i, None) :: l)) ++ map X r' ++ b /\ Forall (fun x => snd x = None) ((i, None) :: l).
Proof.
  intros E M. apply xsplit_inv in E. subst r. apply more_items_app in M as [-> F]. rewrite path_toks_eq. cbn [map app]. rewrite map_app, <- app_assoc. split; [rewrite !app_length; lia|]. split; [reflexivity|]. constructor; [reflexivity|exact F].
Qed.
Lemma r_evctl ts : reads 1 (fun c q => w_evctl c (At :: q)) ts (p_evctl ts).
Proof.
  assert (B : forall r, reads 1 (fun c q => w_evctl c (At :: q)) (X KLp :: r) ('(l, r1) <- p_events (S (length r)) r ;; match r1 with X KRp :: r2 => Ok (EC_expr l, r2) | _ => no_parse end)).
  { intros r. next (r_events (length r) r (le_n _)). tok1 r0. split; [lens|]. intros N. use. exists (X KLp :: q ++ [X KRp]). split; [eqs|]. constructor. exact W. }
  assert (P : forall i r, reads 1 (fun c q => w_evctl c (At :: q)) (X (id_tok i) :: r) (let '(xs, rest) := xsplit r in let '(l, r') := more_items xs in Ok (EC_path (VLvHier (VPathOf false H_none ((i, None) :: l)) [] [] None), map X r' ++ rest))).
  { intros i r. destruct (xsplit r) as [a b] eqn:E. destruct (more_items a) as [l r'] eqn:M. destruct (r_path i r a b l r' E M) as (L & EQ & F). split; [lens|]. intros _. eexists. split; [exact EQ|]. constructor; [discriminate|exact F]. }
  unfold p_evctl. destruct ts as [|t ts]; [exact I|]. destruct t as [t| | | | | | | |]; try exact I. destruct t; try exact I.
  - exact (P (IdPlain s) ts).
  - exact (P (IdEsc s) ts).
  - destruct o; try exact I. split; [lens|]. intros _. exists [X (KOp S_MUL)]. split; [reflexivity|constructor].
  - destruct ts as [|[[]| | | | | | | |] ts]; try exact (B _). destruct o; try exact (B _). destruct ts as [|[[]| | | | | | | |] ts]; try exact (B _).
    split; [lens|]. intros _. exists [X KLp; X (KOp S_MUL); X KRp]. split; [reflexivity|constructor].
Qed.
Lemma r_delay ts : reads 1 (fun d q => w_delay d (Hash :: q)) ts (p_delay ts).
Proof.
  unfold p_delay. destruct ts as [|[[]| | | | | | | |] ts]; try exact I; try (split; [lens|]; intros _; eexists [_]; split; [reflexivity|]; (exact (w_d_number _) || exact (w_d_time _) || exact (w_d_real _))).
  - split; [lens|]. intros _. exists [id_stk (IdPlain s)]. split; [reflexivity|constructor].
  - split; [lens|]. intros _. exists [id_stk (IdEsc s)]. split; [reflexivity|constructor].
  - next (r_expr ts). tok1 r.
    + split; [lens|]. intros N. use. exists (par a). split; [unfold par; eqs|]. constructor. exact W.
    + next (r_expr r). tok1 r0. next (r_expr r0). tok1 r1. split; [lens|]. intros N. use. exists (X KLp :: xs a ++ X KColon :: xs a0 ++ X KColon :: xs a1 ++ [X KRp]). split; [eqs|]. constructor; assumption.
Qed.
Definition w_opt_dectl (c : option dectl) (q : list stk) : Prop := match c with Some c => w_dectl c q | None => q = [] end.
Lemma r_dectl ts : reads 0 w_opt_dectl ts (p_dectl ts).
Proof.
  assert (B : reads 0 w_opt_dectl ts (Ok (None, ts))) by (split; [lia|]; intros _; exists []; split; reflexivity).
  unfold p_dectl. destruct ts as [|[| | | | | | | |[]] ts]; try exact B; clear B.
  - next (r_evctl ts). split; [lens|]. intros N. use. exists (At :: q). split; [reflexivity|]. constructor. exact W.
  - next (r_delay ts). split; [lens|]. intros N. use. exists (Hash :: q). split; [reflexivity|]. constructor. exact W.
  - next (r_lp ts). tok1 r. next (r_evctl r). split; [lens|]. intros N. use. exists (Kw k_repeat :: par a ++ At :: q0). split; [eqs|]. constructor; assumption.
Qed.

(** ** Simple statements *)
Lemma r_prefix incr ts : reads 1 (fun e q => exists d, e = VIncDec true incr d /\ q = lv d /\ lv_proper d) ts (p_prefix incr ts).
Proof.
  unfold p_prefix. next (r_prim ts). destruct (lval_of a) as [d|] eqn:L; [|exact I]. split; [lia|]. intros N. use. destruct W as [P S]. destruct (lv_sound a d P L) as [E Q]. exists (lv d). split; [rewrite E; reflexivity|]. eauto.
Qed.
Lemma behind_read r b r1 : behind_of r = (b, r1) -> match b with
  | Bh_none => True | Bh_semi => r = Semi :: r1 | Bh_assign => r = Asg A_ASSIGN :: r1 | Bh_op o => r = Asg o :: r1 | Bh_le => r = X (KOp S_LE) :: r1 | Bh_inc => r = Inc :: r1 | Bh_dec => r = Dec :: r1 end.
Proof.
  destruct r as [|t r]; [intros H; injection H as <- <-; exact I|]. unfold behind_of. destruct t as [t| |o0| | | | | |].
  1: { assert (G : forall o, (match o with S_LE => Bh_le | _ => Bh_none end, r) = (b, r1) -> match b with
    | Bh_none => True | Bh_semi => X (KOp o) :: r = Semi :: r1 | Bh_assign => X (KOp o) :: r = Asg A_ASSIGN :: r1 | Bh_op o' => X (KOp o) :: r = Asg o' :: r1 | Bh_le => X (KOp o) :: r = X (KOp S_LE) :: r1 | Bh_inc => X (KOp o) :: r = Inc :: r1 | Bh_dec => X (KOp o) :: r = Dec :: r1 end).
       { intros o H. destruct o; injection H as <- <-; try exact I. reflexivity. }
       destruct t; intros H; try (injection H as <- <-; exact I). exact (G o H). }
  all: intros H; try (injection H as <- <-; reflexivity || exact I). destruct o0; injection H as <- <-; reflexivity.
Qed.
Section Simple.
Context (b : bool).
Lemma r_simple ts : reads 1 (fun i q => w_item b i q) ts (p_simple ts).
Proof.
  assert (B : reads 1 (fun i q => w_item b i q) ts (
      '(p, r) <- x_prim ts ;;
      let '(b, r1) := behind_of r in
      match b, lval_of p with
      | Bh_semi, _ => Ok (I_primary p, r1)
      | _, None | Bh_none, _ => no_parse
      | Bh_assign, Some d =>
          '(c, r2) <- p_dectl r1 ;; '(e, r3) <- x_expr r2 ;;
          p_semi (match c with Some c => I_assign_ctl d c e | None => I_assign_op d A_ASSIGN e end) r3
      | Bh_op o, Some d => '(e, r2) <- x_expr r1 ;; p_semi (I_assign_op d o e) r2
      | Bh_le, Some d => '(c, r2) <- p_dectl r1 ;; '(e, r3) <- x_expr r2 ;; p_semi (I_nonblocking d c e) r3
      | Bh_inc, Some d => p_semi (I_incdec (VIncDec false true d)) r1
      | Bh_dec, Some d => p_semi (I_incdec (VIncDec false false d)) r1
      end)).
  { next (r_prim ts). destruct (behind_of r) as [w r1] eqn:B. apply behind_read in B. destruct w; [subst r; split; [lens|]; intros N; use; destruct W as [P S]; exists (xs a ++ [Semi]); split; [eqs|]; exact (w_primary b a P S)| | | | | |destruct (lval_of a); exact I];
      (destruct (lval_of a) as [d|] eqn:L; [|exact I]); subst r; pose proof (fun P => lv_sound a d P L) as LS.
    - next (r_dectl r1). next (r_expr r). tok1 r0. split; [destruct a0; lens|]. intros N. use. destruct W as [P S]. destruct (LS P) as [E Q]. destruct a0 as [c|]; cbn [w_opt_dectl] in W0.
      + exists (lv d ++ Asg A_ASSIGN :: q0 ++ xs a1 ++ [Semi]). split; [rewrite E; eqs|]. constructor; assumption.
      + subst q0. exists (lv d ++ Asg A_ASSIGN :: xs a1 ++ [Semi]). split; [rewrite E; eqs|]. constructor; assumption.
    - next (r_expr r1). tok1 r. split; [lens|]. intros N. use. destruct W as [P S]. destruct (LS P) as [E Q]. exists (lv d ++ Asg o :: xs a0 ++ [Semi]). split; [rewrite E; eqs|]. constructor; assumption.
    - next (r_dectl r1). next (r_expr r). tok1 r0. split; [lens|]. intros N. use. destruct W as [P S]. destruct (LS P) as [E Q]. destruct a0 as [c|]; cbn [w_opt_dectl] in W0.
      + exists (lv d ++ X (KOp S_LE) :: q0 ++ xs a1 ++ [Semi]). split; [rewrite E; eqs|]. constructor; assumption.
      + subst q0. exists (lv d ++ X (KOp S_LE) :: xs a1 ++ [Semi]). split; [rewrite E; eqs|]. constructor; assumption.
    - tok1 r1. split; [lens|]. intros N. use. destruct W as [P S]. destruct (LS P) as [E Q]. exists (lv d ++ [inc_tok true; Semi]). split; [rewrite E; eqs|]. constructor; assumption.
    - tok1 r1. split; [lens|]. intros N. use. destruct W as [P S]. destruct (LS P) as [E Q]. exists (lv d ++ [inc_tok false; Semi]). split; [rewrite E; eqs|]. constructor; assumption. }
  unfold p_simple. destruct ts as [|[| | | | | | | |] ts]; try exact B; clear B.
  - next (r_prefix true ts). tok1 r. split; [lens|]. intros N. use. destruct W as (d & -> & -> & P). exists (inc_tok true :: lv d ++ [Semi]). split; [eqs|]. constructor; assumption.
  - next (r_prefix false ts). tok1 r. split; [lens|]. intros N. use. destruct W as (d & -> & -> & P). exists (inc_tok false :: lv d ++ [Semi]). split; [eqs|]. constructor; assumption.
Qed.
End Simple.

(** ** The head of a for loop *)
Lemma r_inits n : forall ts, length ts <= n -> reads 1 (fun l q => exists q', q = q' ++ [Semi] /\ w_inits l q') ts (p_inits (S n) ts).
Proof.
  induction n as [|n IH]; intros ts L; cbn [p_inits]; next (r_prim ts); [lens|]. destruct (lval_of a) as [d|] eqn:LV; [|exact I]. pose proof (fun P => lv_sound a d P LV) as LS.
  destruct r as [|[| |[]| | | | | |] r]; try exact I. next (r_expr r). tok1 r0.
  - change (reads 1 (fun l q => exists q', q = q' ++ [Semi] /\ w_inits l q') ts ('(l, r4) <- p_inits (S n) r0 ;; Ok ((d, a0, []) :: l, r4))).
    next (IH r0 ltac:(lens)). split; [lens|]. intros N. use. destruct W as [P S]. destruct (LS P) as [E Q]. destruct W1 as (q' & -> & W1). exists ((lv d ++ Asg A_ASSIGN :: xs a0 ++ X KComma :: q') ++ [Semi]). split; [rewrite E; eqs|].
    eexists. split; [reflexivity|]. constructor; assumption.
  - split; [lens|]. intros N. use. destruct W as [P S]. destruct (LS P) as [E Q]. exists ((lv d ++ Asg A_ASSIGN :: xs a0) ++ [Semi]). split; [rewrite E; eqs|]. eexists. split; [reflexivity|]. constructor; assumption.
Qed.
Lemma r_init ts : reads 1 (fun i q => exists q', q = q' ++ [Semi] /\ w_init i q') ts (p_init ts).
Proof.
  assert (B : reads 1 (fun i q => exists q', q = q' ++ [Semi] /\ w_init i q') ts ('(l, r) <- p_inits (S (length ts)) ts ;; Ok (Some (FI_assign l), r))).
  { next (r_inits (length ts) ts (le_n _)). split; [lia|]. intros N. use. destruct W as (q' & -> & W). eexists. split; [reflexivity|]. eexists. split; [reflexivity|]. constructor. exact W. }
  unfold p_init. destruct ts as [|[| | | | | | | |] ts]; try exact B. split; [lens|]. intros _. exists [Semi]. split; [reflexivity|]. exists []. split; [reflexivity|constructor].
Qed.
Lemma r_cond ts : reads 1 (fun c q => q = opt_xs c ++ [Semi] /\ opt_proper c) ts (p_cond ts).
Proof.
  assert (B : reads 1 (fun c q => q = opt_xs c ++ [Semi] /\ opt_proper c) ts ('(e, r) <- x_expr ts ;; p_semi (Some e) r)).
  { next (r_expr ts). tok1 r. split; [lens|]. intros N. use. exists (xs a ++ [Semi]). split; [eqs|]. split; [reflexivity|exact W]. }
  unfold p_cond. destruct ts as [|[| | | | | | | |] ts]; try exact B. split; [lens|]. intros _. exists [Semi]. split; [reflexivity|]. split; [reflexivity|exact I].
Qed.
Lemma r_step ts : reads 1 w_step ts (p_step ts).
Proof.
  assert (B : reads 1 w_step ts (
      '(e, r) <- x_expr ts ;;
      match r, lval_of e with
      | Asg o :: r1, Some d => '(s, r2) <- x_expr r1 ;; Ok (FS_assign d o s, r2)
      | Inc :: r1, Some d => Ok (FS_expr (VIncDec false true d), r1)
      | Dec :: r1, Some d => Ok (FS_expr (VIncDec false false d), r1)
      | _, _ => Ok (FS_expr e, r)
      end)).
  { next (r_expr ts). assert (Z : reads 1 w_step ts (Ok (FS_expr a, r))) by (split; [lia|]; intros N; use; exists (xs a); split; [reflexivity|constructor; exact W]).
    destruct r as [|t r]; [exact Z|]. destruct t; try exact Z; (destruct (lval_of a) as [d|] eqn:L; [|exact Z]); clear Z; pose proof (fun P => lv_sound a d P L) as LS.
    - next (r_expr r). split; [lens|]. intros N. use. destruct (LS W) as [E Q]. exists (lv d ++ Asg o :: xs a0). split; [rewrite E; eqs|]. constructor; assumption.
    - split; [lens|]. intros N. use. destruct (LS W) as [E Q]. exists (lv d ++ [inc_tok true]). split; [rewrite E; eqs|]. constructor; assumption.
    - split; [lens|]. intros N. use. destruct (LS W) as [E Q]. exists (lv d ++ [inc_tok false]). split; [rewrite E; eqs|]. constructor; assumption. }
  unfold p_step. destruct ts as [|[| | | | | | | |] ts]; try exact B; clear B.
  - next (r_prefix true ts). split; [lens|]. intros N. use. destruct W as (d & -> & -> & P). exists (inc_tok true :: lv d). split; [eqs|]. constructor; assumption.
  - next (r_prefix false ts). split; [lens|]. intros N. use. destruct W as (d & -> & -> & P). exists (inc_tok false :: lv d). split; [eqs|]. constructor; assumption.
Qed.
Lemma r_steps n : forall ts, length ts <= n -> reads 1 (fun l q => exists q', q = q' ++ [X KRp] /\ w_steps l q') ts (p_steps (S n) ts).
Proof.
  induction n as [|n IH]; intros ts L; cbn [p_steps]; next (r_step ts); [lens|]. tok1 r.
  - split; [lens|]. intros N. use. exists (q ++ [X KRp]). split; [eqs|]. eexists. split; [reflexivity|]. constructor; assumption.
  - change (reads 1 (fun l q => exists q', q = q' ++ [X KRp] /\ w_steps l q') ts ('(l, r4) <- p_steps (S n) r ;; Ok (a :: l, r4))).
    next (IH r ltac:(lens)). split; [lens|]. intros N. use. destruct W0 as (q' & -> & W0). exists ((q ++ X KComma :: q') ++ [X KRp]). split; [eqs|]. eexists. split; [reflexivity|]. constructor; assumption.
Qed.
Lemma r_steps_opt ts : reads 1 (fun l q => exists q', q = q' ++ [X KRp] /\ w_steps_opt l q') ts (p_steps_opt ts).
Proof.
  assert (B : reads 1 (fun l q => exists q', q = q' ++ [X KRp] /\ w_steps_opt l q') ts (p_steps (S (length ts)) ts)).
  { pose proof (r_steps (length ts) ts (le_n _)) as R. destruct (p_steps _ ts) as [[l r]| | |]; try exact R. destruct R as [L R]. split; [exact L|]. intros N. destruct (R N) as (q & E & q' & Q & W). exists q. split; [exact E|]. exists q'. split; [exact Q|constructor; exact W]. }
  unfold p_steps_opt. destruct ts as [|[[]| | | | | | | |] ts]; try exact B. split; [lens|]. intros _. exists [X KRp]. split; [reflexivity|]. exists []. split; [reflexivity|constructor].
Qed.
Lemma r_name ts : reads 0 (fun n q => q = name_toks n /\ True) ts (p_name ts).
Proof.
  assert (B : reads 0 (fun n q => q = name_toks n /\ True) ts (Ok (None, ts))) by (split; [lia|]; intros _; exists []; split; [reflexivity|split; [reflexivity|exact I]]).
  unfold p_name. destruct ts as [|[[]| | | | | | | |] ts]; try exact B; clear B. tok1 ts; (split; [lens|]; intros _).
  - exists (name_toks (Some (IdPlain s))). split; [reflexivity|split; [reflexivity|exact I]].
  - exists (name_toks (Some (IdEsc s))). split; [reflexivity|split; [reflexivity|exact I]].
Qed.
Lemma r_labels n : forall ts, length ts <= n -> reads 1 (fun l q => q = label_toks l ++ [X KColon] /\ l <> [] /\ all_of proper l) ts (p_labels (S n) ts).
Proof.
  induction n as [|n IH]; intros ts L; cbn [p_labels]; next (r_expr ts); [lens|]. tok1 r.
  - change (reads 1 (fun l q => q = label_toks l ++ [X KColon] /\ l <> [] /\ all_of proper l) ts ('(l, r4) <- p_labels (S n) r ;; Ok (a :: l, r4))).
    next (IH r ltac:(lens)). split; [lens|]. intros N. use. destruct W0 as [NE A]. destruct a0 as [|e l]; [contradiction|]. exists (label_toks (a :: e :: l) ++ [X KColon]). split; [rewrite label_cons; eqs|]. split; [reflexivity|]. split; [discriminate|]. split; assumption.
  - split; [lens|]. intros N. use. exists (xs a ++ [X KColon]). split; [eqs|]. split; [reflexivity|]. split; [discriminate|]. split; [exact W|exact I].
Qed.

(** ** An else is never left behind an if. *)
Ltac peel H := repeat match type of H with
  | bind ?m _ = Ok _ => let E := fresh "E" in destruct m as [[? ?]| | |] eqn:E; cbn [bind] in H; [|discriminate H|discriminate H|discriminate H]
  end.
Lemma semi_read {A : Type} (x : A) ts y r : p_semi x ts = Ok (y, r) -> y = x.
Proof. unfold p_semi. destruct ts as [|[] ts]; try discriminate. intros H. injection H as <- <-. reflexivity. Qed.
Lemma simple_closed ts i r : p_simple ts = Ok (i, r) -> open_if (TStm None [] [] i) = false.
Proof.
  intros H. assert (B : ('(p, r) <- x_prim ts ;;
      let '(b, r1) := behind_of r in
      match b, lval_of p with
      | Bh_semi, _ => Ok (I_primary p, r1)
      | _, None | Bh_none, _ => no_parse
      | Bh_assign, Some d =>
          '(c, r2) <- p_dectl r1 ;; '(e, r3) <- x_expr r2 ;;
          p_semi (match c with Some c => I_assign_ctl d c e | None => I_assign_op d A_ASSIGN e end) r3
      | Bh_op o, Some d => '(e, r2) <- x_expr r1 ;; p_semi (I_assign_op d o e) r2
      | Bh_le, Some d => '(c, r2) <- p_dectl r1 ;; '(e, r3) <- x_expr r2 ;; p_semi (I_nonblocking d c e) r3
      | Bh_inc, Some d => p_semi (I_incdec (VIncDec false true d)) r1
      | Bh_dec, Some d => p_semi (I_incdec (VIncDec false false d)) r1
      end) = Ok (i, r) -> open_if (TStm None [] [] i) = false).
  { clear H. intros H. peel H. destruct (behind_of l) as [w r1]. destruct w; try (destruct (lval_of v); try discriminate H); try (injection H as <- <-; reflexivity);
      peel H; try (apply semi_read in H; subst i; reflexivity). apply semi_read in H. subst i. destruct o; reflexivity. }
  unfold p_simple in H. destruct ts as [|[| | | | | | | |] ts]; try exact (B H); peel H; apply semi_read in H; subst i; reflexivity.
Qed.
Definition open_stm (p : outcome (vstm * list stk)) : Prop := forall s r, p = Ok (s, r) -> open_if s = true -> no_else r.
Definition open_item (p : outcome (item vstm * list stk)) : Prop := forall i r, p = Ok (i, r) -> open_if (TStm None [] [] i) = true -> no_else r.
Lemma open_rest f : (forall ts, open_stm (p_stm f ts)) /\ (forall ts, open_item (p_item f ts)) /\ (forall u ts, open_item (p_choice f u ts)).
Proof.
  induction f as [|f (IS & II & IC)]; [repeat split; intros; discriminate|]. split; [|split].
  - intros ts s r H O. assert (B : ('(i, r1) <- p_item f ts ;; Ok (TStm None [] [] i, r1)) = Ok (s, r) -> no_else r) by (intros Z; peel Z; injection Z as <- <-; exact (II _ _ _ E O)).
    assert (C : forall n u, ('(i, r1) <- p_item f u ;; Ok (TStm (Some n) [] [] i, r1)) = Ok (s, r) -> no_else r) by (intros n u Z; peel Z; injection Z as <- <-; exact (II _ _ _ E O)).
    cbn [p_stm] in H. destruct ts as [|[t| | | | | | | |] ts]; try exact (B H); [|injection H as <- <-; discriminate O].
    destruct t; try exact (B H); (destruct ts as [|[[]| | | | | | | |] ts]; try exact (B H)); exact (C _ _ H).
  - intros ts i r H O. assert (Z : forall q, p_simple q = Ok (i, r) -> no_else r) by (intros q Q; apply simple_closed in Q; rewrite Q in O; discriminate O).
    cbn [p_item] in H. destruct ts as [|[| | | | | | | |k] ts]; try exact (Z _ H); clear Z.
    + peel H. injection H as <- <-. exact (IS _ _ _ E0 O).
    + peel H. injection H as <- <-. exact (IS _ _ _ E0 O).
    + destruct k; try discriminate H; try exact (IC _ _ _ _ H O).
      * peel H. destruct l1 as [|[| | | | | | | |[]] l1]; try discriminate H. peel H. injection H as <- <-. discriminate O.
      * peel H. destruct l1 as [|[| | | | | | | |k] l1]; try discriminate H. destruct (join_of k); [|discriminate H]. peel H. injection H as <- <-. discriminate O.
      * peel H. injection H as <- <-. exact (IS _ _ _ E O).
      * peel H. injection H as <- <-. exact (IS _ _ _ E0 O).
      * peel H. injection H as <- <-. exact (IS _ _ _ E0 O).
      * peel H. destruct l as [|[| | | | | | | |[]] l]; try discriminate H. peel H. apply semi_read in H. subst i. discriminate O.
      * destruct ts as [|[[]| | | | | | | |] ts]; try discriminate H. peel H. injection H as <- <-. exact (IS _ _ _ E2 O).
      * destruct ts as [|[| | | | | | | |] ts]; try (peel H; apply semi_read in H; subst i; discriminate O). injection H as <- <-. discriminate O.
      * apply semi_read in H. subst i. discriminate O.
      * apply semi_read in H. subst i. discriminate O.
      * destruct ts as [|[| | | | | | | |] ts]; try discriminate H. peel H. apply semi_read in H. subst i. discriminate O.
  - intros u ts i r H O. cbn [p_choice] in H. destruct ts as [|[| | | | | | | |[]] ts]; try discriminate H; peel H.
    + assert (B : Ok (I_if u v [] v0 None, l0) = Ok (i, r) -> match l0 with Kw k_else :: _ => False | _ => True end -> no_else r) by (intros Z NE; injection Z as <- <-; exact NE).
      destruct l0 as [|[| | | | | | | |[]] l0]; try exact (B H I). peel H. injection H as <- <-. exact (IS _ _ _ E1 O).
    + destruct l0; [discriminate H|]. injection H as <- <-. discriminate O.
    + destruct l0; [discriminate H|]. injection H as <- <-. discriminate O.
    + destruct l0; [discriminate H|]. injection H as <- <-. discriminate O.
Qed.

(** ** Statements *)
Definition w_stms_end (l : list vstm) (q : list stk) : Prop := w_stms false l q.
Definition w_citems_end (l : list (citem vstm)) (q : list stk) : Prop := exists q', q = q' ++ [Kw k_endcase] /\ w_citems false l q'.
Definition w_choice (u : option uniq) (i : item vstm) (q : list stk) : Prop := uniq_ok u -> w_item false i (uniq_toks u ++ q).
Lemma r_colon r : exists c, In c [ []; [X KColon] ] /\ r = c ++ skip_colon r.
Proof.
  destruct r as [|[t| | | | | | | |] r]; try (exists []; split; [left; reflexivity|reflexivity]). destruct t; try (exists []; split; [left; reflexivity|reflexivity]). exists [X KColon]. split; [right; left; reflexivity|reflexivity].
Qed.
Lemma sound f :
  (forall ts, 4 * length ts + 3 <= f -> reads 1 (w_stm false) ts (p_stm f ts)) /\
  (forall ts, 4 * length ts + 2 <= f -> reads 1 (w_item false) ts (p_item f ts)) /\
  (forall u ts, 4 * length ts + 1 <= f -> reads 1 (w_choice u) ts (p_choice f u ts)) /\
  (forall ts, 4 * length ts + 4 <= f -> reads 0 (w_stms false) ts (p_stms f ts)) /\
  (forall ts, 4 * length ts + 4 <= f -> reads 1 w_citems_end ts (p_citems f ts)).
Proof.
  induction f as [|f (IS & II & IC & IL & IE)]; [repeat split; intros; lia|]. repeat split.
  - intros ts L. assert (B : reads 1 (w_stm false) ts ('(i, r1) <- p_item f ts ;; Ok (TStm None [] [] i, r1))).
    { next (II ts ltac:(lia)). split; [lia|]. intros N. use. exists q. split; [reflexivity|constructor; exact W]. }
    assert (C : forall n u, ts = id_stk n :: X KColon :: u -> reads 1 (w_stm false) ts ('(i, r1) <- p_item f u ;; Ok (TStm (Some n) [] [] i, r1))).
    { intros n u ->. next (II u ltac:(lens)). split; [lens|]. intros N. use. exists (id_stk n :: X KColon :: q). split; [eqs|constructor; exact W]. }
    cbn [p_stm]. destruct ts as [|[t| | | | | | | |] ts]; try exact B.
    + destruct t; try exact B; (destruct ts as [|[[]| | | | | | | |] ts]; try exact B); [exact (C (IdPlain s) ts eq_refl)|exact (C (IdEsc s) ts eq_refl)].
    + split; [lens|]. intros _. exists [Semi]. split; [reflexivity|constructor].
  - intros ts L. cbn [p_item]. destruct ts as [|[| | | | | | | |k] ts]; try exact (r_simple false _).
    + next (r_evctl ts). next (IS r ltac:(lens)). split; [lens|]. intros N. use. exists ((At :: q) ++ q0). split; [eqs|]. constructor; assumption.
    + next (r_delay ts). next (IS r ltac:(lens)). split; [lens|]. intros N. use. exists ((Hash :: q) ++ q0). split; [eqs|]. constructor; assumption.
    + assert (CH : forall u c us, us = uniq_toks u -> uniq_ok u -> length c <= length ts -> Kw k :: ts = us ++ c -> reads 1 (w_choice u) c (p_choice f u c) -> reads 1 (w_item false) (Kw k :: ts) (p_choice f u c)).
      { intros u c us -> U LC EQ R. destruct (p_choice f u c) as [[i r]| | |]; try exact R. destruct R as [R1 R2]. split; [lens|]. intros N. rewrite EQ in N |- *. apply no3_app in N. destruct (R2 N) as (q & -> & W). exists (uniq_toks u ++ q). split; [eqs|]. exact (W U). }
      assert (CN : In k [k_if; k_case; k_casez; k_casex] -> reads 1 (w_item false) (Kw k :: ts) (p_choice f None (Kw k :: ts))).
      { intros _. pose proof (IC None (Kw k :: ts) ltac:(lens)) as R. destruct (p_choice f None (Kw k :: ts)) as [[i r]| | |]; try exact R. destruct R as [R1 R2]. split; [lens|]. intros N. destruct (R2 N) as (q & E & W). exists q. split; [exact E|]. apply W. discriminate. }
      destruct k; try exact I; try exact (CN ltac:(cbn; auto)); clear CN.
      * clear CH. next (r_name ts). next (IL r ltac:(lens)). tok2 r0. next (r_name r0). split; [lens|]. intros N. use. exists (Kw (open_kw SEQ) :: name_toks a ++ q0 ++ Kw (close_kw SEQ) :: name_toks a1). split; [eqs|]. constructor; [right; right; reflexivity|assumption].
      * clear CH. next (r_name ts). next (IL r ltac:(lens)). destruct r0 as [|[| | | | | | | |k] r0]; try exact I. destruct (join_of k) as [j|] eqn:J; [|exact I]. next (r_name r0). split; [lens|]. intros N. use.
        assert (EK : k_fork = open_kw j /\ k = close_kw j) by (destruct k; try discriminate J; injection J as <-; split; reflexivity). destruct EK as [EK ->]. rewrite EK.
        exists (Kw (open_kw j) :: name_toks a ++ q0 ++ Kw (close_kw j) :: name_toks a1). split; [eqs|]. constructor; [right; right; reflexivity|assumption].
      * apply (CH (Some CASE_UNIQ_UNIQUE) ts _ eq_refl); [discriminate|lia|reflexivity|apply IC; lens].
      * apply (CH (Some CASE_UNIQ_UNIQUE0) ts _ eq_refl); [discriminate|lia|reflexivity|apply IC; lens].
      * apply (CH (Some CASE_UNIQ_PRIORITY) ts _ eq_refl); [discriminate|lia|reflexivity|apply IC; lens].
      * next (IS ts ltac:(lens)). split; [lens|]. intros N. use. exists (Kw k_forever :: q). split; [eqs|]. constructor; assumption.
      * next (r_lp ts). next (IS r ltac:(lens)). split; [lens|]. intros N. use. exists (Kw k_repeat :: par a ++ q0). split; [eqs|]. constructor; assumption.
      * next (r_lp ts). next (IS r ltac:(lens)). split; [lens|]. intros N. use. exists (Kw k_while :: par a ++ q0). split; [eqs|]. constructor; assumption.
      * next (IS ts ltac:(lens)). tok2 r. next (r_lp r). tok1 r0. split; [lens|]. intros N. use. exists (Kw k_do :: q ++ Kw k_while :: par a0 ++ [Semi]). split; [eqs|]. constructor; assumption.
      * destruct ts as [|[[]| | | | | | | |] ts]; try exact I. next (r_init ts). next (r_cond r). next (r_steps_opt r0). next (IS r1 ltac:(lens)). split; [lens|]. intros N. use. destruct W as (q' & -> & W). destruct W1 as (q'' & -> & W1).
        exists (Kw k_for :: X KLp :: q' ++ Semi :: opt_xs a0 ++ Semi :: q'' ++ X KRp :: q2). split; [eqs|]. constructor; assumption.
      * assert (B : reads 1 (w_item false) (Kw k_return :: ts) ('(e, r1) <- x_expr ts ;; p_semi (I_return (Some e)) r1)).
        { next (r_expr ts). tok1 r. split; [lens|]. intros N. use. exists (Kw k_return :: opt_xs (Some a) ++ [Semi]). split; [cbn [opt_xs]; eqs|]. constructor. exact W. }
        destruct ts as [|[| | | | | | | |] ts]; try exact B. split; [lens|]. intros _. exists (Kw k_return :: opt_xs None ++ [Semi]). split; [reflexivity|]. constructor. exact I.
      * tok1 ts. split; [lens|]. intros _. exists [Kw k_break; Semi]. split; [reflexivity|constructor].
      * tok1 ts. split; [lens|]. intros _. exists [Kw k_continue; Semi]. split; [reflexivity|constructor].
      * tok1 ts. next (r_lp ts). tok1 r. split; [lens|]. intros N. use. exists (Kw k_void :: Apos :: par a ++ [Semi]). split; [eqs|]. constructor; assumption.
  - intros u ts L. cbn [p_choice].
    assert (CS : forall k r, 4 * length r + 4 <= f -> reads 1 (w_choice u) (Kw (case_kw k) :: r) ('(e, r1) <- lp_expr r ;; '(l, r2) <- p_citems f r1 ;; match l with [] => no_parse | _ => Ok (I_case u k e l, r2) end)).
    { intros k r LL. next (r_lp r). next (IE r0 ltac:(lens)). destruct a0 as [|x l]; [exact I|]. split; [lens|]. intros N. use. destruct W0 as (q' & -> & W0). exists (Kw (case_kw k) :: par a ++ q' ++ [Kw k_endcase]). split; [eqs|]. intros U. constructor; [exact U|exact W|discriminate|exact W0]. }
    destruct ts as [|[| | | | | | | |[]] ts]; try exact I; try (apply (CS CASE); lens); try (apply (CS CASEZ); lens); try (apply (CS CASEX); lens).
    next (r_lp ts). next (IS r ltac:(lens)).
    assert (B : reads 1 (w_choice u) (Kw k_if :: ts) (Ok (I_if u a [] a0 None, r0))).
    { split; [lens|]. intros N. use. exists (Kw k_if :: par a ++ q0). split; [eqs|]. intros U. constructor; assumption. }
    destruct r0 as [|[| | | | | | | |[]] r0]; try exact B. clear B. next (IS r0 ltac:(lens)). split; [lens|]. intros N.
    assert (O : open_if a0 = false). { destruct (open_if a0) eqn:O; [|reflexivity]. destruct (open_rest f) as (OS & _). destruct (OS _ _ _ EQ0 O). }
    use. exists (Kw k_if :: par a ++ q0 ++ Kw k_else :: q1). split; [eqs|]. intros U. constructor; assumption.
  - intros ts L. cbn [p_stms]. destruct (ends_list ts); [split; [lia|]; intros _; exists []; split; [reflexivity|constructor]|]. next (IS ts ltac:(lia)). next (IL r ltac:(lia)). split; [lia|]. intros N. use. exists (q ++ q0). split; [eqs|]. constructor; assumption.
  - intros ts L. cbn [p_citems]. assert (B : reads 1 w_citems_end ts ('(es, r) <- p_labels (S (length ts)) ts ;; '(s, r1) <- p_stm f r ;; '(l, r2) <- p_citems f r1 ;; Ok ((es, s) :: l, r2))).
    { next (r_labels (length ts) ts (le_n _)). next (IS r ltac:(lia)). next (IE r0 ltac:(lia)). split; [lia|]. intros N. use. destruct W as [NE A]. destruct W1 as (q' & -> & W1). exists ((label_toks a ++ X KColon :: q0 ++ q') ++ [Kw k_endcase]). split; [eqs|]. eexists. split; [reflexivity|]. constructor; assumption. }
    destruct ts as [|[| | | | | | | |[]] ts]; try exact B; clear B.
    + split; [lens|]. intros _. exists [Kw k_endcase]. split; [reflexivity|]. exists []. split; [reflexivity|constructor].
    + destruct (r_colon ts) as (c & C & EC). assert (LC : length (skip_colon ts) <= length ts) by (rewrite EC at 2; rewrite app_length; lia).
      next (IS (skip_colon ts) ltac:(lens)). next (IE r ltac:(lens)). split; [lens|]. intros N. rewrite EC in N |- *. apply no3_cons, no3_app in N. destruct (H N) as [E W]. rewrite E in N |- *. apply no3_app in N. clear H. use. destruct W0 as (q' & -> & W0).
      exists ((Kw k_default :: c ++ q ++ q') ++ [Kw k_endcase]). split; [eqs|]. eexists. split; [reflexivity|]. constructor; assumption.
Qed.
Theorem parse_read ts s : parse_statement ts = Ok s -> no3 ts -> w_stm false s ts.
Proof.
  unfold parse_statement. intros H N. destruct (sound (stm_fuel ts)) as (S & _). specialize (S ts ltac:(unfold stm_fuel; lia)). destruct (p_stm (stm_fuel ts) ts) as [[s' r]| | |]; try discriminate H. cbn [bind] in H. destruct r as [|]; [|discriminate H]. injection H as <-.
  destruct S as [_ S]. destruct (S N) as (q & -> & W). rewrite app_nil_r. exact W.
Qed.
Theorem parse_runs ts : parse_statement ts <> OutOfFuel /\ forall w, parse_statement ts <> UB w.
Proof.
  unfold parse_statement. destruct (sound (stm_fuel ts)) as (S & _). specialize (S ts ltac:(unfold stm_fuel; lia)). destruct (p_stm (stm_fuel ts) ts) as [[s r]| | |]; cbn [bind]; try contradiction; [|split; discriminate]. destruct r; split; discriminate.
Qed.
