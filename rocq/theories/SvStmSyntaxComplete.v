(** Every statement is parsed into its tree. *)
From Verif Require Import Base LitModel AstModel StmModel SvExprModel SvStmModel SvSyntaxModel SvSyntaxSpec SvSyntaxProofs SvSyntaxComplete.
From Verif Require Import SvStmSyntaxModel SvStmSyntaxSpec SvLvalueProofs.

(** ** How expressions begin *)
Lemma show_not_mul e : proper e -> forall r, show e <> KOp S_MUL :: r.
Proof. intros P r E. pose proof (parse_show e P) as H. rewrite E in H. unfold parse_expression in H. replace (4 * length (KOp S_MUL :: r) + 4) with (S (4 * length r + 7)) in H by (cbn [length]; lia). rewrite p_expr_S in H. discriminate H. Qed.
Lemma xs_first e : proper e -> exists t q, xs e = X t :: q /\ starter t /\ t <> KOp S_MUL.
Proof. intros P. destruct (show_first e P) as (t & r & E & S & _). exists t, (map X r). unfold xs. rewrite E. split; [reflexivity|]. split; [exact S|]. intros ->. exact (show_not_mul e P r E). Qed.
Lemma lv_first d : lv_proper d -> exists t q, lv d = X t :: q /\ starter t /\ no_op t.
Proof. intros P. destruct (show_lval d P) as (e & PE & S & E & _). destruct (show_first e PE) as (t & r & E2 & S2 & N). exists t, (map X r). unfold lv. rewrite <- E, E2. split; [reflexivity|]. split; [exact S2|exact (N S)]. Qed.
Lemma lp_expr_ok e r : proper e -> lp_expr (par e ++ r) = Ok (e, r).
Proof. intros P. unfold lp_expr, par. cbn [app]. rewrite <- app_assoc, x_expr_ok; [reflexivity|exact P|exact I]. Qed.
Ltac xs_head P := let t := fresh "t" in let q := fresh "q" in let E := fresh "E" in let S := fresh "S" in let M := fresh "M" in
  destruct (xs_first _ P) as (t & q & E & S & M); rewrite E; cbn [app]; destruct t; try contradiction.

(** ** Timing *)
Lemma p_edge_xs ed e r : proper e -> p_edge (edge_toks ed ++ xs e ++ r) = (ed, xs e ++ r).
Proof. intros P. destruct ed as [[]|]; try reflexivity. cbn [edge_toks app]. xs_head P; reflexivity. Qed.
Definition after_event (r : list stk) : Prop := match r with (X KRp | X KComma | Kw k_or) :: _ => True | _ => False end.
Lemma no_lp_app l r : l <> [] -> no_lp l -> starts_lp (l ++ r) = false.
Proof. destruct l as [|[[]| | | | | | | |] l]; intros N H; try contradiction; try reflexivity. Qed.
Lemma after_calm r : after_event r -> calm r.
Proof. destruct r as [|[[]| | | | | | | |] r]; intros H; try contradiction; exact I. Qed.
Lemma ev_ne ed e : proper e -> edge_toks ed ++ xs e <> [].
Proof. intros P. xs_head P; destruct ed as [[]|]; discriminate. Qed.
Lemma p_event_ok e ts r : w_event e ts -> after_event r -> p_event (ts ++ r) = Ok (e, r).
Proof.
  intros W A. unfold p_event. destruct W as [ed e P N|ed e c P Q N].
  - rewrite (no_lp_app _ _ (ev_ne ed e P) N), <- app_assoc, p_edge_xs by exact P. rewrite x_expr_ok; [|exact P|apply after_calm, A]. cbn [bind]. destruct r as [|[[]| | | | | | | |[]] r]; try contradiction; reflexivity.
  - rewrite app_assoc, <- app_assoc, (no_lp_app _ _ (ev_ne ed e P) N), <- app_assoc, p_edge_xs by exact P. rewrite x_expr_ok; [|exact P|exact I]. cbn [bind app]. rewrite x_expr_ok; [reflexivity|exact Q|apply after_calm, A].
Qed.
Lemma w_event_pos e ts : w_event e ts -> 0 < length ts.
Proof. intros [ed x P N|ed x c P Q N]; [pose proof (ev_ne ed x P); destruct (edge_toks ed ++ xs x); [contradiction|cbn; lia]|]. rewrite !app_length. cbn [length]. lia. Qed.
Lemma p_events_ok l ts : w_events l ts -> forall r n, length ts <= n -> p_events n (ts ++ X KRp :: r) = Ok (l, X KRp :: r).
Proof.
  induction 1 as [e ts W|e l ts sep ts' W S H IH]; intros r n L; pose proof (w_event_pos _ _ W); rewrite ?app_length in L; destruct n as [|n]; try lia; cbn [p_events].
  - rewrite (p_event_ok e ts (X KRp :: r) W I). reflexivity.
  - cbn [length] in L. rewrite <- app_assoc. cbn [app]. rewrite (p_event_ok e ts _ W); [|destruct S as [-> | ->]; exact I]. cbn [bind].
    destruct S as [-> | ->]; rewrite IH by lia; reflexivity.
Qed.
Lemma w_events_first l ts : w_events l ts -> exists t q, ts = t :: q /\ t <> X (KOp S_MUL) /\ t <> X KLp.
Proof.
  assert (G : forall e ts, w_event e ts -> exists t q, ts = t :: q /\ t <> X (KOp S_MUL) /\ t <> X KLp).
  { intros e ts' []; destruct ed as [[]|]; try (eexists _, _; split; [reflexivity|split; discriminate]); cbn [edge_toks app] in *; destruct (xs_first _ H) as (t & q & E & _ & M); rewrite E in *; cbn [app];
      exists (X t); eexists; (split; [reflexivity|split; [congruence|intros Z; injection Z as ->; contradiction]]). }
  intros []; [exact (G _ _ H)|]. destruct (G _ _ H) as (t & q & -> & N). exists t, (q ++ sep :: ts'). auto.
Qed.
(** What may follow a name. *)
Definition no_scope (r : list stk) : Prop := match r with X KColon2 :: _ => False | _ => True end.
Lemma more_items_x l r : Forall (fun x : ident * option (pva vexpr) => snd x = None) l -> no_scope r ->
  (let '(a, b) := xsplit (map X (List.concat (map (fun x => [KColon2; id_tok (fst x)]) l)) ++ r) in let '(l', r') := more_items a in (l', map X r' ++ b)) = (l, r).
Proof.
  intros F N. rewrite xsplit_app. destruct (xsplit r) as [a b] eqn:E. pose proof (xsplit_inv r a b E) as ->.
  assert (M : forall a, no_scope (map X a ++ b) -> more_items a = ([], a)) by (intros [|[] a']; intros H; try reflexivity; contradiction).
  clear E. induction F as [|[i o] l O F IH]; [cbn [map List.concat app]; rewrite (M a N); reflexivity|]. cbn [snd] in O. subst o. cbn [map List.concat fst app].
  destruct (more_items (List.concat (map (fun x => [KColon2; id_tok (fst x)]) l) ++ a)) as [l' r'] eqn:EM. injection IH as -> IH. destruct i; cbn [id_tok more_items]; rewrite EM, <- IH; reflexivity.
Qed.
Lemma path_toks_eq i l : path_toks ((i, None) :: l) = id_tok i :: List.concat (map (fun x => [KColon2; id_tok (fst x)]) l).
Proof. exact (path_show i l). Qed.
Lemma p_evctl_ok c ts r : w_evctl c ts -> no_scope r -> exists q, ts = At :: q /\ p_evctl (q ++ r) = Ok (c, r).
Proof.
  intros [| |l q W|l NE F] N; eexists; (split; [reflexivity|]).
  - reflexivity.
  - reflexivity.
  - destruct (w_events_first _ _ W) as (t & q' & E & M & LP). cbn [app]. rewrite <- app_assoc. cbn [app].
    assert (P := p_events_ok l q W r (Datatypes.S (length (q ++ X KRp :: r))) ltac:(rewrite app_length; lia)).
    assert (Z : p_evctl (X KLp :: q ++ X KRp :: r) = '(l, r1) <- p_events (Datatypes.S (length (q ++ X KRp :: r))) (q ++ X KRp :: r) ;; match r1 with X KRp :: r2 => Ok (EC_expr l, r2) | _ => no_parse end).
    { rewrite E. cbn [app]. clear - M. destruct t as [[]| | | | | | | |]; try reflexivity. destruct o; try reflexivity. contradiction. }
    rewrite Z, P. reflexivity.
  - destruct l as [|[i o] l]; [contradiction|]. apply Forall_cons_iff in F as [O F]. cbn [snd] in O. subst o. rewrite path_toks_eq. cbn [map app]. pose proof (more_items_x l r F N) as M.
    destruct (xsplit _) as [a b] eqn:E. destruct (more_items a) as [l' r'] eqn:E2. injection M as -> M.
    destruct i; cbn [id_tok p_evctl]; rewrite E, E2, M; reflexivity.
Qed.
Lemma p_delay_ok d ts r : w_delay d ts -> exists q, ts = Hash :: q /\ p_delay (q ++ r) = Ok (d, r).
Proof.
  intros [s|s|s|i|e P|e t m P Q R]; eexists; (split; [reflexivity|]); try reflexivity.
  - destruct i; reflexivity.
  - unfold par. cbn [app p_delay]. rewrite <- app_assoc, x_expr_ok; [reflexivity|exact P|exact I].
  - cbn [app p_delay]. repeat (rewrite <- app_assoc; cbn [app]). rewrite x_expr_ok; [|exact P|exact I]. cbn [bind]. rewrite x_expr_ok; [|exact Q|exact I]. cbn [bind]. rewrite x_expr_ok; [reflexivity|exact R|exact I].
Qed.
Lemma p_dectl_ok c ts r : w_dectl c ts -> no_scope r -> p_dectl (ts ++ r) = Ok (Some c, r).
Proof.
  intros [d q W|c' q W|n c' q P W] N.
  - destruct (p_delay_ok d q r W) as (q' & -> & E). cbn [app p_dectl]. rewrite E. reflexivity.
  - destruct (p_evctl_ok c' q r W N) as (q' & -> & E). cbn [app p_dectl]. rewrite E. reflexivity.
  - destruct (p_evctl_ok c' q r W N) as (q' & -> & E). cbn [app p_dectl]. rewrite <- app_assoc, (lp_expr_ok n _ P). cbn [bind app]. rewrite E. reflexivity.
Qed.
Lemma p_dectl_none e r : proper e -> p_dectl (xs e ++ r) = Ok (None, xs e ++ r).
Proof. intros P. xs_head P; reflexivity. Qed.
Lemma xs_no_scope e r : proper e -> no_scope (xs e ++ r).
Proof. intros P. xs_head P; exact I. Qed.

(** ** Simple statements *)
Lemma p_prefix_ok incr d r : lv_proper d -> tidy r -> p_prefix incr (lv d ++ r) = Ok (VIncDec true incr d, r).
Proof. intros P T. unfold p_prefix. destruct (lv_read d r P T) as (p & -> & L & _). cbn [bind]. rewrite L. reflexivity. Qed.
(** Anything that begins with a token of an expression. *)
Lemma p_simple_x t q : p_simple (X t :: q) =
  '(p, r) <- x_prim (X t :: q) ;;
  let '(b, r1) := behind_of r in
  match b, lval_of p with
  | Bh_semi, _ => Ok (I_primary p, r1)
  | _, None | Bh_none, _ => no_parse
  | Bh_assign, Some d =>
      '(c, r2) <- p_dectl r1 ;; '(e, r3) <- x_expr r2 ;;
      p_semi (match c with Some c => I_assign_ctl d c e | None => I_assign_op d A_ASSIGN e end) r3
  | Bh_op o, Some d => '(e, r2) <- x_expr r1 ;; p_semi (I_assign_op d o e) r2
  | Bh_le, Some d => '(c, r2) <- p_dectl r1 ;; '(e, r3) <- x_expr r2 ;; p_semi (I_nonblocking d c e) r3
  | Bh_inc, Some d => p_semi (I_incdec (VIncDec false true d)) r1
  | Bh_dec, Some d => p_semi (I_incdec (VIncDec false false d)) r1
  end.
Proof. reflexivity. Qed.
Lemma p_simple_lv d b r : lv_proper d -> tidy (b :: r) ->
  p_simple (lv d ++ b :: r) =
  match fst (behind_of (b :: r)) with
  | Bh_semi => p_simple (lv d ++ b :: r)
  | Bh_none => no_parse
  | Bh_assign =>
      '(c, r2) <- p_dectl r ;; '(e, r3) <- x_expr r2 ;;
      p_semi (match c with Some c => I_assign_ctl d c e | None => I_assign_op d A_ASSIGN e end) r3
  | Bh_op o => '(e, r2) <- x_expr r ;; p_semi (I_assign_op d o e) r2
  | Bh_le => '(c, r2) <- p_dectl r ;; '(e, r3) <- x_expr r2 ;; p_semi (I_nonblocking d c e) r3
  | Bh_inc => p_semi (I_incdec (VIncDec false true d)) r
  | Bh_dec => p_semi (I_incdec (VIncDec false false d)) r
  end.
Proof.
  intros P T. destruct (lv_read d (b :: r) P T) as (p & E & L & _). destruct (lv_first d P) as (t & q & EQ & _). rewrite EQ in *. cbn [app] in *. rewrite p_simple_x, E. cbn [bind].
  destruct (behind_of (b :: r)) as [w r1] eqn:B. assert (r1 = r) as -> by (unfold behind_of in B; congruence). cbn [fst]. rewrite L. destruct w; reflexivity.
Qed.
(** No label in front of it. *)
Definition unlabelled (ts : list stk) : Prop := match ts with Semi :: _ => False | X (KId _) :: X KColon :: _ => False | X (KEscId _) :: X KColon :: _ => False | _ => True end.
Definition no_colon (r : list stk) : Prop := match r with X KColon :: _ => False | _ => True end.
Lemma prim_colon i q : x_prim (id_stk i :: X KColon :: q) = Ok (VPath (VPathOf false H_none [(i, None)]), X KColon :: q).
Proof.
  unfold x_prim, x_with, id_stk. change (X (id_tok i) :: X KColon :: q) with (map X [id_tok i; KColon] ++ q). rewrite xsplit_app. destruct (xsplit q) as [a b] eqn:E. pose proof (xsplit_inv q a b E) as ->. cbn [app].
  replace (4 * length (id_tok i :: KColon :: a) + 4) with (S (S (4 * length a + 10))) by (cbn [length]; lia). destruct i; reflexivity.
Qed.
Lemma prim_unlabelled ts p r : x_prim ts = Ok (p, r) -> no_colon r -> unlabelled ts.
Proof.
  intros H N. unfold unlabelled. destruct ts as [|[[]| | | | | | | |] ts]; try exact I; try discriminate H.
  - destruct ts as [|[[]| | | | | | | |] ts]; try exact I. rewrite (prim_colon (IdPlain s)) in H. injection H as _ <-. exact N.
  - destruct ts as [|[[]| | | | | | | |] ts]; try exact I. rewrite (prim_colon (IdEsc s)) in H. injection H as _ <-. exact N.
Qed.
Lemma p_stm_unlabelled f ts : unlabelled ts -> p_stm (S f) ts = '(i, r1) <- p_item f ts ;; Ok (TStm None [] [] i, r1).
Proof. intros U. destruct ts as [|[[]| | | | | | | |] ts]; try contradiction; try reflexivity; destruct ts as [|[[]| | | | | | | |] ts]; try contradiction; reflexivity. Qed.
Lemma p_item_x f t q : p_item (S f) (X t :: q) = p_simple (X t :: q).
Proof. reflexivity. Qed.

(** ** The head of a for loop *)
Lemma lv_ne d : lv_proper d -> 0 < length (lv d).
Proof. intros P. destruct (lv_first d P) as (t & q & -> & _). cbn. lia. Qed.
Lemma p_inits_ok l ts : w_inits l ts -> forall r n, length ts <= n -> p_inits n (ts ++ Semi :: r) = Ok (l, r).
Proof.
  induction 1 as [d e P Q|d e l ts P Q W IH]; intros r n L; rewrite app_length in L; pose proof (lv_ne d P); destruct n as [|n]; try lia; cbn [p_inits]; rewrite <- app_assoc; cbn [app].
  - destruct (lv_read d (Asg A_ASSIGN :: xs e ++ Semi :: r) P I) as (p & -> & EL & _). cbn [bind]. rewrite EL, x_expr_ok; [reflexivity|exact Q|exact I].
  - rewrite <- app_assoc. cbn [app]. destruct (lv_read d (Asg A_ASSIGN :: xs e ++ X KComma :: ts ++ Semi :: r) P I) as (p & -> & EL & _). cbn [bind]. rewrite EL, x_expr_ok; [|exact Q|exact I]. cbn [bind].
    cbn [length] in L. rewrite app_length in L. cbn [length] in L. rewrite IH by lia. reflexivity.
Qed.
Lemma p_init_ok i ts r : w_init i ts -> p_init (ts ++ Semi :: r) = Ok (i, r).
Proof.
  intros [|l q W]; [reflexivity|]. assert (E := p_inits_ok l q W r (Datatypes.S (length (q ++ Semi :: r))) ltac:(rewrite app_length; lia)).
  assert (H : exists t q', q = X t :: q') by (destruct W as [d e P Q|d e l0 q0 P Q W]; destruct (lv_first d P) as (t & q' & -> & _); eexists _, _; reflexivity).
  destruct H as (t & q' & ->). cbn [app p_init] in *. rewrite E. reflexivity.
Qed.
Lemma p_cond_ok c r : opt_proper c -> p_cond (opt_xs c ++ Semi :: r) = Ok (c, r).
Proof.
  destruct c as [e|]; [|reflexivity]. cbn [opt_proper opt_xs]. intros P. assert (E := x_expr_ok e (Semi :: r) P I). destruct (xs_first e P) as (t & q & EQ & _). rewrite EQ in *. cbn [app p_cond] in *. rewrite E. reflexivity.
Qed.
Definition after_step (r : list stk) : Prop := match r with (X KRp | X KComma) :: _ => True | _ => False end.
Lemma step_calm r : after_step r -> calm r /\ tidy r.
Proof. destruct r as [|[[]| | | | | | | |] r]; intros H; try contradiction; split; exact I. Qed.
Lemma p_step_ok s ts r : w_step s ts -> after_step r -> p_step (ts ++ r) = Ok (s, r).
Proof.
  intros W A. destruct (step_calm r A) as [C T]. destruct W as [d o e P Q|incr d P|incr d P|e P].
  - rewrite <- app_assoc. cbn [app]. destruct (lv_read_expr d (Asg o :: xs e ++ r) P I) as (p & E & L & _). destruct (lv_first d P) as (t & q & EQ & _). rewrite EQ in *. cbn [app p_step] in *. rewrite E. cbn [bind]. rewrite L, (x_expr_ok e r Q C). reflexivity.
  - cbn [app]. pose proof (p_prefix_ok incr d r P T) as E. destruct incr; cbn [inc_tok p_step]; rewrite E; reflexivity.
  - rewrite <- app_assoc. cbn [app]. destruct (lv_read_expr d (inc_tok incr :: r) P) as (p & E & L & _); [destruct incr; exact I|]. destruct (lv_first d P) as (t & q & EQ & _). rewrite EQ in *. cbn [app p_step] in *. rewrite E. cbn [bind]. destruct incr; cbn [inc_tok]; rewrite L; reflexivity.
  - pose proof (x_expr_ok e r P C) as E. destruct (xs_first e P) as (t & q & EQ & _). rewrite EQ in *. cbn [app p_step] in *. rewrite E. cbn [bind]. destruct r as [|[[]| | | | | | | |] r]; try contradiction; reflexivity.
Qed.
Lemma w_step_pos s ts : w_step s ts -> 0 < length ts.
Proof. intros [d o e P Q|incr d P|incr d P|e P]; rewrite ?app_length; cbn [length]; try lia. destruct (xs_first e P) as (t & q & -> & _). cbn. lia. Qed.
Lemma p_steps_ok l ts : w_steps l ts -> forall r n, length ts <= n -> p_steps n (ts ++ X KRp :: r) = Ok (l, r).
Proof.
  induction 1 as [s ts W|s l ts ts' W H IH]; intros r n L; pose proof (w_step_pos _ _ W); destruct n as [|n]; try (rewrite ?app_length in L; lia); cbn [p_steps].
  - rewrite (p_step_ok s ts (X KRp :: r) W I). reflexivity.
  - rewrite app_length in L. cbn [length] in L. rewrite <- app_assoc. cbn [app]. rewrite (p_step_ok s ts (X KComma :: ts' ++ X KRp :: r) W I). cbn [bind]. rewrite IH by lia. reflexivity.
Qed.
Lemma w_step_first s ts : w_step s ts -> exists t q, ts = t :: q /\ t <> X KRp.
Proof.
  intros [d o e P Q|incr d P|incr d P|e P].
  - destruct (lv_first d P) as (t & q & -> & S & _). eexists _, _. split; [reflexivity|]. intros E. injection E as ->. exact S.
  - eexists _, _. split; [reflexivity|]. destruct incr; discriminate.
  - destruct (lv_first d P) as (t & q & -> & S & _). eexists _, _. split; [reflexivity|]. intros E. injection E as ->. exact S.
  - destruct (xs_first e P) as (t & q & -> & S & _). eexists _, _. split; [reflexivity|]. intros E. injection E as ->. exact S.
Qed.
Lemma p_steps_opt_ok l ts r : w_steps_opt l ts -> p_steps_opt (ts ++ X KRp :: r) = Ok (l, r).
Proof.
  intros [|l' q W]; [reflexivity|]. assert (E := p_steps_ok l' q W r (Datatypes.S (length (q ++ X KRp :: r))) ltac:(rewrite app_length; lia)).
  assert (H : exists t q', q = t :: q' /\ t <> X KRp) by (destruct W as [s qs W|s l0 qs qs' W W']; destruct (w_step_first _ _ W) as (t & q' & -> & N); eexists _, _; (split; [reflexivity|exact N])).
  destruct H as (t & q' & -> & N). cbn [app] in *. unfold p_steps_opt. destruct t as [[]| | | | | | | |]; try exact E. contradiction.
Qed.

(** ** Names and labels *)
Lemma p_name_ok n r : no_colon r -> p_name (name_toks n ++ r) = Ok (n, r).
Proof. intros N. destruct n as [[s|s]|]; try reflexivity. cbn [name_toks app]. destruct r as [|[[]| | | | | | | |] r]; try contradiction; reflexivity. Qed.
Lemma label_cons e e' l : label_toks (e :: e' :: l) = xs e ++ X KComma :: label_toks (e' :: l).
Proof. reflexivity. Qed.
Lemma p_labels_ok l : l <> [] -> all_of proper l -> forall r n, length (label_toks l) <= n -> p_labels n (label_toks l ++ X KColon :: r) = Ok (l, r).
Proof.
  induction l as [|e l IH]; intros NE A r n L; [contradiction|]. destruct A as [P A]. destruct (xs_first e P) as (t & q & EQ & _). destruct l as [|e' l].
  - cbn [label_toks] in *. rewrite EQ in L. destruct n as [|n]; [cbn in L; lia|]. cbn [p_labels]. rewrite (x_expr_ok e (X KColon :: r) P I). reflexivity.
  - rewrite label_cons in *. rewrite app_length, EQ in L. cbn [length] in L. destruct n as [|n]; [lia|]. cbn [p_labels]. rewrite <- app_assoc. cbn [app]. rewrite x_expr_ok; [|exact P|exact I]. cbn [bind]. rewrite IH; [reflexivity|discriminate|exact A|lia].
Qed.
Lemma label_first l : l <> [] -> all_of proper l -> exists t q, label_toks l = X t :: q /\ starter t.
Proof.
  destruct l as [|e l]; intros NE A; [contradiction|]. destruct A as [P _]. destruct (xs_first e P) as (t & q & EQ & S & _). destruct l as [|e' l]; [cbn [label_toks]; eauto|]. rewrite label_cons, EQ. cbn [app]. eauto.
Qed.

(** ** Statements *)
(** What may follow a statement; [o]: an else would be taken. *)
Definition no_else (r : list stk) : Prop := match r with Kw k_else :: _ => False | _ => True end.
Definition rest_ok (o : bool) (r : list stk) : Prop := no_colon r /\ (o = true -> no_else r).
Definition stm_start (t : stk) : Prop :=
  match t with
  | X t => starter t | Semi | Inc | Dec | At | Hash => True
  | Kw (k_begin | k_fork | k_unique | k_unique0 | k_priority | k_if | k_case | k_casez | k_casex | k_forever | k_repeat | k_while | k_do | k_for | k_return | k_break | k_continue | k_void) => True
  | _ => False
  end.
Lemma start_ends t q : stm_start t -> ends_list (t :: q) = false.
Proof. destruct t as [[]| | | | | | | |[]]; intros H; try contradiction; reflexivity. Qed.
Lemma start_rest t q : stm_start t -> forall o, rest_ok o (t :: q) /\ no_scope (t :: q).
Proof. destruct t as [[]| | | | | | | |[]]; intros H; try contradiction; intros ob; repeat split; intros; exact I. Qed.
Lemma w_item_first s i ts : w_item s i ts -> exists t q, ts = t :: q /\ stm_start t.
Proof.
  destruct 1; try (eexists _, _; split; [reflexivity|exact I]);
    try (match goal with P : lv_proper ?d |- _ => destruct (lv_first d P) as (t0 & q0 & -> & S0 & _); eexists _, _; split; [reflexivity|exact S0] end).
  - destruct incr; eexists _, _; (split; [reflexivity|exact I]).
  - destruct (xs_first e H) as (t0 & q0 & -> & S0 & _); eexists _, _; split; [reflexivity|exact S0].
  - destruct u as [[]|], k; eexists _, _; (split; [reflexivity|exact I]).
  - destruct u as [[]|]; eexists _, _; (split; [reflexivity|exact I]).
  - destruct u as [[]|]; eexists _, _; (split; [reflexivity|exact I]).
  - destruct j; eexists _, _; (split; [reflexivity|exact I]).
  - destruct H; eexists _, _; (split; [reflexivity|exact I]).
  - destruct H; eexists _, _; (split; [reflexivity|exact I]).
Qed.
Lemma w_stm_first s t ts : w_stm s t ts -> exists t q, ts = t :: q /\ stm_start t.
Proof. intros []; [eexists _, _; split; [reflexivity|exact I]|exact (w_item_first _ _ _ H)|]. eexists _, _. split; [reflexivity|]. destruct n; exact I. Qed.

(** A statement never begins with a token that would be taken by what stands before it. *)
Lemma stm_rest_start b s ts r : w_stm b s ts -> forall o, rest_ok o (ts ++ r) /\ no_scope (ts ++ r).
Proof. intros W. destruct (w_stm_first _ _ _ W) as (t & q & -> & S). exact (start_rest t (q ++ r) S). Qed.
Lemma citems_first b l ts : w_citems b l ts -> forall r o, rest_ok o (ts ++ Kw k_endcase :: r).
Proof.
  intros [|es s l' q q' NE A W W'|s l' c q q' C W W'] r o; try (split; intros; exact I).
  destruct (label_first es NE A) as (t & q0 & -> & S). destruct t; try contradiction; split; intros; exact I.
Qed.
Lemma stms_first b l ts : w_stms b l ts -> forall k r o, ends_list (Kw k :: r) = true -> rest_ok o (ts ++ Kw k :: r).
Proof.
  intros [|s l' q q' W W'] k r o E; [destruct k; try discriminate E; split; intros; exact I|]. rewrite <- app_assoc. exact (proj1 (stm_rest_start _ _ _ _ W o)).
Qed.
Lemma else_skip {A : Type} (r : list stk) (x : list stk -> A) (y : A) : no_else r -> match r with Kw k_else :: r3 => x r3 | _ => y end = y.
Proof. intros N. destruct r as [|[| | | | | | | |[]] r]; try reflexivity. contradiction. Qed.
Lemma p_item_choice f u q : (exists k q', q = Kw k :: q' /\ In k [k_if; k_case; k_casez; k_casex]) -> uniq_ok u -> p_item (S f) (uniq_toks u ++ q) = p_choice f u q.
Proof. intros (k & q' & -> & K) U. destruct u as [[]|]; try contradiction; try reflexivity. cbn [uniq_toks app]. destruct K as [<-|[<-|[<-|[<-|[]]]]]; reflexivity. Qed.
Ltac sizes := repeat (rewrite app_length in * || cbn [length] in *); lia.
Ltac flat := repeat (rewrite <- app_assoc; cbn [app]).
Ltac un_lv P := let t := fresh "t" in let q := fresh "q" in let E := fresh "E" in destruct (lv_first _ P) as (t & q & E & _);
  match type of E with lv ?d = _ => match goal with |- context [p_item (Datatypes.S ?f) (lv d ++ ?r)] =>
    replace (p_item (Datatypes.S f) (lv d ++ r)) with (p_simple (lv d ++ r)) by (rewrite E; reflexivity) end end.
Section Complete.
Context (b : bool).
Definition stm_c (s : vstm) (ts : list stk) (_ : w_stm b s ts) := forall r f, rest_ok (open_if s) r -> 4 * length ts + 3 <= f -> p_stm f (ts ++ r) = Ok (s, r).
Definition item_c (i : item vstm) (ts : list stk) (_ : w_item b i ts) :=
  forall r f, rest_ok (open_if (TStm None [] [] i)) r -> 4 * length ts + 2 <= f -> unlabelled (ts ++ r) /\ p_item f (ts ++ r) = Ok (i, r).
Definition stms_c (l : list vstm) (ts : list stk) (_ : w_stms b l ts) :=
  forall k r f, ends_list (Kw k :: r) = true -> 4 * length ts + 4 <= f -> p_stms f (ts ++ Kw k :: r) = Ok (l, Kw k :: r).
Definition citems_c (l : list (citem vstm)) (ts : list stk) (_ : w_citems b l ts) :=
  forall r f, 4 * length ts + 4 <= f -> p_citems f (ts ++ Kw k_endcase :: r) = Ok (l, r).
Lemma simple_unlabelled d t r : lv_proper d -> tidy (t :: r) -> t <> X KColon -> unlabelled (lv d ++ t :: r).
Proof. intros P T N. destruct (lv_read d (t :: r) P T) as (p & E & _). apply (prim_unlabelled _ _ _ E). destruct t as [[]| | | | | | | |]; try exact I. contradiction. Qed.
Lemma complete : (forall s ts w, stm_c s ts w) /\ (forall i ts w, item_c i ts w) /\ (forall l ts w, stms_c l ts w) /\ (forall l ts w, citems_c l ts w).
Proof.
  apply (w_mutind b); unfold stm_c, item_c, stms_c, citems_c.
  - (* ; *) intros r f _ L. destruct f as [|f]; [sizes|]. reflexivity.
  - intros i ts W IH r f R L. destruct f as [|f]; [sizes|]. destruct (IH r f R ltac:(lia)) as [U E]. rewrite (p_stm_unlabelled f _ U), E. reflexivity.
  - intros n i ts W IH r f R L. cbn [length] in L. destruct f as [|f]; [sizes|]. destruct (IH r f R ltac:(lia)) as [_ E]. cbn [app]. destruct n as [s|s]; unfold id_stk; cbn [id_tok].
    + change (p_stm (Datatypes.S f) (X (KId s) :: X KColon :: ts ++ r)) with ('(i, r1) <- p_item f (ts ++ r) ;; Ok (TStm (Some (IdPlain s)) [] [] i, r1)). rewrite E. reflexivity.
    + change (p_stm (Datatypes.S f) (X (KEscId s) :: X KColon :: ts ++ r)) with ('(i, r1) <- p_item f (ts ++ r) ;; Ok (TStm (Some (IdEsc s)) [] [] i, r1)). rewrite E. reflexivity.
  - (* = *) intros d o e P Q r f _ L. destruct f as [|f]; [sizes|]. flat. split; [apply simple_unlabelled; [exact P|exact I|discriminate]|]. un_lv P. rewrite p_simple_lv; [|exact P|exact I].
    destruct o; cbn [behind_of fst]; try (rewrite x_expr_ok; [reflexivity|exact Q|exact I]). rewrite p_dectl_none by exact Q. cbn [bind]. rewrite x_expr_ok; [reflexivity|exact Q|exact I].
  - intros d c e ts P Q W r f _ L. destruct f as [|f]; [sizes|]. flat. split; [apply simple_unlabelled; [exact P|exact I|discriminate]|]. un_lv P. rewrite p_simple_lv; [|exact P|exact I]. cbn [behind_of fst].
    rewrite (p_dectl_ok c ts _ W (xs_no_scope e _ Q)). cbn [bind]. rewrite x_expr_ok; [reflexivity|exact Q|exact I].
  - intros d e P Q r f _ L. destruct f as [|f]; [sizes|]. flat. split; [apply simple_unlabelled; [exact P|exact I|discriminate]|]. un_lv P. rewrite p_simple_lv; [|exact P|exact I]. cbn [behind_of fst].
    rewrite p_dectl_none by exact Q. cbn [bind]. rewrite x_expr_ok; [reflexivity|exact Q|exact I].
  - intros d c e ts P Q W r f _ L. destruct f as [|f]; [sizes|]. flat. split; [apply simple_unlabelled; [exact P|exact I|discriminate]|]. un_lv P. rewrite p_simple_lv; [|exact P|exact I]. cbn [behind_of fst].
    rewrite (p_dectl_ok c ts _ W (xs_no_scope e _ Q)). cbn [bind]. rewrite x_expr_ok; [reflexivity|exact Q|exact I].
  - intros incr d P r f _ L. destruct f as [|f]; [sizes|]. cbn [app]. flat. split; [destruct incr; exact I|]. pose proof (p_prefix_ok incr d (Semi :: r) P I) as E.
    destruct incr; cbn [inc_tok p_item p_simple]; rewrite E; reflexivity.
  - intros incr d P r f _ L. destruct f as [|f]; [sizes|]. flat. split; [apply simple_unlabelled; [exact P|destruct incr; exact I|destruct incr; discriminate]|]. un_lv P. rewrite p_simple_lv; [|exact P|destruct incr; exact I].
    destruct incr; reflexivity.
  - intros e P S r f _ L. destruct f as [|f]; [sizes|]. flat. pose proof (x_prim_ok e (Semi :: r) P S I) as E. split; [exact (prim_unlabelled _ _ _ E I)|].
    destruct (xs_first e P) as (t & q & EQ & _). rewrite EQ in *. cbn [app] in *. rewrite p_item_x, p_simple_x, E. reflexivity.
  - intros e P r f _ L. destruct f as [|f]; [sizes|]. split; [exact I|]. cbn [app].
    change (p_item (Datatypes.S f) (Kw k_void :: Apos :: (par e ++ [Semi]) ++ r)) with ('(e, r1) <- lp_expr ((par e ++ [Semi]) ++ r) ;; p_semi (I_void e : item vstm) r1). rewrite <- app_assoc, (lp_expr_ok e _ P). reflexivity.
  - intros u k e l ts U P NE W IH r f _ L. rewrite app_length in L. cbn [length] in L. rewrite !app_length in L. destruct f as [|f]; [lia|]. destruct f as [|f]; [lia|]. rewrite <- app_assoc. cbn [app]. rewrite <- !app_assoc. cbn [app]. split; [destruct u as [[]|]; destruct k; exact I|].
    rewrite p_item_choice; [|eexists _, _; split; [reflexivity|destruct k; cbn; auto]|exact U].
    assert (E : p_citems f (ts ++ Kw k_endcase :: r) = Ok (l, r)) by (apply IH; cbn [length] in L; lia).
    destruct k; cbn [case_kw p_choice]; rewrite (lp_expr_ok e _ P); cbn [bind]; rewrite E; destruct l; (contradiction || reflexivity).
  - intros u c t ts U P W IH r f [R1 R2] L. rewrite app_length in L. cbn [length] in L. rewrite !app_length in L. destruct f as [|f]; [lia|]. destruct f as [|f]; [lia|]. rewrite <- app_assoc. cbn [app]. rewrite <- !app_assoc. split; [destruct u as [[]|]; exact I|].
    rewrite p_item_choice; [|eexists _, _; split; [reflexivity|cbn; auto]|exact U]. cbn [p_choice]. rewrite (lp_expr_ok c _ P). cbn [bind]. rewrite IH; [|split; [exact R1|intros _; exact (R2 eq_refl)]|lia]. cbn [bind].
    apply (else_skip r (fun r3 => '(e, r4) <- p_stm f r3 ;; Ok (I_if u c [] t (Some e), r4)) (Ok (I_if u c [] t None, r)) (R2 eq_refl)).
  - intros u c t e ts fs U P W IH O W2 IH2 r f [R1 R2] L. rewrite app_length in L. cbn [length] in L. rewrite !app_length in L. cbn [length] in L. destruct f as [|f]; [lia|]. destruct f as [|f]; [lia|]. rewrite <- app_assoc. cbn [app]. rewrite <- !app_assoc. cbn [app]. split; [destruct u as [[]|]; exact I|].
    rewrite p_item_choice; [|eexists _, _; split; [reflexivity|cbn; auto]|exact U]. cbn [p_choice]. rewrite (lp_expr_ok c _ P). cbn [bind]. rewrite IH; [|split; [exact I|rewrite O; discriminate]|lia]. cbn [bind]. rewrite IH2; [reflexivity|split; [exact R1|exact R2]|lia].
  - intros s ts W IH r f R L. cbn [length] in L. destruct f as [|f]; [lia|]. cbn [app]. split; [exact I|]. change (p_item (Datatypes.S f) (Kw k_forever :: ts ++ r)) with ('(b, r1) <- p_stm f (ts ++ r) ;; Ok (I_forever b, r1)). rewrite IH; [reflexivity|exact R|lia].
  - intros n s ts P W IH r f R L. cbn [length] in L. rewrite app_length in L. destruct f as [|f]; [lia|]. cbn [app]. rewrite <- app_assoc. split; [exact I|]. change (p_item (Datatypes.S f) (Kw k_repeat :: par n ++ ts ++ r)) with ('(e, r1) <- lp_expr (par n ++ ts ++ r) ;; '(b, r2) <- p_stm f r1 ;; Ok (I_repeat e b, r2)). rewrite (lp_expr_ok n _ P). cbn [bind]. rewrite IH; [reflexivity|exact R|lia].
  - intros n s ts P W IH r f R L. cbn [length] in L. rewrite app_length in L. destruct f as [|f]; [lia|]. cbn [app]. rewrite <- app_assoc. split; [exact I|]. change (p_item (Datatypes.S f) (Kw k_while :: par n ++ ts ++ r)) with ('(e, r1) <- lp_expr (par n ++ ts ++ r) ;; '(b, r2) <- p_stm f r1 ;; Ok (I_while e b, r2)). rewrite (lp_expr_ok n _ P). cbn [bind]. rewrite IH; [reflexivity|exact R|lia].
  - intros s c ts W IH P r f R L. cbn [length] in L. rewrite app_length in L. destruct f as [|f]; [lia|]. cbn [app]. rewrite <- app_assoc. cbn [app]. rewrite <- app_assoc. split; [exact I|].
    change (p_item (Datatypes.S f) (Kw k_do :: ts ++ Kw k_while :: par c ++ [Semi] ++ r)) with ('(b, r1) <- p_stm f (ts ++ Kw k_while :: par c ++ [Semi] ++ r) ;; match r1 with Kw k_while :: r2 => '(e, r3) <- lp_expr r2 ;; p_semi (I_do b e) r3 | _ => no_parse end).
    rewrite IH; [|split; intros; exact I|lia]. cbn [bind]. rewrite (lp_expr_ok c _ P). reflexivity.
  - intros i c st s is sts ts WI PC WS W IH r f R L. cbn [length] in L. rewrite app_length in L. cbn [length] in L. rewrite app_length in L. cbn [length] in L. rewrite app_length in L. cbn [length] in L. destruct f as [|f]; [lia|]. cbn [app]. rewrite <- app_assoc. cbn [app]. rewrite <- app_assoc. cbn [app]. rewrite <- app_assoc. cbn [app]. split; [exact I|].
    match goal with |- p_item (Datatypes.S f) (Kw k_for :: X KLp :: ?q) = _ => change (p_item (Datatypes.S f) (Kw k_for :: X KLp :: q)) with
      ('(i, r1) <- p_init q ;; '(c, r2) <- p_cond r1 ;; '(st, r3) <- p_steps_opt r2 ;; '(b, r4) <- p_stm f r3 ;; Ok (I_for i c st b, r4)) end.
    rewrite (p_init_ok i is _ WI). cbn [bind]. rewrite (p_cond_ok c _ PC). cbn [bind]. rewrite (p_steps_opt_ok st sts _ WS). cbn [bind]. rewrite IH; [reflexivity|exact R|lia].
  - intros e P r f _ L. destruct f as [|f]; [cbn in L; lia|]. cbn [app]. rewrite <- app_assoc. cbn [app]. split; [exact I|]. destruct e as [e|]; [|reflexivity]. cbn [opt_xs opt_proper] in *.
    pose proof (x_expr_ok e (Semi :: r) P I) as E. destruct (xs_first e P) as (t & q & EQ & _). rewrite EQ in *. cbn [app] in *. cbn [p_item]. rewrite E. reflexivity.
  - intros r f _ L. destruct f as [|f]; [cbn in L; lia|]. split; [exact I|reflexivity].
  - intros r f _ L. destruct f as [|f]; [cbn in L; lia|]. split; [exact I|reflexivity].
  - intros j n m l ts EN W IH r f [R _] L. cbn [length] in L. rewrite !app_length in L. cbn [length] in L. destruct f as [|f]; [lia|]. cbn [app]. rewrite <- !app_assoc. cbn [app]. split; [destruct j; exact I|].
    assert (EE : ends_list (Kw (close_kw j) :: name_toks m ++ r) = true) by (destruct j; reflexivity).
    assert (E := IH (close_kw j) (name_toks m ++ r) f EE ltac:(lia)). destruct (stms_first _ _ _ W (close_kw j) (name_toks m ++ r) false EE) as [C _].
    pose proof (p_name_ok n _ C) as N1. pose proof (p_name_ok m r R) as N2.
    destruct j; cbn [open_kw close_kw] in *; cbn [p_item]; rewrite N1; cbn [bind]; rewrite E; cbn [bind join_of]; rewrite N2; reflexivity.
  - intros d s ds ts WD W IH r f R L. rewrite app_length in L. destruct f as [|f]; [lia|]. rewrite <- app_assoc. destruct (p_delay_ok d ds (ts ++ r) WD) as (q & -> & E). cbn [app length] in *. split; [exact I|].
    cbn [p_item]. rewrite E. cbn [bind]. rewrite IH; [reflexivity|exact R|lia].
  - intros c s cs ts WC W IH r f R L. rewrite app_length in L. destruct f as [|f]; [lia|]. rewrite <- app_assoc. destruct (p_evctl_ok c cs (ts ++ r) WC) as (q & -> & E); [exact (proj2 (stm_rest_start _ _ _ r W false))|]. cbn [app length] in *. split; [exact I|].
    cbn [p_item]. rewrite E. cbn [bind]. rewrite IH; [reflexivity|exact R|lia].
  - intros k r f E L. destruct f as [|f]; [cbn in L; lia|]. cbn [app p_stms]. rewrite E. reflexivity.
  - intros s l ts ts' W IH W' IH' k r f E L. rewrite app_length in L. destruct (w_stm_first _ _ _ W) as (t & q & EQ & S). destruct f as [|f]; [lia|]. rewrite <- app_assoc. cbn [p_stms].
    assert (EL : ends_list (ts ++ ts' ++ Kw k :: r) = false) by (rewrite EQ; exact (start_ends t _ S)). rewrite EL. rewrite IH; [|exact (stms_first _ _ _ W' k r _ E)|lia]. cbn [bind]. rewrite EQ in L. cbn [length] in L. rewrite IH'; [reflexivity|exact E|lia].
  - intros r f L. destruct f as [|f]; [cbn in L; lia|]. reflexivity.
  - intros es s l ts ts' NE A W IH W' IH' r f L. rewrite app_length in L. cbn [length] in L. rewrite app_length in L. destruct f as [|f]; [lia|]. repeat (rewrite <- app_assoc; cbn [app]).
    pose proof (p_labels_ok es NE A (ts ++ ts' ++ Kw k_endcase :: r) (Datatypes.S (length (label_toks es ++ X KColon :: ts ++ ts' ++ Kw k_endcase :: r))) ltac:(rewrite app_length; lia)) as E.
    destruct (label_first es NE A) as (t & q & EQ & S). rewrite EQ in *. cbn [app] in *. cbn [p_citems]. rewrite E. cbn [bind]. rewrite IH; [|exact (citems_first _ _ _ W' r _)|lia]. cbn [bind]. rewrite IH'; [reflexivity|cbn [length] in L; lia].
  - intros s l c ts ts' C W IH W' IH' r f L. cbn [length] in L. rewrite !app_length in L. destruct f as [|f]; [lia|]. cbn [app]. rewrite <- !app_assoc. cbn [p_citems].
    assert (E : skip_colon (c ++ ts ++ ts' ++ Kw k_endcase :: r) = ts ++ ts' ++ Kw k_endcase :: r).
    { destruct C as [<-|[<-|[]]]; [|reflexivity]. cbn [app]. destruct (w_stm_first _ _ _ W) as (t & q & -> & S). destruct t as [[]| | | | | | | |]; try contradiction; reflexivity. }
    rewrite E. rewrite IH; [|exact (citems_first _ _ _ W' r _)|lia]. cbn [bind]. rewrite IH'; [reflexivity|lia].
Qed.
End Complete.
Theorem parse_written b s ts : w_stm b s ts -> parse_statement ts = Ok s.
Proof.
  intros W. unfold parse_statement, stm_fuel. destruct (complete b) as (C & _). pose proof (C s ts W [] (4 * length ts + 5)) as E. rewrite app_nil_r in E. rewrite E; [reflexivity|split; intros; exact I|lia].
Qed.
