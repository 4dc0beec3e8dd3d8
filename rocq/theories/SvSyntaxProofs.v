(** Proofs about the expression parser of SvSyntaxModel.v. *)
From Verif Require Import Base LitModel AstModel SvExprModel SvSyntaxModel SvSyntaxSpec.

(** ** One step *)
Lemma p_expr_S f p ts : p_expr (S f) p ts =
  match ts with
  | KOp o :: r =>
      match un_of o with
      | Some u => '(e, r') <- p_prim f r ;; p_loop f p (VUnary u e) r'
      | None => no_parse
      end
  | _ => '(e, r') <- p_prim f ts ;; p_loop f p e r'
  end.
Proof. reflexivity. Qed.
Lemma p_loop_S f p lhs ts : p_loop (S f) p lhs ts =
      match ts with
      | KOp o :: r =>
          match bin_of o with
          | Some b =>
              if (p <=? bin_prec b) && negb (starts_colon r)
              then '(e, r') <- p_expr f (bin_next b) r ;; p_loop f p (VBinary b lhs e) r'
              else Ok (lhs, ts)
          | None => Ok (lhs, ts)
          end
      | KAnd3 :: r =>
          if p <=? alt_prec and3_alt then '(e, r') <- p_expr f 0 r ;; p_loop f p (VTripleAnd lhs e) r' else Ok (lhs, ts)
      | KQuest :: r =>
          if p <=? alt_prec cond_alt then
            '(a, r1) <- p_expr f 0 r ;;
            match r1 with
            | KColon :: r2 => '(b, r3) <- p_expr f (alt_prec cond_alt) r2 ;; p_loop f p (VTernary lhs a b) r3
            | _ => no_parse
            end
          else Ok (lhs, ts)
      | _ => Ok (lhs, ts)
      end.
Proof. reflexivity. Qed.
Lemma p_prim_S f ts : p_prim (S f) ts =
      match ts with
      | KId s :: r => let '(e, r') := path_from (IdPlain s) r in p_suffix f e r'
      | KEscId s :: r => let '(e, r') := path_from (IdEsc s) r in p_suffix f e r'
      | KUnsigned s :: KBased t :: r => p_suffix f (VLit (L_NUMBER (TokBased (Some s) t))) r
      | KUnsigned s :: r => p_suffix f (VLit (L_NUMBER (TokUnsigned s))) r
      | KBased t :: r => p_suffix f (VLit (L_NUMBER (TokBased None t))) r
      | KSized t :: r => p_suffix f (VLit (L_NUMBER (TokSized t))) r
      | KReal t :: r => p_suffix f (VLit (L_REAL t)) r
      | KString t :: r => p_suffix f (VLit (L_STRING t)) r
      | KUnbased t :: r => p_suffix f (VLit (L_UNBASED t)) r
      | KTime t :: r => p_suffix f (VLit (L_TIME t)) r
      | KNull :: r => p_suffix f (VLit L_NULL) r
      | KDolar :: r => p_suffix f (VLit L_DOLAR) r
      | KLp :: r =>
          '(e, r1) <- p_expr f 0 r ;;
          match r1 with
          | KRp :: r2 => p_suffix f (VPar e None) r2
          | KColon :: r2 =>
              '(t, r3) <- p_expr f 0 r2 ;;
              match r3 with
              | KColon :: r4 =>
                  '(m, r5) <- p_expr f 0 r4 ;;
                  match r5 with KRp :: r6 => p_suffix f (VPar e (Some (t, m))) r6 | _ => no_parse end
              | _ => no_parse
              end
          | _ => no_parse
          end
      | KLb :: r => '(e, r') <- p_cat f r ;; p_suffix f e r'
      | _ => no_parse
      end.
Proof. reflexivity. Qed.
Lemma p_suffix_S f lhs ts : p_suffix (S f) lhs ts =
      match ts with
      | KDot :: KId s :: r => p_suffix f (VDot lhs (IdPlain s)) r
      | KDot :: KEscId s :: r => p_suffix f (VDot lhs (IdEsc s)) r
      | KLs :: r =>
          '(a, r1) <- p_expr f 0 r ;;
          match r1 with
          | KRs :: r2 => p_suffix f (VBitSelect lhs a) r2
          | KColon :: r2 => '(b, r3) <- p_expr f 0 r2 ;; match r3 with KRs :: r4 => p_suffix f (VRange lhs R_COLON a b) r4 | _ => no_parse end
          | KOp S_PLUS :: KColon :: r2 => '(b, r3) <- p_expr f 0 r2 ;; match r3 with KRs :: r4 => p_suffix f (VRange lhs R_PLUS a b) r4 | _ => no_parse end
          | KOp S_MINUS :: KColon :: r2 => '(b, r3) <- p_expr f 0 r2 ;; match r3 with KRs :: r4 => p_suffix f (VRange lhs R_MINUS a b) r4 | _ => no_parse end
          | _ => no_parse
          end
      | KLp :: r => '(l, r') <- p_args f false r ;; p_suffix f (VCall lhs None (args_of l) None) r'
      | _ => Ok (lhs, ts)
      end.
Proof. reflexivity. Qed.
Lemma p_cat_S f ts : p_cat (S f) ts =
      ('(e, r1) <- p_expr f 0 ts ;;
      match r1 with
      | KRb :: r2 => Ok (VConcat [e], r2)
      | KComma :: r2 => '(l, r3) <- p_list f r2 ;; Ok (VConcat (e :: l), r3)
      | KLb :: r2 => '(c, r3) <- p_cat f r2 ;; match r3 with KRb :: r4 => Ok (VRepl e c, r4) | _ => no_parse end
      | _ => no_parse
      end).
Proof. reflexivity. Qed.
Lemma p_list_S f ts : p_list (S f) ts =
      ('(e, r1) <- p_expr f 0 ts ;;
      match r1 with
      | KRb :: r2 => Ok ([e], r2)
      | KComma :: r2 => '(l, r3) <- p_list f r2 ;; Ok (e :: l, r3)
      | _ => no_parse
      end).
Proof. reflexivity. Qed.
Lemma p_args_S f after ts : p_args (S f) after ts =
      match ts with
      | KRp :: r => Ok ([], r)
      | KComma :: r => '(l, r') <- p_args f false r ;; Ok (AComma :: l, r')
      | _ =>
          if after then no_parse
          else '(e, r1) <- p_expr f 0 ts ;; '(l, r') <- p_args f true r1 ;; Ok (AExpr e :: l, r')
      end.
Proof. reflexivity. Qed.

(** ** More fuel gives the same *)
Definition keeps {A} (f : nat -> outcome A) (n : nat) : Prop := f n <> OutOfFuel -> f (S n) = f n.
Lemma bind_keeps {A B} (f : nat -> outcome A) (k : nat -> A -> outcome B) n :
  keeps f n -> (forall a, keeps (fun n => k n a) n) -> keeps (fun n => bind (f n) (k n)) n.
Proof. unfold keeps. intros Hf Hk H. destruct (f n) eqn:E; try (rewrite Hf by discriminate; cbn [bind]; reflexivity); [rewrite Hf by discriminate; cbn [bind] in *; apply Hk, H|cbn [bind] in H; congruence]. Qed.
Lemma const_keeps {A} (x : outcome A) n : keeps (fun _ => x) n.
Proof. intros _. reflexivity. Qed.
Ltac kp :=
  repeat match goal with
  | H : forall _, _ |- keeps (fun n => p_expr n _ _) _ => apply H
  | H : forall _, _ |- keeps (fun n => p_loop n _ _ _) _ => apply H
  | H : forall _, _ |- keeps (fun n => p_prim n _) _ => apply H
  | H : forall _, _ |- keeps (fun n => p_suffix n _ _) _ => apply H
  | H : forall _, _ |- keeps (fun n => p_cat n _) _ => apply H
  | H : forall _, _ |- keeps (fun n => p_list n _) _ => apply H
  | H : forall _, _ |- keeps (fun n => p_args n _ _) _ => apply H
  | |- keeps (fun n => bind _ _) _ => apply bind_keeps
  | |- forall _, _ => intro
  | |- keeps (fun n => match ?x with _ => _ end) _ => destruct x
  | |- keeps (fun n => _) _ => apply const_keeps
  end.
Theorem fuel_step n :
  (forall p ts, keeps (fun n => p_expr n p ts) n) /\ (forall p e ts, keeps (fun n => p_loop n p e ts) n)
  /\ (forall ts, keeps (fun n => p_prim n ts) n) /\ (forall e ts, keeps (fun n => p_suffix n e ts) n)
  /\ (forall ts, keeps (fun n => p_cat n ts) n) /\ (forall ts, keeps (fun n => p_list n ts) n)
  /\ (forall b ts, keeps (fun n => p_args n b ts) n).
Proof.
  induction n as [|n (I1 & I2 & I3 & I4 & I5 & I6 & I7)].
  - repeat split; intros; intros H; exfalso; apply H; reflexivity.
  - repeat split; intros.
    + change (keeps (fun m => p_expr (S m) p ts) n). cbn [p_expr]. kp.
    + change (keeps (fun m => p_loop (S m) p e ts) n). cbn [p_loop]. kp.
    + change (keeps (fun m => p_prim (S m) ts) n). cbn [p_prim]. kp.
    + change (keeps (fun m => p_suffix (S m) e ts) n). cbn [p_suffix]. kp.
    + change (keeps (fun m => p_cat (S m) ts) n). cbn [p_cat]. kp.
    + change (keeps (fun m => p_list (S m) ts) n). cbn [p_list]. kp.
    + change (keeps (fun m => p_args (S m) b ts) n). cbn [p_args]. kp.
Qed.
Lemma fuel_more {A} (f : nat -> outcome A) : (forall n, keeps f n) -> forall n m x, n <= m -> f n = x -> x <> OutOfFuel -> f m = x.
Proof. intros K n m x L E N. induction L as [|m L IH]; [exact E|]. rewrite <- IH. apply K. rewrite IH. exact N. Qed.

(** All cases of one step of a successful run. *)
Ltac split_run H :=
  repeat match type of H with
  | bind ?m _ = Ok _ => let E := fresh "E" in destruct m as [[? ?]| | |] eqn:E; cbn [bind] in H; [|discriminate H|discriminate H|discriminate H]
  | (match ?x with _ => _ end) = Ok _ => let E := fresh "M" in tryif is_var x then destruct x else destruct x eqn:E; try discriminate H
  | no_parse = Ok _ => discriminate H
  | Ok _ = Ok _ => injection H; clear H; intros; subst
  end.
Lemma more_items_app ts l r : more_items ts = (l, r) -> ts = List.concat (map (fun x => [KColon2; id_tok (fst x)]) l) ++ r /\ Forall (fun x => snd x = None) l.
Proof.
  revert l r. assert (G : forall n, length ts <= n -> forall l r, more_items ts = (l, r) -> ts = List.concat (map (fun x => [KColon2; id_tok (fst x)]) l) ++ r /\ Forall (fun x => snd x = None) l).
  - intros n. revert ts. induction n as [|n IH]; intros ts L l r H.
    + destruct ts; [|cbn in L; lia]. injection H as <- <-. split; [reflexivity|constructor].
    + destruct ts as [|[] [|[] ts]]; cbn [more_items] in H; try (injection H as <- <-; split; [reflexivity|constructor]);
        (destruct (more_items ts) as [l' r'] eqn:E; injection H as <- <-; apply IH in E as [-> F]; [|cbn in L; lia]; split; [reflexivity|constructor; [reflexivity|exact F]]).
  - exact (G _ (le_n _)).
Qed.
Lemma path_from_app i ts e r : path_from i ts = (e, r) ->
  exists l, e = VPath (VPathOf false H_none ((i, None) :: l)) /\ ts = List.concat (map (fun x => [KColon2; id_tok (fst x)]) l) ++ r /\ Forall (fun x => snd x = None) l.
Proof. unfold path_from. destruct (more_items ts) as [l r'] eqn:E. intros H. injection H as <- <-. apply more_items_app in E as [E F]. eauto. Qed.
Lemma path_from_length i ts e r : path_from i ts = (e, r) -> length r <= length ts.
Proof. intros H. apply path_from_app in H as (l & _ & -> & _). rewrite app_length. lia. Qed.

(** ** Every call takes tokens *)
Theorem shorter n :
  (forall p ts e r, p_expr n p ts = Ok (e, r) -> length r < length ts)
  /\ (forall p a ts e r, p_loop n p a ts = Ok (e, r) -> length r <= length ts)
  /\ (forall ts e r, p_prim n ts = Ok (e, r) -> length r < length ts)
  /\ (forall a ts e r, p_suffix n a ts = Ok (e, r) -> length r <= length ts)
  /\ (forall ts e r, p_cat n ts = Ok (e, r) -> length r < length ts)
  /\ (forall ts l r, p_list n ts = Ok (l, r) -> length r < length ts)
  /\ (forall b ts l r, p_args n b ts = Ok (l, r) -> length r < length ts).
Proof.
  induction n as [|n (I1 & I2 & I3 & I4 & I5 & I6 & I7)]; [repeat split; intros; discriminate|].
  Ltac lens := repeat match goal with
    | I : forall _, _, E : p_expr _ _ _ = Ok _ |- _ => apply I in E
    | I : forall _, _, E : p_loop _ _ _ _ = Ok _ |- _ => apply I in E
    | I : forall _, _, E : p_prim _ _ = Ok _ |- _ => apply I in E
    | I : forall _, _, E : p_suffix _ _ _ = Ok _ |- _ => apply I in E
    | I : forall _, _, E : p_cat _ _ = Ok _ |- _ => apply I in E
    | I : forall _, _, E : p_list _ _ = Ok _ |- _ => apply I in E
    | I : forall _, _, E : p_args _ _ _ = Ok _ |- _ => apply I in E
    | E : path_from _ _ = _ |- _ => apply path_from_length in E
    end; cbn [length] in *; try lia.
  repeat split; intros; rename H into H0.
  - rewrite p_expr_S in H0. split_run H0; lens.
  - rewrite p_loop_S in H0. split_run H0; lens.
  - rewrite p_prim_S in H0. split_run H0; lens.
  - rewrite p_suffix_S in H0. split_run H0; lens.
  - rewrite p_cat_S in H0. split_run H0; lens.
  - rewrite p_list_S in H0. split_run H0; lens.
  - rewrite p_args_S in H0. split_run H0; lens.
Qed.

(** ** The fuel suffices *)
Theorem enough_fuel n :
  (forall p ts, 4 * length ts + 3 <= n -> p_expr n p ts <> OutOfFuel)
  /\ (forall p a ts, 4 * length ts + 1 <= n -> p_loop n p a ts <> OutOfFuel)
  /\ (forall ts, 4 * length ts + 2 <= n -> p_prim n ts <> OutOfFuel)
  /\ (forall a ts, 4 * length ts + 1 <= n -> p_suffix n a ts <> OutOfFuel)
  /\ (forall ts, 4 * length ts + 4 <= n -> p_cat n ts <> OutOfFuel)
  /\ (forall ts, 4 * length ts + 4 <= n -> p_list n ts <> OutOfFuel)
  /\ (forall b ts, 4 * length ts + 4 <= n -> p_args n b ts <> OutOfFuel).
Proof.
  induction n as [|n (I1 & I2 & I3 & I4 & I5 & I6 & I7)]; [repeat split; intros; lia|].
  pose proof (shorter n) as (J1 & J2 & J3 & J4 & J5 & J6 & J7).
  Ltac stuck H :=
    repeat match type of H with
    | bind ?m _ = OutOfFuel => let E := fresh "E" in destruct m as [[? ?]| | |] eqn:E; cbn [bind] in H; try discriminate H
    | (match ?x with _ => _ end) = OutOfFuel => let E := fresh "M" in tryif is_var x then destruct x else destruct x eqn:E; try discriminate H
    | no_parse = OutOfFuel => discriminate H
    end.
  Ltac runs_out := repeat match goal with
    | I : forall _, _, E : ?x = Ok _ |- _ => lazymatch x with path_from _ _ => fail | _ => apply I in E end
    | E : path_from _ _ = _ |- _ => apply path_from_length in E
    end; cbn [length] in *;
    match goal with
    | I : forall _, _, E : ?x = OutOfFuel |- False => refine (I _ _ E); cbn [length]; lia
    | I : forall _, _, E : ?x = OutOfFuel |- False => refine (I _ _ _ E); cbn [length]; lia
    | I : forall _, _, E : ?x = OutOfFuel |- False => refine (I _ _ _ _ E); cbn [length]; lia
    end.
  repeat split; intros; intros H0.
  - rewrite p_expr_S in H0. stuck H0; runs_out.
  - rewrite p_loop_S in H0. stuck H0; runs_out.
  - rewrite p_prim_S in H0. stuck H0; runs_out.
  - rewrite p_suffix_S in H0. stuck H0; runs_out.
  - rewrite p_cat_S in H0. stuck H0; runs_out.
  - rewrite p_list_S in H0. stuck H0; runs_out.
  - rewrite p_args_S in H0. stuck H0; runs_out.
Qed.

(** ** Both tables agree *)
Definition up (s : nat) : nat := if s <=? 2 then s else if s <=? 8 then s + 1 else s + 2.
Lemma up_prec o : bin_prec o = up (strength o).
Proof. destruct o; reflexivity. Qed.
Lemma right_same o : right_assoc o = to_the_right o.
Proof. destruct o; reflexivity. Qed.
Lemma up_le a b : a <= b <-> up a <= up b.
Proof. unfold up. destruct (Nat.leb_spec a 2), (Nat.leb_spec a 8), (Nat.leb_spec b 2), (Nat.leb_spec b 8); lia. Qed.
Lemma up_lt a b : a < b <-> up a < up b.
Proof. unfold up. destruct (Nat.leb_spec a 2), (Nat.leb_spec a 8), (Nat.leb_spec b 2), (Nat.leb_spec b 8); lia. Qed.
Lemma strength_right o : to_the_right o = true -> strength o = 1.
Proof. destruct o; intros H; try discriminate; reflexivity. Qed.
Lemma strength_left o : to_the_right o = false -> 3 <= strength o <= 13.
Proof. destruct o; intros H; try discriminate; cbn; lia. Qed.
Lemma bin_of_sym o b : bin_of o = Some b <-> o = bin_sym b.
Proof. split; [destruct o; intros H; try discriminate; injection H as <-; reflexivity|intros ->; destruct b; reflexivity]. Qed.
Lemma un_of_sym o u : un_of o = Some u <-> o = un_sym u.
Proof. split; [destruct o; intros H; try discriminate; injection H as <-; reflexivity|intros ->; destruct u; reflexivity]. Qed.

Definition alevel (e : vexpr) : nat := up (strength_of e).
(** The precedence of the operator at the start of the tokens. *)
Definition head_prec (ts : list tok) : nat :=
  match ts with
  | KOp o :: r => match bin_of o with Some b => if starts_colon r then 0 else bin_prec b | None => 0 end
  | KAnd3 :: _ => 3
  | KQuest :: _ => 2
  | _ => 0
  end.
(** The strongest operator that may follow an expression. *)
Definition tight (e : vexpr) : nat :=
  match e with VBinary o _ _ => if to_the_right o then 0 else alevel e | VTernary _ _ _ => 1 | _ => alevel e end.
Definition follow (e : vexpr) (ts : list tok) : Prop := head_prec ts <= tight e.
Definition stop (p : nat) (ts : list tok) : Prop := head_prec ts < p \/ head_prec ts = 0.
Lemma bin_prec_pos o : 0 < bin_prec o.
Proof. destruct o; cbn; lia. Qed.
Lemma no_and3_app (a b : list tok) : ~ In KAnd3 (a ++ b) -> ~ In KAnd3 b.
Proof. intros H N. apply H, in_or_app. auto. Qed.
Lemma stop_0 ts : stop 0 ts -> head_prec ts = 0.
Proof. intros [H|H]; lia. Qed.
Lemma tight_le e : tight e <= alevel e.
Proof. unfold tight. destruct e; try lia; [destruct (to_the_right o); lia|unfold alevel; cbn; lia]. Qed.
(** Joining an operand, an operator and an operand. *)
Lemma binary_proper b lhs e r : proper lhs -> proper e -> bin_prec b <= tight lhs -> bin_next b <= alevel e -> stop (bin_next b) r ->
  proper (VBinary b lhs e) /\ follow (VBinary b lhs e) r.
Proof.
  intros P1 P2 T N H. unfold bin_next in *. rewrite right_same in *. pose proof (tight_le lhs). destruct (to_the_right b) eqn:R.
  - pose proof (strength_right b R) as ER. rewrite up_prec, ER in *. split.
    + cbn [proper]. rewrite R, ER. split; [exact P1|]. split; [exact P2|]. split.
      * destruct (to_the_right b); [|discriminate]. apply up_lt. change (alevel lhs) with (up (strength_of lhs)) in *. change (up 1) with 1 in *.
        destruct lhs; cbn [strength_of]; try (unfold up; cbn; lia); cbn [tight] in T; [|cbn in T; lia].
        destruct (to_the_right o) eqn:O; [lia|]. pose proof (strength_left o O). unfold up. destruct (Nat.leb_spec (strength o) 2); [lia|]. destruct (strength o <=? 8); lia.
      * apply up_le. exact N.
    + unfold follow, tight. rewrite R. destruct H as [H|H]; [change (up 1) with 1 in H; lia|lia].
  - split.
    + cbn [proper]. rewrite R. split; [exact P1|]. split; [exact P2|]. rewrite up_prec in *. split; [apply up_le|apply up_lt]; unfold alevel in *; lia.
    + unfold follow, tight. rewrite R. unfold alevel. cbn [strength_of]. rewrite up_prec in *. destruct H as [H|H]; lia.
Qed.
Lemma path_show i l : show (VPath (VPathOf false H_none ((i, None) :: l))) = id_tok i :: List.concat (map (fun x => [KColon2; id_tok (fst x)]) l).
Proof.
  cbn [show]. revert i. induction l as [|[j o] l IH]; intros i; [reflexivity|]. change (path_toks ((i, None) :: (j, o) :: l)) with (id_tok i :: KColon2 :: path_toks ((j, o) :: l)).
  cbn [map List.concat fst app]. f_equal. f_equal. exact (IH j).
Qed.

(** ** What the parser gives *)
Lemma head_prec_max ts : head_prec ts <= 15.
Proof. destruct ts as [|[] r]; cbn [head_prec]; try lia. destruct (bin_of o) as [b|]; [|lia]. destruct (starts_colon r); [lia|]. destruct b; cbn; lia. Qed.
Lemma bin_next_max b : bin_next b <= 16.
Proof. destruct b; cbn; lia. Qed.
Lemma ternary_proper c a b r : proper c -> proper a -> proper b -> 2 <= tight c -> 2 <= alevel b -> stop 2 r ->
  proper (VTernary c a b) /\ follow (VTernary c a b) r.
Proof.
  intros P1 P2 P3 T N H. split.
  - cbn [proper]. split; [exact P1|]. split; [exact P2|]. split; [exact P3|]. split; [|apply up_le; exact N].
    destruct c; cbn [strength_of]; try lia; cbn [tight] in T; try (cbn in T; lia).
    destruct (to_the_right o) eqn:O; [lia|]. pose proof (strength_left o O). lia.
  - unfold follow. cbn [tight]. destruct H; lia.
Qed.
Lemma loop_stop p ts : p <= 16 -> (p <=? head_prec ts) = false -> stop p ts.
Proof. intros L H. apply Nat.leb_gt in H. left. exact H. Qed.

Theorem parse_sound n :
  (forall p ts e r, p_expr n p ts = Ok (e, r) -> ~ In KAnd3 ts -> p <= 16 -> ts = show e ++ r /\ proper e /\ p <= alevel e /\ stop p r /\ follow e r)
  /\ (forall p a ts e r, p_loop n p a ts = Ok (e, r) -> ~ In KAnd3 ts -> p <= 16 -> proper a -> p <= alevel a -> follow a ts ->
       show a ++ ts = show e ++ r /\ proper e /\ p <= alevel e /\ stop p r /\ follow e r)
  /\ (forall ts e r, p_prim n ts = Ok (e, r) -> ~ In KAnd3 ts -> ts = show e ++ r /\ proper e /\ strength_of e = 15)
  /\ (forall a ts e r, p_suffix n a ts = Ok (e, r) -> ~ In KAnd3 ts -> proper a -> strength_of a = 15 -> show a ++ ts = show e ++ r /\ proper e /\ strength_of e = 15)
  /\ (forall ts e r, p_cat n ts = Ok (e, r) -> ~ In KAnd3 ts -> KLb :: ts = show e ++ r /\ proper e /\ match e with VConcat _ | VRepl _ _ => True | _ => False end)
  /\ (forall ts l r, p_list n ts = Ok (l, r) -> ~ In KAnd3 ts -> ts = comma_toks show l ++ KRb :: r /\ all_of proper l /\ l <> [])
  /\ (forall b ts l r, p_args n b ts = Ok (l, r) -> ~ In KAnd3 ts ->
       ts = arg_toks show l ++ KRp :: r /\ separated l /\ all_args proper l /\ (b = true -> forall e l', l <> AExpr e :: l')).
Proof.
  induction n as [|n (I1 & I2 & I3 & I4 & I5 & I6 & I7)]; [repeat split; intros; discriminate|].
  (* what is known of the inner calls, in order *)
  Ltac no3 := match goal with N : ~ In KAnd3 _ |- ~ In KAnd3 _ => let H := fresh in intros H; apply N; repeat (rewrite in_app_iff || cbn [In]); tauto end.
  Ltac use I1 I5 I6 I7 := repeat match goal with
    | E : p_expr _ 0 _ = Ok _ |- _ => apply I1 in E as (-> & ? & _ & ? & _); [|no3|lia]
    | E : p_cat _ _ = Ok _ |- _ => apply I5 in E as (E & ? & ?); [|no3]
    | E : p_list _ _ = Ok _ |- _ => apply I6 in E as (-> & ? & ?); [|no3]
    | E : p_args _ _ _ = Ok _ |- _ => apply I7 in E as (-> & ? & ? & ?); [|no3]
    end.
  split; [|split; [|split; [|split; [|split; [|split]]]]].
  - intros p ts e r H N LP. rewrite p_expr_S in H.
    assert (G : forall a r', p_prim n ts = Ok (a, r') -> p_loop n p a r' = Ok (e, r) -> ts = show e ++ r /\ proper e /\ p <= alevel e /\ stop p r /\ follow e r).
    { intros a r' E1 E2. apply I3 in E1 as (-> & P & S15); [|exact N].
      assert (AL : alevel a = 17) by (unfold alevel; rewrite S15; reflexivity).
      assert (TI : tight a = 17) by (destruct a; try exact AL; [|discriminate]; unfold alevel in AL; cbn in AL; destruct o; discriminate).
      apply I2 in E2; [exact E2|exact (no_and3_app _ _ N)|exact LP|exact P|lia|]. unfold follow. pose proof (head_prec_max r'). lia. }
    assert (G2 : forall o rr, ts = KOp o :: rr -> ts = show e ++ r /\ proper e /\ p <= alevel e /\ stop p r /\ follow e r).
    { intros o rr ->. destruct (un_of o) as [u|] eqn:U; [|discriminate]. split_run H. apply un_of_sym in U. subst o.
      apply I3 in E as (-> & P & S15); [|no3]. apply I2 in H; [exact H|no3|exact LP|split; assumption|change (alevel (VUnary u v)) with 16; lia|].
      unfold follow. pose proof (head_prec_max l). change (tight (VUnary u v)) with 16. lia. }
    assert (B : ('(a, r') <- p_prim n ts ;; p_loop n p a r') = Ok (e, r) -> ts = show e ++ r /\ proper e /\ p <= alevel e /\ stop p r /\ follow e r).
    { clear H. intros H. destruct (p_prim n ts) as [[a r']| | |] eqn:E; try discriminate. exact (G a r' eq_refl H). }
    destruct ts as [|[] ts]; try exact (B H). eapply G2. reflexivity.
  - intros p a ts e r H N LP PA LA F. rewrite p_loop_S in H.
    assert (G : head_prec ts = 0 \/ (p <=? head_prec ts) = false -> Ok (a, ts) = Ok (e, r) -> show a ++ ts = show e ++ r /\ proper e /\ p <= alevel e /\ stop p r /\ follow e r).
    { intros Q E. injection E as <- <-. repeat split; try assumption. destruct Q as [Q|Q]; [right; exact Q|apply loop_stop; assumption]. }
    destruct ts as [|[] ts]; try (apply G; [left; reflexivity|exact H]).
    + destruct (bin_of o) as [b|] eqn:B; [|apply G; [left; cbn [head_prec]; rewrite B; reflexivity|exact H]].
      destruct (starts_colon ts) eqn:SC; [rewrite andb_false_r in H; apply G; [left; cbn [head_prec]; rewrite B, SC; reflexivity|exact H]|].
      rewrite andb_true_r in H. assert (HP : head_prec (KOp o :: ts) = bin_prec b) by (cbn [head_prec]; rewrite B, SC; reflexivity).
      destruct (p <=? bin_prec b) eqn:LE; [|apply G; [right; rewrite HP; exact LE|exact H]].
      split_run H. apply bin_of_sym in B. subst o. apply I1 in E as (-> & P & LN & ST & FO); [|no3|apply bin_next_max].
      destruct (binary_proper b a v l PA P) as [PB FB]; [unfold follow in F; rewrite HP in F; exact F|exact LN|exact ST|].
      apply I2 in H; [|no3|exact LP|exact PB|unfold alevel; cbn [strength_of]; rewrite <- up_prec; apply Nat.leb_le, LE|exact FB].
      cbn [show] in H. rewrite <- app_assoc in H. exact H.
    + exfalso. apply N. left. reflexivity.
    + change (alt_prec cond_alt) with 2 in H. destruct (p <=? 2) eqn:LE; [|apply G; [right; exact LE|exact H]].
      split_run H. apply I1 in E as (-> & P & LN & ST & FO); [|no3|lia]. apply I1 in E0 as (-> & P0 & LN0 & ST0 & FO0); [|no3|lia].
      assert (T3 : forall l, stop 2 l -> proper (VTernary a v v0) /\ follow (VTernary a v v0) l) by (intros q Q; apply ternary_proper; assumption).
      destruct (T3 _ ST0) as [PT FT].
      apply I2 in H; [|no3|exact LP|exact PT|apply Nat.leb_le, LE|exact FT].
      cbn [show] in H. rewrite <- app_assoc in H. cbn [app] in H. rewrite <- app_assoc in H. exact H.
  - intros ts e r H N. rewrite p_prim_S in H.
    Ltac lit I4 := match goal with H : p_suffix _ ?a _ = Ok _ |- _ => apply I4 in H; [exact H|no3|try discriminate; auto|reflexivity] end.
    split_run H; try lit I4.
    + apply path_from_app in M as (pl & -> & -> & FN). apply I4 in H; [|no3|split; [discriminate|constructor; auto]|reflexivity]. rewrite path_show in H. exact H.
    + apply path_from_app in M as (pl & -> & -> & FN). apply I4 in H; [|no3|split; [discriminate|constructor; auto]|reflexivity]. rewrite path_show in H. exact H.
    + use I1 I5 I6 I7. apply I4 in H; [|no3|assumption|reflexivity]. cbn [show] in H. destruct H as (<- & H). split; [|exact H].
      cbn [app]. rewrite <- app_assoc. reflexivity.
    + use I1 I5 I6 I7. apply I4 in H; [|no3|cbn; auto|reflexivity]. cbn [show] in H. destruct H as (<- & H). split; [|exact H].
      cbn [app]. repeat (rewrite <- app_assoc; cbn [app]). reflexivity.
    + use I1 I5 I6 I7. rewrite E in N |- *. apply I4 in H; [|no3|assumption|destruct v; try contradiction; reflexivity]. destruct H as (<- & H). split; [reflexivity|exact H].
  - intros a ts e r H N PA SA. rewrite p_suffix_S in H.
    split_run H; try (split; [reflexivity|split; assumption]);
      use I1 I5 I6 I7; (apply I4 in H; [|no3|cbn [proper]; auto|reflexivity]).
    all: try (destruct H as (<- & H); split; [|exact H]; cbn [show range_toks]; repeat (rewrite <- app_assoc; cbn [app]); reflexivity).
    + destruct l as [|x l].
      * destruct H as (<- & H). split; [|exact H]. cbn [show args_of arg_toks app]. rewrite <- app_assoc. reflexivity.
      * destruct H as (<- & H). split; [|exact H]. cbn [show args_of]. repeat (rewrite <- app_assoc; cbn [app]). reflexivity.
    + destruct l as [|x l]; cbn [args_of]; repeat split; auto; discriminate.
  - intros ts e r H N. rewrite p_cat_S in H. split_run H; use I1 I5 I6 I7.
    + cbn [show proper]. split; [|auto]. cbn [app]. rewrite E0. repeat (rewrite <- app_assoc; cbn [app]). reflexivity.
    + cbn [show comma_toks proper all_of app]. rewrite <- app_assoc. split; [reflexivity|]. split; [split; [discriminate|auto]|exact I].
    + destruct l0; [contradiction|]. cbn [proper all_of]. split; [|split; [split; [discriminate|auto]|exact I]].
      change (show (VConcat (v :: v0 :: l0))) with (KLb :: (show v ++ KComma :: comma_toks show (v0 :: l0)) ++ [KRb]). cbn [app]. repeat (rewrite <- app_assoc; cbn [app]). reflexivity.
  - intros ts l r H N. rewrite p_list_S in H. split_run H; use I1 I5 I6 I7.
    + cbn [comma_toks all_of]. split; [reflexivity|]. split; [auto|discriminate].
    + destruct l1; [contradiction|]. cbn [all_of]. split; [|split; [auto|discriminate]].
      change (comma_toks show (v :: v0 :: l1)) with (show v ++ KComma :: comma_toks show (v0 :: l1)). repeat (rewrite <- app_assoc; cbn [app]). reflexivity.
  - intros b ts l r H N. rewrite p_args_S in H.
    assert (G : (if b then no_parse else '(e, r1) <- p_expr n 0 ts ;; '(l, r') <- p_args n true r1 ;; Ok (AExpr e :: l, r')) = Ok (l, r) ->
      ts = arg_toks show l ++ KRp :: r /\ separated l /\ all_args proper l /\ (b = true -> forall e l', l <> AExpr e :: l')).
    { clear H. intros H. destruct b; [discriminate|]. split_run H. use I1 I5 I6 I7. cbn [arg_toks all_args]. split; [rewrite <- app_assoc; reflexivity|]. split; [|split; [auto|discriminate]].
      match goal with |- separated (AExpr _ :: ?q) => destruct q as [|[] ?]; cbn [separated]; auto end.
      match goal with Q : true = true -> _ |- _ => eapply (Q eq_refl); reflexivity end. }
    destruct ts as [|[] ts]; try exact (G H); clear G.
    + injection H as <- <-. split; [reflexivity|]. split; [exact I|]. split; [exact I|discriminate].
    + split_run H. use I1 I5 I6 I7. cbn [arg_toks separated all_args]. split; [reflexivity|]. split; [auto|]. split; [auto|discriminate].
Qed.

(** ** Every proper expression is parsed *)
Definition can {A} (f : nat -> outcome A) (x : A) : Prop := exists n, f n = Ok x.
Lemma can_from {A} (f : nat -> outcome A) x : (forall n, keeps f n) -> can f x -> exists n, forall m, n <= m -> f m = Ok x.
Proof. intros K [n H]. exists n. intros m L. eapply (fuel_more f K n m); [exact L|exact H|discriminate]. Qed.
Lemma k_expr p ts : forall n, keeps (fun n => p_expr n p ts) n. Proof. intros n. apply (fuel_step n). Qed.
Lemma k_loop p e ts : forall n, keeps (fun n => p_loop n p e ts) n. Proof. intros n. apply (fuel_step n). Qed.
Lemma k_prim ts : forall n, keeps (fun n => p_prim n ts) n. Proof. intros n. apply (fuel_step n). Qed.
Lemma k_suffix e ts : forall n, keeps (fun n => p_suffix n e ts) n. Proof. intros n. apply (fuel_step n). Qed.
Lemma k_cat ts : forall n, keeps (fun n => p_cat n ts) n. Proof. intros n. apply (fuel_step n). Qed.
Lemma k_list ts : forall n, keeps (fun n => p_list n ts) n. Proof. intros n. apply (fuel_step n). Qed.
Lemma k_args b ts : forall n, keeps (fun n => p_args n b ts) n. Proof. intros n. apply (fuel_step n). Qed.
(** Brings the facts about inner calls to one amount of fuel. *)
Ltac common :=
  repeat match goal with
  | H : can (fun n => p_expr n ?p ?ts) _ |- _ => apply (can_from _ _ (k_expr p ts)) in H as [? H]
  | H : can (fun n => p_loop n ?p ?e ?ts) _ |- _ => apply (can_from _ _ (k_loop p e ts)) in H as [? H]
  | H : can (fun n => p_prim n ?ts) _ |- _ => apply (can_from _ _ (k_prim ts)) in H as [? H]
  | H : can (fun n => p_suffix n ?e ?ts) _ |- _ => apply (can_from _ _ (k_suffix e ts)) in H as [? H]
  | H : can (fun n => p_cat n ?ts) _ |- _ => apply (can_from _ _ (k_cat ts)) in H as [? H]
  | H : can (fun n => p_list n ?ts) _ |- _ => apply (can_from _ _ (k_list ts)) in H as [? H]
  | H : can (fun n => p_args n ?b ?ts) _ |- _ => apply (can_from _ _ (k_args b ts)) in H as [? H]
  end.
Ltac calls := repeat match goal with H : forall m, _ <= m -> _ = Ok _ |- _ => rewrite H by lia; cbn [bind] end.
Notation c_expr p ts := (can (fun n => p_expr n p ts)).
Notation c_loop p e ts := (can (fun n => p_loop n p e ts)).
Notation c_prim ts := (can (fun n => p_prim n ts)).
Notation c_suffix e ts := (can (fun n => p_suffix n e ts)).
Notation c_cat ts := (can (fun n => p_cat n ts)).
Notation c_list ts := (can (fun n => p_list n ts)).
Notation c_args b ts := (can (fun n => p_args n b ts)).

