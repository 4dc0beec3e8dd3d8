(** C79: the operators of a Verilog expression take the operands that IEEE 1800-2017 table 11-2 gives
    them.  [show] writes a tree as tokens, [proper] says that every operand which binds less tightly
    than its operator stands in parentheses (SvSyntaxSpec.v). *)
From Verif Require Import Base LitModel AstModel SvExprModel SvExprSpec SvExprProofs SvSyntaxModel SvSyntaxSpec SvSyntaxProofs SvSyntaxComplete.

(** Without &&& the parser accepts exactly the proper expressions, and gives the tree they are written
    from. *)
Theorem C79_grouping_partial (ts : list tok) (e : vexpr) : ~ In KAnd3 ts ->
  (parse_expression ts = Ok e <-> show e = ts /\ proper e).
Proof. intros N. split; [intros H; exact (show_parse ts e H N)|intros [<- P]; exact (parse_show e P)]. Qed.
Print Assumptions C79_grouping_partial.
(** So no two trees are written in the same way. *)
Theorem C79_unambiguous a b : proper a -> proper b -> show a = show b -> a = b.
Proof. intros P Q E. assert (H := parse_show a P). rewrite E, (parse_show b Q) in H. injection H as ->. reflexivity. Qed.
Print Assumptions C79_unambiguous.
(** Every sequence of tokens is accepted or refused with an exception. *)
Theorem C79_terminates ts : (exists e, parse_expression ts = Ok e) \/ (exists x, parse_expression ts = Throw x).
Proof.
  pose proof (parse_total ts) as N. pose proof (parse_defined ts) as D. destruct (parse_expression ts) as [e|x|w|]; [left; eauto|right; eauto|exfalso; exact (D w eq_refl)|contradiction].
Qed.
Print Assumptions C79_terminates.

(** Two operators and three operands that no operator tears apart: the stronger operator takes its
    operands first, with equal strength the left one, but the right one for implications. *)
Theorem C79_stronger_first_partial a b c o1 o2 :
  proper a -> proper b -> proper c -> strength_of a = 15 -> strength_of b = 15 -> strength_of c = 15 ->
  parse_expression (show a ++ KOp (bin_sym o1) :: show b ++ KOp (bin_sym o2) :: show c) =
  Ok (if (strength o1 <? strength o2) || ((strength o1 =? strength o2) && to_the_right o1)
      then VBinary o1 a (VBinary o2 b c) else VBinary o2 (VBinary o1 a b) c).
Proof.
  intros PA PB PC SA SB SC.
  assert (M : forall o, strength o < 15) by (intros []; cbn; lia).
  assert (E1 : show a ++ KOp (bin_sym o1) :: show b ++ KOp (bin_sym o2) :: show c = show (VBinary o1 a (VBinary o2 b c))) by reflexivity.
  assert (E2 : show a ++ KOp (bin_sym o1) :: show b ++ KOp (bin_sym o2) :: show c = show (VBinary o2 (VBinary o1 a b) c)) by (cbn [show]; rewrite <- app_assoc; reflexivity).
  assert (R : forall o o', strength o = strength o' -> to_the_right o = to_the_right o') by (intros [] []; cbn; intros; try discriminate; reflexivity).
  pose proof (M o1) as M1. pose proof (M o2) as M2. pose proof (R o1 o2) as R12.
  destruct (Nat.ltb_spec (strength o1) (strength o2)) as [L|L]; cbn [orb].
  - rewrite E1. apply parse_show. cbn [proper strength_of]. rewrite SA, SB, SC. destruct (to_the_right o1), (to_the_right o2); repeat split; try assumption; lia.
  - destruct (Nat.eqb_spec (strength o1) (strength o2)) as [Q|Q]; cbn [andb].
    + destruct (to_the_right o1) eqn:T.
      * rewrite E1. apply parse_show. cbn [proper strength_of]. rewrite SA, SB, SC, <- (R12 Q), T. repeat split; try assumption; lia.
      * rewrite E2. apply parse_show. cbn [proper strength_of]. rewrite SA, SB, SC, <- (R12 Q), T. repeat split; try assumption; lia.
    + rewrite E2. apply parse_show. cbn [proper strength_of]. rewrite SA, SB, SC. destruct (to_the_right o1), (to_the_right o2); repeat split; try assumption; lia.
Qed.
Print Assumptions C79_stronger_first_partial.
(** Any expression may be put in parentheses, which keeps it together. *)
Theorem C79_parentheses e : proper e -> parse_expression (KLp :: show e ++ [KRp]) = Ok (VPar e None).
Proof. intros P. exact (parse_show (VPar e None) P). Qed.
Print Assumptions C79_parentheses.

(** Parsing and conversion together: the AST has the meaning of the expression that was written. *)
Definition convert_expression (ts : list tok) : outcome expr := e <- parse_expression ts ;; conv e.
Theorem C79_meaning_partial (A : algebra) (e : vexpr) (v : V A) : proper e -> vmeaning A e = Some v ->
  exists a, convert_expression (show e) = Ok a /\ meaning A a = Some v.
Proof.
  intros P M. destruct (conv_sim A e v M) as (a & C & H & _). exists a. unfold convert_expression. rewrite (parse_show e P). split; assumption.
Qed.
Print Assumptions C79_meaning_partial.

(** ** a &&& b ? c : d means (a &&& b) ? c : d, but the conditional operator is taken into the right
    operand of &&&. *)
Definition id (s : string) : vexpr := VPath (VPathOf false H_none [(IdPlain $s, None)]).
Definition written : list tok := show (VTernary (VTripleAnd (id "a") (id "b")) (id "c") (id "d")).
Theorem C79_three_ands_refuted :
  written = [KId $"a"; KAnd3; KId $"b"; KQuest; KId $"c"; KColon; KId $"d"]
  /\ parse_expression written = Ok (VTripleAnd (id "a") (VTernary (id "b") (id "c") (id "d"))).
Proof. split; vm_compute; reflexivity. Qed.
Print Assumptions C79_three_ands_refuted.

(** a + b * -c[i +: 2] < d ? {e, 2 {f}} : g(x, , y) == 1 || ~h.k -> (p -> q) -> r *)
Definition num (s : string) : vexpr := VLit (L_NUMBER (TokUnsigned $s)).
Definition big : vexpr :=
  VBinary B_ARROW
    (VTernary (VBinary B_LT (VBinary B_PLUS (id "a") (VBinary B_MUL (id "b") (VUnary U_MINUS (VRange (id "c") R_PLUS (id "i") (num "2"))))) (id "d"))
      (VConcat [id "e"; VRepl (num "2") (VConcat [id "f"])])
      (VBinary B_OR_LOG (VBinary B_EQ (VCall (id "g") None (Some [AExpr (id "x"); AComma; AComma; AExpr (id "y")]) None) (num "1")) (VUnary U_NEG (VDot (id "h") (IdPlain $"k")))))
    (VBinary B_ARROW (VPar (VBinary B_ARROW (id "p") (id "q")) None) (id "r")).
Example C79_ex_proper : proper big.
Proof. unfold big, id. cbn [proper strength_of strength to_the_right separated all_args all_of]. repeat split; try discriminate; try (repeat constructor); lia. Qed.
Example C79_ex : parse_expression (show big) = Ok big /\ length (show big) = 48 /\ ~ In KAnd3 (show big).
Proof.
  split; [vm_compute; reflexivity|]. split; [vm_compute; reflexivity|]. vm_compute. intros H. repeat (destruct H as [H|H]; [discriminate|]). exact H.
Qed.
Example C79_ex2 : (* a - b - c ; a -> b -> c ; 2 ** a ** b *)
  parse_expression [KId $"a"; KOp S_MINUS; KId $"b"; KOp S_MINUS; KId $"c"] = Ok (VBinary B_MINUS (VBinary B_MINUS (id "a") (id "b")) (id "c"))
  /\ parse_expression [KId $"a"; KOp S_ARROW; KId $"b"; KOp S_ARROW; KId $"c"] = Ok (VBinary B_ARROW (id "a") (VBinary B_ARROW (id "b") (id "c")))
  /\ parse_expression [KId $"a"; KOp S_PLUS; KOp S_MUL; KId $"c"] = no_parse.
Proof. vm_compute. repeat split. Qed.
