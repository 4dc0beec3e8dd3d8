(** C27: converted Verilog expressions have the meaning of the source expression.  [algebra] is an
    arbitrary interpretation of the names and operations, so the theorem holds for every assignment of
    the variables.  [vmeaning] is None outside of the supported fragment; the refutations below show
    why the main exclusions are needed. *)
From Verif Require Import Base AstModel LitModel LitSpec SvExprModel SvExprSpec SvExprProofs.

Theorem C27_meaning_partial (A : algebra) (e : vexpr) (v : V A) : vmeaning A e = Some v ->
  exists a, conv e = Ok a /\ meaning A a = Some v.
Proof. intros H. destruct (conv_sim A e v H) as (a & Ha & Hm & _). exists a. split; assumption. Qed.
Print Assumptions C27_meaning_partial.
(** Hence two expressions with one AST have one meaning. *)
Theorem C27_not_merged_partial (A : algebra) (e1 e2 : vexpr) (v1 v2 : V A) :
  vmeaning A e1 = Some v1 -> vmeaning A e2 = Some v2 -> conv e1 = conv e2 -> v1 = v2.
Proof.
  intros H1 H2 E. destruct (C27_meaning_partial A e1 v1 H1) as (a & Ha & Hm). destruct (C27_meaning_partial A e2 v2 H2) as (b & Hb & Hn). congruence.
Qed.
Print Assumptions C27_not_merged_partial.
(** The operator of an assignment and the order of its sides. *)
Theorem C27_assignment_partial (A : algebra) (d s : vexpr) (o : asgop) (vd vs : V A) :
  vmeaning A d = Some vd -> vmeaning A s = Some vs ->
  exists a b, conv_assignment d o s = Ok (EOp (visit_asgop o) [a; b]) /\ meaning A a = Some vd /\ meaning A b = Some vs.
Proof.
  intros H1 H2. destruct (conv_sim A d vd H1) as (a & Ha & Hm & _). destruct (conv_sim A s vs H2) as (b & Hb & Hn & _).
  exists a, b. unfold conv_assignment. rewrite Ha. cbn [bind]. rewrite Hb. cbn [bind]. rewrite (mk2_ok A a _ b vd vs Hm Hn). repeat split; assumption.
Qed.
Print Assumptions C27_assignment_partial.
Theorem C27_assignment_operators o1 o2 : visit_asgop o1 = visit_asgop o2 -> o1 = o2.
Proof. destruct o1, o2; intros H; try reflexivity; discriminate. Qed.
Print Assumptions C27_assignment_operators.

(** An interpretation over the integers, with an assignment of the variables. *)
Definition ex_algebra (env : str -> Z) : algebra := {|
  V := Z; a_name := env; a_scope v _ := v; a_member v _ := v; a_param v _ := v;
  a_number _ b s := value b s; a_real _ := 0%Z; a_string _ := 0%Z; a_null := 0%Z;
  a_unary o v := match o with Minus => (- v)%Z | _ => v end;
  a_binary o x y := match o with Add => (x + y)%Z | Sub => (x - y)%Z | Mul => (x * y)%Z | Lt => (if (x <? y)%Z then 1 else 0)%Z | Concat => (x * 256 + y)%Z | Index => (Z.shiftr x y mod 2)%Z | _ => 0%Z end;
  a_cond c x y := if (c =? 0)%Z then y else x;
  a_slice k v x y := match k with FromTo => (Z.shiftr v y mod 2 ^ (x - y + 1))%Z | UpFrom => (Z.shiftr v x mod 2 ^ y)%Z | DownFrom => (Z.shiftr v (x - y + 1) mod 2 ^ y)%Z end;
  a_call f l := fold_left (fun a (x : argument Z) => (a * 10 + match snd x with Some v => v | None => 0 end)%Z) l f;
  a_step _ _ v := v; a_array l := Z.of_nat (length l)
|}.
Definition n (s : string) : vexpr := VPath (VPathOf false H_none [(IdPlain $s, None)]).
Definition num (s : string) : vexpr := VLit (L_NUMBER (TokUnsigned $s)).
(** a < b ? {a, 8'h1f} - b * c[2] : f(a, , 7 - b)[7 -: 4] *)
Example C27_ex :
  let e := VTernary (VBinary B_LT (n "a") (n "b"))
             (VBinary B_MINUS (VConcat [n "a"; VLit (L_NUMBER (TokSized $"8'h1f"))]) (VBinary B_MUL (n "b") (VBitSelect (n "c") (num "2"))))
             (VRange (VCall (n "f") None (Some [AExpr (n "a"); AComma; AComma; AExpr (VBinary B_MINUS (num "7") (n "b"))]) None) R_MINUS (num "7") (num "4")) in
  let env a b c f s := if seqb s $"a" then a else if seqb s $"b" then b else if seqb s $"c" then c else f in
  vmeaning (ex_algebra (env 3 5 6 1)%Z) e = Some (3 * 256 + 31 - 5 * 1)%Z /\
  vmeaning (ex_algebra (env 6 5 6 1)%Z) e = Some (Z.shiftr (((1 * 10 + 6) * 10 + 0) * 10 + 2) 4 mod 2 ^ 4)%Z /\
  exists a, conv e = Ok a /\ meaning (ex_algebra (env 3 5 6 1)%Z) a = Some 794%Z.
Proof. vm_compute. repeat split. eexists. split; reflexivity. Qed.

(** Equal ASTs for expressions of different meaning.  f() is converted to f, f(a, ) to f(a), the cast
    p'(e) to the call p(e), equivalence to implication, all three values of min:typ:max to the first,
    the member access on the left side of an assignment to the whole variable, a.and() to a. *)
Theorem C27_call_refuted : conv (VCall (n "f") None None None) = conv (n "f").
Proof. reflexivity. Qed.
Print Assumptions C27_call_refuted.
Theorem C27_trailing_argument_refuted e :
  conv (VCall (n "f") None (Some [AExpr e; AComma]) None) = conv (VCall (n "f") None (Some [AExpr e]) None).
Proof. unfold n. cbn -[append_expr]. destruct (conv e); reflexivity. Qed.
Print Assumptions C27_trailing_argument_refuted.
Theorem C27_cast_refuted p e a : conv e = Ok a -> a <> ENull -> forall b, conv p = Ok b -> b <> ENull ->
  conv (VCast p e) = conv (VCall p None (Some [AExpr e]) None).
Proof. intros H N b Hb Nb. cbn [conv conv_args]. rewrite Hb. cbn [bind]. rewrite H. cbn [bind]. destruct b, a; try reflexivity; contradiction. Qed.
Print Assumptions C27_cast_refuted.
Theorem C27_equivalence_refuted a b : conv (VBinary B_BI_DIR_ARROW a b) = conv (VBinary B_ARROW a b).
Proof. reflexivity. Qed.
Print Assumptions C27_equivalence_refuted.
Theorem C27_mintypmax_refuted a b c b' c' : conv (VPar a (Some (b, c))) = conv (VPar a (Some (b', c'))) /\ conv (VPar a (Some (b, c))) = conv a.
Proof. split; reflexivity. Qed.
Print Assumptions C27_mintypmax_refuted.
Theorem C27_lvalue_member_refuted p d : conv (VLvHier p [] d None) = conv (VLvHier p [] [] None).
Proof. reflexivity. Qed.
Print Assumptions C27_lvalue_member_refuted.
Theorem C27_method_refuted p m : conv (VCall p m None None) = conv p.
Proof. cbn [conv]. destruct (conv p); reflexivity. Qed.
Print Assumptions C27_method_refuted.
Theorem C27_null_parameter_refuted i :
  conv (VPath (VPathOf false H_none [(i, Some (PVA_named [(IdPlain $"P", None)]))])) =
  conv (VPath (VPathOf false H_none [(i, Some (PVA_named [(IdPlain $"P", Some (PV_expr (VLit L_NULL)))]))])).
Proof. reflexivity. Qed.
Print Assumptions C27_null_parameter_refuted.
(** a &&& b (which the grammar allows everywhere) and '{a, b} on the left side stop the program by an
    assertion; with assertions off the latter dereferences a null pointer. *)
Theorem C27_assertion_refuted a b l : (exists w, conv (VTripleAnd a b) = UB w) /\ (exists w, conv (VLvPattern l) = UB w).
Proof. split; eexists; reflexivity. Qed.
Print Assumptions C27_assertion_refuted.
