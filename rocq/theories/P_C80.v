(** C80: the operators of a VHDL expression take the operands that IEEE 1076 clause 9.1 gives them.
    [vshow] writes a tree as tokens; [legal] is the grammar of the standard (VhdlSyntaxSpec.v). *)
From Verif Require Import Base AstModel LitModel LitSpec SvExprModel SvExprSpec VhdlExprModel VhdlExprSpec VhdlExprProofs VhdlSyntaxModel VhdlSyntaxSpec VhdlSyntaxProofs VhdlNormProofs.

(** Every legal expression is parsed into the tree it is written from; [norm] marks an actual n(x) as
    a conversion and a name as choice as a subtype, because the grammar allows both readings. *)
Theorem C80_grouping_partial (e : hexpr) : legal e -> parse_vhdl_expression (vshow e) = Ok (norm e).
Proof. exact (parse_vshow e). Qed.
Print Assumptions C80_grouping_partial.
Theorem C80_readings_agree (A : halgebra) (e : hexpr) : hvmeaning A (norm e) = hvmeaning A e.
Proof. exact (norm_meaning A e). Qed.
Print Assumptions C80_readings_agree.
(** No two legal trees are written in the same way. *)
Theorem C80_unambiguous a b : legal a -> legal b -> vshow a = vshow b -> a = b.
Proof. intros P Q E. assert (H := exp_vshow a P). rewrite E, (exp_vshow b Q) in H. injection H as ->. reflexivity. Qed.
Print Assumptions C80_unambiguous.
(** Parsing and conversion together: the AST has the meaning of the expression that was written. *)
Definition convert_vhdl_expression (ts : list vtok) : outcome expr := e <- parse_vhdl_expression ts ;; hconv e.
Theorem C80_meaning_partial (A : halgebra) (e : hexpr) (v : HV A) : legal e -> hvmeaning A e = Some v ->
  exists a, convert_vhdl_expression (vshow e) = Ok a /\ hmeaning A a = Some v.
Proof.
  intros P M. rewrite <- (norm_meaning A e) in M. destruct (hconv_sim A (norm e) v M) as (a & C & H & _). exists a. unfold convert_vhdl_expression. rewrite (parse_vshow e P). split; assumption.
Qed.
Print Assumptions C80_meaning_partial.

(** Two operators and three primaries: the stronger operator takes its operands first; equally strong
    ones group from the left. *)
Inductive bop := B_mul (o : hmul) | B_add (o : hadd) | B_shift (o : hshift) | B_rel (o : hrel) | B_log (o : hlog).
Definition btok (o : bop) : vtok := match o with B_mul o => KMul o | B_add o => KAdd o | B_shift o => KShift o | B_rel o => KRel o | B_log o => KLog o end.
Definition bin (o : bop) (a b : hexpr) : hexpr := match o with B_mul o => HMul o a b | B_add o => HAdd o a b | B_shift o => HShift o a b | B_rel o => HRel o a b | B_log o => HLog o a b end.
Definition bstrength (o : bop) : nat := match o with B_mul _ => 5 | B_add _ => 4 | B_shift _ => 3 | B_rel _ => 2 | B_log _ => 1 end.
(** the pairs of equal strength that may be used without parentheses *)
Definition may_follow (o1 o2 : bop) : Prop :=
  match o1, o2 with B_mul _, B_mul _ | B_add _, B_add _ => True | B_log a, B_log b => a = b /\ repeats a = true | _, _ => False end.
Theorem C80_stronger_first_partial a b c o1 o2 :
  legal a -> legal b -> legal c -> category a = c_primary -> category b = c_primary -> category c = c_primary ->
  (bstrength o1 = bstrength o2 -> may_follow o1 o2) ->
  parse_vhdl_expression (vshow a ++ btok o1 :: vshow b ++ btok o2 :: vshow c) =
  Ok (norm (if bstrength o1 <? bstrength o2 then bin o1 a (bin o2 b c) else bin o2 (bin o1 a b) c)).
Proof.
  intros PA PB PC CA CB CC F.
  assert (E1 : vshow a ++ btok o1 :: vshow b ++ btok o2 :: vshow c = vshow (bin o1 a (bin o2 b c))) by (destruct o1, o2; reflexivity).
  assert (E2 : vshow a ++ btok o1 :: vshow b ++ btok o2 :: vshow c = vshow (bin o2 (bin o1 a b) c)) by (destruct o1, o2; cbn [vshow bin btok]; rewrite <- app_assoc; reflexivity).
  assert (L : forall o x y, legal x -> legal y -> category x = c_primary -> category y = c_primary -> legal (bin o x y) /\ category (bin o x y) = bstrength o).
  { intros [] x y Lx Ly Cx Cy; cbn [bin legal category bstrength]; rewrite ?Cx, ?Cy; unfold c_primary, c_factor, c_term, c_simple, c_shift, c_relation, c_logical;
      (split; [|reflexivity]); (split; [split; [exact Lx|lia]|split; [exact Ly|lia]]). }
  destruct (Nat.ltb_spec (bstrength o1) (bstrength o2)) as [S|S].
  - rewrite E1. apply parse_vshow. destruct (L o2 b c PB PC CB CC) as [L2 C2].
    destruct o1; cbn [bstrength] in S; cbn [bin legal]; rewrite CA, C2; unfold c_primary, c_factor, c_term, c_simple, c_shift, c_relation, c_logical;
      (split; [split; [exact PA|lia]|split; [exact L2|lia]]).
  - rewrite E2. apply parse_vshow. destruct (L o1 a b PA PB CA CB) as [L1 C1].
    assert (R : forall k, k <= bstrength o1 -> k <= category (bin o1 a b)) by (intros; lia).
    destruct o2 as [| | | |ol]; cbn [bin legal]; rewrite CC; unfold c_primary, c_factor, c_term, c_simple, c_shift, c_relation, c_logical;
      (split; [split; [exact L1|]|split; [exact PC|lia]]); cbn [bstrength] in S, F.
    + apply R. lia.
    + apply R. lia.
    + apply R. destruct (Nat.eq_dec (bstrength o1) 3) as [Q|Q]; [|lia]. destruct o1; try discriminate; destruct (F eq_refl).
    + apply R. destruct (Nat.eq_dec (bstrength o1) 2) as [Q|Q]; [|lia]. destruct o1; try discriminate; destruct (F eq_refl).
    + destruct (Nat.eq_dec (bstrength o1) 1) as [Q|Q]; [right|left; apply R; lia]. destruct o1; try discriminate. destruct (F eq_refl) as [<- Q2]. split; [reflexivity|exact Q2].
Qed.
Print Assumptions C80_stronger_first_partial.
(** A sign applies to the product behind it, not to the sum. *)
Theorem C80_sign_partial a b m (om : hmul) (oa : hadd) :
  legal a -> legal b -> category a = c_primary -> category b = c_primary ->
  parse_vhdl_expression (un_tok (O_SIGN m) :: vshow a ++ KMul om :: vshow b) = Ok (norm (HUn (O_SIGN m) (HMul om a b))) /\
  parse_vhdl_expression (un_tok (O_SIGN m) :: vshow a ++ KAdd oa :: vshow b) = Ok (norm (HAdd oa (HUn (O_SIGN m) a) b)).
Proof.
  intros PA PB CA CB. split.
  - apply (parse_vshow (HUn (O_SIGN m) (HMul om a b))). cbn [legal category]. rewrite CA, CB. unfold c_primary, c_factor, c_term. repeat split; try assumption; lia.
  - apply (parse_vshow (HAdd oa (HUn (O_SIGN m) a) b)). cbn [legal category]. rewrite CA, CB. unfold c_primary, c_factor, c_term, c_simple. repeat split; try assumption; lia.
Qed.
Print Assumptions C80_sign_partial.

(** ** Illegal expressions are accepted and grouped from the left: a and b or c, a < b < c, a * - b. *)
Definition x (s : string) : hexpr := HLit (NL_id $s).
Lemma only_tree ts e : p_exp (12 * length ts + 12) 0 ts = Ok (e, []) -> ~ legal e -> ~ exists e', legal e' /\ vshow e' = ts.
Proof. intros H N (e' & L & <-). rewrite (exp_vshow e' L) in H. injection H as ->. contradiction. Qed.
Theorem C80_illegal_accepted_refuted :
  (let ts := [KLit (NL_id $"a"); KLog O_AND; KLit (NL_id $"b"); KLog O_OR; KLit (NL_id $"c")] in
   parse_vhdl_expression ts = Ok (HLog O_OR (HLog O_AND (x "a") (x "b")) (x "c")) /\ ~ exists e, legal e /\ vshow e = ts)
  /\ (let ts := [KLit (NL_id $"a"); KRel O_LT; KLit (NL_id $"b"); KRel O_LT; KLit (NL_id $"c")] in
   parse_vhdl_expression ts = Ok (HRel O_LT (HRel O_LT (x "a") (x "b")) (x "c")) /\ ~ exists e, legal e /\ vshow e = ts)
  /\ (let ts := [KLit (NL_id $"a"); KMul O_MUL; KAdd O_MINUS; KLit (NL_id $"b")] in
   parse_vhdl_expression ts = Ok (HMul O_MUL (x "a") (HUn (O_SIGN true) (x "b"))) /\ ~ exists e, legal e /\ vshow e = ts).
Proof.
  split; [|split]; (split; [vm_compute; reflexivity|]); (eapply only_tree; [vm_compute; reflexivity|]); cbn [legal category]; unfold c_shift, c_factor, c_simple, c_relation, c_logical.
  - intros [[_ [H|[H _]]] _]; [lia|discriminate].
  - intros [[_ H] _]. lia.
  - intros [_ [_ H]]. lia.
Qed.
Print Assumptions C80_illegal_accepted_refuted.

(** - a mod b + 10 ns = f(g(y), k => 7)(1 to n - 1)'length and not q and (1 | 3 => a, others => t'('1')) /= s.all *)
Definition big : hexpr :=
  let num t u := HNum false t u in
  HLog O_AND
    (HLog O_AND
      (HRel O_EQ (HAdd O_PLUS (HUn (O_SIGN true) (HMul O_MOD (x "a") (x "b"))) (num $"10" (Some (x "ns"))))
        (HAttr (HSlice (HApply (x "f") [pos (HApply (x "g") [pos (x "y")]); Assoc (Some (x "k", None)) (Act (D_expr false (num $"7" None)))]) (num $"1" None) To (HAdd O_MINUS (x "n") (num $"1" None))) false $"length"))
      (HUn O_NOT (x "q")))
    (HRel O_NE (HAgg [([Ch (R_name (num $"1" None)); Ch (R_name (num $"3" None))], x "a"); ([Ch_others], HQual (x "t") [([], HLit (NL_char $"'1'"))])]) (HAll (x "s"))).
Example C80_ex_legal : legal big.
Proof.
  unfold big, x, pos. cbn [legal category is_name all legal_assoc legal_desig legal_elem legal_choice fst snd]. unfold c_primary, c_factor, c_term, c_simple, c_shift, c_relation, c_logical.
  repeat split; try discriminate; try lia. right. repeat split. all: unfold c_simple; cbn; unfold c_primary; lia.
Qed.
Example C80_ex : length (vshow big) = 51 /\ parse_vhdl_expression (vshow big) = Ok (norm big) /\ norm big <> big.
Proof. split; [vm_compute; reflexivity|]. split; [vm_compute; reflexivity|]. vm_compute. discriminate. Qed.
