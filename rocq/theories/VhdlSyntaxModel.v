(** How the generated VHDL parser groups the tokens of an expression: rules expression,
    simple_expression, primary, numeric_literal, name, association_list, explicit_range, aggregate,
    element_association and qualified_expression of grammars/vhdlParser.g4.  ANTLR turns the left
    recursive rules into loops: alternative i of n has the precedence n - i + 1; the loop takes an
    operator whose precedence is at least the one of the call; the right operand is parsed one higher;
    the operand of a prefix operator is parsed with the precedence of the alternative.
    Simplified: external names, signatures, allocators, inertial actuals, constrained subtypes as
    actuals and choices, and formals with a conversion are not modelled. *)
From Verif Require Import Base AstModel LitModel SvExprModel VhdlExprModel.

(** Tokens, vhdlLexer.g4.  A keyword behind ' is an identifier here (attribute_designator,
    vhdlParser.g4:629). *)
Inductive vtok :=
| KLit (l : nlit) | KDec (t : str) | KBasedLit (t : str) | KBits (t : str) | KNull
| KLog (o : hlog) | KRel (o : hrel) | KShift (o : hshift) | KAdd (o : hadd) | KMul (o : hmul) | KPow | KAbs | KNot | KCond
| KDir (d : dir) | KAll | KOpen | KOthers
| KLp | KRp | KComma | KDot | KTick | KArrow | KBar.

(** The precedences of the alternatives of expression (vhdlParser.g4:647-653) and simple_expression
    (vhdlParser.g4:654-660). *)
Definition prec_of (alts alt : nat) : nat := alts - alt + 1.
Definition shift_prec : nat := prec_of 5 3.
Definition rel_prec : nat := prec_of 5 4.
Definition log_prec : nat := prec_of 5 5.
Definition prefix_prec : nat := prec_of 5 2.
Definition mul_prec : nat := prec_of 5 3.
Definition sign_prec : nat := prec_of 5 4.
Definition add_prec : nat := prec_of 5 5.

Definition no_vparse {A} : outcome A := Throw (ParseException $"syntax error").
(** The alternative that became the root of the tree: is it a simple_expression, is it a name? *)
Definition is_simple (e : hexpr) : bool := match e with HCondOp _ | HShift _ _ _ | HRel _ _ _ | HLog _ _ _ => false | _ => true end.
Definition is_name (e : hexpr) : bool := match e with HLit _ | HSlice _ _ _ _ | HAttr _ _ _ | HDot _ _ | HAll _ | HApply _ _ => true | _ => false end.
Definition pos (e : hexpr) : hassoc hexpr := Assoc None (Act (D_expr false e)).

(** The rules, as a record, so that each rule can call the others. *)
Record rules := {
  r_exp : nat -> list vtok -> outcome (hexpr * list vtok);
  r_eloop : nat -> hexpr -> list vtok -> outcome (hexpr * list vtok);
  r_simple : nat -> list vtok -> outcome (hexpr * list vtok);
  r_sloop : nat -> hexpr -> list vtok -> outcome (hexpr * list vtok);
  r_prim : list vtok -> outcome (hexpr * list vtok);
  r_name : hexpr -> list vtok -> outcome (hexpr * list vtok);
  r_actual : hexpr -> list vtok -> outcome (hassoc hexpr * list vtok);
  r_more : list vtok -> outcome (list (hassoc hexpr) * list vtok);
  r_elems : list vtok -> outcome (list (list (hchoice hexpr) * hexpr) * list vtok);
  r_elem : list (hchoice hexpr) -> list vtok -> outcome ((list (hchoice hexpr) * hexpr) * list vtok);
  r_choice : list (hchoice hexpr) -> list vtok -> outcome ((list (hchoice hexpr) * hexpr) * list vtok)
}.
(** vhdlParser.g4:647-653 *)
Definition exp_rule (self : rules) (p : nat) (ts : list vtok) : outcome (hexpr * list vtok) :=
  match ts with
  | KCond :: r => '(e, r') <- r_prim self r ;; r_eloop self p (HCondOp e) r'
  | _ => '(e, r') <- r_simple self 0 ts ;; r_eloop self p e r'
  end.
Definition eloop_rule (self : rules) (p : nat) (a : hexpr) (ts : list vtok) : outcome (hexpr * list vtok) :=
  match ts with
  | KShift o :: r => if p <=? shift_prec then '(b, r') <- r_exp self (shift_prec + 1) r ;; r_eloop self p (HShift o a b) r' else Ok (a, ts)
  | KRel o :: r => if p <=? rel_prec then '(b, r') <- r_exp self (rel_prec + 1) r ;; r_eloop self p (HRel o a b) r' else Ok (a, ts)
  | KLog o :: r => if p <=? log_prec then '(b, r') <- r_exp self (log_prec + 1) r ;; r_eloop self p (HLog o a b) r' else Ok (a, ts)
  | _ => Ok (a, ts)
  end.
(** vhdlParser.g4:654-660 *)
Definition simple_rule (self : rules) (p : nat) (ts : list vtok) : outcome (hexpr * list vtok) :=
  match ts with
  | KAbs :: r => '(a, r') <- r_simple self prefix_prec r ;; r_sloop self p (HUn O_ABS a) r'
  | KNot :: r => '(a, r') <- r_simple self prefix_prec r ;; r_sloop self p (HUn O_NOT a) r'
  | KLog o :: r => '(a, r') <- r_simple self prefix_prec r ;; r_sloop self p (HUn (O_ULOG o) a) r'
  | KAdd O_PLUS :: r => '(a, r') <- r_simple self sign_prec r ;; r_sloop self p (HUn (O_SIGN false) a) r'
  | KAdd O_MINUS :: r => '(a, r') <- r_simple self sign_prec r ;; r_sloop self p (HUn (O_SIGN true) a) r'
  | _ =>
      '(a, r') <- r_prim self ts ;;
      match r' with
      | KPow :: r2 => '(b, r3) <- r_prim self r2 ;; r_sloop self p (HPow a b) r3
      | _ => r_sloop self p a r'
      end
  end.
Definition sloop_rule (self : rules) (p : nat) (a : hexpr) (ts : list vtok) : outcome (hexpr * list vtok) :=
  match ts with
  | KMul o :: r => if p <=? mul_prec then '(b, r') <- r_simple self (mul_prec + 1) r ;; r_sloop self p (HMul o a b) r' else Ok (a, ts)
  | KAdd o :: r => if p <=? add_prec then '(b, r') <- r_simple self (add_prec + 1) r ;; r_sloop self p (HAdd o a b) r' else Ok (a, ts)
  | _ => Ok (a, ts)
  end.
(** vhdlParser.g4:661-669, 678-682, 697-699 *)
Definition prim_rule (self : rules) (ts : list vtok) : outcome (hexpr * list vtok) :=
  match ts with
  | KDec t :: KLit l :: r => '(u, r') <- r_name self (HLit l) r ;; Ok (HNum false t (Some u), r')
  | KDec t :: r => Ok (HNum false t None, r)
  | KBasedLit t :: KLit l :: r => '(u, r') <- r_name self (HLit l) r ;; Ok (HNum true t (Some u), r')
  | KBasedLit t :: r => Ok (HNum true t None, r)
  | KBits t :: r => Ok (HBits t, r)
  | KNull :: r => Ok (HNull, r)
  | KLp :: r => '(l, r') <- r_elems self r ;; Ok (HAgg l, r')
  | KLit l :: r =>
      '(n, r') <- r_name self (HLit l) r ;;
      match r' with
      | KTick :: KLp :: r2 => '(l, r3) <- r_elems self r2 ;; Ok (HQual n l, r3)
      | _ => Ok (n, r')
      end
  | _ => no_vparse
  end.
(** What follows the first part of a name, vhdlParser.g4:122-149 *)
Definition name_rule (self : rules) (n : hexpr) (ts : list vtok) : outcome (hexpr * list vtok) :=
  match ts with
  | KTick :: KLit (NL_id s) :: r => r_name self (HAttr n false s) r
  | KDot :: KLit l :: r => r_name self (HDot n l) r
  | KDot :: KAll :: r => r_name self (HAll n) r
  | KDot :: _ => no_vparse
  | KLp :: KOpen :: r => '(l, r') <- r_more self r ;; r_name self (HApply n (Assoc None (Act D_open) :: l)) r'
  | KLp :: r =>
      '(a, r1) <- r_exp self 0 r ;;
      match r1 with
      | KDir d :: r2 =>
          if is_simple a then
            '(b, r3) <- r_simple self 0 r2 ;;
            match r3 with KRp :: r4 => r_name self (HSlice n a d b) r4 | _ => no_vparse end
          else no_vparse
      | _ => '(x, r2) <- r_actual self a r1 ;; '(l, r3) <- r_more self r2 ;; r_name self (HApply n (x :: l)) r3
      end
  | _ => Ok (n, ts)
  end.
(** An association element whose first part [a] is already read, vhdlParser.g4:501-516.  The tree of
    the actual is built by [norm] below. *)
Definition actual_rule (self : rules) (a : hexpr) (ts : list vtok) : outcome (hassoc hexpr * list vtok) :=
  match ts with
  | KArrow :: KOpen :: r => if is_name a then Ok (Assoc (Some (a, None)) (Act D_open), r) else no_vparse
  | KArrow :: r => if is_name a then '(e, r') <- r_exp self 0 r ;; Ok (Assoc (Some (a, None)) (Act (D_expr false e)), r') else no_vparse
  | _ => Ok (pos a, ts)
  end.
(** The rest of an association list, vhdlParser.g4:498-500 *)
Definition more_rule (self : rules) (ts : list vtok) : outcome (list (hassoc hexpr) * list vtok) :=
  match ts with
  | KRp :: r => Ok ([], r)
  | KComma :: KOpen :: r => '(l, r') <- r_more self r ;; Ok (Assoc None (Act D_open) :: l, r')
  | KComma :: r => '(a, r1) <- r_exp self 0 r ;; '(x, r2) <- r_actual self a r1 ;; '(l, r3) <- r_more self r2 ;; Ok (x :: l, r3)
  | _ => no_vparse
  end.
(** element_association ( , element_association )* ), vhdlParser.g4:684-695 *)
Definition elems_rule (self : rules) (ts : list vtok) : outcome (list (list (hchoice hexpr) * hexpr) * list vtok) :=
  '(x, r1) <- r_elem self [] ts ;;
  match r1 with
  | KRp :: r2 => Ok ([x], r2)
  | KComma :: r2 => '(l, r3) <- r_elems self r2 ;; Ok (x :: l, r3)
  | _ => no_vparse
  end.
(** One element; [cs] are the choices read so far *)
Definition elem_rule (self : rules) (cs : list (hchoice hexpr)) (ts : list vtok) : outcome ((list (hchoice hexpr) * hexpr) * list vtok) :=
  match ts with
  | KOthers :: r => r_choice self (cs ++ [Ch_others]) r
  | _ =>
      '(a, r1) <- r_exp self 0 ts ;;
      match r1 with
      | KDir d :: r2 => if is_simple a then '(b, r3) <- r_simple self 0 r2 ;; r_choice self (cs ++ [Ch (R_explicit a d b)]) r3 else no_vparse
      | KArrow :: _ | KBar :: _ => if is_simple a then r_choice self (cs ++ [Ch (R_name a)]) r1 else no_vparse
      | _ => match cs with [] => Ok (([], a), r1) | _ => no_vparse end
      end
  end.
(** behind a choice *)
Definition choice_rule (self : rules) (cs : list (hchoice hexpr)) (ts : list vtok) : outcome ((list (hchoice hexpr) * hexpr) * list vtok) :=
  match ts with
  | KBar :: r => r_elem self cs r
  | KArrow :: r => '(e, r') <- r_exp self 0 r ;; Ok ((cs, e), r')
  | _ => no_vparse
  end.

(** At most [fuel] nested calls. *)
Fixpoint run (fuel : nat) : rules :=
  match fuel with
  | 0 => {| r_exp _ _ := OutOfFuel; r_eloop _ _ _ := OutOfFuel; r_simple _ _ := OutOfFuel; r_sloop _ _ _ := OutOfFuel; r_prim _ := OutOfFuel; r_name _ _ := OutOfFuel; r_actual _ _ := OutOfFuel; r_more _ := OutOfFuel; r_elems _ := OutOfFuel; r_elem _ _ := OutOfFuel; r_choice _ _ := OutOfFuel |}
  | S f => let self := run f in {| r_exp := exp_rule self; r_eloop := eloop_rule self; r_simple := simple_rule self; r_sloop := sloop_rule self; r_prim := prim_rule self; r_name := name_rule self; r_actual := actual_rule self; r_more := more_rule self; r_elems := elems_rule self; r_elem := elem_rule self; r_choice := choice_rule self |}
  end.
Notation p_exp f := (r_exp (run f)).
Notation p_eloop f := (r_eloop (run f)).
Notation p_simple f := (r_simple (run f)).
Notation p_sloop f := (r_sloop (run f)).
Notation p_prim f := (r_prim (run f)).
Notation p_name f := (r_name (run f)).
Notation p_actual f := (r_actual (run f)).
Notation p_more f := (r_more (run f)).
Notation p_elems f := (r_elems (run f)).
Notation p_elem f := (r_elem (run f)).
Notation p_choice f := (r_choice (run f)).

(** Where the grammar allows two trees, ANTLR takes the first alternative: an actual n(x) is a
    conversion (actual_part, vhdlParser.g4:508-511), a choice that is a name is a subtype indication
    (choice, discrete_range, vhdlParser.g4:334, 691-695). *)
Fixpoint norm (e : hexpr) : hexpr :=
  let actual (e : hexpr) : hactual hexpr :=
    match e with
    | HApply n [Assoc None (Act (D_expr false x))] => Act_conv (norm n) (D_expr false (norm x))
    | HApply n [Assoc None (Act D_open)] => Act_conv (norm n) D_open
    | _ => Act (D_expr false (norm e))
    end in
  let assoc (a : hassoc hexpr) : hassoc hexpr :=
    match a with
    | Assoc fp (Act (D_expr false e)) => Assoc (match fp with Some (n, m) => Some (norm n, m) | None => None end) (actual e)
    | Assoc fp ac => Assoc (match fp with Some (n, m) => Some (norm n, m) | None => None end) ac
    end in
  let range (r : hrange hexpr) : hrange hexpr :=
    match r with
    | R_name e => R_name (if is_name e then HSubtype None (norm e) None else norm e)
    | R_explicit a d b => R_explicit (norm a) d (norm b)
    end in
  let choice (c : hchoice hexpr) : hchoice hexpr := match c with Ch_others => Ch_others | Ch r => Ch (range r) end in
  let elem (p : list (hchoice hexpr) * hexpr) := (map choice (fst p), norm (snd p)) in
  match e with
  | HLit _ | HExternal | HBits _ | HNull | HNew _ | HSubtype _ _ _ => e
  | HSlice n a d b => HSlice (norm n) (norm a) d (norm b)
  | HAttr n s a => HAttr (norm n) s a
  | HDot n l => HDot (norm n) l
  | HAll n => HAll (norm n)
  | HApply n l => HApply (norm n) (map assoc l)
  | HNum b t u => HNum b t (option_map norm u)
  | HAgg l => HAgg (map elem l)
  | HQual tm l => HQual (norm tm) (map elem l)
  | HPow a b => HPow (norm a) (norm b)
  | HUn o a => HUn o (norm a)
  | HMul o a b => HMul o (norm a) (norm b)
  | HAdd o a b => HAdd o (norm a) (norm b)
  | HCondOp a => HCondOp (norm a)
  | HShift o a b => HShift o (norm a) (norm b)
  | HRel o a b => HRel o (norm a) (norm b)
  | HLog o a b => HLog o (norm a) (norm b)
  end.
Definition parse_vhdl_expression (ts : list vtok) : outcome hexpr :=
  '(e, r) <- p_exp (12 * length ts + 12) 0 ts ;; match r with [] => Ok (norm e) | _ => no_vparse end.
