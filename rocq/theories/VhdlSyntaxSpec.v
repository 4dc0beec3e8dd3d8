(** How a VHDL expression is written down (IEEE 1076-2008, clauses 8 and 9.1).  Nothing here refers to
    the parser.  Trees and tokens are those of VhdlExprModel.v and VhdlSyntaxModel.v. *)
From Verif Require Import Base AstModel LitModel SvExprModel VhdlExprModel VhdlSyntaxModel.

(** ** The tokens of an expression *)
Section Lists.
Context {A : Type} (f : A -> list vtok).
Fixpoint commas (l : list A) : list vtok := match l with [] => [] | [x] => f x | x :: l' => f x ++ KComma :: commas l' end.
Fixpoint bars (l : list A) : list vtok := match l with [] => [] | [x] => f x | x :: l' => f x ++ KBar :: bars l' end.
End Lists.
Definition un_tok (o : hun) : vtok :=
  match o with O_ABS => KAbs | O_NOT => KNot | O_ULOG o => KLog o | O_SIGN true => KAdd O_MINUS | O_SIGN false => KAdd O_PLUS end.
Section Parts.
Context (f : hexpr -> list vtok).
Definition show_desig (d : hdesig hexpr) : list vtok := match d with D_expr _ e => f e | D_open => [KOpen] end.
(** formal => actual *)
Definition show_assoc (a : hassoc hexpr) : list vtok :=
  match a with
  | Assoc (Some (n, _)) (Act d) => f n ++ KArrow :: show_desig d
  | Assoc _ (Act d) => show_desig d
  | Assoc _ (Act_conv _ _) => []
  end.
Definition show_choice (c : hchoice hexpr) : list vtok :=
  match c with Ch_others => [KOthers] | Ch (R_name e) => f e | Ch (R_explicit a d b) => f a ++ KDir d :: f b end.
(** choice | choice => expression *)
Definition show_elem (p : list (hchoice hexpr) * hexpr) : list vtok :=
  match fst p with [] => f (snd p) | cs => bars show_choice cs ++ KArrow :: f (snd p) end.
End Parts.
Fixpoint vshow (e : hexpr) : list vtok :=
  match e with
  | HLit l => [KLit l]
  | HSlice n a d b => vshow n ++ KLp :: vshow a ++ KDir d :: vshow b ++ [KRp]
  | HAttr n _ a => vshow n ++ [KTick; KLit (NL_id a)]
  | HDot n l => vshow n ++ [KDot; KLit l]
  | HAll n => vshow n ++ [KDot; KAll]
  | HApply n l => vshow n ++ KLp :: commas (show_assoc vshow) l ++ [KRp]
  | HNum b t u => (if b then KBasedLit t else KDec t) :: match u with Some n => vshow n | None => [] end
  | HBits t => [KBits t]
  | HNull => [KNull]
  | HAgg l => KLp :: commas (show_elem vshow) l ++ [KRp]
  | HQual tm l => vshow tm ++ KTick :: KLp :: commas (show_elem vshow) l ++ [KRp]
  | HPow a b => vshow a ++ KPow :: vshow b
  | HUn o a => un_tok o :: vshow a
  | HMul o a b => vshow a ++ KMul o :: vshow b
  | HAdd o a b => vshow a ++ KAdd o :: vshow b
  | HCondOp a => KCond :: vshow a
  | HShift o a b => vshow a ++ KShift o :: vshow b
  | HRel o a b => vshow a ++ KRel o :: vshow b
  | HLog o a b => vshow a ++ KLog o :: vshow b
  | _ => []
  end.

(** ** Clause 9.1: the syntactic category of an expression *)
Definition c_primary := 7. Definition c_factor := 6. Definition c_term := 5. Definition c_simple := 4.
Definition c_shift := 3. Definition c_relation := 2. Definition c_logical := 1. Definition c_condition := 0.
Definition category (e : hexpr) : nat :=
  match e with
  | HPow _ _ | HUn (O_ABS | O_NOT | O_ULOG _) _ => c_factor
  | HMul _ _ _ => c_term
  | HAdd _ _ _ | HUn (O_SIGN _) _ => c_simple
  | HShift _ _ _ => c_shift | HRel _ _ _ => c_relation | HLog _ _ _ => c_logical | HCondOp _ => c_condition
  | _ => c_primary
  end.
(** and, or, xor, xnor may be repeated, nand and nor may not. *)
Definition repeats (o : hlog) : bool := match o with O_NAND | O_NOR => false | _ => true end.
Definition same_log (o : hlog) (e : hexpr) : Prop := match e with HLog o' _ _ => o' = o /\ repeats o = true | _ => False end.

(** The expressions that clause 9.1 allows:
      factor = primary [** primary] | abs primary | not primary | logical_operator primary
      term = factor { * factor }            simple = [sign] term { + term }
      shift = simple [sll simple]           relation = shift [= shift]
      expression = relation { and relation } | ... | ?? primary
    Every operand is of the stated category or a tighter one. *)
Definition all {A} (Q : A -> Prop) : list A -> Prop := fix go l := match l with [] => True | x :: l' => Q x /\ go l' end.
Section LegalParts.
Context (P : hexpr -> Prop).
Definition legal_desig (d : hdesig hexpr) : Prop := match d with D_expr false e => P e | D_expr true _ => False | D_open => True end.
Definition legal_assoc (a : hassoc hexpr) : Prop :=
  match a with
  | Assoc None (Act d) => legal_desig d
  | Assoc (Some (n, None)) (Act d) => is_name n = true /\ P n /\ legal_desig d
  | _ => False
  end.
Definition legal_choice (c : hchoice hexpr) : Prop :=
  match c with
  | Ch_others => True
  | Ch (R_name e) => P e /\ c_simple <= category e
  | Ch (R_explicit a _ b) => (P a /\ c_simple <= category a) /\ P b /\ c_simple <= category b
  end.
Definition legal_elem (p : list (hchoice hexpr) * hexpr) : Prop := all legal_choice (fst p) /\ P (snd p).
End LegalParts.
Fixpoint legal (e : hexpr) : Prop :=
  match e with
  | HLit _ | HBits _ | HNull => True
  | HAttr n s _ => s = false /\ is_name n = true /\ legal n
  | HDot n _ | HAll n => is_name n = true /\ legal n
  | HSlice n a _ b => (is_name n = true /\ legal n) /\ (legal a /\ c_simple <= category a) /\ legal b /\ c_simple <= category b
  | HApply n l => (is_name n = true /\ legal n) /\ l <> [] /\ all (legal_assoc legal) l
  | HNum _ _ None => True
  | HNum _ _ (Some n) => is_name n = true /\ legal n
  | HAgg l => l <> [] /\ all (legal_elem legal) l
  | HQual tm l => (is_name tm = true /\ legal tm) /\ l <> [] /\ all (legal_elem legal) l
  | HPow a b => (legal a /\ category a = c_primary) /\ legal b /\ category b = c_primary
  | HUn (O_SIGN _) a => legal a /\ c_term <= category a
  | HUn _ a => legal a /\ category a = c_primary
  | HMul _ a b => (legal a /\ c_term <= category a) /\ legal b /\ c_factor <= category b
  | HAdd _ a b => (legal a /\ c_simple <= category a) /\ legal b /\ c_term <= category b
  | HShift _ a b => (legal a /\ c_simple <= category a) /\ legal b /\ c_simple <= category b
  | HRel _ a b => (legal a /\ c_shift <= category a) /\ legal b /\ c_shift <= category b
  | HLog o a b => (legal a /\ (c_relation <= category a \/ same_log o a)) /\ legal b /\ c_relation <= category b
  | HCondOp a => legal a /\ category a = c_primary
  | _ => False
  end.
