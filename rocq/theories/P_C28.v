(** C28: converted VHDL expressions have the meaning of the source expression.  [halgebra] is an
    arbitrary interpretation of the operations; [hvmeaning] is None outside of the supported
    fragment. *)
From Verif Require Import Base AstModel LitModel LitSpec SvExprModel SvExprSpec VhdlExprModel VhdlExprSpec VhdlExprProofs.

Theorem C28_meaning_partial (A : halgebra) (e : hexpr) (v : HV A) : hvmeaning A e = Some v ->
  exists a, hconv e = Ok a /\ hmeaning A a = Some v.
Proof. intros H. destruct (hconv_sim A e v H) as (a & Ha & Hm & _). exists a. split; assumption. Qed.
Print Assumptions C28_meaning_partial.
Theorem C28_not_merged_partial (A : halgebra) (e1 e2 : hexpr) (v1 v2 : HV A) :
  hvmeaning A e1 = Some v1 -> hvmeaning A e2 = Some v2 -> hconv e1 = hconv e2 -> v1 = v2.
Proof.
  intros H1 H2 E. destruct (C28_meaning_partial A e1 v1 H1) as (a & Ha & Hm). destruct (C28_meaning_partial A e2 v2 H2) as (b & Hb & Hn). congruence.
Qed.
Print Assumptions C28_not_merged_partial.

(** An interpretation over the integers. *)
Definition ex_halgebra (env : str -> Z) : halgebra := {|
  HV := Z; h_name := env; h_char s := Z.of_nat (length s); h_string _ := 0%Z; h_int v := v; h_real _ := 0%Z;
  h_bits _ r s := value r s; h_null := 0%Z; h_unit v u := (v * u)%Z;
  h_unary o v := match o with HMinus => (- v)%Z | HNot => (-1 - v)%Z | HAbs => Z.abs v | _ => v end;
  h_binary o x y := match o with HbAdd => (x + y)%Z | HbSub => (x - y)%Z | HbMul => (x * y)%Z | HbMod => (x mod y)%Z | HbConcat => (x * 256 + y)%Z | HbPow => (x ^ y)%Z
                            | HbLt => (if (x <? y)%Z then 1 else 0)%Z | HbAnd => Z.land x y | _ => 0%Z end;
  h_range d x y := match d with To => (x * 100 + y)%Z | Downto => (- (x * 100 + y))%Z end;
  h_apply f l := fold_left (fun a (x : option Z * hact Z) => (a * 10 + match fst x with Some k => 100 * k | None => 0 end + match snd x with HaVal v => v | _ => 0 end)%Z) l f;
  h_attr v _ := v; h_member v w := (v + w)%Z; h_all v := v;
  h_aggregate l := fold_left (fun a (x : list (hsel Z) * Z) => (a * 10 + snd x + 1000 * fold_left (fun b c => (b + match c with HsOthers => 7 | HsVal w => w end)%Z) (fst x) 0)%Z) l 0%Z;
  h_qualified t v := (t + v)%Z; h_new v := v; h_constrained v _ := v; h_resolved _ v := v
|}.
Definition hn (s : string) : hexpr := HLit (NL_id $s).
Definition hnum (s : string) : hexpr := HNum false $s None.
(** - a mod (b - 3) < f(b, x => 7)(1 to 2) and (1 => a, others => x"f_F") *)
Example C28_ex :
  let e := HLog O_AND
    (HRel O_LT (HUn (O_SIGN true) (HMul O_MOD (hn "a") (HAgg [([], HAdd O_MINUS (hn "b") (hnum "3"))])))
       (HSlice (HApply (hn "f") [Assoc None (Act (D_expr false (hn "b"))); Assoc (Some (hn "x", None)) (Act (D_expr false (hnum "7")))]) (hnum "1") To (hnum "2")))
    (HAgg [([Ch (R_name (hnum "1"))], hn "a"); ([Ch_others], HBits $"x""f_F""")]) in
  let env s := if seqb s $"a" then 17%Z else if seqb s $"b" then 10%Z else if seqb s $"x" then 2%Z else 5%Z in
  hvmeaning (ex_halgebra env) e = Some (Z.land 1 ((17 + 1000) * 10 + 255 + 7000))%Z /\
  match hconv e with Ok a => hmeaning (ex_halgebra env) a | _ => None end = hvmeaning (ex_halgebra env) e.
Proof. vm_compute. split; reflexivity. Qed.

(** Equal ASTs for different expressions: t'(x) and the attribute t'x, for every type mark and
    identifier; ?? a and a; an attribute with and without signature; inertial and plain actuals; all
    subtypes with a record constraint. *)
Theorem C28_qualified_refuted t x : hconv (HQual t [([], HLit (NL_id x))]) = hconv (HAttr t false x).
Proof. cbn [hconv]. destruct (hconv t); reflexivity. Qed.
Print Assumptions C28_qualified_refuted.
Theorem C28_condition_refuted s : hconv (HCondOp (HLit (NL_id s))) = hconv (HLit (NL_id s)).
Proof. reflexivity. Qed.
Print Assumptions C28_condition_refuted.
Theorem C28_signature_refuted n a : hconv (HAttr n true a) = hconv (HAttr n false a).
Proof. reflexivity. Qed.
Print Assumptions C28_signature_refuted.
Theorem C28_inertial_refuted n e : hconv (HApply n [Assoc None (Act (D_expr true e))]) = hconv (HApply n [Assoc None (Act (D_expr false e))]).
Proof. reflexivity. Qed.
Print Assumptions C28_inertial_refuted.
Theorem C28_record_refuted s t : hconv (HSubtype None (hn s) (Some (Con_array [] true))) = hconv (HSubtype None (hn t) (Some (Con_array [] true))).
Proof. reflexivity. Qed.
Print Assumptions C28_record_refuted.
(** ASTs without meaning: the aggregate (others => x) as an operand of & loses its parentheses, so that
    an association stands in the place of a value; the reduction xnor is a binary operator with one
    operand. *)
Theorem C28_operand_refuted (A : halgebra) x y :
  hconv (HAdd O_AMP (HAgg [([Ch_others], hn x)]) (hn y)) = Ok (EOp CONCAT [EOp MAP_ASSOCIATION [ESym symb_OTHERS; EId $x]; EId $y]) /\
  hmeaning A (EOp CONCAT [EOp MAP_ASSOCIATION [ESym symb_OTHERS; EId $x]; EId $y]) = None.
Proof. split; reflexivity. Qed.
Print Assumptions C28_operand_refuted.
Theorem C28_xnor_refuted (A : halgebra) x : hconv (HUn (O_ULOG O_XNOR) (hn x)) = Ok (EOp XNOR [EId $x]) /\ hmeaning A (EOp XNOR [EId $x]) = None.
Proof. split; [reflexivity|]. cbn [hmeaning]. destruct (seqb $x $"new"); reflexivity. Qed.
Print Assumptions C28_xnor_refuted.
