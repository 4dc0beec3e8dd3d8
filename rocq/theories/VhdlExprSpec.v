(** The meaning of VHDL expressions (IEEE 1076 clauses 8, 9) and of AST expressions, in terms of one
    arbitrary interpretation of the operations.  Nothing here refers to the conversion. *)
From Verif Require Import Base AstModel LitModel LitSpec SvExprModel SvExprSpec VhdlExprModel.

Inductive hu := HNot | HAbs | HPlus | HMinus | HRedAnd | HRedOr | HRedNand | HRedNor | HRedXor | HRedXnor.
Inductive hb :=
| HbPow | HbMul | HbDiv | HbMod | HbRem | HbAdd | HbSub | HbConcat | HbSll | HbSrl | HbSla | HbSra | HbRol | HbRor
| HbEq | HbNe | HbLt | HbLe | HbGt | HbGe | HbMEq | HbMNe | HbMLt | HbMLe | HbMGt | HbMGe
| HbAnd | HbOr | HbNand | HbNor | HbXor | HbXnor.
(** Actuals of a call, an index or a constraint. *)
Inductive hact (V : Type) := HaOpen | HaAll | HaVal (v : V).
Arguments HaOpen {V}. Arguments HaAll {V}. Arguments HaVal {V}.
Inductive hsel (V : Type) := HsOthers | HsVal (v : V).
Arguments HsOthers {V}. Arguments HsVal {V}.
Record halgebra := {
  HV : Type;
  h_name : str -> HV;
  h_char : str -> HV;
  h_string : str -> HV;
  h_int : Z -> HV;
  h_real : str -> HV;
  h_bits : Z -> Z -> str -> HV;                                   (* width, radix, digits *)
  h_null : HV;
  h_unit : HV -> HV -> HV;                                        (* 10 ns *)
  h_unary : hu -> HV -> HV;
  h_binary : hb -> HV -> HV -> HV;
  h_range : dir -> HV -> HV -> HV;                                (* a to b, a downto b *)
  h_apply : HV -> list (option HV * hact HV) -> HV;               (* f(x => a, b): call, index, slice, constraint *)
  h_attr : HV -> str -> HV;                                       (* a'b *)
  h_member : HV -> HV -> HV;                                      (* a.b *)
  h_all : HV -> HV;                                               (* a.all *)
  h_aggregate : list (list (hsel HV) * HV) -> HV;                 (* (a | b => c, others => d) *)
  h_qualified : HV -> HV -> HV;                                   (* t'(...) *)
  h_new : HV -> HV;
  h_constrained : HV -> HV -> HV;                                 (* t range r *)
  h_resolved : HV -> HV -> HV                                     (* resolution function, subtype *)
}.

(** Operators of the language. *)
Definition hv_log (o : hlog) : hb := match o with O_AND => HbAnd | O_OR => HbOr | O_NAND => HbNand | O_NOR => HbNor | O_XOR => HbXor | O_XNOR => HbXnor end.
Definition hv_rel (o : hrel) : hb :=
  match o with O_EQ => HbEq | O_NE => HbNe | O_LT => HbLt | O_LE => HbLe | O_GT => HbGt | O_GE => HbGe
             | O_MEQ => HbMEq | O_MNE => HbMNe | O_MLT => HbMLt | O_MLE => HbMLe | O_MGT => HbMGt | O_MGE => HbMGe end.
Definition hv_shift (o : hshift) : hb := match o with O_SLL => HbSll | O_SRL => HbSrl | O_SLA => HbSla | O_SRA => HbSra | O_ROL => HbRol | O_ROR => HbRor end.
Definition hv_add (o : hadd) : hb := match o with O_PLUS => HbAdd | O_MINUS => HbSub | O_AMP => HbConcat end.
Definition hv_mul (o : hmul) : hb := match o with O_MUL => HbMul | O_DIV => HbDiv | O_MOD => HbMod | O_REM => HbRem end.
Definition hv_un (o : hun) : hu :=
  match o with
  | O_ABS => HAbs | O_NOT => HNot | O_SIGN true => HMinus | O_SIGN false => HPlus
  | O_ULOG O_AND => HRedAnd | O_ULOG O_OR => HRedOr | O_ULOG O_NAND => HRedNand | O_ULOG O_NOR => HRedNor
  | O_ULOG O_XOR => HRedXor | O_ULOG O_XNOR => HRedXnor
  end.
(** Operators of the AST (hdlOpType.h). *)
Definition hm_un (o : op) : option hu :=
  match o with
  | NEG => Some HNot | ABS => Some HAbs | PLUS_UNARY => Some HPlus | MINUS_UNARY => Some HMinus | AND_UNARY => Some HRedAnd
  | OR_UNARY => Some HRedOr | NAND_UNARY => Some HRedNand | NOR_UNARY => Some HRedNor | XOR_UNARY => Some HRedXor | XNOR_UNARY => Some HRedXnor
  | _ => None
  end.
Definition hm_bin (o : op) : option hb :=
  match o with
  | POW => Some HbPow | MUL => Some HbMul | DIV => Some HbDiv | MOD => Some HbMod | REM => Some HbRem | ADD => Some HbAdd | SUB => Some HbSub
  | CONCAT => Some HbConcat | SLL => Some HbSll | SRL => Some HbSrl | SLA => Some HbSla | SRA => Some HbSra | ROL => Some HbRol | ROR => Some HbRor
  | EQ => Some HbEq | NE => Some HbNe | LT => Some HbLt | LE => Some HbLe | GT => Some HbGt | GE => Some HbGe
  | EQ_MATCH => Some HbMEq | NE_MATCH => Some HbMNe | LT_MATCH => Some HbMLt | LE_MATCH => Some HbMLe | GT_MATCH => Some HbMGt | GE_MATCH => Some HbMGe
  | AND => Some HbAnd | OR => Some HbOr | NAND => Some HbNand | NOR => Some HbNor | XOR => Some HbXor | XNOR => Some HbXnor
  | _ => None
  end.

Section Meaning.
Context (A : halgebra).

(** ** The AST *)
Definition hm_act (f : expr -> option (HV A)) (e : expr) : option (hact (HV A)) :=
  match e with ESym symb_OPEN => Some HaOpen | ESym symb_ALL => Some HaAll | _ => x <~ f e ;; Some (HaVal x) end.
Definition hm_assoc (f : expr -> option (HV A)) (e : expr) : option (option (HV A) * hact (HV A)) :=
  match e with
  | EOp ARROW [k; x] => vk <~ f k ;; vx <~ hm_act f x ;; Some (Some vk, vx)
  | _ => vx <~ hm_act f e ;; Some (None, vx)
  end.
Definition hm_element (f : expr -> option (HV A)) (e : expr) : option (list (hsel (HV A)) * HV A) :=
  match e with
  | EOp MAP_ASSOCIATION [c; x] =>
      vc <~ match c with ESym symb_OTHERS => Some HsOthers | _ => y <~ f c ;; Some (HsVal y) end ;; vx <~ f x ;; Some ([vc], vx)
  | _ => vx <~ f e ;; Some ([], vx)
  end.
Fixpoint hmeaning (e : expr) : option (HV A) :=
  match e with
  | EId s => if seqb s $"new" then None else Some (h_name A s)
  | EInt w (Digits s b) => if (b =? 256)%Z then Some (h_char A s) else Some (h_bits A w b s)
  | EInt _ (Val v) => Some (h_int A v)
  | EFloat t => Some (h_real A t)
  | EStr s => Some (h_string A s)
  | ESym symb_NULL => Some (h_null A)
  | EArr l => r <~ omapM (hm_element hmeaning) l ;; Some (h_aggregate A r)
  | EOp TO [x; y] => vx <~ hmeaning x ;; vy <~ hmeaning y ;; Some (h_range A To vx vy)
  | EOp DOWNTO [x; y] => vx <~ hmeaning x ;; vy <~ hmeaning y ;; Some (h_range A Downto vx vy)
  | EOp UNIT_SPEC [x; y] => vx <~ hmeaning x ;; vy <~ hmeaning y ;; Some (h_unit A vx vy)
  | EOp RANGE [x; y] => vx <~ hmeaning x ;; vy <~ hmeaning y ;; Some (h_constrained A vx vy)
  | EOp DEFINE_RESOLVER [x; y] => vx <~ hmeaning x ;; vy <~ hmeaning y ;; Some (h_resolved A vx vy)
  | EOp DOT [x; ESym symb_ALL] => vx <~ hmeaning x ;; Some (h_all A vx)
  | EOp DOT [x; y] => vx <~ hmeaning x ;; vy <~ hmeaning y ;; Some (h_member A vx vy)
  | EOp APOSTROPHE [x; EId s] => vx <~ hmeaning x ;; Some (h_attr A vx s)
  | EOp APOSTROPHE [x; y] => vx <~ hmeaning x ;; vy <~ hmeaning y ;; Some (h_qualified A vx vy)
  | EOp INDEX (g :: l) => vg <~ hmeaning g ;; r <~ omapM (hm_assoc hmeaning) l ;; Some (h_apply A vg r)
  | EOp CALL (g :: l) =>
      match g, l with
      | EId s, [x] => if seqb s $"new" then vx <~ hmeaning x ;; Some (h_new A vx)
                      else vx <~ hm_assoc hmeaning x ;; Some (h_apply A (h_name A s) [vx])
      | _, _ => vg <~ hmeaning g ;; r <~ omapM (hm_assoc hmeaning) l ;; Some (h_apply A vg r)
      end
  | EOp o [x] => vx <~ hmeaning x ;; u <~ hm_un o ;; Some (h_unary A u vx)
  | EOp o [x; y] => b <~ hm_bin o ;; vx <~ hmeaning x ;; vy <~ hmeaning y ;; Some (h_binary A b vx vy)
  | _ => None
  end.

(** ** The source.  None: outside of the fragment (P_C28.v). *)
Definition hv_id (s : str) : option str := if seqb s $"new" then None else Some s.
(** A string literal without its quotes. *)
Fixpoint undouble (s : str) : option str :=
  match s with
  | [] => Some []
  | c :: s' => if ceqb c dq then match s' with d :: s'' => if ceqb d dq then r <~ undouble s'' ;; Some (dq :: r) else None | [] => None end
               else r <~ undouble s' ;; Some (c :: r)
  end.
Definition hv_string (t : str) : option str :=
  match t with q :: s => match rev s with r :: s' => if ceqb q dq && ceqb r dq then undouble (rev s') else None | [] => None end | [] => None end.
(** A character literal of one byte. *)
Definition hv_char (t : str) : option str :=
  match t with [q; c; r] => if ceqb q "'" && ceqb r "'" then Some [c] else None | _ => None end.
Definition hv_nlit (l : nlit) : option (HV A) :=
  match l with
  | NL_id s => x <~ hv_id s ;; Some (h_name A x)
  | NL_op t => x <~ hv_string t ;; Some (h_string A x)
  | NL_char t => x <~ hv_char t ;; Some (h_char A x)
  end.
(** Decimal literals: integers of int without underscore, or reals. *)
Definition hv_decimal (t : str) : option (HV A) :=
  if forallb is_digit t then (if (value 10 t <=? 2147483647)%Z then Some (h_int A (value 10 t)) else None)
  else if mem_c "." t then Some (h_real A t) else None.
(** Bit strings: [length] B or X, without sign.  The rest is C24. *)
Definition hv_bitlit (t : str) : option bitlit :=
  let '(p, q) := cut_at dq t in
  match rev p, q with
  | c :: n, _ :: ds =>
      b <~ (if mem_c c $"bB" then Some BB else if mem_c c $"xX" then Some BX else None) ;;
      match rev ds with
      | r :: ds' =>
          if ceqb r dq && forallb (fun c => negb (ceqb c dq) && negb (ceqb c c0)) (rev ds') && forallb is_digit (rev n) &&
             match n with [] => true | _ => negb (value 10 (rev n) =? 0)%Z && (value 10 (rev n) <=? 2147483647)%Z end
          then Some (mkBit (match n with [] => None | _ => Some (rev n) end) NoSign c b (rev ds')) else None
      | [] => None
      end
  | _, _ => None
  end.
Definition hv_bits (t : str) : option (HV A) :=
  l <~ hv_bitlit t ;; Some (h_bits A (std_width l) (bradix (bl_base l)) (plain (bl_digits l))).

(** Through parentheses: an aggregate with one named element; an identifier. *)
Fixpoint single_named (e : hexpr) : bool :=
  match e with HAgg [([], e)] => single_named e | HAgg [(_ :: _, _)] => true | HSubtype None e None => single_named e | _ => false end.
Fixpoint is_id (e : hexpr) : bool :=
  match e with HLit (NL_id _) => true | HAgg [([], e)] => is_id e | HSubtype None e None => is_id e | _ => false end.
Section Parts.
Context (f : hexpr -> option (HV A)).
Definition hv_range (r : hrange hexpr) : option (HV A) :=
  match r with R_name e => f e | R_explicit a d b => x <~ f a ;; y <~ f b ;; Some (h_range A d x y) end.
Definition hv_choice (c : hchoice hexpr) : option (hsel (HV A)) :=
  match c with Ch_others => Some HsOthers | Ch r => x <~ hv_range r ;; Some (HsVal x) end.
(** One choice per element. *)
Definition hv_element (p : list (hchoice hexpr) * hexpr) : option (list (hsel (HV A)) * HV A) :=
  v <~ f (snd p) ;;
  match fst p with [] => Some ([], v) | [c] => x <~ hv_choice c ;; Some ([x], v) | _ => None end.
(** One positional element is an expression between parentheses. *)
Definition hv_aggregate (l : list (list (hchoice hexpr) * hexpr)) : option (HV A) :=
  match l with
  | [([], e)] => f e
  | _ => r <~ omapM hv_element l ;; Some (h_aggregate A r)
  end.
Definition hv_desig (d : hdesig hexpr) : option (hact (HV A)) :=
  match d with D_expr false e => x <~ f e ;; Some (HaVal x) | D_expr true _ => None | D_open => Some HaOpen end.
Definition hv_actual (a : hactual hexpr) : option (hact (HV A)) :=
  match a with
  | Act d => hv_desig d
  | Act_conv n d => g <~ f n ;; x <~ hv_desig d ;; Some (HaVal (h_apply A g [(None, x)]))
  end.
Definition hv_formal (p : hexpr * option hexpr) : option (HV A) :=
  n <~ f (fst p) ;; match snd p with Some m => x <~ f m ;; Some (h_apply A n [(None, HaVal x)]) | None => Some n end.
Definition hv_assoc (a : hassoc hexpr) : option (option (HV A) * hact (HV A)) :=
  match a with
  | Assoc fp ac => x <~ hv_actual ac ;; match fp with Some p => k <~ hv_formal p ;; Some (Some k, x) | None => Some (None, x) end
  end.
Definition hv_array_constraint (t : HV A) (c : option (list (hrange hexpr))) : option (HV A) :=
  match c with
  | Some l => r <~ omapM (fun d => x <~ hv_range d ;; Some (None, HaVal x)) l ;; Some (h_apply A t r)
  | None => Some (h_apply A t [(None, HaAll)])
  end.
Definition hv_array_constraints : HV A -> list (option (list (hrange hexpr))) -> option (HV A) :=
  fix go t l := match l with [] => Some t | c :: l' => u <~ hv_array_constraint t c ;; go u l' end.
Definition hv_constr (t : HV A) (c : hconstr hexpr) : option (HV A) :=
  match c with
  | Con_range r => x <~ hv_range r ;; Some (h_constrained A t x)
  | Con_array ((_ :: _) as l) false => hv_array_constraints t l
  | Con_array _ _ => None
  end.
Definition hv_operand (e : hexpr) : option (HV A) := if single_named e then None else f e.
End Parts.
Fixpoint hvmeaning (e : hexpr) : option (HV A) :=
  match e with
  | HLit l => hv_nlit l
  | HSlice n a d b => x <~ hvmeaning n ;; y <~ hvmeaning a ;; z <~ hvmeaning b ;; Some (h_apply A x [(None, HaVal (h_range A d y z))])
  | HAttr n false a => x <~ hvmeaning n ;; Some (h_attr A x a)
  | HDot n l => x <~ hvmeaning n ;; y <~ hv_nlit l ;; Some (h_member A x y)
  | HAll n => x <~ hvmeaning n ;; Some (h_all A x)
  | HApply n l => x <~ hvmeaning n ;; r <~ omapM (hv_assoc hvmeaning) l ;; Some (h_apply A x r)
  | HNum false t None => hv_decimal t
  | HNum false t (Some u) => x <~ hv_decimal t ;; y <~ hvmeaning u ;; Some (h_unit A x y)
  | HBits t => hv_bits t
  | HNull => Some (h_null A)
  | HNew e => x <~ hvmeaning e ;; Some (h_new A x)
  | HAgg l => hv_aggregate hvmeaning l
  | HQual tm l =>
      if (match l with [([], e)] => is_id e | _ => false end) then None
      else x <~ hvmeaning tm ;; y <~ hv_aggregate hvmeaning l ;; Some (h_qualified A x y)
  | HPow a b => x <~ hv_operand hvmeaning a ;; y <~ hv_operand hvmeaning b ;; Some (h_binary A HbPow x y)
  | HUn (O_ULOG O_XNOR) _ => None
  | HUn o a => x <~ hv_operand hvmeaning a ;; Some (h_unary A (hv_un o) x)
  | HMul o a b => x <~ hv_operand hvmeaning a ;; y <~ hv_operand hvmeaning b ;; Some (h_binary A (hv_mul o) x y)
  | HAdd o a b => x <~ hv_operand hvmeaning a ;; y <~ hv_operand hvmeaning b ;; Some (h_binary A (hv_add o) x y)
  | HShift o a b => x <~ hvmeaning a ;; y <~ hvmeaning b ;; Some (h_binary A (hv_shift o) x y)
  | HRel o a b => x <~ hvmeaning a ;; y <~ hvmeaning b ;; Some (h_binary A (hv_rel o) x y)
  | HLog o a b => x <~ hvmeaning a ;; y <~ hvmeaning b ;; Some (h_binary A (hv_log o) x y)
  | HSubtype ri tm c =>
      r <~ match ri with Some (Res_name n) => x <~ hvmeaning n ;; Some (Some x) | Some Res_elem => None | None => Some None end ;;
      t <~ hvmeaning tm ;;
      u <~ match c with Some c => hv_constr hvmeaning t c | None => Some t end ;;
      Some (match r with Some x => h_resolved A x u | None => u end)
  | HExternal | HNum true _ _ | HAttr _ true _ | HCondOp _ => None
  end.
End Meaning.
