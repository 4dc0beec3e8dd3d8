(** The meaning of Verilog expressions (IEEE 1800 clause 11) and of AST expressions (documentation
    of hdlOpType.h), both in terms of one arbitrary interpretation of the operations.  Nothing here
    refers to the conversion. *)
From Verif Require Import Base AstModel LitModel LitSpec SvExprModel.

(** The operations. *)
Inductive uo := LogNot | BitNot | RedAnd | RedNand | RedOr | RedNor | RedXor | RedXnor | Plus | Minus.
Inductive bo :=
| Pow | Mul | Div | Mod | Add | Sub | Shl | Shr | Sshl | Sshr | Lt | Le | Gt | Ge
| Eq | Ne | CaseEq | CaseNe | WildEq | WildNe | BitAnd | BitXor | BitXnor | BitOr | LogAnd | LogOr
| Implies | Equiv | Concat | Repeat | Index.
Inductive slicing := FromTo | UpFrom | DownFrom.
(** An argument of a call or a parameter value: positional or named, present or absent. *)
Definition argument (V : Type) : Type := (option str * option V)%type.
(** An interpretation of everything an expression is made of. *)
Record algebra := {
  V : Type;
  a_name : str -> V;                              (* identifiers *)
  a_scope : V -> str -> V;                        (* a::b *)
  a_member : V -> str -> V;                       (* a.b *)
  a_param : V -> list (argument V) -> V;          (* a #(...) *)
  a_number : Z -> Z -> str -> V;                  (* width or -1, base, digits *)
  a_real : str -> V;
  a_string : str -> V;
  a_null : V;
  a_unary : uo -> V -> V;
  a_binary : bo -> V -> V -> V;
  a_cond : V -> V -> V -> V;
  a_slice : slicing -> V -> V -> V -> V;          (* a[x : y], a[x +: y], a[x -: y] *)
  a_call : V -> list (argument V) -> V;
  a_step : bool -> bool -> V -> V;                (* prefix?, increment? *)
  a_array : list (option V * V) -> V              (* '{ key : value } *)
}.

(** Tables of the language (IEEE 1800 table 11-1). *)
Definition v_unop (o : unop) : uo :=
  match o with
  | U_NOT => LogNot | U_NEG => BitNot | U_AMPERSAND => RedAnd | U_NAND => RedNand | U_BAR => RedOr | U_NOR => RedNor
  | U_XOR => RedXor | U_NXOR => RedXnor | U_XORN => RedXnor | U_PLUS => Plus | U_MINUS => Minus
  end.
Definition v_binop (o : binop) : bo :=
  match o with
  | B_DOUBLESTAR => Pow | B_MUL => Mul | B_DIV => Div | B_MOD => Mod | B_PLUS => Add | B_MINUS => Sub
  | B_SHIFT_LEFT => Shl | B_SHIFT_RIGHT => Shr | B_ARITH_SHIFT_LEFT => Sshl | B_ARITH_SHIFT_RIGHT => Sshr
  | B_LT => Lt | B_LE => Le | B_GT => Gt | B_GE => Ge
  | B_EQ => Eq | B_NE => Ne | B_CASE_EQ => CaseEq | B_CASE_NE => CaseNe | B_WILDCARD_EQ => WildEq | B_WILDCARD_NE => WildNe
  | B_AMPERSAND => BitAnd | B_XOR => BitXor | B_NXOR => BitXnor | B_XORN => BitXnor | B_BAR => BitOr
  | B_AND_LOG => LogAnd | B_OR_LOG => LogOr | B_ARROW => Implies | B_BI_DIR_ARROW => Equiv
  end.
Definition v_slicing (k : rangekind) : slicing := match k with R_COLON => FromTo | R_PLUS => UpFrom | R_MINUS => DownFrom end.
(** Tables of the AST: comments in hdlOpType.h:6-106. *)
Definition m_unop (o : op) : option uo :=
  match o with
  | NEG_LOG => Some LogNot | NEG => Some BitNot | AND_UNARY => Some RedAnd | NAND_UNARY => Some RedNand
  | OR_UNARY => Some RedOr | NOR_UNARY => Some RedNor | XOR_UNARY => Some RedXor | XNOR_UNARY => Some RedXnor
  | PLUS_UNARY => Some Plus | MINUS_UNARY => Some Minus | _ => None
  end.
Definition m_binop (o : op) : option bo :=
  match o with
  | POW => Some Pow | MUL => Some Mul | DIV => Some Div | MOD => Some Mod | ADD => Some Add | SUB => Some Sub
  | SLL => Some Shl | SRL => Some Shr | SLA => Some Sshl | SRA => Some Sshr
  | LT => Some Lt | LE => Some Le | GT => Some Gt | GE => Some Ge
  | EQ => Some Eq | NE => Some Ne | IS => Some CaseEq | IS_NOT => Some CaseNe | EQ_MATCH => Some WildEq | NE_MATCH => Some WildNe
  | AND => Some BitAnd | XOR => Some BitXor | XNOR => Some BitXnor | OR => Some BitOr | AND_LOG => Some LogAnd | OR_LOG => Some LogOr
  | ARROW => Some Implies | CONCAT => Some Concat | REPL_CONCAT => Some Repeat
  | _ => None
  end.
Definition m_slicing (o : op) : option slicing :=
  match o with DOWNTO => Some FromTo | PART_SELECT_POST => Some UpFrom | PART_SELECT_PRE => Some DownFrom | _ => None end.
Definition m_step (o : op) : option (bool * bool) :=
  match o with INCR_PRE => Some (true, true) | DECR_PRE => Some (true, false) | INCR_POST => Some (false, true) | DECR_POST => Some (false, false) | _ => None end.

Definition obind {A B} (a : option A) (f : A -> option B) : option B := match a with Some x => f x | None => None end.
Notation "x <~ a ;; b" := (obind a (fun x => b)) (at level 61, a at next level, right associativity).
Definition omapM {A B : Type} (f : A -> option B) : list A -> option (list B) :=
  fix go l := match l with [] => Some [] | x :: l' => y <~ f x ;; r <~ go l' ;; Some (y :: r) end.

Section Meaning.
Context (A : algebra).

(** ** The AST *)
(** An argument of a call: the name void stands for an absent one, k => v is a named one.  An absent
    parameter value is the symbol NULL. *)
Definition is_void (e : expr) : bool := match e with EId s => seqb s $"void" | _ => false end.
Definition is_null (e : expr) : bool := match e with ESym symb_NULL => true | _ => false end.
Definition m_arg (absent : expr -> bool) (f : expr -> option (V A)) (e : expr) : option (argument (V A)) :=
  match e with
  | EOp MAP_ASSOCIATION [EId k; v] => if absent v then Some (Some k, None) else x <~ f v ;; Some (Some k, Some x)
  | _ => if absent e then Some (None, None) else x <~ f e ;; Some (None, Some x)
  end.
Definition m_elem (f : expr -> option (V A)) (e : expr) : option (option (V A) * V A) :=
  match e with
  | EOp MAP_ASSOCIATION [k; v] => x <~ f k ;; y <~ f v ;; Some (Some x, y)
  | _ => x <~ f e ;; Some (None, x)
  end.
Fixpoint meaning (e : expr) : option (V A) :=
  match e with
  | EId s => if seqb s $"void" then None else Some (a_name A s)
  | EInt w (Digits s b) => Some (a_number A w b s)
  | EFloat t => Some (a_real A t)
  | EStr s => Some (a_string A s)
  | ESym symb_NULL => Some (a_null A)
  | EArr l => r <~ omapM (m_elem meaning) l ;; Some (a_array A r)
  | EOp TERNARY [c; x; y] => vc <~ meaning c ;; vx <~ meaning x ;; vy <~ meaning y ;; Some (a_cond A vc vx vy)
  | EOp INDEX [x; i] =>
      vx <~ meaning x ;;
      match i with
      | EOp o [y; z] =>
          match m_slicing o with
          | Some k => vy <~ meaning y ;; vz <~ meaning z ;; Some (a_slice A k vx vy vz)
          | None => vi <~ meaning i ;; Some (a_binary A Index vx vi)
          end
      | _ => vi <~ meaning i ;; Some (a_binary A Index vx vi)
      end
  | EOp DOT [x; EId s] => vx <~ meaning x ;; Some (a_member A vx s)
  | EOp DOUBLE_COLON [x; EId s] => vx <~ meaning x ;; Some (a_scope A vx s)
  | EOp CALL (f :: l) => vf <~ meaning f ;; r <~ omapM (m_arg is_void meaning) l ;; Some (a_call A vf r)
  | EOp PARAMETRIZATION (f :: l) => vf <~ meaning f ;; r <~ omapM (m_arg is_null meaning) l ;; Some (a_param A vf r)
  | EOp o [x] =>
      vx <~ meaning x ;;
      match m_unop o, m_step o with
      | Some u, _ => Some (a_unary A u vx)
      | None, Some (p, i) => Some (a_step A p i vx)
      | None, None => None
      end
  | EOp o [x; y] => b <~ m_binop o ;; vx <~ meaning x ;; vy <~ meaning y ;; Some (a_binary A b vx vy)
  | _ => None
  end.

(** ** The source.  None: the expression uses something outside the fragment (see P_C27.v). *)
(** Names that are no identifiers of the language. *)
Definition v_ident (i : ident) : option str :=
  match i with IdPlain s => if seqb s $"void" then None else Some s | IdEsc _ => None end.
(** Numbers: decimal, or [size]'base digits.  Signed literals and white space are left out. *)
Definition decimalb (s : str) : bool := negb (length s =? 0) && forallb (fun c => is_digit c || ceqb c "_") s.
Definition base_of (c : ascii) : option vbase :=
  if mem_c c $"bB" then Some Bin else if mem_c c $"oO" then Some Oct else if mem_c c $"dD" then Some Dec
  else if mem_c c $"hH" then Some Hex else None.
Definition v_based (size : option str) (t : str) : option (V A) :=
  match t with
  | q :: c :: ds =>
      b <~ base_of c ;;
      if ceqb q "'" && forallb (digit_ok b) ds && match size with Some s => decimalb s && (value 10 s <=? 2147483647)%Z | None => true end
      then Some (a_number A (width size) (radix b) (plain ds)) else None
  | _ => None
  end.
Fixpoint cut_at (c : ascii) (s : str) : str * str :=
  match s with [] => ([], []) | d :: s' => if ceqb d c then ([], s) else let '(a, b) := cut_at c s' in (d :: a, b) end.
Definition v_number (t : inttok) : option (V A) :=
  match t with
  | TokUnsigned s => if decimalb s then Some (a_number A (-1) 10 (plain s)) else None
  | TokBased size t => v_based size t
  | TokSized t => let '(s, r) := cut_at "'" t in v_based (Some s) r
  end.
Definition v_lit (l : lit) : option (V A) :=
  match l with
  | L_NUMBER t => v_number t
  | L_REAL t => Some (a_real A t)
  | L_STRING (q :: s) => match rev s with r :: s' => if ceqb q dq && ceqb r dq then Some (a_string A (rev s')) else None | [] => None end
  | L_NULL => Some (a_null A)
  | L_THIS => Some (a_name A $"this")
  | L_DOLAR => Some (a_name A $"$")
  | _ => None
  end.
(** The literal null, possibly between parentheses or braces. *)
Fixpoint null_like (e : vexpr) : bool :=
  match e with VLit L_NULL => true | VPar e _ => null_like e | VConcat [e] => null_like e | VLvConcat [e] => null_like e | _ => false end.
Section Parts.
Context (f : vexpr -> option (V A)).
(** n commas separate n + 1 arguments, each of them may be absent.  [cur] is the argument read since
    the last comma. *)
Definition v_args : option (argument (V A)) -> list (argc vexpr) -> option (list (argument (V A))) :=
  fix go cur l :=
    let here := match cur with Some a => a | None => (None, None) end in
    match l with
    | [] => Some [here]
    | AComma :: l' => r <~ go None l' ;; Some (here :: r)
    | AExpr e :: l' => match cur with Some _ => None | None => x <~ f e ;; go (Some (None, Some x)) l' end
    | ANamed n None :: l' => match cur with Some _ => None | None => k <~ v_ident n ;; go (Some (Some k, None)) l' end
    | ANamed n (Some e) :: l' => match cur with Some _ => None | None => k <~ v_ident n ;; x <~ f e ;; go (Some (Some k, Some x)) l' end
    end.
(** The last argument is present. *)
Fixpoint complete (l : list (argc vexpr)) : bool :=
  match l with [] => false | [AComma] => false | [_] => true | _ :: l' => complete l' end.
Definition v_arglist (l : list (argc vexpr)) : option (list (argument (V A))) := if complete l then v_args None l else None.
Definition v_pval (v : pval vexpr) : option (V A) :=
  match v with PV_expr e => if null_like e then None else f e | PV_type _ => None end.
Definition v_pva (v : pva vexpr) : option (list (argument (V A))) :=
  match v with
  | PVA_ordered l => omapM (fun p => x <~ v_pval p ;; Some (None, Some x)) l
  | PVA_named l => omapM (fun p : ident * option (pval vexpr) => k <~ v_ident (fst p) ;;
      match snd p with Some v => x <~ v_pval v ;; Some (Some k, Some x) | None => Some (Some k, None) end) l
  end.
Definition v_item (sel : option (V A)) (it : ident * option (pva vexpr)) : option (V A) :=
  s <~ v_ident (fst it) ;;
  let v := match sel with Some x => a_scope A x s | None => a_name A s end in
  match snd it with Some p => l <~ v_pva p ;; Some (a_param A v l) | None => Some v end.
Definition v_items : option (V A) -> list (ident * option (pva vexpr)) -> option (option (V A)) :=
  fix go sel l := match l with [] => Some sel | it :: l' => x <~ v_item sel it ;; go (Some x) l' end.
Definition v_path (p : vpath vexpr) : option (V A) :=
  match p with
  | VPathOf local h items =>
      let start := if local then Some (a_name A $"local") else None in
      let under s := match start with Some x => a_scope A x s | None => a_name A s end in
      let hd := match h with
                | H_none => start | H_root => Some (under $"$root") | H_unit => Some (under $"$unit")
                | H_this => Some (under $"this") | H_super => Some (under $"super")
                | H_this_super => Some (a_member A (under $"this") $"super")
                end in
      match h, items with
      | H_none, [] => None
      | _, _ => r <~ v_items hd items ;; r
      end
  end.
Definition v_selects : V A -> list vexpr -> option (V A) :=
  fix go x l := match l with [] => Some x | e :: l' => i <~ f e ;; go (a_binary A Index x i) l' end.
Definition v_key (k : pkey vexpr) : option (V A) :=
  match k with
  | K_default => Some (a_name A $"default") | K_id i => s <~ v_ident i ;; Some (a_name A s)
  | K_expr e => f e | K_type => None | K_path p => v_path p
  end.
End Parts.
Definition concat (l : list (V A)) : option (V A) :=
  match l with [] => None | x :: l' => Some (fold_left (a_binary A Concat) l' x) end.

Fixpoint vmeaning (e : vexpr) : option (V A) :=
  match e with
  | VLit l => v_lit l
  | VPath p => v_path vmeaning p
  | VPar e None => vmeaning e
  | VBitSelect p e => x <~ vmeaning p ;; i <~ vmeaning e ;; Some (a_binary A Index x i)
  | VDot p i => x <~ vmeaning p ;; s <~ v_ident i ;; Some (a_member A x s)
  | VRange p k a b => x <~ vmeaning p ;; y <~ vmeaning a ;; z <~ vmeaning b ;; Some (a_slice A (v_slicing k) x y z)
  | VConcat l => r <~ omapM vmeaning l ;; concat r
  | VRepl n c => x <~ vmeaning n ;; y <~ vmeaning c ;; Some (a_binary A Repeat x y)
  | VTfCall name None args =>
      s <~ v_ident (IdPlain name) ;;
      r <~ match args with Some l => v_arglist vmeaning l | None => Some [] end ;; Some (a_call A (a_name A s) r)
  | VCall p None (Some l) None => x <~ vmeaning p ;; r <~ v_arglist vmeaning l ;; Some (a_call A x r)
  | VPattern l => r <~ omapM (fun e => x <~ vmeaning e ;; Some (None, x)) l ;; Some (a_array A r)
  | VPatternKeys l => r <~ omapM (fun kv => k <~ v_key vmeaning (fst kv) ;; x <~ vmeaning (snd kv) ;; Some (Some k, x)) l ;; Some (a_array A r)
  | VUnary o p => x <~ vmeaning p ;; Some (a_unary A (v_unop o) x)
  | VIncDec p i l => x <~ vmeaning l ;; Some (a_step A p i x)
  | VBinary B_BI_DIR_ARROW _ _ => None
  | VBinary o a b => x <~ vmeaning a ;; y <~ vmeaning b ;; Some (a_binary A (v_binop o) x y)
  | VTernary c a b => z <~ vmeaning c ;; x <~ vmeaning a ;; y <~ vmeaning b ;; Some (a_cond A z x y)
  | VLvConcat l => r <~ omapM vmeaning l ;; concat r
  | VLvHier p sel [] r =>
      x <~ v_path vmeaning p ;; y <~ v_selects vmeaning x sel ;;
      match r with
      | None => Some y
      | Some (k, a, b) => s <~ vmeaning a ;; t <~ vmeaning b ;; Some (a_slice A (v_slicing k) y s t)
      end
  | _ => None
  end.
End Meaning.
