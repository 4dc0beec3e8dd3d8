(** Model of hdlConvertor/verilogPreproc.pyx: the database of macros as Python sees it.
    The C++ objects live in a heap of their own, because only [del] destroys them (lines 42-54, 296-303).
    Simplifications: text is the sequence of its UTF-8 bytes (str_encode and str_decode are then the identity);
    defined_in_file and defined_in_line_no are left out; the preprocessor is not run between the operations. *)
From Verif Require Import Base MacroDefModel PpModel.

(** A C++ object aMacroDef: its definition and is_persistent (a_macro_def.h). *)
Record cobj := mkObj { co_def : mdef; co_persistent : bool }.
(** The objects made so far; [None] is an object that was deleted. *)
Definition heap := list (option cobj).
(** What Python code can hold: None, text, a MacroDefVerilogProxy for the object at an address, or a NonAccessibleCppObject (lines 171-175). *)
Inductive pyval := PNone | PText (s : str) | PMacro (a : nat) | POpaque.
(** State: the heap and the map of names to addresses, sorted by name as in std::map (line 40). *)
Record pydb := mkDb { pd_heap : heap; pd_map : list (str * nat) }.

Inductive pyexn := KeyError | AttributeError | AssertionError | TypeError.
(** Results of operations; an exception is a result, the program may go on after it. *)
Inductive pyres :=
| RVal (v : pyval) | RBool (b : bool) | RLen (n : nat) | RKeys (l : list str) | RValues (l : list pyval) | RItems (l : list (str * pyval))
| RText (s : str) | RParams (l : option (list (str * option str))) | RUnit | RRaise (e : pyexn).

(** ** std::map<std::string, aMacroDef*> *)
(** Order of std::string: bytes compared as unsigned numbers. *)
Fixpoint str_ltb (a b : str) : bool :=
  match a, b with
  | _, [] => false
  | [], _ :: _ => true
  | x :: a', y :: b' => if (nat_of_ascii x <? nat_of_ascii y) then true else if (nat_of_ascii y <? nat_of_ascii x) then false else str_ltb a' b'
  end.
(** map::find *)
Fixpoint mfind (m : list (str * nat)) (k : str) : option nat :=
  match m with [] => None | (k', a) :: m' => if seqb k' k then Some a else mfind m' k end.
(** map::operator[] with an assignment *)
Fixpoint mset (m : list (str * nat)) (k : str) (a : nat) : list (str * nat) :=
  match m with
  | [] => [(k, a)]
  | (k', a') :: m' => if seqb k' k then (k, a) :: m' else if str_ltb k k' then (k, a) :: m else (k', a') :: mset m' k a
  end.
(** map::erase *)
Definition merase (m : list (str * nat)) (k : str) : list (str * nat) := filter (fun p => negb (seqb (fst p) k)) m.

(** ** Objects *)
(** Access through a pointer: a deleted object is undefined behaviour. *)
Definition deref (h : heap) (a : nat) : outcome cobj :=
  match nth_error h a with Some (Some o) => Ok o | _ => UB "use of a deleted macro" end.
Definition hset (h : heap) (a : nat) (o : option cobj) : heap := firstn a h ++ o :: skipn (S a) h.
(** lines 188-200: a proxy for a MacroDefVerilog, found by dynamic_cast, else the placeholder. *)
Definition value_of (h : heap) (a : nat) : outcome pyval :=
  o <- deref h a ;; Ok (match co_def o with MUser _ => PMacro a | _ => POpaque end).

(** lines 62-79: fragments with arg_no > 0 give the name of the parameter, all others their text; the text of parameter 0 is empty. *)
Fixpoint get_body (ps : list param_info) (fs : list fragment) : outcome str :=
  match fs with
  | [] => Ok []
  | f :: fs' =>
      v <- (match f with
            | FArg 0 => Ok []
            | FArg (S i) => match nth_error ps (S i) with Some p => Ok (p_name p) | None => UB "params[arg_no]" end
            | FStr s => Ok s
            end) ;;
      r <- get_body ps fs' ;; Ok (v ++ r)
  end.
(** lines 81-102 *)
Definition get_params (m : macro_def) : option (list (str * option str)) :=
  if m_has_params m then Some (map (fun p => (p_name p, if p_has_def p then Some (p_def p) else None)) (m_params m)) else None.
(** lines 151-160: a parameter is a name or a pair of name and default; only pairs are pushed. *)
Definition cpp_params (l : list (str * option str)) : list param_info :=
  flat_map (fun p => match snd p with Some d => [mkParam (fst p) true d] | None => [] end) l.
(** lines 137-164.  The constructor is declared without 'except +' (lines 35-37), so a C++ exception would leave through Python's frames. *)
Definition new_proxy (h : heap) (name : str) (params : option (list (str * option str))) (body : str) : outcome (heap * nat) :=
  match new_macro name (match params with Some _ => true | None => false end) (cpp_params (match params with Some l => l | None => [] end)) body with
  | Ok m => Ok (h ++ [Some (mkObj (MUser m) false)], length h)
  | Throw _ => UB "C++ exception crosses Python"
  | UB s => UB s
  | OutOfFuel => OutOfFuel
  end.

(** ** The dictionary, lines 230-343 *)
Inductive op :=
| ONew (name : str) (params : option (list (str * option str))) (body : option str)
| OGet (k : str) (d : pyval) | OGetItem (k : str) | OSetItem (k : str) (v : pyval) | ODel (k : str)
| OPop (k : str) (d : option pyval) | OSetDefault (k : str) (d : pyval) | OContains (k : str) | OLen
| OKeys | OValues | OItems | OClear | OUpdate (l : list (str * pyval)) | OCopy | OIter
| OBody (v : pyval) | OParams (v : pyval) | OName (v : pyval).

(** __setitem__, 278-294; None and text become a new macro, other objects have no encode. *)
Definition set_item (s : pydb) (k : str) (v : pyval) : outcome (pydb * pyres) :=
  let store (h : heap) (a : nat) :=
    o <- deref h a ;;
    Ok (mkDb (hset h a (Some (mkObj (co_def o) true))) (mset (pd_map s) k a), RUnit) in
  match v with
  | PMacro a => store (pd_heap s) a
  | PText t => '(h, a) <- new_proxy (pd_heap s) k None t ;; store h a
  | PNone => '(h, a) <- new_proxy (pd_heap s) k None [] ;; store h a
  | POpaque => Ok (s, RRaise AttributeError)
  end.
(** update, 326-328: an exception ends the loop. *)
Fixpoint update (s : pydb) (l : list (str * pyval)) : outcome (pydb * pyres) :=
  match l with
  | [] => Ok (s, RUnit)
  | (k, v) :: l' =>
      '(s', r) <- set_item s k v ;;
      match r with RRaise e => Ok (s', RRaise e) | _ => update s' l' end
  end.
Fixpoint values_of (h : heap) (m : list (str * nat)) : outcome (list pyval) :=
  match m with [] => Ok [] | (_, a) :: m' => v <- value_of h a ;; r <- values_of h m' ;; Ok (v :: r) end.

Definition lookup_or (s : pydb) (k : str) (absent : pyres) : outcome (pydb * pyres) :=
  match mfind (pd_map s) k with
  | None => Ok (s, absent)
  | Some a => v <- value_of (pd_heap s) a ;; Ok (s, RVal v)
  end.
Definition with_macro (s : pydb) (v : pyval) (f : macro_def -> outcome pyres) : outcome (pydb * pyres) :=
  match v with
  | PMacro a =>
      o <- deref (pd_heap s) a ;;
      match co_def o with MUser m => r <- f m ;; Ok (s, r) | _ => UB "proxy of another class" end
  | _ => Ok (s, RRaise AttributeError)
  end.

Definition step (s : pydb) (o : op) : outcome (pydb * pyres) :=
  match o with
  | ONew n ps b => '(h, a) <- new_proxy (pd_heap s) n ps (match b with Some t => t | None => [] end) ;; Ok (mkDb h (pd_map s), RVal (PMacro a))
  | OGet k d => lookup_or s k (RVal d)                                          (* 239-244 *)
  | OGetItem k => lookup_or s k (RRaise KeyError)                               (* 264-272 *)
  | OSetItem k v => set_item s k v
  | ODel k =>                                                                   (* 296-303 *)
      match mfind (pd_map s) k with
      | None => Ok (s, RRaise KeyError)
      | Some a => _ <- deref (pd_heap s) a ;; Ok (mkDb (hset (pd_heap s) a None) (merase (pd_map s) k), RUnit)
      end
  | OPop k d => lookup_or s k (match d with Some v => RVal v | None => RRaise KeyError end)    (* 254-262 *)
  | OSetDefault k d =>                                                          (* 246-252 *)
      match mfind (pd_map s) k with
      | None => '(s', r) <- set_item s k d ;; match r with RRaise e => Ok (s', RRaise e) | _ => Ok (s', RVal d) end
      | Some a => v <- value_of (pd_heap s) a ;; Ok (s, RVal v)
      end
  | OContains k => Ok (s, RBool (match mfind (pd_map s) k with Some _ => true | None => false end))    (* 274-276 *)
  | OLen => Ok (s, RLen (length (pd_map s)))                                    (* 320-321 *)
  | OKeys => Ok (s, RKeys (map fst (pd_map s)))                                 (* 317-318 *)
  | OValues => l <- values_of (pd_heap s) (pd_map s) ;; Ok (s, RValues l)       (* 314-315 *)
  | OItems => l <- values_of (pd_heap s) (pd_map s) ;; Ok (s, RItems (combine (map fst (pd_map s)) l))    (* 311-312 *)
  | OClear => _ <- values_of (pd_heap s) (pd_map s) ;; Ok (mkDb (pd_heap s) [], RUnit)    (* 330-333: the objects stay *)
  | OUpdate l => update s l
  | OCopy => Ok (s, RRaise AssertionError)                                      (* 335-338 *)
  | OIter => Ok (s, RRaise AttributeError)          (* no __iter__: Python falls back to self[0], and str_encode(0) has no encode *)
  | OBody v => with_macro s v (fun m => b <- get_body (m_params m) (m_body m) ;; Ok (RText b))
  | OParams v => with_macro s v (fun m => Ok (RParams (get_params m)))
  | OName v => with_macro s v (fun m => Ok (RText (m_name m)))
  end.
Fixpoint run_ops (s : pydb) (l : list op) : outcome (pydb * list pyres) :=
  match l with
  | [] => Ok (s, [])
  | o :: l' => '(s1, r) <- step s o ;; '(s2, rs) <- run_ops s1 l' ;; Ok (s2, r :: rs)
  end.
Definition db0 : pydb := mkDb [] [].
