(** Model of the copying of expressions: src/hdlAst/{hdlValue,hdlOp,hdlTypes,iHdlObj}.cpp. *)
From Verif Require Import Base AstModel.

(** CodePosition, codePosition.h:15-46; [None] is the position with four INVALID coordinates. *)
Definition position := option (nat * nat * nat * nat).
(** The class of a node with its own data: hdlValue.h, hdlOp.h, hdlTypes.h:38-96. *)
Inductive kind := KId (s : str) | KInt (bits : Z) (v : bigint) | KFloat (text : str) | KStr (s : str) | KSym (s : symb) | KNotImpl
| KArr | KOp (o : op) | KEnum | KPhysical | KClass.
(** An object in memory: its address, iHdlExprItem's position and attributes (iHdlObj.h:17-26, [None]
    for a null pointer) and its children in the order of the members: the operands of HdlOp, the items of
    HdlValueArr; for HdlEnumDef base_type, then the values with their names; for HdlPhysicalDef range,
    then the members.  The members of HdlClassDef are not modelled. *)
Inductive node := Node (addr : nat) (pos : position) (attrs : list (option str * option node)) (k : kind) (kids : list (option str * option node)).

Definition addr_of x := match x with Node a _ _ _ _ => a end.
Definition pos_of x := match x with Node _ p _ _ _ => p end.
Definition attrs_of x := match x with Node _ _ l _ _ => l end.
Definition kind_of x := match x with Node _ _ _ k _ => k end.
Definition kids_of x := match x with Node _ _ _ _ l => l end.

Section List.
Context (clone : nat -> node -> outcome (node * nat)).
(** p->clone_uniq() on a pointer: null is dereferenced unless the caller tests it. *)
Definition clone_ptr (tested : bool) (n : nat) (p : option node) : outcome (option node * nat) :=
  match p with
  | Some x => bind (clone n x) (fun r => Ok (Some (fst r), snd r))
  | None => if tested then Ok (None, n) else UB "clone of a null pointer"
  end.
(** The loops of hdlOp.cpp:17-20, hdlValue.h:134-141 (not tested), hdlTypes.cpp:35-41, 51-60 (tested),
    iHdlObj.cpp:19-21 (not tested). *)
Fixpoint clone_list (tested : bool) (n : nat) (l : list (option str * option node)) : outcome (list (option str * option node) * nat) :=
  match l with
  | [] => Ok ([], n)
  | (t, p) :: l' =>
      bind (clone_ptr tested n p) (fun r => bind (clone_list tested (snd r) l') (fun r' => Ok ((t, fst r) :: fst r', snd r')))
  end.
End List.

(** clone() of every class.  [n] is the first free address; new addresses are taken in the order of the
    calls of operator new. *)
Fixpoint clone (n : nat) (x : node) : outcome (node * nat) :=
  match x with
  | Node _ p at_ k kids =>
      match k with
      (* the implicit copy constructors copy the base class: hdlValue.cpp:36-38, 57-59, 66-68, 75-77;
         iHdlObj::iHdlObj(const iHdlObj&), iHdlObj.cpp:16-26 *)
      | KId _ | KInt _ _ | KFloat _ | KStr _ =>
          bind (clone_list clone false (S n) at_) (fun r => Ok (Node n p (fst r) k [], snd r))
      (* HdlValueSymbol::clone, HdlExprNotImplemented::clone: hdlValue.cpp:105-114 *)
      | KSym _ | KNotImpl => Ok (Node n None [] k [], S n)
      (* HdlOp::HdlOp(const HdlOp&), hdlOp.cpp:15-21; HdlValueArr(const HdlValueArr&), hdlValue.cpp:13-18 *)
      | KArr | KOp _ => bind (clone_list clone false (S n) kids) (fun r => Ok (Node n None [] k (fst r), snd r))
      (* HdlEnumDef(const HdlEnumDef&), hdlTypes.cpp:48-61 *)
      | KEnum =>
          match kids with
          | _ :: vals => bind (clone_list clone true (S n) vals) (fun r => Ok (Node n None [] k ((None, None) :: fst r), snd r))
          | [] => UB "malformed HdlEnumDef"
          end
      (* HdlPhysicalDef(const HdlPhysicalDef&), hdlTypes.cpp:32-42 *)
      | KPhysical =>
          match kids with
          | (t, r) :: members =>
              bind (clone_ptr clone false (S n) r) (fun r =>
              bind (clone_list clone true (snd r) members) (fun m => Ok (Node n None [] k ((t, fst r) :: fst m), snd m)))
          | [] => UB "malformed HdlPhysicalDef"
          end
      (* HdlClassDef(const HdlClassDef&), hdlTypes.cpp:19-24 *)
      | KClass => Throw (RuntimeError $"HdlClassDef copy constructor not implemented")
      end
  end.
