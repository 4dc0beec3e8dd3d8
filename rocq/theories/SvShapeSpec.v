(** Descriptions of if chains, case items and event lists; nothing here refers to the conversion. *)
From Verif Require Import Base AstModel StmModel SvExprModel SvStmModel.

(** if (c1) s1 else if (c2) s2 ... else e, with the comment in front of every if. *)
Definition link : Type := vexpr * vstm * str.
Fixpoint chain (c : vexpr) (s : vstm) (d : str) (rest : list link) (e : option vstm) : vstm :=
  TStm None [] d (I_if None c [] s (match rest with [] => e | (c', s', d') :: rest' => Some (chain c' s' d' rest' e) end)).
(** The comments that are there, one per line. *)
Definition nonempty (d : str) : bool := match d with [] => false | _ => true end.
Definition join_docs (l : list str) : str :=
  match filter nonempty l with [] => [] | d :: l' => d ++ concat (map (fun x => nl :: x) l') end.
(** The number of default items of a case statement. *)
Definition is_dflt (c : citem vstm) : bool := match fst c with [] => true | _ => false end.
Definition ndefaults (l : list (citem vstm)) : nat := length (filter is_dflt l).
(** The events of an event expression, from left to right. *)
Fixpoint leaves (e : evexpr) : list (option edge * vexpr) :=
  match e with EvList l => flat_map leaves l | EvItem ed x _ => [(ed, x)] end.
