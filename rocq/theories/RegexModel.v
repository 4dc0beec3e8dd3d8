(** Regular expressions with longest-match semantics: the matching engine behind the
    transcription of grammars/verilogPreprocLexer.g4 (ANTLR lexer rules).
    ANTLR's generated lexer is not in /repo; this file models its documented strategy. *)
From Verif Require Import Base.

(** A set of characters: the listed ones, or (neg) all others. *)
Record cclass := CC { cc_neg : bool; cc_set : str }.
Definition cc_mem (k : cclass) (c : ascii) : bool := xorb (cc_neg k) (mem_c c (cc_set k)).

Inductive re :=
| Emp                       (* no match *)
| Eps                       (* empty string *)
| Eof                       (* empty string, only at the end of the input *)
| Chr (k : cclass)
| Seq (a b : re)
| Alt (a b : re)
| Star (a : re).

(** Declarative semantics: [M r s rest]: r matches s when rest is what follows s in the input. *)
Inductive M : re -> str -> str -> Prop :=
| M_Eps rest : M Eps [] rest
| M_Eof : M Eof [] []
| M_Chr k c rest : cc_mem k c = true -> M (Chr k) [c] rest
| M_Seq a b x y rest : M a x (y ++ rest) -> M b y rest -> M (Seq a b) (x ++ y) rest
| M_AltL a b x rest : M a x rest -> M (Alt a b) x rest
| M_AltR a b x rest : M b x rest -> M (Alt a b) x rest
| M_Star0 a rest : M (Star a) [] rest
| M_StarS a x y rest : x <> [] -> M a x (y ++ rest) -> M (Star a) y rest ->
                       M (Star a) (x ++ y) rest.

(** Executable matcher (Brzozowski derivatives). *)
Definition cc_eqb (a b : cclass) : bool :=
  Bool.eqb (cc_neg a) (cc_neg b) && seqb (cc_set a) (cc_set b).
Fixpoint re_eqb (a b : re) : bool :=
  match a, b with
  | Emp, Emp | Eps, Eps | Eof, Eof => true
  | Chr k, Chr k' => cc_eqb k k'
  | Seq a1 a2, Seq b1 b2 | Alt a1 a2, Alt b1 b2 => re_eqb a1 b1 && re_eqb a2 b2
  | Star a1, Star b1 => re_eqb a1 b1
  | _, _ => false
  end.

Definition seq (a b : re) : re :=
  match a, b with
  | Emp, _ | _, Emp => Emp
  | Eps, _ => b
  | _, _ => Seq a b
  end.
Fixpoint in_alt (a b : re) : bool :=
  re_eqb a b || match b with Alt b1 b2 => re_eqb a b1 || in_alt a b2 | _ => false end.
Definition alt1 (a b : re) : re :=
  match a, b with
  | Emp, _ => b
  | _, Emp => a
  | _, _ => if in_alt a b then b else Alt a b
  end.
Fixpoint alt (a b : re) : re :=
  match a with
  | Alt a1 a2 => alt1 a1 (alt a2 b)
  | _ => alt1 a b
  end.

(** Does r match the empty string (at_end: nothing follows)? *)
Fixpoint nullable (at_end : bool) (r : re) : bool :=
  match r with
  | Emp | Chr _ => false
  | Eps | Star _ => true
  | Eof => at_end
  | Seq a b => nullable at_end a && nullable at_end b
  | Alt a b => nullable at_end a || nullable at_end b
  end.
Fixpoint deriv (c : ascii) (r : re) : re :=
  match r with
  | Emp | Eps | Eof => Emp
  | Chr k => if cc_mem k c then Eps else Emp
  | Seq a b => if nullable false a then alt (seq (deriv c a) b) (deriv c b)
               else seq (deriv c a) b
  | Alt a b => alt (deriv c a) (deriv c b)
  | Star a => seq (deriv c a) (Star a)
  end.

Definition is_nil {A} (l : list A) : bool := match l with [] => true | _ => false end.

(** Length of the longest prefix of s matched by r. *)
Fixpoint lmatch_from (r : re) (s : str) (n : nat) (best : option nat) : option nat :=
  match r with
  | Emp => best
  | _ =>
      let best' := if nullable (is_nil s) r then Some n else best in
      match s with
      | [] => best'
      | c :: s' => lmatch_from (deriv c r) s' (S n) best'
      end
  end.
Definition lmatch (r : re) (s : str) : option nat := lmatch_from r s 0 None.

(** Grammar notation helpers. *)
Definition lit (s : str) : re := fold_right (fun c r => Seq (Chr (CC false [c])) r) Eps s.
Definition one (s : str) : re := Chr (CC false s).        (* [abc] *)
Definition not1 (s : str) : re := Chr (CC true s).        (* ~[abc] *)
Definition Opt (a : re) : re := Alt a Eps.
Definition Plus (a : re) : re := Seq a (Star a).
Fixpoint Seqs (l : list re) : re :=
  match l with [] => Eps | [a] => a | a :: l' => Seq a (Seqs l') end.
Fixpoint Alts (l : list re) : re :=
  match l with [] => Emp | [a] => a | a :: l' => Alt a (Alts l') end.
