(** Two edits of a source that must not change what it means (specification of C53 and C54). *)
From Verif Require Import Base PpSrcSpec.

(** The source without the comments behind its definitions. *)
Fixpoint strip (p : items) : items := match p with Nil => Nil | Cons i r => Cons (strip_item i) (strip r) end
with strip_item (i : item) : item :=
  match i with
  | IDef w1 n ps w2 b w3 _ e => IDef w1 n ps w2 b w3 None e
  | IIf neg b els fin => IIf neg (strip_branches b) (strip_else els) fin
  | _ => i
  end
with strip_branches (b : branches) : branches :=
  match b with One w n g => One w n (strip g) | More w n g b' => More w n (strip g) (strip_branches b') end
with strip_else (e : else_items) : else_items := match e with NoElse => NoElse | Else s g => Else s (strip g) end.

(** The text with every newline written as CR LF, and a text without its CR characters. *)
Fixpoint crlf (s : str) : str := match s with [] => [] | c :: s' => if ceqb c nl then cr :: nl :: crlf s' else c :: crlf s' end.
Definition drop_cr (s : str) : str := filter (fun c => negb (ceqb c cr)) s.
(** No macro use of the source extends over several lines. *)
Fixpoint short_uses (p : items) : Prop := match p with Nil => True | Cons i r => short_uses_item i /\ short_uses r end
with short_uses_item (i : item) : Prop :=
  match i with
  | ICall n args => ~ In nl (args_text args)
  | IIf neg b els fin => short_uses_branches b /\ short_uses_else els
  | _ => True
  end
with short_uses_branches (b : branches) : Prop :=
  match b with One w n g => short_uses g | More w n g b' => short_uses g /\ short_uses_branches b' end
with short_uses_else (e : else_items) : Prop := match e with NoElse => True | Else s g => short_uses g end.
