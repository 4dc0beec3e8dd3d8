(** What a code position says (codePosition.h:8-12): lines and columns are counted from 1 and the last one is part of the
    region.  Nothing here refers to the code. *)
From Verif Require Import Base.

(** The characters of a text with their lines and columns; a line end is the last character of its line. *)
Fixpoint numbered (line col : nat) (s : str) : list (nat * nat * ascii) :=
  match s with
  | [] => []
  | c :: s' => (line, col, c) :: (if ceqb c nl then numbered (S line) 1 s' else numbered line (S col) s')
  end.
Definition upto (l c l' c' : nat) : bool := (l <? l') || ((l =? l') && (c <=? c')).
(** The text from line l1, column c1 to line l2, column c2 *)
Definition region (l1 c1 l2 c2 : nat) (s : str) : str :=
  map snd (filter (fun x => upto l1 c1 (fst (fst x)) (snd (fst x)) && upto (fst (fst x)) (snd (fst x)) l2 c2) (numbered 1 1 s)).
(** The position that Python shows *)
Definition shown (l1 c1 l2 c2 : nat) : option Z * option Z * option Z * option Z :=
  (Some (Z.of_nat l1), Some (Z.of_nat c1), Some (Z.of_nat l2), Some (Z.of_nat c2)).
(** Texts that fit into the memory *)
Definition fits (s : str) : Prop := (Z.of_nat (length s) < 2 ^ 62)%Z.
