(** Literals of Verilog (IEEE 1800 5.7) and VHDL (IEEE 1076 15.5 - 15.8): structure, spelling and
    meaning, independent of the conversion. *)
From Verif Require Import Base AstModel.

(** Digits and their values; x and z (or ?) are the unknown and high impedance digits. *)
Definition hex_digits : str := $"0123456789abcdef".
Fixpoint index_of (c : ascii) (l : str) : option nat :=
  match l with [] => None | d :: l' => if ceqb c d then Some 0 else option_map S (index_of c l') end.
Definition low (c : ascii) : ascii := if is_upper c then ascii_of_N (N_of_ascii c + 32) else c.
Definition digit_num (c : ascii) : option nat := index_of (low c) hex_digits.

(** Text of digits without underscores and in lower case. *)
Fixpoint plain (s : str) : str :=
  match s with [] => [] | c :: s' => if ceqb c "_" then plain s' else low c :: plain s' end.
(** Value of a digit text in a base: underscores do not count. *)
Fixpoint value_from (base acc : Z) (s : str) : Z :=
  match s with
  | [] => acc
  | c :: s' => if ceqb c "_" then value_from base acc s'
               else match digit_num c with
                    | Some d => value_from base (base * acc + Z.of_nat d)%Z s'
                    | None => value_from base acc s'
                    end
  end.
Definition value (base : Z) (s : str) : Z := value_from base 0 s.

(** ** Verilog *)
Inductive vbase := Bin | Oct | Dec | Hex.
Definition radix (b : vbase) : Z := match b with Bin => 2 | Oct => 8 | Dec => 10 | Hex => 16 end.
Definition letters (b : vbase) : str := match b with Bin => $"bB" | Oct => $"oO" | Dec => $"dD" | Hex => $"hH" end.
Definition digit_ok (b : vbase) (c : ascii) : bool :=
  mem_c c $"_xXzZ?" || match digit_num c with Some d => (Z.of_nat d <? radix b)%Z | None => false end.
Record vlit := mkVlit { vl_size : option str; vl_sign : option ascii; vl_letter : ascii; vl_base : vbase; vl_digits : str }.
Definition decimal (s : str) : Prop := s <> [] /\ Forall (fun c => is_digit c = true \/ c = "_"%char) s.
Definition vlit_ok (l : vlit) : Prop :=
  match vl_size l with Some s => decimal s /\ (value 10 s <= 2147483647)%Z | None => True end /\
  match vl_sign l with Some c => In c $"sS" | None => True end /\
  In (vl_letter l) (letters (vl_base l)) /\
  Forall (fun c => digit_ok (vl_base l) c = true) (vl_digits l).
(** The part from the apostrophe on: '[s]base digits. *)
Definition spell_based (l : vlit) : str :=
  "'"%char :: match vl_sign l with Some c => [c] | None => [] end ++ vl_letter l :: vl_digits l.
Definition width (s : option str) : Z := match s with Some t => value 10 t | None => -1 end.

(** ** VHDL *)
Inductive bbase := BB | BO | BX | BD.
Definition bletters (b : bbase) : str := match b with BB => $"bB" | BO => $"oO" | BX => $"xX" | BD => $"dD" end.
Inductive bsign := NoSign | USign (c : ascii) | SSign (c : ascii).
Record bitlit := mkBit { bl_len : option str; bl_sign : bsign; bl_letter : ascii; bl_base : bbase; bl_digits : str }.
Definition bitlit_ok (l : bitlit) : Prop :=
  match bl_len l with Some s => s <> [] /\ Forall (fun c => is_digit c = true) s /\ (value 10 s <= 2147483647)%Z | None => True end /\
  match bl_sign l with USign c => In c $"uU" | SSign c => In c $"sS" | NoSign => True end /\
  In (bl_letter l) (bletters (bl_base l)) /\
  Forall (fun c => c <> dq /\ c <> c0) (bl_digits l).
Definition spell_bit (l : bitlit) : str :=
  match bl_len l with Some s => s | None => [] end ++
  match bl_sign l with USign c => [c] | SSign c => [c] | NoSign => [] end ++
  bl_letter l :: dq :: bl_digits l ++ [dq].
(** Radix and bits per digit of the standard. *)
Definition bradix (b : bbase) : Z := match b with BB => 2 | BO => 8 | BX => 16 | BD => 10 end.
Definition bits_per_digit (b : bbase) : Z := match b with BB => 1 | BO => 3 | BX => 4 | BD => 0 end.
Definition std_width (l : bitlit) : Z :=
  match bl_len l with Some s => value 10 s | None => (Z.of_nat (length (plain (bl_digits l))) * bits_per_digit (bl_base l))%Z end.

(** A string literal: quotes doubled, between quotes. *)
Fixpoint doubled (s : str) : str :=
  match s with [] => [] | c :: s' => if ceqb c dq then dq :: dq :: doubled s' else c :: doubled s' end.
Definition spell_string (s : str) : str := dq :: doubled s ++ [dq].
