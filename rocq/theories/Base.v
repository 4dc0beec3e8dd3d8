(** Common vocabulary of the model: byte strings, C++ outcomes, std::string primitives. *)
From Coq Require Export Ascii String ZArith NArith Arith Bool Lia.
From Coq Require Export List.
From Coq Require Import DecimalString.
Export ListNotations.
Open Scope nat_scope.

(** std::string / std::string_view: a sequence of bytes. *)
Definition str := list ascii.
Definition s2l (s : string) : str := list_ascii_of_string s.
Notation "$ s" := (s2l s%string) (at level 1, s at level 0, format "$ s").
Arguments s2l !s / : simpl nomatch.

(** C++ exceptions that cross a modelled function boundary.
    [ParseException] is include/hdlConvertor/conversion_exception.h. *)
Inductive exn :=
| ParseException (msg : str)
| RuntimeError (msg : str)
| OutOfRange (msg : str)
| InvalidArgument (msg : str).

(** Result of running a piece of C++: a value, a thrown exception, undefined behaviour
    (including failed asserts), or exhaustion of the fuel of the *model*. *)
Inductive outcome (A : Type) :=
| Ok (a : A)
| Throw (e : exn)
| UB (why : string)
| OutOfFuel.
Arguments Ok {A} a.
Arguments Throw {A} e.
Arguments UB {A} why.
Arguments OutOfFuel {A}.

Definition bind {A B} (m : outcome A) (f : A -> outcome B) : outcome B :=
  match m with
  | Ok a => f a
  | Throw e => Throw e
  | UB w => UB w
  | OutOfFuel => OutOfFuel
  end.
Notation "x <- m ;; k" := (bind m (fun x => k))
  (at level 61, m at next level, right associativity).
Notation "' p <- m ;; k" := (bind m (fun p => k))
  (at level 61, p pattern, m at next level, right associativity).

Definition is_ok {A} (m : outcome A) : bool := match m with Ok _ => true | _ => false end.
Definition is_throw {A} (m : outcome A) : bool := match m with Throw _ => true | _ => false end.

(** Characters. *)
Definition bt : ascii := "`"%char.
Definition bs : ascii := "\"%char.
Definition dq : ascii := """"%char.
Definition nl : ascii := "010"%char.
Definition cr : ascii := "013"%char.
Definition tab : ascii := "009"%char.
Definition sp : ascii := " "%char.
Definition c0 : ascii := "000"%char.

Definition in_range (lo hi : ascii) (c : ascii) : bool :=
  (N_of_ascii lo <=? N_of_ascii c)%N && (N_of_ascii c <=? N_of_ascii hi)%N.
Definition is_digit (c : ascii) : bool := in_range "0" "9" c.
Definition is_lower (c : ascii) : bool := in_range "a" "z" c.
Definition is_upper (c : ascii) : bool := in_range "A" "Z" c.
Definition is_alpha (c : ascii) : bool := is_lower c || is_upper c.
(** <cctype> isalnum in the "C" locale (bytes >= 0x80 are not alphanumeric;
    passing them as a negative char is formally outside the contract of isalnum,
    glibc answers false). *)
Definition isalnum (c : ascii) : bool := is_alpha c || is_digit c.
(** <cctype> tolower in the "C" locale. *)
Definition tolower (c : ascii) : ascii :=
  if is_upper c then ascii_of_N (N_of_ascii c + 32) else c.

Definition ceqb (a b : ascii) : bool := Ascii.eqb a b.
Fixpoint seqb (a b : str) : bool :=
  match a, b with
  | [], [] => true
  | x :: a', y :: b' => ceqb x y && seqb a' b'
  | _, _ => false
  end.
Definition mem_c (c : ascii) (l : str) : bool := existsb (ceqb c) l.

(** std::string::compare prefix. *)
Fixpoint is_prefix (p s : str) : bool :=
  match p, s with
  | [], _ => true
  | _ :: _, [] => false
  | x :: p', y :: s' => ceqb x y && is_prefix p' s'
  end.

(** std::string::find(p) : index of the first occurrence. *)
Fixpoint find (p s : str) : option nat :=
  if is_prefix p s then Some 0
  else match s with
       | [] => None
       | _ :: s' => option_map S (find p s')
       end.
(** std::string::find(p, pos). *)
Definition find_from (p s : str) (pos : nat) : option nat :=
  if length s <? pos then None
  else option_map (fun i => pos + i) (find p (skipn pos s)).

(** std::string::substr(pos, n) for pos <= size(); the throwing case is explicit. *)
Definition substr (s : str) (pos n : nat) : outcome str :=
  if length s <? pos then Throw (OutOfRange $"basic_string::substr")
  else Ok (firstn n (skipn pos s)).
(** s[i] for i <= size() ('\0' at size()); anything beyond is undefined. *)
Definition char_at (s : str) (i : nat) : outcome ascii :=
  match nth_error s i with
  | Some c => Ok c
  | None => if i =? length s then Ok c0 else UB "string index out of range"
  end.
Definition count_nl (s : str) : nat := count_occ ascii_dec s nl.

(** std::to_string of an unsigned / signed integer. *)
Definition nat_str (n : nat) : str := s2l (NilEmpty.string_of_uint (Nat.to_uint n)).
Definition Z_str (z : Z) : str :=
  match z with
  | Z0 => $"0"
  | Zpos p => s2l (NilEmpty.string_of_uint (Pos.to_uint p))
  | Zneg p => "-"%char :: s2l (NilEmpty.string_of_uint (Pos.to_uint p))
  end.

(** Source language, include/hdlConvertor/language.h (enum values in order). *)
Inductive lang :=
| VHDL | VERILOG1995 | VERILOG2001 | VERILOG2001_NOCONFIG | VERILOG2005
| SV2005 | SV2009 | SV2012 | SV2017 | HWT | LANG_INVALID.
Definition lang_num (l : lang) : Z :=
  match l with
  | VHDL => 0 | VERILOG1995 => 1 | VERILOG2001 => 2 | VERILOG2001_NOCONFIG => 3
  | VERILOG2005 => 4 | SV2005 => 5 | SV2009 => 6 | SV2012 => 7 | SV2017 => 8 | HWT => 9
  | LANG_INVALID => -2147483648
  end%Z.
Definition lang_ge (a b : lang) : bool := (lang_num b <=? lang_num a)%Z.
