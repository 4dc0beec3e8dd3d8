(** The lexical elements of VHDL, IEEE 1076-2008 clause 15, without reference to the
    lexer; only [token_of] at the end names its token types. *)
From Verif Require Import Base StrSpec VhdlLexModel.

(** ** Characters *)
Definition code (c : ascii) : nat := nat_of_ascii c.
Definition between (a b : nat) (c : ascii) : bool := (a <=? code c) && (code c <=? b).
Definition small_letter (c : ascii) : bool := between 97 122 c.
Definition capital (c : ascii) : bool := between 65 90 c.
Definition digit (c : ascii) : bool := between 48 57 c.
Definition letter (c : ascii) : bool := small_letter c || capital c.
Definition alnum (c : ascii) : bool := letter c || digit c.
(** graphic characters of ASCII *)
Definition graphic (c : ascii) : bool := between 32 126 c.
Definition small (c : ascii) : ascii := if capital c then ascii_of_nat (code c + 32) else c.

(** ** Parts of lexical elements *)
(** Characters of one kind with single underscores between them: integer, based_integer, the rest of an
    identifier (15.4.2, 15.5). *)
Inductive run (P : ascii -> bool) : str -> Prop :=
| run_one c : P c = true -> run P [c]
| run_next c s : P c = true -> run P s -> run P (c :: s)
| run_under c s : P c = true -> run P s -> run P (c :: "_"%char :: s).
Definition integer : str -> Prop := run digit.
Definition optional (P : str -> Prop) (s : str) : Prop := s = [] \/ P s.
Inductive exponent : str -> Prop :=
| exp_plain e i : In e $"eE" -> integer i -> exponent (e :: i)
| exp_sign e g i : In e $"eE" -> In g $"+-" -> integer i -> exponent (e :: g :: i).
Definition fraction (P : str -> Prop) (s : str) : Prop := exists i, s = "."%char :: i /\ P i.

(** Reserved words of clause 15.10 without those of PSL. *)
Definition reserved : list str :=
  [ $"abs"; $"access"; $"after"; $"alias"; $"all"; $"and"; $"architecture"; $"array"; $"assert"; $"attribute"; $"begin"; $"block"; $"body"; $"buffer"; $"bus";
    $"case"; $"component"; $"configuration"; $"constant"; $"context"; $"default"; $"disconnect"; $"downto"; $"else"; $"elsif"; $"end"; $"entity"; $"exit"; $"file"; $"for";
    $"force"; $"function"; $"generate"; $"generic"; $"group"; $"guarded"; $"if"; $"impure"; $"in"; $"inertial"; $"inout"; $"is"; $"label"; $"library"; $"linkage";
    $"literal"; $"loop"; $"map"; $"mod"; $"nand"; $"new"; $"next"; $"nor"; $"not"; $"null"; $"of"; $"on"; $"open"; $"or"; $"others"; $"out"; $"package"; $"parameter"; $"port";
    $"postponed"; $"procedure"; $"process"; $"property"; $"protected"; $"pure"; $"range"; $"record"; $"register"; $"reject"; $"release"; $"rem"; $"report"; $"return";
    $"rol"; $"ror"; $"select"; $"sequence"; $"severity"; $"shared"; $"signal"; $"sla"; $"sll"; $"sra"; $"srl"; $"subtype"; $"then"; $"to"; $"transport"; $"type"; $"unaffected";
    $"units"; $"until"; $"use"; $"variable"; $"vunit"; $"wait"; $"when"; $"while"; $"with"; $"xnor"; $"xor" ].
Definition bases : list str := [ $"b"; $"o"; $"x"; $"ub"; $"uo"; $"ux"; $"sb"; $"so"; $"sx"; $"d" ].
(** delimiters, clause 15.3 *)
Definition delimiters : list str :=
  [ $"&"; $"'"; $"("; $")"; $"*"; $"+"; $","; $"-"; $"."; $"/"; $":"; $";"; $"<"; $"="; $">"; $"`"; $"|"; $"["; $"]"; $"?"; $"@";
    $"=>"; $"**"; $":="; $"/="; $">="; $"<="; $"<>"; $"??"; $"?="; $"?/="; $"?<"; $"?<="; $"?>"; $"?>="; $"<<"; $">>" ].

(** ** Lexical elements *)
Inductive lexeme :=
| L_word (s : str)            (* identifier or reserved word *)
| L_extended (s : str)        (* \s\ *)
| L_decimal (s : str)
| L_based (s : str)
| L_char (c : ascii)          (* 'c' *)
| L_string (s : str)          (* the string s *)
| L_bits (prefix s : str)     (* 16x and 0123 for 16x"0123" *)
| L_delim (s : str).
Definition doubled (q : ascii) (s : str) : str := flat_map (fun c => if ceqb c q then [c; c] else [c]) s.
Definition lexeme_text (l : lexeme) : str :=
  match l with
  | L_word s | L_decimal s | L_based s | L_delim s => s
  | L_extended s => bs :: doubled bs s ++ [bs]
  | L_char c => ["'"%char; c; "'"%char]
  | L_string s => dq :: doubled dq s ++ [dq]
  | L_bits p s => p ++ dq :: s ++ [dq]
  end.
Definition lexeme_ok (l : lexeme) : Prop :=
  match l with
  | L_word s => run alnum s /\ letter (hd sp s) = true
  | L_extended s => s <> [] /\ Forall (fun c => graphic c = true) s
  | L_decimal s => exists i f e, s = i ++ f ++ e /\ integer i /\ optional (fraction integer) f /\ optional exponent e
  | L_based s => exists i d f e, s = i ++ "#"%char :: d ++ f ++ "#"%char :: e /\ integer i /\ run alnum d /\ optional (fraction (run alnum)) f /\ optional exponent e
  | L_char c => graphic c = true
  | L_string s => Forall (fun c => graphic c = true) s
  | L_bits p s => (exists i b, p = i ++ b /\ optional integer i /\ In (map small b) bases) /\ Forall (fun c => graphic c = true /\ c <> dq /\ c <> bs) s
  | L_delim s => In s delimiters
  end.

(** ** Sources: lexical elements, white space and comments *)
Inductive piece := P_lex (l : lexeme) | P_blank (c : ascii) | P_line (s : str) | P_block (s : str).
Definition piece_text (p : piece) : str :=
  match p with P_lex l => lexeme_text l | P_blank c => [c] | P_line s => $"--" ++ s | P_block s => $"/*" ++ s ++ $"*/" end.
(** space and the format effectors: horizontal and vertical tab, line feed, form feed, carriage return *)
Definition blank (c : ascii) : bool := (code c =? 32) || between 9 13 c.
Definition piece_ok (p : piece) : Prop :=
  match p with P_lex l => lexeme_ok l | P_blank c => blank c = true | P_line s => ~ In nl s | P_block s => ~ occurs $"*/" s end.

(** May a piece end where [rest] begins?  Identifiers and numbers are kept apart from each other, a
    delimiter is the longest one, a quote directly behind a quoted text would be a part of it. *)
Definition not_first (P : ascii -> bool) (rest : str) : Prop := match rest with c :: _ => P c = false | [] => True end.
Definition in_word (c : ascii) : bool := alnum c || ceqb c "_".
Definition in_number (c : ascii) : bool := in_word c || mem_c c [dq; "."%char; "#"%char].
Definition longer_delimiter (d : str) (c : ascii) : bool := existsb (is_prefix (d ++ [c])) (delimiters ++ [ $"--"; $"/*" ]).
Definition ends (p : piece) (rest : str) : Prop :=
  match p with
  | P_lex (L_word s) => not_first in_word rest /\ (In (map small s) bases -> not_first (ceqb dq) rest)
  | P_lex (L_decimal _) | P_lex (L_based _) => not_first in_number rest
  | P_lex (L_extended _) => not_first (ceqb bs) rest
  | P_lex (L_string _) => not_first (ceqb dq) rest
  | P_lex (L_delim d) => not_first (longer_delimiter d) rest
  | P_lex (L_char _) | P_lex (L_bits _ _) | P_blank _ | P_block _ => True
  | P_line _ => match rest with [] => True | c :: _ => c = nl end
  end.
(** An apostrophe behind a name, a closing bracket or a string is a delimiter, any other begins a
    character literal. *)
Definition ends_name (prev : option lexeme) : bool :=
  match prev with
  | Some (L_word s) => negb (existsb (seqb (map small s)) reserved) || seqb (map small s) $"all"
  | Some (L_extended _) | Some (L_string _) | Some (L_char _) => true
  | Some (L_delim d) => seqb d $")" || seqb d $"]"
  | _ => false
  end.
Definition apostrophe_ok (prev : option lexeme) (p : piece) : Prop :=
  match p with P_lex (L_delim d) => d = $"'" -> ends_name prev = true | P_lex (L_char _) => ends_name prev = false | _ => True end.

(** [reads Q None ps s]: the text s consists of the pieces ps; Q is a further demand on each piece and
    the text behind it. *)
Inductive reads (Q : piece -> str -> Prop) : option lexeme -> list piece -> str -> Prop :=
| reads_nil prev : reads Q prev [] []
| reads_cons prev p ps s : piece_ok p -> ends p s -> apostrophe_ok prev p -> Q p s ->
    reads Q (match p with P_lex l => Some l | _ => prev end) ps s -> reads Q prev (p :: ps) (piece_text p ++ s).
Definition is_vhdl (ps : list piece) (s : str) : Prop := reads (fun _ _ => True) None ps s.
(** What the lexer needs in addition: it does not know vertical tab, form feed and quotes in extended
    identifiers, and it tells apostrophes apart by the characters behind them. *)
Definition plain (p : piece) (rest : str) : Prop :=
  match p with
  | P_blank c => In c [sp; tab; nl; cr]
  | P_lex (L_extended s) => ~ In dq s
  | P_lex (L_char c) => c = "("%char -> match rest with _ :: q :: _ => q <> "'"%char | _ => True end
  | P_lex (L_delim d) => d = $"'" -> match rest with c :: q :: r => q = "'"%char -> c = "("%char /\ nth_error r 1 = Some "'"%char | _ => True end
  | _ => True
  end.
Definition plain_vhdl (ps : list piece) (s : str) : Prop := reads plain None ps s.
Fixpoint lexemes (ps : list piece) : list lexeme :=
  match ps with [] => [] | P_lex l :: ps' => l :: lexemes ps' | _ :: ps' => lexemes ps' end.
(** The token of a lexical element: a reserved word is told by its letters in any case. *)
Definition token_of (l : lexeme) : vkind * str :=
  (match l with
   | L_word s => if existsb (seqb (map small s)) reserved then V_KW (map small s) else V_BASIC_IDENTIFIER
   | L_extended _ => V_EXTENDED_IDENTIFIER | L_decimal _ => V_DECIMAL_LITERAL | L_based _ => V_BASED_LITERAL
   | L_char _ => V_CHARACTER_LITERAL | L_string _ => V_STRING_LITERAL | L_bits _ _ => V_BIT_STRING_LITERAL
   | L_delim d => V_DELIM d
   end, lexeme_text l).
