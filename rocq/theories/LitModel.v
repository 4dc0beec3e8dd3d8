(** Model of the literal conversions: src/svConvertor/literalParser.cpp,
    src/vhdlConvertor/literalParser.cpp. *)
From Verif Require Import Base StrUtilsModel AstModel.

(** Longest prefix of decimal digits and its value. *)
Fixpoint digit_prefix (s : str) : str :=
  match s with c :: s' => if is_digit c then c :: digit_prefix s' else [] | [] => [] end.
Definition digit_val (c : ascii) : Z := Z.of_N (N_of_ascii c) - 48.
Definition dec_acc (acc : Z) (s : str) : Z := fold_left (fun a c => (10 * a + digit_val c)%Z) s acc.
Definition INT_MAX : Z := 2147483647.
(** atoi of a text that starts with no blank or sign: undefined when the value is no int. *)
Definition c_atoi (s : str) : outcome Z :=
  let v := dec_acc 0 (digit_prefix s) in
  if (v <=? INT_MAX)%Z then Ok v else UB "atoi: value out of range".
(** std::stoi, same restriction. *)
Definition c_stoi (s : str) : outcome Z :=
  match digit_prefix s with
  | [] => Throw (InvalidArgument $"stoi")
  | p => let v := dec_acc 0 p in if (v <=? INT_MAX)%Z then Ok v else Throw (OutOfRange $"stoi")
  end.
(** s.erase(std::remove(s.begin(), s.end(), '_'), s.end()) *)
Definition remove_us (s : str) : str := filter (fun c => negb (ceqb c "_")) s.
Definition lower (s : str) : str := map tolower s.

(** ** Verilog *)
(** The tokens of rule integral_number, sv2017Parser.g4:117-121. *)
Inductive inttok :=
| TokSized (t : str)                        (* BASED_NUMBER_WITH_SIZE *)
| TokBased (size : option str) (t : str)    (* ( UNSIGNED_NUMBER )? ANY_BASED_NUMBER *)
| TokUnsigned (t : str).                    (* UNSIGNED_NUMBER *)

(** parseSize_UNSIGNED_NUMBER, literalParser.cpp:48-51 *)
Definition parse_size (s : str) : outcome Z := c_atoi (remove_us s).
(** visitANY_BASED_NUMBER, literalParser.cpp:58-96; size None is npos. *)
Definition visit_based (s : str) (size : option Z) : outcome expr :=
  let s1 := lower (remove_us s) in
  c <- char_at s1 0 ;;
  if negb (ceqb c "'") then UB "assert(s[0] == '\'')" else
  c1 <- char_at s1 1 ;;
  let start := if ceqb c1 "s" then 3 else 2 in
  cb <- char_at s1 (start - 1) ;;
  radix <- (if ceqb cb "b" then Ok 2 else if ceqb cb "o" then Ok 8
            else if ceqb cb "d" then Ok 10 else if ceqb cb "h" then Ok 16
            else Throw (RuntimeError ($"Unknown number base:" ++ [cb])))%Z ;;
  v <- substr s1 start (length s1) ;;
  Ok (EInt (match size with Some b => b | None => -1 end) (Digits v radix)).
(** visitIntegral_number and visitUNSIGNED_NUMBER, literalParser.cpp:18-57 *)
Definition visit_integral (t : inttok) : outcome expr :=
  match t with
  | TokSized t =>
      match find $"'" t with
      | None => UB "assert(f != npos)"
      | Some f => sz <- parse_size (firstn f t) ;; visit_based (skipn f t) (Some sz)
      end
  | TokBased (Some u) t => sz <- parse_size u ;; visit_based t (Some sz)
  | TokBased None t => visit_based t None
  | TokUnsigned t => Ok (EInt (-1) (Digits (remove_us t) 10))
  end.
(** UNBASED_UNSIZED_LITERAL, literalParser.cpp:379-390 *)
Definition visit_unbased (t : str) : outcome expr :=
  if negb (length t =? 2) then UB "assert(t.size() == 2)"
  else v <- substr t 1 (length t) ;; Ok (EInt (-1) (Digits v 10)).
(** visitSTRING, literalParser.cpp:137-140: s.substr(1, s.length() - 2), the second argument wraps
    for a text shorter than 2. *)
Definition visit_string (t : str) : outcome expr :=
  s <- substr t 1 (if length t <? 2 then length t else length t - 2) ;; Ok (EStr s).
(** visitESCAPED_IDENTIFIER, literalParser.cpp:118-122; the token includes the white space that
    ends it, sv2017Lexer.g4:463-464. *)
Definition visit_escaped_id (t : str) : outcome str := substr t 1 (length t).

(** ** VHDL *)
(** Text up to the first NUL, as seen through a const char*. *)
Fixpoint c_string (s : str) : str :=
  match s with c :: s' => if ceqb c c0 then [] else c :: c_string s' | [] => [] end.
(** visitBIT_STRING_LITERAL, vhdl literalParser.cpp:16-56.  Erasing underscores after the position of
    the radix was computed shifts the text; the pointer must stay inside the string and its
    terminating NUL. *)
Definition visit_bit_string (s0 : str) : outcome expr :=
  match find [dq] s0 with
  | None | Some 0 => UB "s[fdRadix] out of range"
  | Some (S k) =>
      let s := lower s0 in
      cb <- char_at s k ;;
      let '(radix, ratio) :=
        (if ceqb cb "b" then (2, 1) else if ceqb cb "o" then (8, 2)
         else if ceqb cb "x" then (16, 4) else if ceqb cb "d" then (16, 4) else (0, 0))%Z in
      cu <- (if k =? 0 then Ok c0 else char_at s (k - 1)) ;;
      bits <- (if ((0 <? k) && negb (ceqb cu "u")) || ((1 <? k) && ceqb cu "u")
               then c_stoi s else Ok 0%Z) ;;
      let t := remove_us (removelast s ++ [c0]) in
      if length t <? k + 2 then UB "pointer behind the string" else
      let v := c_string (skipn (k + 2) t) in
      let bits := if (bits =? 0)%Z then (Z.of_nat (length v) * ratio)%Z else bits in
      Ok (EInt bits (Digits v radix))
  end.
(** visitDECIMAL_LITERAL, vhdl literalParser.cpp:114-131 *)
Definition visit_decimal (n : str) : outcome expr :=
  if existsb (fun c => ceqb c "." || ceqb c "e" || ceqb c "E") n then Ok (EFloat n)
  else v <- c_atoi n ;; Ok (EInt (-1) (Val v)).
(** visitBASED_LITERAL, vhdl literalParser.cpp:132-163: substr(ht0_pos, ht1_pos - ht0_pos). *)
Definition visit_based_literal (bl : str) : outcome expr :=
  match find $"#" bl with
  | None => UB "no #"
  | Some h0 =>
      base <- c_atoi (firstn h0 bl) ;;
      let n := match find_from $"#" bl (h0 + 1) with Some h1 => h1 - h0 | None => length bl end in
      v <- substr bl h0 n ;;
      Ok (EInt (-1) (Digits v base))
  end.
(** visitSTRING_LITERAL, vhdl literalParser.cpp:177-190.  The replace_all lambda is the same loop as
    replace_substring (StrUtilsModel). *)
Definition visit_vhdl_string (t : str) : outcome expr :=
  s <- substr t 1 (if length t <? 2 then length t else length t - 2) ;;
  r <- replace_substring s [dq; dq] [dq] ;; Ok (EStr r).
(** visitCHARACTER_LITERAL, vhdl literalParser.cpp:191-195: one byte. *)
Definition visit_character (t : str) : outcome expr :=
  s <- substr t 1 1 ;; Ok (EInt (-1) (Digits s 256)).
(** visitEnumeration_literal of a character, vhdl literalParser.cpp:172-175 *)
Definition visit_enum_char (t : str) : outcome expr :=
  s <- substr t 1 1 ;; Ok (EInt 8 (Digits s 256)).
