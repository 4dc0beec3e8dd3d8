(** The lexer of VHDL: grammars/vhdlLexer.g4, rule by rule, as regular expressions with longest match
    and first rule (RegexModel.v).  Simplified: the characters outside of ASCII that LETTER and
    OTHER_SPECIAL_CHARACTER list (vhdlLexer.g4:45-72) are left out, so only texts whose tokens are ASCII
    are modelled (comments may have any characters); positions are left out. *)
From Verif Require Import Base AstModel LitModel SvExprModel RegexModel VhdlExprModel VhdlSyntaxModel.

(** Token types: a reserved word (in small letters), the classes of names and literals, a delimiter. *)
Inductive vkind :=
| V_KW (k : str) | V_BASIC_IDENTIFIER | V_EXTENDED_IDENTIFIER | V_DECIMAL_LITERAL | V_INTEGER | V_BASED_LITERAL
| V_CHARACTER_LITERAL | V_STRING_LITERAL | V_BIT_STRING_LITERAL | V_COMMENT | V_BLOCK_COMMENT | V_SKIP | V_DELIM (d : str).

Definition v_lower : str := $"abcdefghijklmnopqrstuvwxyz".
Definition v_upper : str := $"ABCDEFGHIJKLMNOPQRSTUVWXYZ".
Definition v_digits : str := $"0123456789".
Definition v_letters : str := v_lower ++ v_upper.
(** small letter *)
Definition to_small (c : ascii) : ascii :=
  let n := nat_of_ascii c in if (65 <=? n) && (n <=? 90) then ascii_of_nat (n + 32) else c.
Definition to_capital (c : ascii) : ascii :=
  let n := nat_of_ascii c in if (97 <=? n) && (n <=? 122) then ascii_of_nat (n - 32) else c.
(** vhdlLexer.g4:4-30: a letter in both cases *)
Definition ci (s : str) : re := fold_right (fun c r => Seq (one [c; to_capital c]) r) Eps s.

(** vhdlLexer.g4:76-181 in this order *)
Fixpoint words_of (s cur : str) : list str :=
  match s with [] => [] | c :: s' => if ceqb c " " then rev cur :: words_of s' [] else words_of s' (c :: cur) end.
Definition v_keywords : list str := Eval vm_compute in words_of (
  $"process context postponed linkage component abs default then block rem inertial next entity on group xnor file " ++
  $"pure guarded generic range else use shared mod loop record signal reject begin sla disconnect of procedure srl " ++
  $"vunit attribute variable property unaffected xor register subtype to new report constant buffer body after " ++
  $"transport function end select or library elsif sll map sra protected downto label all alias generate nor in " ++
  $"release exit return with until and inout wait nand array force while impure package units assert parameter " ++
  $"severity literal for ror if out rol is sequence others type case not configuration open architecture bus " ++
  $"access when port null ") [].

(** vhdlLexer.g4:31-74 *)
Definition DIGITv : re := one v_digits.
Definition LETTER_OR_DIGIT : re := one (v_letters ++ v_digits).
Definition UNDERSCOREv : re := one $"_".
Definition BASE_SPECIFIER : re := Alts [ci $"b"; ci $"o"; ci $"x"; ci $"ub"; ci $"uo"; ci $"ux"; ci $"sb"; ci $"so"; ci $"sx"; ci $"d"].
Definition special_chars : str := $"#&'()*+,-./:;<=>?@[]_`|".
Definition other_special_chars : str := $"!$%^{}~ ".
Definition graphic_chars : str := special_chars ++ v_letters ++ v_digits ++ other_special_chars.
(** a run of characters with single underscores between them *)
Definition under (a : re) : re := Seq a (Star (Seq (Opt UNDERSCOREv) a)).
(** vhdlLexer.g4:183-212 *)
Definition BASIC_IDENTIFIER : re := Seq (one v_letters) (Star (Seq (Opt UNDERSCOREv) LETTER_OR_DIGIT)).
Definition EXTENDED_IDENTIFIER : re := Seqs [one [bs]; Plus (Alt (one graphic_chars) (lit [bs; bs])); one [bs]].
Definition INTEGERv : re := under DIGITv.
Definition EXPONENT : re := Alt (Seqs [one $"eE"; Opt (one $"+"); INTEGERv]) (Seqs [one $"eE"; one $"-"; INTEGERv]).
Definition DECIMAL_LITERAL : re := Seqs [INTEGERv; Opt (Seq (one $".") INTEGERv); Opt EXPONENT].
Definition BASED_INTEGER : re := under LETTER_OR_DIGIT.
Definition BASED_LITERAL : re := Seqs [INTEGERv; one $"#"; BASED_INTEGER; Opt (Seq (one $".") BASED_INTEGER); one $"#"; Opt EXPONENT].
Definition CHARACTER_LITERAL : re := Seqs [one $"'"; one (graphic_chars ++ [dq; bs]); one $"'"].
Definition STRING_LITERAL : re := Seqs [one [dq]; Star (Alts [one graphic_chars; lit [dq; dq]; one [bs]]); one [dq]].
Definition BIT_STRING_LITERAL : re :=
  Seqs [Opt INTEGERv; BASE_SPECIFIER; one [dq]; Opt (Seq (one graphic_chars) (Star (Seq (Opt UNDERSCOREv) (one graphic_chars)))); one [dq]].
(** vhdlLexer.g4:215-216 *)
Definition COMMENTv : re := Seq (lit $"--") (Star (not1 [nl])).
Definition BLOCK_COMMENTv : re :=
  Seqs [lit $"/*"; Star (Alt (not1 $"*") (Seq (Plus (one $"*")) (not1 $"*/"))); Plus (one $"*"); one $"/"].
(** vhdlLexer.g4:222-263 in this order; UNDERSCORE, DBLQUOTE and SPACE_CHARACTER are tokens too *)
Definition v_delims : list str :=
  [ $" "; [dq]; $"_" ].
Definition v_delims2 : list str :=
  [ $";"; $"("; $")"; $"["; $"]"; $"'"; $"<<"; $">>"; $"@"; $"#"; $","; $"."; $"?"; $":"; $"="; $"/="; $"<"; $">"; $">=";
    $"?="; $"?/="; $"?<"; $"?<="; $"?>"; $"?>="; $"+"; $"-"; $"&"; $"|"; [bs]; $"*"; $"/"; $"**"; $"<="; $"`"; $"^"; $":="; $"<>"; $"=>"; $"??" ].
Definition v_rules : list (vkind * re) :=
  map (fun k => (V_KW k, ci k)) v_keywords ++
  [ (V_BASIC_IDENTIFIER, BASIC_IDENTIFIER); (V_EXTENDED_IDENTIFIER, EXTENDED_IDENTIFIER); (V_DECIMAL_LITERAL, DECIMAL_LITERAL);
    (V_INTEGER, INTEGERv); (V_BASED_LITERAL, BASED_LITERAL); (V_CHARACTER_LITERAL, CHARACTER_LITERAL); (V_STRING_LITERAL, STRING_LITERAL);
    (V_BIT_STRING_LITERAL, BIT_STRING_LITERAL); (V_COMMENT, COMMENTv); (V_BLOCK_COMMENT, BLOCK_COMMENTv);
    (V_SKIP, Plus (one [tab])); (V_SKIP, Plus (one [sp])); (V_SKIP, one [nl]); (V_SKIP, one [cr]) ] ++
  map (fun d => (V_DELIM d, lit d)) v_delims ++ (V_DELIM $"0-9", DIGITv) :: map (fun d => (V_DELIM d, lit d)) v_delims2.

(** The predicate of CHARACTER_LITERAL (vhdlLexer.g4:202), read behind the apostrophe. *)
Definition look (s : str) (n : nat) : option ascii := nth_error s n.
Definition char_guard (s : str) : bool :=
  negb (match look s 1 with Some c => ceqb c "(" | None => false end) || negb (match look s 4 with Some c => ceqb c "'" | None => false end).
Definition allowed (k : vkind) (s : str) : bool := match k with V_CHARACTER_LITERAL => char_guard s | _ => true end.

(** Longest match, first rule. *)
Fixpoint v_best (rs : list (vkind * re)) (s : str) (best : option (vkind * nat)) : option (vkind * nat) :=
  match rs with
  | [] => best
  | (k, r) :: rs' =>
      v_best rs' s
        (match (if allowed k s then lmatch r s else None) with
         | None => best
         | Some n => match best with Some (_, m) => if m <? n then Some (k, n) else best | None => Some (k, n) end
         end)
  end.
Definition hidden (k : vkind) : bool := match k with V_COMMENT | V_BLOCK_COMMENT | V_SKIP => true | _ => false end.
(** The tokens that the parser sees: skip and channel(HIDDEN) are left out. *)
Fixpoint v_loop (fuel : nat) (s : str) : outcome (list (vkind * str)) :=
  match s with
  | [] => Ok []
  | _ =>
      match fuel with
      | 0 => OutOfFuel
      | S fuel' =>
          match v_best v_rules s None with
          | None | Some (_, 0) => Throw (ParseException $"token recognition error")
          | Some (k, n) =>
              rest <- v_loop fuel' (skipn n s) ;;
              Ok (if hidden k then rest else (k, firstn n s) :: rest)
          end
      end
  end.
Definition vhdl_lex (s : str) : outcome (list (vkind * str)) := v_loop (length s) s.

Fixpoint assoc_str {A} (k : str) (l : list (str * A)) : option A :=
  match l with [] => None | (x, v) :: l' => if seqb k x then Some v else assoc_str k l' end.
(** ** The tokens of an expression (VhdlSyntaxModel.v); other tokens are no part of it. *)
Definition vtok_of (t : vkind * str) : option vtok :=
  match fst t with
  | V_BASIC_IDENTIFIER | V_EXTENDED_IDENTIFIER => Some (KLit (NL_id (snd t)))
  | V_STRING_LITERAL => Some (KLit (NL_op (snd t)))
  | V_CHARACTER_LITERAL => Some (KLit (NL_char (snd t)))
  | V_DECIMAL_LITERAL => Some (KDec (snd t))
  | V_BASED_LITERAL => Some (KBasedLit (snd t))
  | V_BIT_STRING_LITERAL => Some (KBits (snd t))
  | V_KW k =>
      assoc_str k [($"and", KLog O_AND); ($"or", KLog O_OR); ($"nand", KLog O_NAND); ($"nor", KLog O_NOR); ($"xor", KLog O_XOR); ($"xnor", KLog O_XNOR);
               ($"sll", KShift O_SLL); ($"srl", KShift O_SRL); ($"sla", KShift O_SLA); ($"sra", KShift O_SRA); ($"rol", KShift O_ROL); ($"ror", KShift O_ROR);
               ($"mod", KMul O_MOD); ($"rem", KMul O_REM); ($"abs", KAbs); ($"not", KNot); ($"null", KNull); ($"to", KDir To); ($"downto", KDir Downto);
               ($"all", KAll); ($"open", KOpen); ($"others", KOthers)]
  | V_DELIM d =>
      assoc_str d [($"=", KRel O_EQ); ($"/=", KRel O_NE); ($"<", KRel O_LT); ($"<=", KRel O_LE); ($">", KRel O_GT); ($">=", KRel O_GE);
               ($"?=", KRel O_MEQ); ($"?/=", KRel O_MNE); ($"?<", KRel O_MLT); ($"?<=", KRel O_MLE); ($"?>", KRel O_MGT); ($"?>=", KRel O_MGE);
               ($"+", KAdd O_PLUS); ($"-", KAdd O_MINUS); ($"&", KAdd O_AMP); ($"*", KMul O_MUL); ($"/", KMul O_DIV); ($"**", KPow); ($"??", KCond);
               ($"(", KLp); ($")", KRp); ($",", KComma); ($".", KDot); ($"'", KTick); ($"=>", KArrow); ($"|", KBar)]
  | _ => None
  end.
(** behind an apostrophe a reserved word is a name, attribute_designator, vhdlParser.g4:629 *)
Definition vtok_behind (tick : bool) (t : vkind * str) : option vtok :=
  match tick, fst t with true, V_KW _ => Some (KLit (NL_id (snd t))) | _, _ => vtok_of t end.
Fixpoint vtoks_of (tick : bool) (l : list (vkind * str)) : option (list vtok) :=
  match l with
  | [] => Some []
  | t :: l' =>
      match vtok_behind tick t, vtoks_of (match fst t with V_DELIM d => seqb d $"'" | _ => false end) l' with
      | Some x, Some r => Some (x :: r)
      | _, _ => None
      end
  end.
(** The AST of the text of an expression. *)
Definition convert_vhdl_text (s : str) : outcome expr :=
  l <- vhdl_lex s ;;
  match vtoks_of false l with Some ts => e <- parse_vhdl_expression ts ;; hconv e | None => no_vparse end.
