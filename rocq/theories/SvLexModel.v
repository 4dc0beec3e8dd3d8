(** The lexer of Verilog and SystemVerilog: grammars/sv2017Lexer.g4, rule by rule, as regular expressions
    with longest match and first rule (RegexModel.v).  A predicate language_version >= X stands at the end
    of a rule, so the rule is not there in an older version.  Simplified: positions are left out, and a
    character that no rule matches stops the lexer (the error is reported, and the conversion fails). *)
From Verif Require Import Base AstModel LitModel SvExprModel RegexModel VhdlLexModel SvSyntaxModel.

(** Token types: a keyword, the classes of names and literals, an operator or a sign of punctuation. *)
Inductive skind :=
| S_KW (k : str) | S_EDGE_CONTROL_SPECIFIER | S_TIME_LITERAL | S_ANY_BASED_NUMBER | S_BASED_NUMBER_WITH_SIZE | S_REAL_NUMBER_WITH_EXP
| S_FIXED_POINT_NUMBER | S_UNSIGNED_NUMBER | S_UNBASED_UNSIZED_LITERAL | S_STRING_LITERAL | S_C_IDENTIFIER | S_ESCAPED_IDENTIFIER
| S_SIMPLE_IDENTIFIER | S_SYSTEM_TF_IDENTIFIER | S_SIGN (d : str) | S_ONE_LINE_COMMENT | S_BLOCK_COMMENT | S_WHITE_SPACE
| S_LEVEL_SYMBOL | S_EDGE_SYMBOL.

(** sv2017Lexer.g4:14-431 in this order; the digit is the version in the predicate (language.h:5-21), 1 if
    there is no predicate. *)
Definition versioned (w : str) : option lang * str :=
  match w with
  | c :: k => (if ceqb c "2" then Some VERILOG2001 else if ceqb c "4" then Some VERILOG2005 else if ceqb c "5" then Some SV2005 else if ceqb c "6" then Some SV2009
               else if ceqb c "7" then Some SV2012 else None, k)
  | [] => (None, [])
  end.
Definition s_keywords : list (option lang * str) := Eval vm_compute in map versioned (words_of (
  $"1$error 1$fatal 1$fullskew 1$hold 1$info 1$nochange 1$period 1$recovery 1$recrem 1$removal 1$root 1$setup 1$setuphold 1$skew " ++
  $"1$timeskew 1$unit 1$warning 1$width 11step 1PATHPULSE$ 6accept_on 5alias 1always 5always_comb 5always_ff 5always_latch 1and " ++
  $"5assert 1assign 5assume 2automatic 5before 1begin 5bind 5bins 5binsof 5bit 5break 1buf 1bufif0 1bufif1 5byte 1case 1casex " ++
  $"1casez 2cell 5chandle 6checker 5class 5clocking 1cmos 2config 5const 5constraint 5context 5continue 5cover 5covergroup " ++
  $"5coverpoint 5cross 1deassign 1default 1defparam 2design 1disable 5dist 5do 1edge 1else 1end 1endcase 6endchecker 5endclass " ++
  $"5endclocking 2endconfig 1endfunction 2endgenerate 5endgroup 5endinterface 1endmodule 5endpackage 1endprimitive 5endprogram " ++
  $"5endproperty 5endsequence 1endspecify 1endtable 1endtask 5enum 1event 6eventually 5expect 5export 5extends 5extern 5final " ++
  $"5first_match 1for 1force 5foreach 1forever 1fork 5forkjoin 1function 2generate 2genvar 6global 1highz0 1highz1 1if 5iff " ++
  $"1ifnone 5ignore_bins 5illegal_bins 7implements 6implies 5import 5incdir 5include 1initial 1inout 1input 5inside 2instance " ++
  $"5int 1integer 7interconnect 5interface 5intersect 1join 5join_any 5join_none 1large 6let 5library 2liblist 5local " ++
  $"2localparam 5logic 5longint 1macromodule 5matches 1medium 5modport 1module 1nand 1negedge 7nettype 5new 6nexttime 1nmos 1nor " ++
  $"2noshowcancelled 1not 1notif0 1notif1 5null 1option 1or 1output 5package 5packed 1parameter 1pmos 1posedge 1primitive " ++
  $"5priority 5program 5property 5protected 1pull0 1pull1 1pulldown 1pullup 2pulsestyle_ondetect 2pulsestyle_onevent 5pure 5rand " ++
  $"5randc 5randcase 1randomize 5randsequence 1rcmos 1real 1realtime 5ref 1reg 6reject_on 1release 1repeat 6restrict 5return " ++
  $"1rnmos 1rpmos 1rtran 1rtranif0 1rtranif1 6s_always 6s_eventually 6s_nexttime 6s_until 6s_until_with 1sample 1scalared " ++
  $"5sequence 5shortint 5shortreal 2showcancelled 2signed 1small 7soft 5solve 1specify 1specparam 5static 1std 5string 6strong " ++
  $"1strong0 1strong1 5struct 5super 1supply0 1supply1 6sync_accept_on 6sync_reject_on 1table 5tagged 1task 5this 5throughout " ++
  $"1time 5timeprecision 5timeunit 1tran 1tranif0 1tranif1 1tri 1tri0 1tri1 1triand 1trior 1trireg 5type 1type_option 5typedef " ++
  $"5union 5unique 6unique0 2unsigned 6until 6until_with 6untyped 2use 4uwire 5var 1vectored 5virtual 5void 1wait 5wait_order " ++
  $"1wand 6weak 1weak0 1weak1 1while 5wildcard 1wire 5with 5within 1wor 1xnor 1xor ") []).
Definition keywords (v : lang) : list str := map snd (filter (fun nk => match fst nk with Some x => lang_ge v x | None => true end) s_keywords).

(** sv2017Lexer.g4:542-644, fragments *)
Definition formfeed : ascii := "012"%char.
Definition s_space : str := [sp; tab; nl; cr; formfeed].
Definition s_word : str := v_letters ++ v_digits ++ $"_".
Definition s_word_dollar : str := s_word ++ $"$".
Definition WHITE_SPACE : re := Plus (one s_space).
Definition Z_OR_X : re := one $"xXzZ".
Definition ZERO_OR_ONE : re := one $"01".
Definition EDGE_DESCRIPTOR : re := Alts [Seq Z_OR_X ZERO_OR_ONE; Seq ZERO_OR_ONE Z_OR_X; lit $"01"; lit $"10"].
Definition UNSIGNED_NUMBER : re := Seq (one v_digits) (Star (Alt (one $"_") (one v_digits))).
Definition FIXED_POINT_NUMBER : re := Seqs [UNSIGNED_NUMBER; one $"."; UNSIGNED_NUMBER].
Definition TIME_UNIT : re := Alts [lit $"s"; lit $"ms"; lit $"us"; lit $"ns"; lit $"ps"; lit $"fs"].
Definition base_re (b : str) : re := Seqs [one $"'"; Opt WHITE_SPACE; Opt (one $"sS"); Opt WHITE_SPACE; one b; Opt WHITE_SPACE].
Definition value_re (ds : str) : re := Seq (one ds) (Star (Alt (one $"_") (one ds))).
Definition x_digits : str := $"xX".
Definition z_digits : str := $"?zZ".
Definition OCTAL_NUMBER : re := Seq (base_re $"oO") (value_re (x_digits ++ z_digits ++ $"01234567")).
Definition BINARY_NUMBER : re := Seq (base_re $"bB") (value_re (x_digits ++ z_digits ++ $"01")).
Definition HEX_NUMBER : re := Seq (base_re $"hH") (value_re (x_digits ++ z_digits ++ v_digits ++ $"abcdefABCDEF")).
Definition DECIMAL_NUMBER_WITH_BASE : re := Seq (base_re $"dD") UNSIGNED_NUMBER.
Definition DECIMAL_INVALID_NUMBER_WITH_BASE : re := Seqs [base_re $"dD"; one x_digits; Star (one $"_")].
Definition DECIMAL_TRISTATE_NUMBER_WITH_BASE : re := Seqs [base_re $"dD"; one z_digits; Star (one $"_")].
Definition hex_chars : str := v_digits ++ $"ABCDEFabcdef".
Definition ANY_ASCII_CHARACTERS : re :=
  Alts [not1 [dq; bs; cr; nl]; lit [bs; nl]; lit [bs; cr; nl]; Seq (one [bs]) (one ($"abefnrtv$@luLEQU%" ++ [bs; dq]));
        Seqs [one [bs]; one v_digits; Opt (one v_digits); Opt (one v_digits)]; Seqs [lit (bs :: $"x"); one hex_chars; Opt (one hex_chars)]].
Definition visible_chars : str := map ascii_of_nat (List.seq 33 94).

(** sv2017Lexer.g4:432-466 *)
Definition EDGE_CONTROL_SPECIFIER : re := Seqs [lit $"edge"; one $"["; EDGE_DESCRIPTOR; Star (Seq (one $",") EDGE_DESCRIPTOR); one $"]"].
Definition TIME_LITERAL : re := Seq (Alt UNSIGNED_NUMBER FIXED_POINT_NUMBER) TIME_UNIT.
Definition ANY_BASED_NUMBER : re :=
  Alts [OCTAL_NUMBER; DECIMAL_NUMBER_WITH_BASE; BINARY_NUMBER; DECIMAL_INVALID_NUMBER_WITH_BASE; DECIMAL_TRISTATE_NUMBER_WITH_BASE; HEX_NUMBER].
Definition BASED_NUMBER_WITH_SIZE : re := Seq UNSIGNED_NUMBER ANY_BASED_NUMBER.
Definition REAL_NUMBER_WITH_EXP : re := Seqs [UNSIGNED_NUMBER; Opt (Seq (one $".") UNSIGNED_NUMBER); one $"eE"; Opt (one $"+-"); UNSIGNED_NUMBER].
Definition UNBASED_UNSIZED_LITERAL : re := Alts [Seq (one $"'") Z_OR_X; lit $"'0"; lit $"'1"].
Definition SV_STRING_LITERAL : re := Seqs [one [dq]; Star ANY_ASCII_CHARACTERS; one [dq]].
Definition C_IDENTIFIER : re := Seq (one (v_letters ++ $"_")) (Star (one s_word)).
Definition ESCAPED_IDENTIFIER : re := Seqs [one [bs]; Star (one visible_chars); WHITE_SPACE].
Definition SIMPLE_IDENTIFIER : re := Seq (one (v_letters ++ $"_")) (Star (one s_word_dollar)).
Definition SYSTEM_TF_IDENTIFIER : re := Seq (one $"$") (Plus (one s_word_dollar)).
(** sv2017Lexer.g4:467-536 in this order *)
Definition s_signs : list str :=
  [ $";"; $"("; $")"; $"["; $"]"; $"{"; $"}"; $"'"; $"'{"; $"<<"; $">>"; $"<<<"; $">>>"; $"$"; $"%"; $"!"; $"~"; $"~&"; $"~|"; $"^"; $"~^"; $"^~"; $","; $"."; $"?"; $":"; $"::";
    $"=="; $"!="; $"==="; $"!=="; $"==?"; $"!=?"; $"="; $"<"; $">"; $">="; $"<="; $"+="; $"-="; $"*="; $"/="; $"%="; $"&="; $"|="; $"^="; $"<<="; $">>="; $"<<<="; $">>>="; $"+"; $"-"; $"&"; $"&&";
    $"|"; $"||"; [bs]; $"*"; $"/"; $"**"; $"<->"; $"->"; $"->>"; $"++"; $"--"; $":="; $"|->"; $"|=>"; $"=>"; $"-=>"; $"+=>"; $"*>"; $"#-#"; $"#=#"; $"@"; $"@@"; $"#"; $"##"; $"&&&" ].
(** sv2017Lexer.g4:537-543; the lazy loops end at the first line end, or at the first end mark *)
Definition ONE_LINE_COMMENT : re := Seqs [lit $"//"; Star (not1 [nl]); Alt Eof (one [nl])].
Definition BLOCK_COMMENT : re :=
  Seqs [lit $"/*"; Star (Alt (not1 $"*") (Seq (Plus (one $"*")) (not1 $"*/"))); Plus (one $"*"); one $"/"].

Definition class_rules : list (skind * re) :=
  [ (S_EDGE_CONTROL_SPECIFIER, EDGE_CONTROL_SPECIFIER); (S_TIME_LITERAL, TIME_LITERAL); (S_ANY_BASED_NUMBER, ANY_BASED_NUMBER);
    (S_BASED_NUMBER_WITH_SIZE, BASED_NUMBER_WITH_SIZE); (S_REAL_NUMBER_WITH_EXP, REAL_NUMBER_WITH_EXP); (S_FIXED_POINT_NUMBER, FIXED_POINT_NUMBER);
    (S_UNSIGNED_NUMBER, UNSIGNED_NUMBER); (S_UNBASED_UNSIZED_LITERAL, UNBASED_UNSIZED_LITERAL); (S_STRING_LITERAL, SV_STRING_LITERAL);
    (S_C_IDENTIFIER, C_IDENTIFIER); (S_ESCAPED_IDENTIFIER, ESCAPED_IDENTIFIER); (S_SIMPLE_IDENTIFIER, SIMPLE_IDENTIFIER);
    (S_SYSTEM_TF_IDENTIFIER, SYSTEM_TF_IDENTIFIER) ].
Definition layout_rules : list (skind * re) :=
  [ (S_ONE_LINE_COMMENT, ONE_LINE_COMMENT); (S_BLOCK_COMMENT, BLOCK_COMMENT); (S_WHITE_SPACE, WHITE_SPACE) ].
Definition s_rules (v : lang) : list (skind * re) :=
  map (fun k => (S_KW k, lit k)) (keywords v) ++ class_rules ++ map (fun d => (S_SIGN d, lit d)) s_signs ++ layout_rules.
(** mode TABLE_MODE, sv2017Lexer.g4:646-658 *)
Definition table_rules : list (skind * re) :=
  [ (S_KW $"endtable", lit $"endtable"); (S_LEVEL_SYMBOL, one $"?01xXbB"); (S_EDGE_SYMBOL, one $"*rRfFpPnN"); (S_BLOCK_COMMENT, BLOCK_COMMENT);
    (S_SIGN $":", lit $":"); (S_SIGN $"(", lit $"("); (S_SIGN $"-", lit $"-"); (S_ONE_LINE_COMMENT, ONE_LINE_COMMENT); (S_SIGN $")", lit $")"); (S_SIGN $";", lit $";");
    (S_WHITE_SPACE, Plus (one [sp; tab; nl; cr])) ].

(** Longest match, first rule. *)
Fixpoint s_best (rs : list (skind * re)) (s : str) (best : option (skind * nat)) : option (skind * nat) :=
  match rs with
  | [] => best
  | (k, r) :: rs' =>
      s_best rs' s
        (match lmatch r s with
         | None => best
         | Some n => match best with Some (_, m) => if m <? n then Some (k, n) else best | None => Some (k, n) end
         end)
  end.
Definition s_hidden (k : skind) : bool := match k with S_ONE_LINE_COMMENT | S_BLOCK_COMMENT | S_WHITE_SPACE => true | _ => false end.
(** [table]: the lexer is in TABLE_MODE, which the keyword table begins and endtable ends (TABLE_MODE does
    not know table, so one mode is kept). *)
Definition s_mode (table : bool) (k : skind) : bool :=
  match k with S_KW w => if table then negb (seqb w $"endtable") else seqb w $"table" | _ => table end.
Definition s_step (v : lang) (table : bool) (s : str) : option (skind * nat) := s_best (if table then table_rules else s_rules v) s None.
(** The tokens that the parser sees: channel(HIDDEN) is left out. *)
Fixpoint s_loop (v : lang) (fuel : nat) (table : bool) (s : str) : outcome (list (skind * str)) :=
  match s with
  | [] => Ok []
  | _ =>
      match fuel with
      | 0 => OutOfFuel
      | S fuel' =>
          match s_step v table s with
          | None | Some (_, 0) => Throw (ParseException $"token recognition error")
          | Some (k, n) =>
              rest <- s_loop v fuel' (s_mode table k) (skipn n s) ;;
              Ok (if s_hidden k then rest else (k, firstn n s) :: rest)
          end
      end
  end.
Definition sv_lex (v : lang) (s : str) : outcome (list (skind * str)) := s_loop v (length s) false s.

(** ** The tokens of an expression (SvSyntaxModel.v); other tokens are no part of it. *)
Definition stok_of (t : skind * str) : option tok :=
  match fst t with
  | S_C_IDENTIFIER | S_SIMPLE_IDENTIFIER => Some (KId (snd t))
  | S_ESCAPED_IDENTIFIER => Some (KEscId (snd t))
  | S_UNSIGNED_NUMBER => Some (KUnsigned (snd t))
  | S_ANY_BASED_NUMBER => Some (KBased (snd t))
  | S_BASED_NUMBER_WITH_SIZE => Some (KSized (snd t))
  | S_REAL_NUMBER_WITH_EXP | S_FIXED_POINT_NUMBER => Some (KReal (snd t))
  | S_UNBASED_UNSIZED_LITERAL => Some (KUnbased (snd t))
  | S_STRING_LITERAL => Some (KString (snd t))
  | S_TIME_LITERAL => Some (KTime (snd t))
  (* rule identifier, sv2017Parser.g4:47-56 *)
  | S_KW k =>
      if existsb (seqb k) [ $"sample"; $"randomize"; $"type_option"; $"option"; $"std" ] then Some (KId (snd t))
      else if seqb k $"null" then Some KNull else None
  | S_SIGN d =>
      assoc_str d [($"+", KOp S_PLUS); ($"-", KOp S_MINUS); ($"!", KOp S_NOT); ($"~", KOp S_NEG); ($"&", KOp S_AMPERSAND); ($"~&", KOp S_NAND); ($"|", KOp S_BAR);
               ($"~|", KOp S_NOR); ($"^", KOp S_XOR); ($"~^", KOp S_NXOR); ($"^~", KOp S_XORN); ($"**", KOp S_DOUBLESTAR); ($"*", KOp S_MUL); ($"/", KOp S_DIV);
               ($"%", KOp S_MOD); ($"<<", KOp S_SHIFT_LEFT); ($">>", KOp S_SHIFT_RIGHT); ($"<<<", KOp S_ARITH_SHIFT_LEFT); ($">>>", KOp S_ARITH_SHIFT_RIGHT);
               ($"<", KOp S_LT); ($"<=", KOp S_LE); ($">", KOp S_GT); ($">=", KOp S_GE); ($"==", KOp S_EQ); ($"!=", KOp S_NE); ($"===", KOp S_CASE_EQ); ($"!==", KOp S_CASE_NE);
               ($"==?", KOp S_WILDCARD_EQ); ($"!=?", KOp S_WILDCARD_NE); ($"&&", KOp S_AND_LOG); ($"||", KOp S_OR_LOG); ($"->", KOp S_ARROW); ($"<->", KOp S_BI_DIR_ARROW);
               ($"&&&", KAnd3); ($"(", KLp); ($")", KRp); ($"[", KLs); ($"]", KRs); ($"{", KLb); ($"}", KRb); ($",", KComma); ($"?", KQuest); ($":", KColon); ($"::", KColon2);
               ($".", KDot); ($"$", KDolar)]
  | _ => None
  end.
Fixpoint stoks_of (l : list (skind * str)) : option (list tok) :=
  match l with
  | [] => Some []
  | t :: l' => match stok_of t, stoks_of l' with Some x, Some r => Some (x :: r) | _, _ => None end
  end.
(** The AST of the text of an expression. *)
Definition convert_verilog_text (v : lang) (s : str) : outcome expr :=
  l <- sv_lex v s ;;
  match stoks_of l with Some ts => e <- parse_expression ts ;; conv e | None => no_parse end.
