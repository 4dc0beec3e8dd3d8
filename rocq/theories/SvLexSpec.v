(** The lexical elements of Verilog (IEEE 1364) and SystemVerilog (IEEE 1800-2017 clause 5), without reference
    to the lexer; only [token_for] at the end names its token types. *)
From Verif Require Import Base StrSpec VhdlLexSpec SvLexModel.

(** ** Characters *)
Definition word_start (c : ascii) : bool := letter c || ceqb c "_".
Definition word_char (c : ascii) : bool := alnum c || mem_c c $"_$".
(** white space, 5.3, with the carriage return of a line end *)
Definition white (c : ascii) : bool := mem_c c [sp; tab; nl; cr; ascii_of_nat 12].
Definition all (P : ascii -> bool) (s : str) : Prop := Forall (fun c => P c = true) s.

(** ** Reserved words, 22.14 and annex B *)
(** Table 22-1 *)
Definition words_1995 : list str :=
  [ $"always"; $"and"; $"assign"; $"begin"; $"buf"; $"bufif0"; $"bufif1"; $"case"; $"casex"; $"casez"; $"cmos"; $"deassign"; $"default"; $"defparam";
    $"disable"; $"edge"; $"else"; $"end"; $"endcase"; $"endfunction"; $"endmodule"; $"endprimitive"; $"endspecify"; $"endtable"; $"endtask";
    $"event"; $"for"; $"force"; $"forever"; $"fork"; $"function"; $"highz0"; $"highz1"; $"if"; $"ifnone"; $"initial"; $"inout"; $"input"; $"integer";
    $"join"; $"large"; $"macromodule"; $"medium"; $"module"; $"nand"; $"negedge"; $"nmos"; $"nor"; $"not"; $"notif0"; $"notif1"; $"or"; $"output";
    $"parameter"; $"pmos"; $"posedge"; $"primitive"; $"pull0"; $"pull1"; $"pulldown"; $"pullup"; $"rcmos"; $"real"; $"realtime"; $"reg"; $"release";
    $"repeat"; $"rnmos"; $"rpmos"; $"rtran"; $"rtranif0"; $"rtranif1"; $"scalared"; $"small"; $"specify"; $"specparam"; $"strong0"; $"strong1";
    $"supply0"; $"supply1"; $"table"; $"task"; $"time"; $"tran"; $"tranif0"; $"tranif1"; $"tri"; $"tri0"; $"tri1"; $"triand"; $"trior"; $"trireg";
    $"vectored"; $"wait"; $"wand"; $"weak0"; $"weak1"; $"while"; $"wire"; $"wor"; $"xnor"; $"xor" ].
(** Table 22-2 *)
Definition words_2001 : list str :=
  [ $"automatic"; $"cell"; $"config"; $"design"; $"endconfig"; $"endgenerate"; $"generate"; $"genvar"; $"incdir"; $"include"; $"instance";
    $"liblist"; $"library"; $"localparam"; $"noshowcancelled"; $"pulsestyle_ondetect"; $"pulsestyle_onevent"; $"showcancelled"; $"signed";
    $"unsigned"; $"use" ].
(** Table 22-4 *)
Definition words_2005 : list str :=
  [ $"uwire" ].
(** Table 22-5 *)
Definition words_sv2005 : list str :=
  [ $"alias"; $"always_comb"; $"always_ff"; $"always_latch"; $"assert"; $"assume"; $"before"; $"bind"; $"bins"; $"binsof"; $"bit"; $"break"; $"byte";
    $"chandle"; $"class"; $"clocking"; $"const"; $"constraint"; $"context"; $"continue"; $"cover"; $"covergroup"; $"coverpoint"; $"cross"; $"dist";
    $"do"; $"endclass"; $"endclocking"; $"endgroup"; $"endinterface"; $"endpackage"; $"endprogram"; $"endproperty"; $"endsequence"; $"enum";
    $"expect"; $"export"; $"extends"; $"extern"; $"final"; $"first_match"; $"foreach"; $"forkjoin"; $"iff"; $"ignore_bins"; $"illegal_bins";
    $"import"; $"inside"; $"int"; $"interface"; $"intersect"; $"join_any"; $"join_none"; $"local"; $"logic"; $"longint"; $"matches"; $"modport";
    $"new"; $"null"; $"package"; $"packed"; $"priority"; $"program"; $"property"; $"protected"; $"pure"; $"rand"; $"randc"; $"randcase";
    $"randsequence"; $"ref"; $"return"; $"sequence"; $"shortint"; $"shortreal"; $"solve"; $"static"; $"string"; $"struct"; $"super"; $"tagged";
    $"this"; $"throughout"; $"timeprecision"; $"timeunit"; $"type"; $"typedef"; $"union"; $"unique"; $"var"; $"virtual"; $"void"; $"wait_order";
    $"wildcard"; $"with"; $"within" ].
(** Table 22-6 *)
Definition words_sv2009 : list str :=
  [ $"accept_on"; $"checker"; $"endchecker"; $"eventually"; $"global"; $"implies"; $"let"; $"nexttime"; $"reject_on"; $"restrict"; $"s_always";
    $"s_eventually"; $"s_nexttime"; $"s_until"; $"s_until_with"; $"strong"; $"sync_accept_on"; $"sync_reject_on"; $"unique0"; $"until";
    $"until_with"; $"untyped"; $"weak" ].
(** Table 22-7 *)
Definition words_sv2012 : list str :=
  [ $"implements"; $"interconnect"; $"nettype"; $"soft" ].
Definition config_words : list str := [ $"cell"; $"config"; $"design"; $"endconfig"; $"incdir"; $"include"; $"instance"; $"liblist"; $"library"; $"use" ].
(** 1364-2001-noconfig (table 22-3) is 1364-2001 without the words of configurations *)
Definition reserved_words (v : lang) : list str :=
  words_1995
  ++ (if lang_ge v VERILOG2001 then match v with VERILOG2001_NOCONFIG => filter (fun w => negb (existsb (seqb w) config_words)) words_2001 | _ => words_2001 end else [])
  ++ (if lang_ge v VERILOG2005 then words_2005 else [])
  ++ (if lang_ge v SV2005 then words_sv2005 else [])
  ++ (if lang_ge v SV2009 then words_sv2009 else [])
  ++ (if lang_ge v SV2012 then words_sv2012 else []).

(** ** Operators and punctuation *)
Definition verilog_signs : list str :=
  [ $"!"; $"!="; $"!=="; $"#"; $"%"; $"&"; $"&&"; $"&&&"; $"("; $")"; $"*"; $"**"; $"*>"; $"+"; $","; $"-"; $"->"; $"."; $"/"; $":"; $";"; $"<"; $"<<"; $"<<<"; $"<="; $"="; $"=="; $"==="; $"=>"; $">"; $">="; $">>"; $">>>";
    $"?"; $"@"; $"["; $"]"; $"^"; $"^~"; $"{"; $"|"; $"||"; $"}"; $"~"; $"~&"; $"~^"; $"~|" ].
Definition system_verilog_signs : list str :=
  [ $"!=?"; $"##"; $"#-#"; $"#=#"; $"$"; $"%="; $"&="; $"'"; $"'{"; $"*="; $"++"; $"+="; $"+=>"; $"--"; $"-="; $"-=>"; $"->>"; $"/="; $"::"; $":="; $"<->"; $"<<<="; $"<<="; $"==?"; $">>="; $">>>="; $"@@"; $"^="; $"|->"; $"|="; $"|=>" ].
Definition signs (v : lang) : list str := verilog_signs ++ (if lang_ge v SV2005 then system_verilog_signs else []).

(** ** Numbers, 5.7 *)
(** a digit, then digits and underscores *)
Definition digits_in (P : ascii -> bool) (s : str) : Prop := exists c t, s = c :: t /\ P c = true /\ all (fun x => P x || ceqb x "_") t.
Definition unsigned : str -> Prop := digits_in digit.
Definition fixed_point (s : str) : Prop := exists a b, s = a ++ "."%char :: b /\ unsigned a /\ unsigned b.
Definition exponent_part (s : str) : Prop := exists e g n, s = e :: g ++ n /\ In e $"eE" /\ In g [ []; $"+"; $"-" ] /\ unsigned n.
Definition x_or_z : str := $"xXzZ?".
(** the digits behind a base *)
Definition value_of (b : ascii) (s : str) : Prop :=
  (In b $"dD" /\ (unsigned s \/ exists c t, s = c :: t /\ In c x_or_z /\ all (ceqb "_") t))
  \/ (In b $"bB" /\ digits_in (fun c => mem_c c ($"01" ++ x_or_z)) s)
  \/ (In b $"oO" /\ digits_in (fun c => mem_c c ($"01234567" ++ x_or_z)) s)
  \/ (In b $"hH" /\ digits_in (fun c => digit c || mem_c c ($"abcdefABCDEF" ++ x_or_z)) s).
Definition time_units : list str := [ $"s"; $"ms"; $"us"; $"ns"; $"ps"; $"fs" ].

(** ** Strings, 5.9: [string_body E s]: the text between the quotes, E says what may follow a backslash *)
Inductive string_body (E : str -> Prop) : str -> Prop :=
| sb_end : string_body E []
| sb_char c s : ~ In c [dq; bs; cr; nl] -> string_body E s -> string_body E (c :: s)
| sb_escape c s : c <> cr -> E (c :: s) -> string_body E s -> string_body E (bs :: c :: s)
| sb_line s : string_body E s -> string_body E (bs :: cr :: nl :: s).

(** ** Lexical elements *)
Inductive elem :=
| T_word (s : str)                            (* identifier or reserved word *)
| T_system (s : str)                          (* $s *)
| T_escaped (s w : str)                       (* \s and the white space that ends it *)
| T_unsigned (s : str)
| T_based (n g : str) (b : ascii) (w s : str) (* size n (or none), sign g, base b, white space w, digits s *)
| T_fixed (s : str)
| T_exp (a e : str)                           (* number a with exponent e *)
| T_time (a u : str)                          (* number a with unit u *)
| T_unbased (c : ascii)                       (* '0 '1 'x 'z *)
| T_string (s : str)
| T_sign (s : str).
Definition elem_text (l : elem) : str :=
  match l with
  | T_word s | T_unsigned s | T_fixed s | T_sign s => s
  | T_system s => "$"%char :: s
  | T_escaped s w => bs :: s ++ w
  | T_based n g b w s => n ++ "'"%char :: g ++ b :: w ++ s
  | T_exp a b | T_time a b => a ++ b
  | T_unbased c => ["'"%char; c]
  | T_string s => dq :: s ++ [dq]
  end.
Definition elem_ok (v : lang) (l : elem) : Prop :=
  match l with
  | T_word s => exists c t, s = c :: t /\ word_start c = true /\ all word_char t
  | T_system s => s <> [] /\ all word_char s
  | T_escaped s w => s <> [] /\ all (between 33 126) s /\ w <> [] /\ all white w
  | T_unsigned s => unsigned s
  | T_based n g b w s => optional unsigned n /\ In g [ []; $"s"; $"S" ] /\ all white w /\ value_of b s
  | T_fixed s => fixed_point s
  | T_exp a e => (unsigned a \/ fixed_point a) /\ exponent_part e
  | T_time a u => (unsigned a \/ fixed_point a) /\ In u time_units
  | T_unbased c => In c $"01xXzZ"
  | T_string s => string_body (fun _ => True) s
  | T_sign d => In d (signs v)
  end.

(** ** Sources: lexical elements, white space and comments *)
Inductive part := G_elem (l : elem) | G_white (w : str) | G_line (s e : str) | G_block (s : str).
Definition part_text (p : part) : str :=
  match p with G_elem l => elem_text l | G_white w => w | G_line s e => $"//" ++ s ++ e | G_block s => $"/*" ++ s ++ $"*/" end.
Definition part_ok (v : lang) (p : part) : Prop :=
  match p with G_elem l => elem_ok v l | G_white w => w <> [] /\ all white w | G_line s e => ~ In nl s /\ In e [ []; [nl] ] | G_block s => ~ occurs $"*/" s end.
(** May a part end where [rest] begins?  Words and numbers are kept apart from each other, an operator is
    the longest one of a list, white space ends before the next part. *)
Definition longest_of (ds : list str) (d rest : str) : Prop :=
  forall d', In d' (ds ++ [ $"//"; $"/*" ]) -> is_prefix d' (d ++ rest) = true -> length d' <= length d.
Definition apart (rest : str) : Prop := not_first (fun c => word_char c || mem_c c $".'") rest.
Definition stops_at (v : lang) (p : part) (rest : str) : Prop :=
  match p with
  | G_elem (T_word s) => not_first word_char rest /\ (s = $"edge" -> not_first (ceqb "[") rest)
  | G_elem (T_system _) => not_first word_char rest
  | G_elem (T_escaped _ _) | G_white _ => not_first white rest
  | G_elem (T_unsigned _) | G_elem (T_fixed _) | G_elem (T_exp _ _) | G_elem (T_time _ _) => apart rest
  | G_elem (T_based _ _ b _ _) => not_first word_char rest /\ (In b $"dD" \/ not_first (ceqb "?") rest)
  | G_elem (T_sign d) => longest_of (signs v) d rest /\ (d = $"$" -> not_first word_char rest) /\ (d = $"'" -> hd_error rest = Some "("%char)
  | G_elem (T_unbased _) | G_elem (T_string _) | G_block _ => True
  | G_line _ e => e = [] -> rest = []
  end.
(** [cut Q v ps s]: the text s consists of the parts ps; Q is a further demand on each part and the text
    behind it. *)
Inductive cut (Q : part -> str -> Prop) (v : lang) : list part -> str -> Prop :=
| cut_nil : cut Q v [] []
| cut_cons p ps s : part_ok v p -> stops_at v p s -> Q p s -> cut Q v ps s -> cut Q v (p :: ps) (part_text p ++ s).
Definition is_verilog (v : lang) : list part -> str -> Prop := cut (fun _ _ => True) v.
(** What the lexer needs in addition: the operators of SystemVerilog are kept apart in every version, only
    the listed characters follow a backslash in a string, words of configurations are avoided in Verilog
    2001 and 2005, and the text has no table of a primitive. *)
Definition known_escape (s : str) : Prop :=
  match s with
  | c :: s' => In c ($"abefnrtv$@luLEQU%" ++ [bs; dq; nl]) \/ digit c = true \/ (c = "x"%char /\ match s' with d :: _ => digit d || mem_c d $"abcdefABCDEF" = true | [] => False end)
  | [] => False
  end.
Definition unsettled (v : lang) : list str :=
  match v with
  | VERILOG2001 | VERILOG2005 => [ $"incdir"; $"include"; $"library" ]
  | VERILOG2001_NOCONFIG => [ $"cell"; $"config"; $"design"; $"endconfig"; $"instance"; $"liblist"; $"use" ]
  | _ => []
  end.
Definition settled (v : lang) (p : part) (rest : str) : Prop :=
  match p with
  | G_elem (T_word s) => ~ In s (unsettled v) /\ s <> $"table"
  | G_elem (T_string s) => string_body known_escape s
  | G_elem (T_sign d) => longest_of (verilog_signs ++ system_verilog_signs) d rest
  | _ => True
  end.
Definition plain_verilog (v : lang) : list part -> str -> Prop := cut (settled v) v.
Fixpoint elems (ps : list part) : list elem :=
  match ps with [] => [] | G_elem l :: ps' => l :: elems ps' | _ :: ps' => elems ps' end.

(** The token of a lexical element. *)
Definition special_words : list str := [ $"option"; $"randomize"; $"sample"; $"std"; $"type_option"; $"PATHPULSE$" ].
Definition special_names : list str :=
  [ $"error"; $"fatal"; $"fullskew"; $"hold"; $"info"; $"nochange"; $"period"; $"recovery"; $"recrem"; $"removal"; $"root"; $"setup"; $"setuphold"; $"skew"; $"timeskew"; $"unit"; $"warning"; $"width" ].
Definition listed (s : str) (l : list str) : bool := existsb (seqb s) l.
Definition token_for (v : lang) (l : elem) : skind * str :=
  (match l with
   | T_word s => if listed s (reserved_words v ++ special_words) then S_KW s else if mem_c "$"%char s then S_SIMPLE_IDENTIFIER else S_C_IDENTIFIER
   | T_system s => if listed s special_names then S_KW ("$"%char :: s) else S_SYSTEM_TF_IDENTIFIER
   | T_escaped _ _ => S_ESCAPED_IDENTIFIER | T_unsigned _ => S_UNSIGNED_NUMBER
   | T_based n _ _ _ _ => match n with [] => S_ANY_BASED_NUMBER | _ => S_BASED_NUMBER_WITH_SIZE end
   | T_fixed _ => S_FIXED_POINT_NUMBER | T_exp _ _ => S_REAL_NUMBER_WITH_EXP | T_time _ _ => S_TIME_LITERAL | T_unbased _ => S_UNBASED_UNSIZED_LITERAL
   | T_string _ => S_STRING_LITERAL | T_sign d => S_SIGN d
   end, elem_text l).
