(** Model of grammars/verilogPreprocLexer.g4: the token stream of the Verilog preprocessor.

    ANTLR strategy: in the current mode the rule with the longest match wins, the first listed
    rule wins ties, the embedded actions of the winning rule run after the match. Commands and
    actions of rules that are merely referenced by another rule are ignored by ANTLR.
    Non-greedy loops that end a rule are written as their shortest match. *)
From Verif Require Import Base RegexModel.

(** Token types of the grammar (the eleven net type keywords share one type: the visitor never
    looks at them). *)
Inductive ttype :=
| T_STR | T_LINE_COMMENT | T_COMMENT | T_CODE | T_INCLUDE | T_DEFINE | T_IFNDEF | T_IFDEF
| T_ELSIF | T_ELSE | T_ENDIF | T_UNDEF | T_BEGIN_KEYWORDS | T_END_KEYWORDS | T_PRAGMA
| T_UNDEFINEALL | T_RESETALL | T_CELLDEFINE | T_ENDCELLDEFINE | T_TIMESCALE | T_DEFAULT_NETTYPE
| T_LINE | T_UNCONNECTED_DRIVE | T_NOUNCONNECTED_DRIVE | T_PROTECTED
| T_CALL_WITH_ARGS | T_CALL_NO_ARGS | T_LINE_ESCAPE | T_LP | T_RP | T_COMMA | T_EQUAL
| T_NEW_LINE | T_WS | T_ID | T_NUM | T_NETTYPE | T_TIME_ID | T_SLASH
| T_ENDPROTECTED | T_PROTECTED_LINE.

(** verilogPreprocLexer.g4:5 *)
Inductive channel := CH_DEFAULT | CH_LINE_ESCAPE | CH_LINE_COMMENT | CH_COMMENT.

(** A token: type, channel, text (after setText), the raw input text it covers,
    its line (1-based) and column (0-based). *)
Record token := mkTok {
  tk_type : ttype; tk_chan : channel; tk_text : str; tk_raw : str; tk_line : nat; tk_col : nat
}.

(** Lexer modes *)
Inductive mode :=
| DEFAULT_MODE | DIRECTIVE_MODE | DEFINE_MODE | EXPR_MODE | DEFINE_BODY_MODE
| MACRO_ARG_LIST_MODE | IFDEF_MODE | UNDEF_MODE | DEFAULT_NETTYPE_MODE | LINE_MODE
| TIMING_SPEC_MODE | KEYWOORDS_MODE | INCLUDE_MODE | PRAGMA_MODE | PROTECTED_MODE.

(** struct expression_parsing_meta_info, verilogPreprocLexer.g4:9-51 *)
Record expr_meta := mkMeta {
  em_par : nat; em_brace : nat; em_sq : nat;
  em_reenter : bool;              (* reenter_expr_on_tailing_comma *)
  em_exit_parent : bool;          (* exit_from_parent_mode_on_lp *)
  em_next : option mode           (* next_mode_set / next_mode *)
}.
Definition no_brace_active (m : expr_meta) : bool :=
  (em_par m =? 0) && (em_brace m =? 0) && (em_sq m =? 0).

(** Lexer members, verilogPreprocLexer.g4:53-56 (define_in_def_val is never set to true). *)
Record lexst := mkLex {
  lx_mode : mode;
  lx_stack : list mode;
  lx_lp_seen : bool;              (* define_param_LP_seen *)
  lx_call_lp : bool;              (* macro_call_LP_seen *)
  lx_meta : expr_meta
}.
Definition meta0 : expr_meta := mkMeta 0 0 0 false false None.
Definition lex_init : lexst := mkLex DEFAULT_MODE [] false false meta0.

(** ** Fragments, verilogPreprocLexer.g4:68-76 *)
Definition letters : str := $"abcdefghijklmnopqrstuvwxyzABCDEFGHIJKLMNOPQRSTUVWXYZ".
Definition digits : str := $"0123456789".
Definition F_WS : re := one [sp; tab].
Definition CRLF : re := Seq (Opt (one [cr])) (one [nl]).
Definition ID_FIRST : re := one (letters ++ $"_").
Definition F_DIGIT : re := one digits.
Definition F_ID : re := Seq ID_FIRST (Star (one (letters ++ $"_" ++ digits))).
Definition WS_re : re := Plus F_WS.
Definition ANY_WS : re := Alt WS_re CRLF.
Definition WS_ENDING_NEW_LINE : re := Alt (Seq (Star WS_re) CRLF) Eof.
Definition F_LINE_ESCAPE : re := Seq (one [bs]) CRLF.

(** ** Rules; the number in the comment is the line in verilogPreprocLexer.g4 *)
Inductive rule :=
| R_STR | R_LINE_COMMENT | R_COMMENT | R_CODE | R_CODE_SLASH | R_MACRO_ENTER
| R_D_STR | R_D_LINE_COMMENT | R_D_COMMENT | R_INCLUDE | R_DEFINE | R_IFNDEF | R_IFDEF | R_ELSIF
| R_ELSE | R_ENDIF | R_UNDEF | R_BEGIN_KEYWORDS | R_END_KEYWORDS | R_PRAGMA | R_UNDEFINEALL
| R_RESETALL | R_CELLDEFINE | R_ENDCELLDEFINE | R_TIMESCALE | R_DEFAULT_NETTYPE | R_LINE
| R_UNCONNECTED_DRIVE | R_NOUNCONNECTED_DRIVE | R_PROTECTED | R_CALL_WITH_ARGS | R_CALL_NO_ARGS
| R_DM_LINE_COMMENT | R_DM_COMMENT | R_LINE_ESCAPE | R_LP | R_RP | R_COMMA | R_EQUAL
| R_DM_NEW_LINE | R_WS | R_ID | R_DN_CODE
| R_E_LINE_COMMENT | R_E_COMMENT | R_E_CODE | R_E_LP | R_E_RP | R_E_LBR | R_E_RBR | R_E_LSQR
| R_E_RSQR | R_E_COMMA | R_E_STR
| R_DB_LINE_ESCAPE | R_DB_STR | R_DB_LINE_COMMENT | R_DB_CODE | R_DB_NEW_LINE
| R_MA_COMMA | R_MA_RP | R_MA_CODE
| R_IF_NUM | R_IF_ID
| R_UN_ID | R_UN_WS | R_UN_NEW_LINE
| R_NT_KW | R_NT_NEW_LINE
| R_LI_NUM | R_LI_STR | R_LI_WS | R_LI_NEW_LINE | R_LI_LINE_COMMENT | R_LI_COMMENT
| R_TI_ID | R_TI_SLASH | R_TI_WS | R_TI_NEW_LINE | R_TI_LINE_COMMENT | R_TI_COMMENT
| R_KW_STR
| R_IN_STR | R_IN_CHEVRONS | R_IN_LINE_COMMENT | R_IN_NEW_LINE | R_IN_MACRO_ENTER | R_IN_WS
| R_PG_WS | R_PG_NUM | R_PG_ID | R_PG_STR | R_PG_COMMA | R_PG_EQUAL | R_PG_LP | R_PG_RP
| R_PG_NEW_LINE
| R_PT_WS | R_PT_END | R_PT_LINE.

(** :79 *)
Definition STR_re : re :=
  Seqs [one [dq];
        Star (Alt (Seq (one [bs]) (Alt (one [dq]) CRLF)) (not1 [dq; cr; nl]));
        one [dq]].
(** :80 *)
Definition LINE_COMMENT_re : re := Seqs [lit $"//"; Star (not1 [cr; nl]); Alt CRLF Eof].
(** :81  '/*' .*? '*/' (shortest) *)
Definition COMMENT_re : re :=
  Seqs [lit $"/*"; Star (Alt (not1 $"*") (Seq (Plus (one $"*")) (not1 $"*/")));
        Plus (one $"*"); one $"/"].
(** :84 one or more backtick-backslash-backtick followed by a double quote *)
Definition MACRO_ESC_QUOTE : re := Seq (Plus (lit [bt; bs; bt])) (one [dq]).
(** :82-89 the repeated part of CODE *)
Definition CODE_item : re :=
  Alts [not1 [bt; "/"%char; dq; bs];
        Seq (one $"/") (not1 ["/"%char; "*"%char; bt]);
        MACRO_ESC_QUOTE;
        lit [bt; dq];
        lit [bt; bt];
        Seqs [one [bs]; Star (not1 [sp; tab; cr; nl]); Alt (one [sp; tab; cr; nl]) Eof]].
Definition CODE_re : re := Plus CODE_item.
(** :89-97 CODE that takes the optional tail '/' '`' *)
Definition CODE_SLASH_re : re := Seq CODE_re (lit ["/"%char; bt]).

Definition kw (s : string) (tail : re) : re := Seq (lit (s2l s)) tail.

Definition rule_re (r : rule) : re :=
  match r with
  | R_STR | R_D_STR | R_E_STR | R_DB_STR | R_LI_STR | R_KW_STR | R_IN_STR | R_PG_STR => STR_re
  | R_LINE_COMMENT | R_D_LINE_COMMENT | R_DM_LINE_COMMENT | R_E_LINE_COMMENT | R_DB_LINE_COMMENT
  | R_LI_LINE_COMMENT | R_TI_LINE_COMMENT | R_IN_LINE_COMMENT => LINE_COMMENT_re
  | R_COMMENT | R_D_COMMENT | R_DM_COMMENT | R_E_COMMENT | R_LI_COMMENT | R_TI_COMMENT => COMMENT_re
  | R_CODE => CODE_re
  | R_CODE_SLASH => CODE_SLASH_re
  | R_MACRO_ENTER | R_IN_MACRO_ENTER => one [bt]                                (* :99, :371 *)
  | R_INCLUDE => kw "include" (Plus F_WS)                                       (* :106 *)
  | R_DEFINE => kw "define" (Seqs [Plus F_WS; Star F_LINE_ESCAPE;               (* :107-109 *)
                   Opt (Seqs [Alt LINE_COMMENT_re COMMENT_re; Star F_WS; Star F_LINE_ESCAPE]);
                   Star (Alt F_WS F_LINE_ESCAPE)])
  | R_IFNDEF => kw "ifndef" (Plus F_WS)                                         (* :113 *)
  | R_IFDEF => kw "ifdef" (Plus F_WS)
  | R_ELSIF => kw "elsif" (Plus F_WS)
  | R_ELSE => kw "else" ANY_WS
  | R_ENDIF => kw "endif" (Alt ANY_WS Eof)
  | R_UNDEF => kw "undef" (Plus F_WS)                                           (* :118 *)
  | R_BEGIN_KEYWORDS => kw "begin_keywords" F_WS                                (* :120 *)
  | R_END_KEYWORDS => kw "end_keywords" CRLF
  | R_PRAGMA => kw "pragma" F_WS
  | R_UNDEFINEALL => kw "undefineall" WS_ENDING_NEW_LINE
  | R_RESETALL => kw "resetall" WS_ENDING_NEW_LINE
  | R_CELLDEFINE => kw "celldefine" WS_ENDING_NEW_LINE
  | R_ENDCELLDEFINE => kw "endcelldefine" WS_ENDING_NEW_LINE
  | R_TIMESCALE => kw "timescale" (Plus F_WS)
  | R_DEFAULT_NETTYPE => kw "default_nettype" (Plus F_WS)
  | R_LINE => kw "line" (Plus F_WS)
  | R_UNCONNECTED_DRIVE => kw "unconnected_drive"
      (Seqs [Plus ANY_WS; Alt (lit $"pull0") (lit $"pull1"); WS_ENDING_NEW_LINE])
  | R_NOUNCONNECTED_DRIVE => kw "nounconnected_drive" WS_ENDING_NEW_LINE
  | R_PROTECTED => kw "protected" ANY_WS                                        (* :132 *)
  | R_CALL_WITH_ARGS => Seqs [F_ID; Star F_WS; one $"("]                        (* :133 *)
  | R_CALL_NO_ARGS => F_ID                                                      (* :140 *)
  | R_LINE_ESCAPE | R_DB_LINE_ESCAPE => F_LINE_ESCAPE                           (* :161, :258 *)
  | R_LP => one $"("
  | R_RP => Seq (one $")") (Star WS_re)                                         (* :166 *)
  | R_COMMA => one $","
  | R_EQUAL => one $"="
  | R_DM_NEW_LINE => CRLF
  | R_WS => WS_re
  | R_ID => F_ID
  | R_DN_CODE => Alts [lit [bt; dq]; not1 [bs; cr; nl; dq];                     (* :200 *)
                       Seq (Plus (one [bs])) (not1 [cr; nl])]
  | R_E_CODE => Plus (not1 ($"[]()" ++ [dq] ++ $"{},"))                         (* :212 *)
  | R_E_LP => one $"("
  | R_E_RP => one $")"
  | R_E_LBR => one $"{"
  | R_E_RBR => one $"}"
  | R_E_LSQR => one $"["
  | R_E_RSQR => one $"]"
  | R_E_COMMA => one $","
  | R_DB_CODE => Plus (Alts [Seq (Plus (one [bs])) (not1 [nl]);                 (* :261-266 *)
                             lit [bt; dq]; MACRO_ESC_QUOTE; not1 [bs; nl; dq]])
  | R_DB_NEW_LINE => CRLF
  | R_MA_COMMA => one $","
  | R_MA_RP => one $")"
  | R_MA_CODE => Alt STR_re (not1 ($",()" ++ [dq]))                             (* :300 *)
  | R_IF_NUM | R_LI_NUM | R_PG_NUM => Plus F_DIGIT
  | R_IF_ID | R_UN_ID => F_ID
  | R_UN_WS => F_WS
  | R_UN_NEW_LINE | R_NT_NEW_LINE | R_LI_NEW_LINE | R_TI_NEW_LINE | R_IN_NEW_LINE
  | R_PG_NEW_LINE => CRLF
  | R_NT_KW => Alts (map (fun s => lit (s2l s))                                 (* :316-326 *)
      ["wire"; "tri"; "tri0"; "tri1"; "wand"; "triand"; "wor"; "trior"; "trireg"; "uwire";
       "none"]%string)
  | R_LI_WS => F_WS
  | R_TI_ID => Seqs [Plus F_DIGIT; Star (one [sp]); Opt (one $"munpf"); one $"s"] (* :340 *)
  | R_TI_SLASH => one $"/"
  | R_TI_WS | R_IN_WS => WS_re
  | R_IN_CHEVRONS => Seqs [one $"<"; Star (not1 [bs; ">"%char]); one $">"]       (* :366 *)
  | R_PG_WS => Plus WS_re
  | R_PG_ID => F_ID
  | R_PG_COMMA => one $","
  | R_PG_EQUAL => one $"="
  | R_PG_LP => one $"("
  | R_PG_RP => one $")"
  | R_PT_WS => Plus ANY_WS
  | R_PT_END => lit $"`endprotected"
  | R_PT_LINE => Plus (not1 [sp; tab; nl; cr])
  end.

(** Rules of each mode in grammar order. *)
Definition mode_rules (m : mode) : list rule :=
  match m with
  | DEFAULT_MODE => [R_STR; R_LINE_COMMENT; R_COMMENT; R_CODE; R_CODE_SLASH; R_MACRO_ENTER]
  | DIRECTIVE_MODE =>
      [R_D_STR; R_D_LINE_COMMENT; R_D_COMMENT; R_INCLUDE; R_DEFINE; R_IFNDEF; R_IFDEF; R_ELSIF;
       R_ELSE; R_ENDIF; R_UNDEF; R_BEGIN_KEYWORDS; R_END_KEYWORDS; R_PRAGMA; R_UNDEFINEALL;
       R_RESETALL; R_CELLDEFINE; R_ENDCELLDEFINE; R_TIMESCALE; R_DEFAULT_NETTYPE; R_LINE;
       R_UNCONNECTED_DRIVE; R_NOUNCONNECTED_DRIVE; R_PROTECTED; R_CALL_WITH_ARGS; R_CALL_NO_ARGS]
  | DEFINE_MODE => [R_DM_LINE_COMMENT; R_DM_COMMENT; R_LINE_ESCAPE; R_LP; R_RP; R_COMMA; R_EQUAL;
                    R_DM_NEW_LINE; R_WS; R_ID; R_DN_CODE]
  | EXPR_MODE => [R_E_LINE_COMMENT; R_E_COMMENT; R_E_CODE; R_E_LP; R_E_RP; R_E_LBR; R_E_RBR;
                  R_E_LSQR; R_E_RSQR; R_E_COMMA; R_E_STR]
  | DEFINE_BODY_MODE => [R_DB_LINE_ESCAPE; R_DB_STR; R_DB_LINE_COMMENT; R_DB_CODE; R_DB_NEW_LINE]
  | MACRO_ARG_LIST_MODE => [R_MA_COMMA; R_MA_RP; R_MA_CODE]
  | IFDEF_MODE => [R_IF_NUM; R_IF_ID]
  | UNDEF_MODE => [R_UN_ID; R_UN_WS; R_UN_NEW_LINE]
  | DEFAULT_NETTYPE_MODE => [R_NT_KW; R_NT_NEW_LINE]
  | LINE_MODE => [R_LI_NUM; R_LI_STR; R_LI_WS; R_LI_NEW_LINE; R_LI_LINE_COMMENT; R_LI_COMMENT]
  | TIMING_SPEC_MODE => [R_TI_ID; R_TI_SLASH; R_TI_WS; R_TI_NEW_LINE; R_TI_LINE_COMMENT;
                         R_TI_COMMENT]
  | KEYWOORDS_MODE => [R_KW_STR]
  | INCLUDE_MODE => [R_IN_STR; R_IN_CHEVRONS; R_IN_LINE_COMMENT; R_IN_NEW_LINE; R_IN_MACRO_ENTER;
                     R_IN_WS]
  | PRAGMA_MODE => [R_PG_WS; R_PG_NUM; R_PG_ID; R_PG_STR; R_PG_COMMA; R_PG_EQUAL; R_PG_LP; R_PG_RP;
                    R_PG_NEW_LINE]
  | PROTECTED_MODE => [R_PT_WS; R_PT_END; R_PT_LINE]
  end.

(** ** Actions *)
Definition push_mode (m : mode) (st : lexst) : lexst :=
  mkLex m (lx_mode st :: lx_stack st) (lx_lp_seen st) (lx_call_lp st) (lx_meta st).
(** Lexer::popMode throws EmptyStackException on an empty stack. *)
Definition pop_mode (st : lexst) : outcome lexst :=
  match lx_stack st with
  | [] => Throw (RuntimeError $"EmptyStackException")
  | m :: ms => Ok (mkLex m ms (lx_lp_seen st) (lx_call_lp st) (lx_meta st))
  end.
Definition pop_push (m : mode) (st : lexst) : outcome lexst :=
  s <- pop_mode st ;; Ok (push_mode m s).
Definition set_lp (b : bool) (st : lexst) : lexst :=
  mkLex (lx_mode st) (lx_stack st) b (lx_call_lp st) (lx_meta st).
Definition set_call_lp (b : bool) (st : lexst) : lexst :=
  mkLex (lx_mode st) (lx_stack st) (lx_lp_seen st) b (lx_meta st).
Definition set_meta (m : expr_meta) (st : lexst) : lexst :=
  mkLex (lx_mode st) (lx_stack st) (lx_lp_seen st) (lx_call_lp st) m.
Definition upd_par (f : nat -> nat) (m : expr_meta) : expr_meta :=
  mkMeta (f (em_par m)) (em_brace m) (em_sq m) (em_reenter m) (em_exit_parent m) (em_next m).
Definition upd_brace (f : nat -> nat) (m : expr_meta) : expr_meta :=
  mkMeta (em_par m) (f (em_brace m)) (em_sq m) (em_reenter m) (em_exit_parent m) (em_next m).
Definition upd_sq (f : nat -> nat) (m : expr_meta) : expr_meta :=
  mkMeta (em_par m) (em_brace m) (f (em_sq m)) (em_reenter m) (em_exit_parent m) (em_next m).

(** What the rule emits: nothing (skip) or a token of some type/channel/text. *)
Inductive emit := Skip | Emit (t : ttype) (ch : channel) (text : str).

(** cut_off_line_comment, :58-64 *)
Definition cut_off_line_comment (s : str) : str :=
  match find $"//" s with Some i => firstn i s | None => s end.
(** Token text after setText(t): ANTLR's CommonToken::getText ignores an empty override. *)
Definition set_text (orig t : str) : str := match t with [] => orig | _ => t end.

Definition rule_act (r : rule) (st : lexst) (s : str) : outcome (lexst * emit) :=
  let keep t := Ok (st, Emit t CH_DEFAULT s) in
  let hidden t ch := Ok (st, Emit t ch s) in
  let pop t ch := s' <- pop_mode st ;; Ok (s', Emit t ch s) in
  let poppush t m := s' <- pop_push m st ;; Ok (s', Emit t CH_DEFAULT s) in
  match r with
  | R_STR => keep T_STR
  | R_LINE_COMMENT => keep T_LINE_COMMENT
  | R_COMMENT => keep T_COMMENT
  | R_CODE => keep T_CODE
  | R_CODE_SLASH =>                                                              (* :90-96 *)
      Ok (push_mode DIRECTIVE_MODE st, Emit T_CODE CH_DEFAULT (firstn (length s - 1) s))
  | R_MACRO_ENTER => Ok (push_mode DIRECTIVE_MODE st, Skip)                      (* :99 *)
  | R_D_STR => keep T_STR
  | R_D_LINE_COMMENT => pop T_LINE_COMMENT CH_LINE_COMMENT                       (* :104 *)
  | R_D_COMMENT => hidden T_COMMENT CH_COMMENT                                   (* :105 *)
  | R_INCLUDE => poppush T_INCLUDE INCLUDE_MODE
  | R_DEFINE =>                                                                  (* :109-112 *)
      s' <- pop_push DEFINE_MODE (set_lp false st) ;; Ok (s', Emit T_DEFINE CH_DEFAULT s)
  | R_IFNDEF => poppush T_IFNDEF IFDEF_MODE
  | R_IFDEF => poppush T_IFDEF IFDEF_MODE
  | R_ELSIF => poppush T_ELSIF IFDEF_MODE
  | R_ELSE => pop T_ELSE CH_DEFAULT
  | R_ENDIF => pop T_ENDIF CH_DEFAULT
  | R_UNDEF => poppush T_UNDEF UNDEF_MODE
  | R_BEGIN_KEYWORDS => poppush T_BEGIN_KEYWORDS KEYWOORDS_MODE
  | R_END_KEYWORDS => pop T_END_KEYWORDS CH_DEFAULT
  | R_PRAGMA => poppush T_PRAGMA PRAGMA_MODE
  | R_UNDEFINEALL => pop T_UNDEFINEALL CH_DEFAULT
  | R_RESETALL => pop T_RESETALL CH_DEFAULT
  | R_CELLDEFINE => pop T_CELLDEFINE CH_DEFAULT
  | R_ENDCELLDEFINE => pop T_ENDCELLDEFINE CH_DEFAULT
  | R_TIMESCALE => poppush T_TIMESCALE TIMING_SPEC_MODE
  | R_DEFAULT_NETTYPE => poppush T_DEFAULT_NETTYPE DEFAULT_NETTYPE_MODE
  | R_LINE => poppush T_LINE LINE_MODE
  | R_UNCONNECTED_DRIVE => pop T_UNCONNECTED_DRIVE CH_DEFAULT
  | R_NOUNCONNECTED_DRIVE => pop T_NOUNCONNECTED_DRIVE CH_DEFAULT
  | R_PROTECTED => poppush T_PROTECTED PROTECTED_MODE
  | R_CALL_WITH_ARGS =>                                                          (* :133-139 *)
      s' <- pop_mode (set_call_lp true st) ;;
      Ok (set_meta (mkMeta 0 0 0 true true None)
            (push_mode EXPR_MODE (push_mode MACRO_ARG_LIST_MODE s')),
          Emit T_CALL_WITH_ARGS CH_DEFAULT s)
  | R_CALL_NO_ARGS => pop T_CALL_NO_ARGS CH_DEFAULT
  | R_DM_LINE_COMMENT =>                                                         (* :145-153 *)
      if lx_lp_seen st then Ok (st, Skip) else pop T_LINE_COMMENT CH_DEFAULT
  | R_DM_COMMENT => Ok (st, Skip)                                                (* :154-160 *)
  | R_LINE_ESCAPE => hidden T_LINE_ESCAPE CH_LINE_ESCAPE
  | R_LP =>                                                                      (* :162-165 *)
      if lx_lp_seen st then UB "assert(!define_param_LP_seen)"
      else Ok (set_lp true st, Emit T_LP CH_DEFAULT s)
  | R_RP =>                                                                      (* :166-176 *)
      if lx_lp_seen st then poppush T_RP DEFINE_BODY_MODE else poppush T_CODE DEFINE_BODY_MODE
  | R_COMMA => keep T_COMMA
  | R_EQUAL =>                                                                   (* :178-181 *)
      Ok (push_mode EXPR_MODE (set_meta (mkMeta 0 0 0 false true (Some DEFINE_BODY_MODE)) st),
          Emit T_EQUAL CH_DEFAULT s)
  | R_DM_NEW_LINE =>                                                             (* :182-189 *)
      if lx_lp_seen st then Ok (st, Skip) else pop T_NEW_LINE CH_DEFAULT
  | R_WS =>                                                                      (* :190-198 *)
      if lx_lp_seen st then Ok (st, Skip) else poppush T_WS DEFINE_BODY_MODE
  | R_ID => keep T_ID
  | R_DN_CODE => poppush T_CODE DEFINE_BODY_MODE                                 (* :200-204 *)
  | R_E_LINE_COMMENT => hidden T_LINE_COMMENT CH_LINE_COMMENT                    (* :209 *)
  | R_E_COMMENT => keep T_CODE
  | R_E_CODE => keep T_CODE
  | R_E_LP => Ok (set_meta (upd_par S (lx_meta st)) st, Emit T_CODE CH_DEFAULT s)
  | R_E_RP =>                                                                    (* :214-231 *)
      if 0 <? em_par (lx_meta st) then
        Ok (set_meta (upd_par pred (lx_meta st)) st, Emit T_CODE CH_DEFAULT s)
      else
        s1 <- pop_mode st ;;
        s2 <- (if em_exit_parent (lx_meta st) then pop_mode s1 else Ok s1) ;;
        Ok (match em_next (lx_meta st) with Some m => push_mode m s2 | None => s2 end,
            Emit T_RP CH_DEFAULT s)
  | R_E_LBR => Ok (set_meta (upd_brace S (lx_meta st)) st, Emit T_CODE CH_DEFAULT s)
  | R_E_RBR => Ok (set_meta (upd_brace pred (lx_meta st)) st, Emit T_CODE CH_DEFAULT s)
  | R_E_LSQR => Ok (set_meta (upd_sq S (lx_meta st)) st, Emit T_CODE CH_DEFAULT s)
  | R_E_RSQR => Ok (set_meta (upd_sq pred (lx_meta st)) st, Emit T_CODE CH_DEFAULT s)
  | R_E_COMMA =>                                                                 (* :242-253 *)
      if no_brace_active (lx_meta st) then
        if em_reenter (lx_meta st) then keep T_COMMA else pop T_COMMA CH_DEFAULT
      else keep T_CODE
  | R_E_STR => keep T_CODE
  | R_DB_LINE_ESCAPE => hidden T_LINE_ESCAPE CH_LINE_ESCAPE                      (* :258 *)
  | R_DB_STR => keep T_CODE
  | R_DB_LINE_COMMENT => hidden T_LINE_COMMENT CH_LINE_COMMENT
  | R_DB_CODE => Ok (st, Emit T_CODE CH_DEFAULT (set_text s (cut_off_line_comment s)))
  | R_DB_NEW_LINE => pop T_NEW_LINE CH_DEFAULT                                   (* :269 *)
  | R_MA_COMMA =>                                                                (* :275-288 *)
      if lx_call_lp st then
        Ok (set_meta (mkMeta 0 0 0 true true None) (push_mode EXPR_MODE st),
            Emit T_COMMA CH_DEFAULT s)
      else pop T_CODE CH_DEFAULT
  | R_MA_RP =>                                                                   (* :289-299 *)
      if lx_call_lp st then
        s' <- pop_mode (set_call_lp false st) ;; Ok (s', Emit T_RP CH_DEFAULT s)
      else UB "assert(false)"
  | R_MA_CODE => pop T_CODE CH_DEFAULT
  | R_IF_NUM => keep T_NUM
  | R_IF_ID => pop T_ID CH_DEFAULT
  | R_UN_ID => keep T_ID
  | R_UN_WS => pop T_WS CH_DEFAULT
  | R_UN_NEW_LINE => pop T_NEW_LINE CH_DEFAULT
  | R_NT_KW => keep T_NETTYPE
  | R_NT_NEW_LINE => pop T_NEW_LINE CH_DEFAULT
  | R_LI_NUM => keep T_NUM
  | R_LI_STR => keep T_STR
  | R_LI_WS => Ok (st, Skip)
  | R_LI_NEW_LINE => pop T_NEW_LINE CH_DEFAULT
  | R_LI_LINE_COMMENT => pop T_LINE_COMMENT CH_LINE_COMMENT
  | R_LI_COMMENT => keep T_CODE
  | R_TI_ID => keep T_TIME_ID
  | R_TI_SLASH => keep T_SLASH
  | R_TI_WS => Ok (st, Skip)
  | R_TI_NEW_LINE => pop T_NEW_LINE CH_DEFAULT
  | R_TI_LINE_COMMENT => pop T_LINE_COMMENT CH_LINE_COMMENT
  | R_TI_COMMENT => keep T_CODE
  | R_KW_STR => pop T_STR CH_DEFAULT
  | R_IN_STR => keep T_STR
  | R_IN_CHEVRONS => keep T_STR
  | R_IN_LINE_COMMENT => pop T_LINE_COMMENT CH_LINE_COMMENT
  | R_IN_NEW_LINE => s' <- pop_mode st ;; Ok (s', Skip)
  | R_IN_MACRO_ENTER => s' <- pop_push DIRECTIVE_MODE st ;; Ok (s', Skip)
  | R_IN_WS => Ok (st, Skip)
  | R_PG_WS => Ok (st, Skip)
  | R_PG_NUM => keep T_NUM
  | R_PG_ID => keep T_ID
  | R_PG_STR => keep T_STR
  | R_PG_COMMA => keep T_COMMA
  | R_PG_EQUAL => keep T_EQUAL
  | R_PG_LP => keep T_LP
  | R_PG_RP => keep T_RP
  | R_PG_NEW_LINE => pop T_NEW_LINE CH_DEFAULT
  | R_PT_WS => Ok (st, Skip)
  | R_PT_END => pop T_ENDPROTECTED CH_DEFAULT
  | R_PT_LINE => keep T_PROTECTED_LINE
  end.

(** ** The token loop *)
(** Longest match over the rules of a mode, first rule wins ties. *)
Fixpoint best_rule (rs : list rule) (s : str) (best : option (rule * nat)) : option (rule * nat) :=
  match rs with
  | [] => best
  | r :: rs' =>
      let best' :=
        match lmatch (rule_re r) s with
        | None => best
        | Some n => match best with
                    | Some (_, m) => if m <? n then Some (r, n) else best
                    | None => Some (r, n)
                    end
        end in
      best_rule rs' s best'
  end.

Definition syntax_error : exn := ParseException $"SyntaxError".

(** Advance (line, column) over consumed text. *)
Fixpoint advance (s : str) (line col : nat) : nat * nat :=
  match s with
  | [] => (line, col)
  | c :: s' => if ceqb c nl then advance s' (S line) 0 else advance s' line (S col)
  end.

Fixpoint lex_loop (fuel : nat) (st : lexst) (s : str) (line col : nat) : outcome (list token) :=
  match s with
  | [] => Ok []
  | _ =>
      match fuel with
      | 0 => OutOfFuel
      | S fuel' =>
          match best_rule (mode_rules (lx_mode st)) s None with
          | None | Some (_, 0) => Throw syntax_error   (* token recognition error *)
          | Some (r, n) =>
              let txt := firstn n s in
              '(st', e) <- rule_act r st txt ;;
              let '(line', col') := advance txt line col in
              rest <- lex_loop fuel' st' (skipn n s) line' col' ;;
              Ok (match e with
                  | Skip => rest
                  | Emit t ch text => mkTok t ch text txt line col :: rest
                  end)
          end
      end
  end.

(** All tokens of an input (without the final EOF). *)
Definition lex (s : str) : outcome (list token) := lex_loop (S (length s)) lex_init s 1 0.
