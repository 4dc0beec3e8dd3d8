(** Model of grammars/verilogPreprocParser.g4: from the token stream to the parse tree.
    The grammar is LL and unambiguous on the streams the lexer produces; any mismatch is a
    syntax error (error recovery is not observable: check_errors throws before the visit). *)
From Verif Require Import Base RegexModel PpLexerModel.

(** Child of a macro_call node behind its first token (parser :99-102). *)
Inductive child :=
| CComma | CRp
| CValue (toks : list token).      (* all tokens of the source interval, hidden ones included *)

(** macro_call node. [mc_raw] is the raw input from the first to the last token. *)
Record mcall := mkCall { mc_tok : token; mc_children : list child; mc_raw : str }.

(** param_with_def_val / var_id (parser :62-70): name, EQUAL present, default_text tokens. *)
Record dparam := mkDParam { dp_name : str; dp_eq : bool; dp_def : list token }.

(** define node (parser :53-55): tokens of the replacement interval, hidden ones included. *)
Record ddef := mkDef {
  dd_tok : token;
  dd_name : str;
  dd_args : option (list dparam);   (* define_args present *)
  dd_repl : option (list token)
}.

(** text / group_of_lines (parser :19-29, 76-97).  Groups carry the line of their start token. *)
Inductive texts := TNil | TCons (t : text) (ts : texts)
with text :=
| TTok (t : token)                             (* LINE_COMMENT CODE NEW_LINE NUM ID STR COMMENT *)
| TDefine (d : ddef)
| TCond (neg : bool) (bs : branches) (els : else_part)
| TCall (m : mcall)
| TUndef (name : str)
| TInclude (tok : token) (arg : str + mcall)
| TLine (num : str) (file : str)
| TUndefineAll
| TIgnored (t : ttype)
with branches := BNil | BCons (name : str) (line : nat) (g : texts) (bs : branches)
with else_part := ENone | ESome (line : nat) (g : texts).

Scheme texts_mut := Induction for texts Sort Prop
with text_mut := Induction for text Sort Prop
with branches_mut := Induction for branches Sort Prop
with else_mut := Induction for else_part Sort Prop.
Combined Scheme tree_mut from texts_mut, text_mut, branches_mut, else_mut.

Definition is_default (t : token) : bool :=
  match tk_chan t with CH_DEFAULT => true | _ => false end.
(** CommonTokenStream::LT(1): next token of the default channel. *)
Fixpoint next (ts : list token) : option (token * list token) :=
  match ts with
  | [] => None
  | t :: r => if is_default t then Some (t, r) else next r
  end.
Definition next_line (ts : list token) : nat :=
  match next ts with Some (t, _) => tk_line t | None => 0 end.

Definition ttype_eqb (a b : ttype) : bool :=
  match a, b with
  | T_STR, T_STR | T_LINE_COMMENT, T_LINE_COMMENT | T_COMMENT, T_COMMENT | T_CODE, T_CODE
  | T_INCLUDE, T_INCLUDE | T_DEFINE, T_DEFINE | T_IFNDEF, T_IFNDEF | T_IFDEF, T_IFDEF
  | T_ELSIF, T_ELSIF | T_ELSE, T_ELSE | T_ENDIF, T_ENDIF | T_UNDEF, T_UNDEF
  | T_BEGIN_KEYWORDS, T_BEGIN_KEYWORDS | T_END_KEYWORDS, T_END_KEYWORDS | T_PRAGMA, T_PRAGMA
  | T_UNDEFINEALL, T_UNDEFINEALL | T_RESETALL, T_RESETALL | T_CELLDEFINE, T_CELLDEFINE
  | T_ENDCELLDEFINE, T_ENDCELLDEFINE | T_TIMESCALE, T_TIMESCALE
  | T_DEFAULT_NETTYPE, T_DEFAULT_NETTYPE | T_LINE, T_LINE
  | T_UNCONNECTED_DRIVE, T_UNCONNECTED_DRIVE | T_NOUNCONNECTED_DRIVE, T_NOUNCONNECTED_DRIVE
  | T_PROTECTED, T_PROTECTED | T_CALL_WITH_ARGS, T_CALL_WITH_ARGS
  | T_CALL_NO_ARGS, T_CALL_NO_ARGS | T_LINE_ESCAPE, T_LINE_ESCAPE | T_LP, T_LP | T_RP, T_RP
  | T_COMMA, T_COMMA | T_EQUAL, T_EQUAL | T_NEW_LINE, T_NEW_LINE | T_WS, T_WS | T_ID, T_ID
  | T_NUM, T_NUM | T_NETTYPE, T_NETTYPE | T_TIME_ID, T_TIME_ID | T_SLASH, T_SLASH
  | T_ENDPROTECTED, T_ENDPROTECTED | T_PROTECTED_LINE, T_PROTECTED_LINE => true
  | _, _ => false
  end.

Definition perr {A} : outcome A := Throw syntax_error.
Definition expect (ty : ttype) (ts : list token) : outcome (token * list token) :=
  match next ts with
  | Some (t, r) => if ttype_eqb (tk_type t) ty then Ok (t, r) else perr
  | None => perr
  end.
Definition peek_is (ty : ttype) (ts : list token) : bool :=
  match next ts with Some (t, _) => ttype_eqb (tk_type t) ty | None => false end.

(** CODE+ : the interval of tokens from the first to the last CODE token and the rest.
    [pend] are hidden tokens seen since the last CODE. *)
Fixpoint more_codes (ts pend acc : list token) : list token * list token :=
  match ts with
  | [] => (acc, pend)
  | t :: r =>
      if is_default t then
        if ttype_eqb (tk_type t) T_CODE then more_codes r [] (acc ++ pend ++ [t])
        else (acc, pend ++ ts)
      else more_codes r (pend ++ [t]) acc
  end.
(** (CODE+)? *)
Definition opt_codes (ts : list token) : option (list token) * list token :=
  match next ts with
  | Some (t, r) =>
      if ttype_eqb (tk_type t) T_CODE then
        let '(acc, rest) := more_codes r [] [t] in (Some acc, rest)
      else (None, ts)
  | None => (None, ts)
  end.

(** WS* *)
Fixpoint skip_ws (ts : list token) : list token :=
  match ts with
  | [] => []
  | t :: r => if is_default t then if ttype_eqb (tk_type t) T_WS then skip_ws r else ts
              else skip_ws r
  end.

(** param_with_def_val (parser :65-67), var_id (parser :69) *)
Definition parse_param (l : lang) (ts : list token) : outcome (dparam * list token) :=
  '(id, r) <- expect T_ID ts ;;
  if lang_ge l SV2009 && peek_is T_EQUAL r then
    '(_, r1) <- expect T_EQUAL r ;;
    let '(d, r2) := opt_codes r1 in
    Ok (mkDParam (tk_text id) true (match d with Some c => c | None => [] end), r2)
  else Ok (mkDParam (tk_text id) false [], r).
(** param ( COMMA param )* *)
Fixpoint parse_params (fuel : nat) (l : lang) (ts : list token)
  : outcome (list dparam * list token) :=
  match fuel with
  | 0 => OutOfFuel
  | S fuel' =>
      '(p, r) <- parse_param l ts ;;
      if peek_is T_COMMA r then
        '(_, r1) <- expect T_COMMA r ;;
        '(ps, r2) <- parse_params fuel' l r1 ;;
        Ok (p :: ps, r2)
      else Ok ([p], r)
  end.

(** define (parser :53-55), after the DEFINE token *)
Definition parse_define (l : lang) (tok : token) (ts : list token) : outcome (text * list token) :=
  '(id, r0) <- expect T_ID ts ;;
  '(args, r1) <-
    (if peek_is T_LP r0 then
       '(_, a) <- expect T_LP r0 ;;
       if peek_is T_RP a then '(_, b) <- expect T_RP a ;; Ok (None, b)
       else
         '(ps, b) <- parse_params (S (length a)) l a ;;
         '(_, c) <- expect T_RP b ;;
         Ok (Some ps, c)
     else Ok (None, r0)) ;;
  let '(repl, r2) := opt_codes (skip_ws r1) in
  let d := TDefine (mkDef tok (tk_text id) args repl) in
  match next r2 with
  | None => Ok (d, r2)                                  (* EOF *)
  | Some (t, r3) =>
      if ttype_eqb (tk_type t) T_LINE_COMMENT || ttype_eqb (tk_type t) T_NEW_LINE
      then Ok (d, r3) else perr
  end.

(** ( COMMA value? )* RP of macro_call (parser :99-102).  In EXPR_MODE the lexer produces only
    CODE, COMMA, RP and hidden comments, so value (text+) is CODE+. *)
Fixpoint parse_args (fuel : nat) (ts : list token) : outcome (list child * list token) :=
  match fuel with
  | 0 => OutOfFuel
  | S fuel' =>
      let '(v, r) := opt_codes ts in
      let pre := match v with Some c => [CValue c] | None => [] end in
      match next r with
      | None => perr
      | Some (t, r1) =>
          if ttype_eqb (tk_type t) T_COMMA then
            '(cs, r2) <- parse_args fuel' r1 ;; Ok (pre ++ CComma :: cs, r2)
          else if ttype_eqb (tk_type t) T_RP then Ok (pre ++ [CRp], r1)
          else perr
      end
  end.
Definition raw_of (ts : list token) : str := concat (map tk_raw ts).
Definition parse_call (tok : token) (ts : list token) : outcome (mcall * list token) :=
  if ttype_eqb (tk_type tok) T_CALL_NO_ARGS then Ok (mkCall tok [] (tk_raw tok), ts)
  else
    '(cs, r) <- parse_args (S (length ts)) ts ;;
    Ok (mkCall tok cs (tk_raw tok ++ raw_of (firstn (length ts - length r) ts)), r).

(** pragma_expression / pragma_value (parser :171-189); only acceptance matters. *)
Fixpoint parse_pragma_exprs (fuel : nat) (ts : list token) : outcome (list token) :=
  match fuel with
  | 0 => OutOfFuel
  | S fuel' =>
      let value (ts : list token) : outcome (list token) :=
        match next ts with
        | None => perr
        | Some (t, r) =>
            match tk_type t with
            | T_NUM | T_STR | T_ID => Ok r
            | T_LP => r1 <- parse_pragma_exprs fuel' r ;; '(_, r2) <- expect T_RP r1 ;; Ok r2
            | _ => perr
            end
        end in
      r <- (match next ts with
            | None => perr
            | Some (t, r) =>
                if ttype_eqb (tk_type t) T_ID then
                  if peek_is T_EQUAL r then '(_, r1) <- expect T_EQUAL r ;; value r1 else Ok r
                else value ts
            end) ;;
      if peek_is T_COMMA r then '(_, r1) <- expect T_COMMA r ;; parse_pragma_exprs fuel' r1
      else Ok r
  end.
Definition parse_pragma (ts : list token) : outcome (list token) :=
  '(_, r) <- expect T_ID ts ;;
  r1 <- (match next r with
         | None => Ok r
         | Some (t, _) => if ttype_eqb (tk_type t) T_NEW_LINE then Ok r
                          else parse_pragma_exprs (S (length r)) r
         end) ;;
  match next r1 with
  | None => Ok r1
  | Some (t, r2) => if ttype_eqb (tk_type t) T_NEW_LINE then Ok r2 else perr
  end.

(** PROTECTED_LINE* ENDPROTECTED (parser :142-144) *)
Fixpoint parse_protected (ts : list token) : outcome (list token) :=
  match ts with
  | [] => perr
  | t :: r =>
      if is_default t then
        match tk_type t with
        | T_PROTECTED_LINE => parse_protected r
        | T_ENDPROTECTED => Ok r
        | _ => perr
        end
      else parse_protected r
  end.

(** The directives without nested text, after their first token. *)
Definition parse_simple (l : lang) (t : token) (ts : list token) : outcome (text * list token) :=
  match tk_type t with
  | T_LINE_COMMENT | T_CODE | T_NEW_LINE | T_NUM | T_ID | T_STR | T_COMMENT => Ok (TTok t, ts)
  | T_DEFINE => parse_define l t ts
  | T_CALL_NO_ARGS | T_CALL_WITH_ARGS => '(m, r) <- parse_call t ts ;; Ok (TCall m, r)
  | T_RESETALL | T_CELLDEFINE | T_ENDCELLDEFINE | T_UNCONNECTED_DRIVE | T_NOUNCONNECTED_DRIVE =>
      Ok (TIgnored (tk_type t), ts)
  | T_UNDEF =>                                                     (* parser :109 *)
      '(id, r) <- expect T_ID ts ;;
      match next r with
      | None => Ok (TUndef (tk_text id), r)
      | Some (u, r1) =>
          if ttype_eqb (tk_type u) T_WS || ttype_eqb (tk_type u) T_NEW_LINE
          then Ok (TUndef (tk_text id), r1) else perr
      end
  | T_INCLUDE =>                                                   (* parser :165-168 *)
      match next ts with
      | None => perr
      | Some (u, r) =>
          match tk_type u with
          | T_STR => Ok (TInclude t (inl (tk_text u)), r)
          | T_CALL_NO_ARGS | T_CALL_WITH_ARGS =>
              if lang_ge l SV2005 then
                '(m, r1) <- parse_call u r ;; Ok (TInclude t (inr m), r1)
              else perr
          | _ => perr
          end
      end
  | T_DEFAULT_NETTYPE => '(_, r) <- expect T_NETTYPE ts ;; Ok (TIgnored T_DEFAULT_NETTYPE, r)
  | T_LINE =>                                                      (* parser :134-136 *)
      '(n, r1) <- expect T_NUM ts ;;
      '(f, r2) <- expect T_STR r1 ;;
      '(_, r3) <- expect T_NUM r2 ;;
      Ok (TLine (tk_text n) (tk_text f), r3)
  | T_TIMESCALE =>
      '(_, r1) <- expect T_TIME_ID ts ;;
      '(_, r2) <- expect T_SLASH r1 ;;
      '(_, r3) <- expect T_TIME_ID r2 ;;
      Ok (TIgnored T_TIMESCALE, r3)
  | T_PROTECTED => r <- parse_protected ts ;; Ok (TIgnored T_PROTECTED, r)
  | T_UNDEFINEALL => if lang_ge l SV2009 then Ok (TUndefineAll, ts) else perr
  | T_BEGIN_KEYWORDS =>
      if lang_ge l VERILOG2005 then
        '(_, r) <- expect T_STR ts ;; Ok (TIgnored T_BEGIN_KEYWORDS, r)
      else perr
  | T_END_KEYWORDS => if lang_ge l VERILOG2005 then Ok (TIgnored T_END_KEYWORDS, ts) else perr
  | T_PRAGMA =>
      if lang_ge l VERILOG2005 then r <- parse_pragma ts ;; Ok (TIgnored T_PRAGMA, r) else perr
  | _ => perr
  end.

(** Tokens that can start a text (FIRST set). *)
Definition starts_text (t : token) : bool :=
  match tk_type t with
  | T_ELSIF | T_ELSE | T_ENDIF | T_LINE_ESCAPE | T_LP | T_RP | T_COMMA | T_EQUAL | T_WS
  | T_NETTYPE | T_TIME_ID | T_SLASH | T_ENDPROTECTED | T_PROTECTED_LINE => false
  | _ => true
  end.

(** text* ; conditional (parser :76-97) *)
Fixpoint parse_texts (fuel : nat) (l : lang) (ts : list token) : outcome (texts * list token) :=
  match fuel with
  | 0 => OutOfFuel
  | S fuel' =>
      match next ts with
      | None => Ok (TNil, [])
      | Some (t, r) =>
          if starts_text t then
            '(x, r1) <-
              (match tk_type t with
               | T_IFDEF | T_IFNDEF =>
                   let neg := ttype_eqb (tk_type t) T_IFNDEF in
                   '(bs, e, r1) <- parse_cond fuel' l r ;;
                   Ok (TCond neg bs e, r1)
               | _ => parse_simple l t r
               end) ;;
            '(xs, r2) <- parse_texts fuel' l r1 ;;
            Ok (TCons x xs, r2)
          else Ok (TNil, ts)
      end
  end
(** cond_id group_of_lines ( ELSIF cond_id group_of_lines )* ( ELSE else_group_of_lines )? ENDIF *)
with parse_cond (fuel : nat) (l : lang) (ts : list token)
  : outcome (branches * else_part * list token) :=
  match fuel with
  | 0 => OutOfFuel
  | S fuel' =>
      '(id, r0) <- expect T_ID ts ;;
      '(g, r1) <- parse_texts fuel' l r0 ;;
      match next r1 with
      | None => perr
      | Some (t, r2) =>
          match tk_type t with
          | T_ELSIF =>
              '(bs, e, r3) <- parse_cond fuel' l r2 ;;
              Ok (BCons (tk_text id) (next_line r0) g bs, e, r3)
          | T_ELSE =>
              '(eg, r3) <- parse_texts fuel' l r2 ;;
              '(_, r4) <- expect T_ENDIF r3 ;;
              Ok (BCons (tk_text id) (next_line r0) g BNil, ESome (next_line r2) eg, r4)
          | T_ENDIF => Ok (BCons (tk_text id) (next_line r0) g BNil, ENone, r2)
          | _ => perr
          end
      end
  end.

(** file: text* EOF (parser :17) *)
Definition parse_file (l : lang) (ts : list token) : outcome texts :=
  '(x, r) <- parse_texts (S (S (2 * length ts))) l ts ;;
  match next r with None => Ok x | Some _ => perr end.

(** Lexing and parsing of one input, verilogPreprocContainer.cpp:31-60. *)
Definition pp_parse (l : lang) (s : str) : outcome texts :=
  ts <- lex s ;; parse_file l ts.
