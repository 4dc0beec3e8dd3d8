(** Model of code positions: include/hdlConvertor/hdlAst/codePosition.h, include/hdlConvertor/createObject.h,
    src/hdlAst/codePosition.cpp and hdlConvertor/toPy.cpp:175-196, 371-377.
    The lines and columns of tokens are counted by the ANTLR runtime (LexerATNSimulator::consume, CommonToken,
    ParserRuleContext), which is not in /repo: its documented behaviour is modelled.  One character of the model is
    one character of the text; the lexers are those of VhdlLexModel.v and SvLexModel.v. *)
From Verif Require Import Base SvExprModel RegexModel VhdlLexModel SvLexModel.
Local Open Scope nat_scope.

(** The state of the lexer: line from 1, column from 0, index of the next character *)
Record place := Place { pl_line : nat; pl_col : nat; pl_index : nat }.
Definition start_place : place := Place 1 0 0.
Definition advance (p : place) (c : ascii) : place :=
  if ceqb c nl then Place (S (pl_line p)) 0 (S (pl_index p)) else Place (pl_line p) (S (pl_col p)) (S (pl_index p)).
Definition walk (p : place) (s : str) : place := fold_left advance s p.

(** A token: kind (None: the end of the file), text, line, column and index of its first character, index of its last
    character *)
Record token (K : Type) := Token { tk_kind : option K; tk_text : str; tk_line : nat; tk_col : nat; tk_start : Z; tk_stop : Z }.
Arguments Token {K}. Arguments tk_kind {K}. Arguments tk_text {K}. Arguments tk_line {K}. Arguments tk_col {K}. Arguments tk_start {K}. Arguments tk_stop {K}.
Definition token_at {K} (k : option K) (t : str) (p : place) : token K :=
  Token k t (pl_line p) (pl_col p) (Z.of_nat (pl_index p)) (Z.of_nat (pl_index p) + Z.of_nat (length t) - 1).
(** The loops of VhdlLexModel.v and SvLexModel.v with positions; the tokens that the parser sees, the last one is the
    end of the file *)
Section Scan.
Context {K Mode : Type} (step : Mode -> str -> option (K * nat)) (hide : K -> bool) (next : Mode -> K -> Mode).
Fixpoint scan (fuel : nat) (m : Mode) (p : place) (s : str) : outcome (list (token K)) :=
  match s with
  | [] => Ok [token_at None [] p]
  | _ =>
      match fuel with
      | 0 => OutOfFuel
      | S fuel' =>
          match step m s with
          | None | Some (_, 0) => Throw (ParseException $"token recognition error")
          | Some (k, n) =>
              rest <- scan fuel' (next m k) (walk p (firstn n s)) (skipn n s) ;;
              Ok (if hide k then rest else token_at (Some k) (firstn n s) p :: rest)
          end
      end
  end.
End Scan.
Definition vhdl_scan (s : str) : outcome (list (token vkind)) :=
  scan (fun (_ : unit) s => v_best v_rules s None) hidden (fun m _ => m) (length s) tt start_place s.
Definition sv_scan (v : lang) (s : str) : outcome (list (token skind)) :=
  scan (fun m s => s_step v m s) s_hidden s_mode (length s) false start_place s.

(** ** Positions.  size_t has 64 bits. *)
Definition size_max : Z := 2 ^ 64 - 1.
Definition szt (z : Z) : Z := (z mod 2 ^ 64)%Z.
Record code_position := CodePos { cp_start_line : Z; cp_stop_line : Z; cp_start_column : Z; cp_stop_column : Z }.
(** CodePosition::CodePosition, codePosition.cpp:6-8 *)
Definition no_position : code_position := CodePos size_max size_max size_max size_max.
(** CodePosition::update_from_elem, codePosition.h:25-32, of the first and the last token of an element *)
Definition from_elem {K} (a z : token K) : code_position :=
  CodePos (szt (Z.of_nat (tk_line a))) (szt (Z.of_nat (tk_line z))) (szt (Z.of_nat (tk_col a) + 1))
          (szt (Z.of_nat (tk_col z) + szt (tk_stop z - tk_start z) + 1)).
(** The first and the last token of a rule that has read n tokens from number i on.  A rule that reads nothing has the
    token before it as its last one; there is none at the begin of the file. *)
Definition rule_position {K} (ts : list (token K)) (i n : nat) : outcome code_position :=
  match nth_error ts i, i + n with
  | None, _ => UB "a rule behind the end of the file"
  | _, 0 => UB "getStop() of an empty rule at the begin of the file is null"
  | Some a, S j => match nth_error ts j with Some z => Ok (from_elem a z) | None => UB "a rule behind the end of the file" end
  end.
(** The node that create_object gets: none, a rule, or a terminal node with the rule it belongs to *)
Inductive node := N_none | N_rule (i n : nat) | N_terminal (parent : option (nat * nat)).
(** update_code_position, createObject.h:12-33 *)
Definition node_position {K} (ts : list (token K)) (x : node) : outcome code_position :=
  match x with
  | N_none | N_terminal None => Ok no_position
  | N_rule i n | N_terminal (Some (i, n)) => rule_position ts i n
  end.
(** The nodes of the literals and names of Verilog, svConvertor/literalParser.cpp:52-139, 378-391, where [i] is the number
    of the first token.  The rules that hold the terminals have no other tokens, see sv2017Parser.g4 (integral_number,
    primary_literal, identifier).  For based numbers, reals and unbased literals a rule is cast to TerminalNode* by
    dynamic_cast, which gives the null pointer (lines 91, 135, 389). *)
Inductive literal_form := LF_name | LF_unsigned | LF_string | LF_time | LF_based (sized : bool) | LF_real | LF_unbased.
Definition literal_node (f : literal_form) (i : nat) : node :=
  match f with
  | LF_name | LF_unsigned | LF_string | LF_time => N_terminal (Some (i, 1))
  | LF_based _ | LF_real | LF_unbased => N_none
  end.
(** ToPy::toPy(size_t), toPy.cpp:371-377: (long) o *)
Definition py_size (z : Z) : option Z := if Z.eqb z size_max then None else Some (if Z.ltb z (2 ^ 63) then z else z - 2 ^ 64)%Z.
(** ToPy::toPy(const CodePosition), toPy.cpp:181-196: start_line, start_column, stop_line, stop_column *)
Definition py_position (p : code_position) : option Z * option Z * option Z * option Z :=
  (py_size (cp_start_line p), py_size (cp_start_column p), py_size (cp_stop_line p), py_size (cp_stop_column p)).
