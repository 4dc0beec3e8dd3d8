(** Model of the comment parsers: include/hdlConvertor/{sv,vhdl}Convertor/commentParser.h. *)
From Verif Require Import Base.

(** An ANTLR token as far as the comment parser looks at it: the channel (HIDDEN or not), whether its type
    is one of the blank types (sv2017Lexer.g4:551 WHITE_SPACE; in VHDL blanks never reach the stream,
    vhdlLexer.g4:215-218 skip) and getText(). *)
Record ctok := mkCTok { ct_hidden : bool; ct_blank : bool; ct_text : str }.

(** <cctype> isspace in the "C" locale *)
Definition isspace (c : ascii) : bool := ceqb c sp || in_range "009" "013" c.
(** commentParser.h:59-61 (sv), 57-59 (vhdl) *)
Fixpoint skip_blank (s : str) : nat :=
  match s with c :: s' => if isspace c then S (skip_blank s') else 0 | [] => 0 end.

(** sv commentParser.h:56-70, vhdl commentParser.h:54-68: the text of one token.  [m] is the character of
    the two character marker. *)
Definition strip_marker (m : ascii) (s : str) : outcome str :=
  let start := skip_blank s in
  if start + 2 <=? length s then
    a <- char_at s start ;; b <- char_at s (start + 1) ;;
    if ceqb a m && ceqb b m then
      blank <- (if start + 3 <=? length s then c <- char_at s (start + 3) ;; Ok (ceqb c sp) else Ok false) ;;
      if blank : bool then substr s (start + 3) (length s) else substr s (start + 2) (length s)
    else Ok s
  else Ok s.

(** sv commentParser.h:39-50, vhdl commentParser.h:30-41: the first token of the block of hidden tokens in front of token number [i].
    CommonTokenStream::get on an index outside of the stream is undefined. *)
Fixpoint first_comment (ts : list ctok) (i : nat) : outcome nat :=
  match i with
  | 0 => Ok 0
  | S j => match nth_error ts j with
           | Some t => if ct_hidden t then first_comment ts j else Ok i
           | None => UB "tokens.get"
           end
  end.
(** sv commentParser.h:51-72, vhdl commentParser.h:42-70 *)
Fixpoint collect_comments (m : ascii) (ts : list ctok) (i n : nat) : outcome str :=
  match n with
  | 0 => Ok []
  | S n' => match nth_error ts i with
            | Some t => x <- (if ct_blank t then Ok [] else strip_marker m (ct_text t)) ;;
                        r <- collect_comments m ts (S i) n' ;; Ok (x ++ r)
            | None => UB "tokens.get"
            end
  end.
(** SVCommentParser::parse, VhdlCommentParser::parse: [last] is the index of the first token of the object. *)
Definition parse_doc (m : ascii) (ts : list ctok) (last : nat) : outcome str :=
  f <- first_comment ts last ;; collect_comments m ts f (last - f).
Definition sv_doc : list ctok -> nat -> outcome str := parse_doc "/".
Definition vhdl_doc : list ctok -> nat -> outcome str := parse_doc "-".
