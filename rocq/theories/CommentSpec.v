(** What a documentation comment is, independent of the parser. *)
From Verif Require Import Base CommentModel.

(** What stands in front of a declaration in the source. *)
Inductive trivia :=
| Blanks (s : str)              (* white space *)
| Line (body : str)             (* // body   or   -- body, with the end of line if it belongs to the token *)
| Block (body : str).           (* /* body */ *)
(** The tokens the two lexers make of it: sv2017Lexer.g4:546-551, vhdlLexer.g4:213-218. *)
Definition tok_of (m : ascii) (x : trivia) : ctok :=
  match x with
  | Blanks s => mkCTok true true s
  | Line b => mkCTok true false (m :: m :: b)
  | Block b => mkCTok true false ($"/*" ++ b ++ $"*/")
  end.
(** A token of the program itself. *)
Definition code (s : str) : ctok := mkCTok false false s.
Definition is_code (t : ctok) : Prop := ct_hidden t = false.
(** The comments belong to the object if they are directly in front of it. *)
Definition closed (pre : list ctok) : Prop := pre = [] \/ exists p t, pre = p ++ [t] /\ is_code t.

(** The claim of C47: the text without marker and without one optional blank behind the marker. *)
Definition claimed (x : trivia) : str :=
  match x with
  | Blanks _ => []
  | Line (c :: b) => if ceqb c sp then b else c :: b
  | Line [] => []
  | Block b => b
  end.
Definition claimed_doc (l : list trivia) : str := concat (map claimed l).

(** What is really kept. *)
Definition kept (x : trivia) : str :=
  match x with
  | Blanks _ => []
  | Line (c :: d :: b) => if ceqb d sp then d :: b else c :: d :: b
  | Line b => b
  | Block b => $"/*" ++ b ++ $"*/"
  end.
Definition kept_doc (l : list trivia) : str := concat (map kept l).
(** Comments the parser treats as claimed: no blank behind the marker nor behind the first character. *)
Definition tight (x : trivia) : Prop :=
  match x with
  | Blanks _ => True
  | Line (c :: d :: _) => c <> sp /\ d <> sp
  | Line (c :: _) => c <> sp
  | Line [] => True
  | Block _ => False
  end.
