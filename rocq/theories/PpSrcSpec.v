(** A small reference preprocessor: sources made of ordinary text, macro definitions with and
    without parameters, macro uses and conditional groups; how such a source is written down as
    text and which text IEEE 1800 gives for it.  Nothing here refers to the lexer, the parser or
    the visitor of the code. *)
From Verif Require Import Base StrSpec MacroSpec PpArgSpec.

Inductive eol := Lf | CrLf.
Definition eol_text (e : eol) : str := match e with Lf => [nl] | CrLf => [cr; nl] end.
(** One or more spaces and tabulators. *)
Definition blank (c : ascii) : Prop := c = sp \/ c = tab.
Definition blanks (s : str) : Prop := s <> [] /\ Forall blank s.

(** ** Ordinary text *)
Inductive piece :=
| PChar (c : ascii)              (* a character without special meaning *)
| PSlash (c : ascii)             (* a slash and the character behind it *)
| PStr (b : str)                 (* a string literal *)
| PLine (t : str) (e : eol)      (* a line comment with its line end *)
| PBlock (t : str)               (* a block comment *)
| PEsc (t : str) (c : ascii).    (* an escaped identifier and the white space behind it *)
Definition piece_text (p : piece) : str :=
  match p with
  | PChar c => [c]
  | PSlash c => ["/"%char; c]
  | PStr b => dq :: b ++ [dq]
  | PLine t e => $"//" ++ t ++ eol_text e
  | PBlock t => $"/*" ++ t ++ $"*/"
  | PEsc t c => bs :: t ++ [c]
  end.
Definition piece_ok (p : piece) : Prop :=
  match p with
  | PChar c => ~ In c [bt; "/"%char; dq; bs]
  | PSlash c => ~ In c [bt; "/"%char; "*"%char; dq; bs]
  | PStr b => string_body b /\ no_final_bs b
  | PLine t _ => Forall (fun c => c <> cr /\ c <> nl) t
  | PBlock t => ~ occurs $"*/" t
  | PEsc t c => Forall (fun c => ~ In c [sp; tab; cr; nl]) t /\ In c [sp; tab; cr; nl]
  end.
Definition text_of_pieces (ps : list piece) : str := concat (map piece_text ps).

(** ** Macro bodies: one line of characters and string literals *)
(** Characters outside strings: no comment, and no slash or backtick before a string or at the end. *)
Definition run_chars (x : str) : Prop := Forall (fun c => ~ In c [bs; dq; nl; cr]) x.
Definition good_end (x : str) : Prop := forall y, x <> y ++ ["/"%char] /\ x <> y ++ [bt].
Definition code_part (x : str) : Prop := run_chars x /\ ~ occurs $"//" x /\ good_end x.
Inductive dbody : str -> Prop :=
| db_last x : code_part x -> dbody x
| db_str x b s : code_part x -> string_body b -> no_final_bs b -> ~ In bt b -> dbody s -> dbody (x ++ (dq :: b ++ [dq]) ++ s).

(** ** Sources *)
(** What stands behind an else or endif directive: an end of line, blanks, or nothing. *)
Inductive sep := SEol (e : eol) | SBlank (w : str) | SEnd.
Definition sep_text (s : sep) : str := match s with SEol e => eol_text e | SBlank w => w | SEnd => [] end.
Inductive items := Nil | Cons (i : item) (r : items)
with item :=
| IText (ps : list piece)
| ICall (n : str) (args : option (list str))                 (* `n or `n(a,b) *)
| IDef (w1 n : str) (ps : option (list (str * str * str))) (w2 body w3 : str) (comment : option str) (e : eol)
      (* `define n body // comment or `define n(p,q) body // comment; a parameter is a name with blanks around it *)
| IDef0 (w1 n w2 : str) (e : eol)                            (* `define n *)
| IIf (neg : bool) (b : branches) (els : else_items) (fin : sep)
                                                             (* `ifdef/`ifndef ... `endif *)
with branches :=
| One (w n : str) (g : items)                                (* the name behind `ifdef and the group *)
| More (w n : str) (g : items) (b : branches)                (* ... followed by an `elsif *)
with else_items := NoElse | Else (s : sep) (g : items).
Scheme items_mut := Induction for items Sort Prop
with item_mut := Induction for item Sort Prop
with branches_mut2 := Induction for branches Sort Prop
with else_items_mut := Induction for else_items Sort Prop.
Combined Scheme source_mut from items_mut, item_mut, branches_mut2, else_items_mut.

Definition args_text (args : option (list str)) : str := match args with Some l => "("%char :: join l ++ $")" | None => [] end.
Definition param_text (p : str * str * str) : str := let '(a, n, b) := p in a ++ n ++ b.
Definition param_name (p : str * str * str) : str := let '(_, n, _) := p in n.
Definition params_text (ps : option (list (str * str * str))) : str := args_text (option_map (map param_text) ps).
Definition comment_text (c : option str) : str := match c with Some t => $"//" ++ t | None => [] end.
Fixpoint render (p : items) : str := match p with Nil => [] | Cons i r => render_item i ++ render r end
with render_item (i : item) : str :=
  match i with
  | IText ps => text_of_pieces ps
  | ICall n args => bt :: n ++ args_text args
  | IDef w1 n ps w2 b w3 c e => $"`define" ++ w1 ++ n ++ params_text ps ++ w2 ++ b ++ w3 ++ comment_text c ++ eol_text e
  | IDef0 w1 n w2 e => $"`define" ++ w1 ++ n ++ w2 ++ eol_text e
  | IIf neg b els fin =>
      (if neg then $"`ifndef" else $"`ifdef") ++ render_branches b ++ render_else els ++ $"`endif" ++ sep_text fin
  end
with render_branches (b : branches) : str :=
  match b with
  | One w n g => w ++ n ++ render g
  | More w n g b' => w ++ n ++ render g ++ $"`elsif" ++ render_branches b'
  end
with render_else (e : else_items) : str := match e with NoElse => [] | Else s g => $"`else" ++ sep_text s ++ render g end.

(** Directive names are no macro names; the two predefined macros are left out as well. *)
Definition reserved : list str :=
  map s2l ["include"; "define"; "ifndef"; "ifdef"; "elsif"; "else"; "endif"; "undef"; "begin_keywords"; "end_keywords";
    "pragma"; "undefineall"; "resetall"; "celldefine"; "endcelldefine"; "timescale"; "default_nettype"; "line";
    "unconnected_drive"; "nounconnected_drive"; "protected"; "__LINE__"; "__FILE__"]%string.
Definition macro_name (n : str) : Prop := ident n /\ ~ In n reserved.

(** [ends_word s]: the text [s] does not continue a word that stands before it. *)
Definition ends_word (s : str) : Prop := forall c t, s = c :: t -> ~ (letter c \/ In c $"0123456789").
(** ... and has no opening parenthesis behind optional blanks. *)
Definition no_arguments (s : str) : Prop := forall w t, Forall blank w -> s <> w ++ "("%char :: t.
(** A directive or the end of the source follows. *)
Definition directive_or_end (s : str) : Prop := s = [] \/ exists c t, s = bt :: c :: t /\ letter c.
Definition sep_ok (s : sep) (rest : str) : Prop :=
  match s with
  | SEol _ => True
  | SBlank w => blanks w /\ forall c t, rest = c :: t -> c <> "("%char /\ ~ blank c
  | SEnd => rest = []
  end.
Definition starts_blank (s : str) : Prop := exists c t, s = c :: t /\ blank c.
Definition ends_blank (s : str) : Prop := exists c t, s = t ++ [c] /\ blank c.
Definition params_ok (ps : option (list (str * str * str))) : Prop :=
  match ps with
  | Some l => l <> [] /\ Forall (fun p => let '(a, n, b) := p in Forall blank a /\ ident n /\ Forall blank b) l /\ NoDup (map param_name l)
  | None => True
  end.

(** [wf p rest]: the source [p] is written down unambiguously when [rest] follows it. *)
Fixpoint wf (p : items) (rest : str) : Prop :=
  match p with Nil => True | Cons i r => wf_item i (render r ++ rest) /\ wf r rest end
with wf_item (i : item) (rest : str) : Prop :=
  match i with
  | IText ps => ps <> [] /\ Forall piece_ok ps /\ directive_or_end rest
  | ICall n None => macro_name n /\ ends_word rest /\ no_arguments rest
  | ICall n (Some args) => macro_name n /\ args <> [] /\ Forall argument args
  | IDef w1 n ps w2 b w3 c e =>
      blanks w1 /\ macro_name n /\ params_ok ps /\ Forall blank w2 /\ (ps = None -> w2 <> []) /\ dbody b /\ b <> []
      /\ ~ starts_blank b /\ ~ ends_blank b /\ Forall blank w3
      /\ match c with
         | Some t => w3 <> [] /\ Forall (fun c => ~ In c [cr; nl; dq; bs]) t
         | None => True
         end
  | IDef0 w1 n w2 _ => blanks w1 /\ macro_name n /\ Forall blank w2
  | IIf neg b els fin =>
      (neg = true -> exists w n g, b = One w n g)
      /\ wf_branches b (render_else els ++ $"`endif" ++ sep_text fin ++ rest)
      /\ wf_else els ($"`endif" ++ sep_text fin ++ rest)
      /\ sep_ok fin rest
  end
with wf_branches (b : branches) (rest : str) : Prop :=
  match b with
  | One w n g => blanks w /\ macro_name n /\ ends_word (render g ++ rest) /\ wf g rest
  | More w n g b' =>
      blanks w /\ macro_name n /\ ends_word (render g ++ $"`elsif") /\ wf g ($"`elsif" ++ render_branches b' ++ rest)
      /\ wf_branches b' rest
  end
with wf_else (e : else_items) (rest : str) : Prop :=
  match e with NoElse => True | Else s g => sep_ok s (render g ++ rest) /\ s <> SEnd /\ wf g rest end.

(** ** The text of a source *)
(** The macros defined so far: parameters, which may have default values, and body. *)
Definition macros := list (str * (option (list (str * option str)) * str)).
Fixpoint body_of (e : macros) (n : str) : option (option (list (str * option str)) * str) :=
  match e with [] => None | (k, b) :: e' => if seqb k n then Some b else body_of e' n end.
Definition is_def (e : macros) (n : str) : bool := match body_of e n with Some _ => true | None => false end.

(** [takes ps given vals]: the values of the parameters.  An argument that is empty or left out has the default value. *)
Fixpoint takes (ps : list (str * option str)) (given vals : list str) : Prop :=
  match ps, given, vals with
  | [], [], [] => True
  | (_, d) :: ps', g :: given', v :: vals' => v = (match d, g with Some x, [] => x | _, _ => g end) /\ takes ps' given' vals'
  | (_, Some x) :: ps', [], v :: vals' => v = x /\ takes ps' [] vals'
  | _, _, _ => False
  end.
(** [replacement ps b args r]: with parameters [ps] and body [b] the arguments [args] give the text
    [r].  Parameters are whole identifiers outside strings; they get the arguments without white
    space at the ends.  (The second condition leaves out bodies in which a parameter stands directly
    before an opening bracket, see C02.) *)
Definition replacement (ps : option (list (str * option str))) (b : str) (args : option (list str)) (r : str) : Prop :=
  match ps, args with
  | None, None => r = b
  | Some ps, Some l =>
      exists given vals, Forall2 (trimmed [sp; tab; nl; cr]) l given /\ takes ps given vals
        /\ subst_std (lookup (map fst ps) vals) b = Some r /\ subst_no_bracket (lookup (map fst ps) vals) b = Some r
  | _, _ => False
  end.
(** SystemVerilog: two backticks join what stands on both sides of them, and a backslash between two backticks is kept alone. *)
Definition joined (sv : bool) (r r' : str) : Prop :=
  if sv then exists u, replaced [bt; bt] [] r u /\ replaced [bt; bs; bt] [bs] u r' else r' = r.
(** The text of a macro that is scanned again: ordinary text without backticks, and macro uses. *)
Fixpoint texts_and_calls (q : items) : Prop :=
  match q with
  | Nil => True
  | Cons (IText ps) r => ~ In bt (text_of_pieces ps) /\ texts_and_calls r
  | Cons (ICall _ _) r => texts_and_calls r
  | Cons _ _ => False
  end.
(** Line numbers of texts that come from macros do not overflow. *)
Definition handy (s : str) : Prop := (Z.of_nat (count_nl s) < 2 ^ 53)%Z.

(** Lines taken by directives are given back as empty lines, up to three in a row. [cur] is the
    source line to which the end of the output belongs, [line] the one from which comes what is written next. *)
Definition catch_up (cur line : nat) : str := if (cur <=? line) && (line - cur <=? 3) then repeat nl (line - cur) else [].
Definition lines (s : str) : nat := count_nl s.

(** [scanned call line cur q t]: the text [q] scanned from [line] on gives [t] if macro uses give what [call] says. *)
Fixpoint scanned (call : str -> option (list str) -> str -> Prop) (line cur : nat) (q : items) (t : str) : Prop :=
  match q with
  | Nil => t = []
  | Cons (IText ps) r =>
      let line' := line + lines (text_of_pieces ps) in
      exists u, t = catch_up cur line ++ text_of_pieces ps ++ u /\ scanned call line' line' r u
  | Cons (ICall n args) r =>
      exists a u, t = catch_up cur line ++ a ++ u /\ call n args a
        /\ scanned call (line + lines (render_item (ICall n args))) (line + lines a) r u
  | Cons _ _ => False
  end.
(** [expands sv depth e n args t]: the use of macro [n] with the arguments [args] gives the text [t];
    macro uses in its text are replaced in turn, at most [depth] levels deep. *)
Fixpoint expands (sv : bool) (depth : nat) (e : macros) (n : str) (args : option (list str)) (t : str) : Prop :=
  match depth with
  | 0 => False
  | S d => exists ps b r q,
      body_of e n = Some (ps, b) /\ replacement ps b args r
      /\ joined sv r (render q) /\ wf q [] /\ texts_and_calls q /\ scanned (expands sv d e) 1 1 q t
      /\ handy (render q) /\ handy t
  end.
(** The number of nested macro uses: the limit of the tool is 128, the innermost one is not counted. *)
Definition max_depth : nat := 129.

(** [evals sv e line cur p (out, e', cur')]: the source [p] at [line] gives the text [out], the macros
    [e'] afterwards, and [cur'] is the source line of the end of the output.
    No result if a macro is defined twice or used without definition. *)
Definition result := (str * macros * nat)%type.
Fixpoint evals (sv : bool) (e : macros) (line cur : nat) (p : items) (res : result) : Prop :=
  match p with
  | Nil => res = ([], e, cur)
  | Cons i r =>
      exists o1 e1 cur1 o2 e2 cur2, res = (o1 ++ o2, e2, cur2)
        /\ evals_item sv e line cur i (o1, e1, cur1) /\ evals sv e1 (line + lines (render_item i)) cur1 r (o2, e2, cur2)
  end
with evals_item (sv : bool) (e : macros) (line cur : nat) (i : item) (res : result) : Prop :=
  match i with
  | IText ps => let t := text_of_pieces ps in res = (catch_up cur line ++ t, e, line + lines t)
  | ICall n args => exists t, expands sv max_depth e n args t /\ res = (catch_up cur line ++ t, e, line + lines t)
  | IDef _ n ps _ b _ _ _ => is_def e n = false /\ res = ([], (n, (option_map (map (fun p => (param_name p, None))) ps, b)) :: e, cur)
  | IDef0 _ n _ _ => is_def e n = false /\ res = ([], (n, (None, [])) :: e, cur)
  | IIf neg b els _ => evals_branches sv e line cur neg b (fun line' => evals_else sv e line' cur els) res
  end
(** [els line]: what the else part gives if it starts at [line] *)
with evals_branches (sv : bool) (e : macros) (line cur : nat) (neg : bool) (b : branches) (els : nat -> result -> Prop) (res : result) : Prop :=
  match b with
  | One _ n g =>
      if xorb neg (is_def e n) then exists o e' cur', evals sv e line line g (o, e', cur') /\ res = (catch_up cur line ++ o, e', cur')
      else els (line + lines (render g)) res
  | More _ n g b' =>
      if xorb neg (is_def e n) then exists o e' cur', evals sv e line line g (o, e', cur') /\ res = (catch_up cur line ++ o, e', cur')
      else evals_branches sv e (line + lines (render g)) cur neg b' els res
  end
with evals_else (sv : bool) (e : macros) (line cur : nat) (els : else_items) (res : result) : Prop :=
  match els with
  | NoElse => res = ([], e, cur)
  | Else s h =>
      let line' := line + lines (sep_text s) in
      exists o e' cur', evals sv e line' line' h (o, e', cur') /\ res = (catch_up cur line' ++ o, e', cur')
  end.
(** The text of a whole source; [sv] tells whether two backticks join names. *)
Definition meaning (sv : bool) (p : items) (out : str) : Prop := exists e cur, evals sv [] 1 1 p (out, e, cur).
(** ... if the macros [e] are defined before it. *)
Definition meaning_with (sv : bool) (e0 : macros) (p : items) (out : str) : Prop := exists e cur, evals sv e0 1 1 p (out, e, cur).
