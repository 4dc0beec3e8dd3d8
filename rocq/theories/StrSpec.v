(** Independent specification of text trimming, text replacement and macro quoting. *)
From Verif Require Import Base.

(** [t] is [s] without its maximal leading and trailing runs of characters from [chars]. *)
Definition trimmed (chars s t : str) : Prop :=
  exists a b, s = a ++ t ++ b
    /\ Forall (fun c => In c chars) a /\ Forall (fun c => In c chars) b
    /\ (forall c r, t = c :: r -> ~ In c chars)
    /\ (forall c r, t = r ++ [c] -> ~ In c chars).
Definition rtrimmed (chars s t : str) : Prop :=
  exists b, s = t ++ b
    /\ Forall (fun c => In c chars) b
    /\ (forall c r, t = r ++ [c] -> ~ In c chars).

(** [pat] occurs somewhere in [s]. *)
Definition occurs (pat s : str) : Prop := exists a b, s = a ++ pat ++ b.
(** [a] is followed by the left-most occurrence of [pat] in [a ++ pat ++ s]. *)
Definition leftmost (pat a s : str) : Prop :=
  forall a' b', a ++ pat ++ s = a' ++ pat ++ b' -> length a <= length a'.

(** [t] is [s] with all left-most non-overlapping occurrences of [pat] replaced by [repl]. *)
Inductive replaced (pat repl : str) : str -> str -> Prop :=
| R_none s : ~ occurs pat s -> replaced pat repl s s
| R_some a s t : leftmost pat a s -> replaced pat repl s t ->
                 replaced pat repl (a ++ pat ++ s) (a ++ repl ++ t).

(** One left-to-right pass that rewrites macro quotes.  [prev] is the previous input
    character, [inside] tells whether an opened macro quote waits for its closing one.
    A macro quote not preceded by a backslash becomes a plain quote; a newline inside a macro
    string gets a backslash unless it already has one; None = the string is never closed. *)
Fixpoint unquote (prev : option ascii) (inside : bool) (s : str) : option str :=
  match s with
  | [] => if inside then None else Some []
  | c :: s' =>
      match s' with
      | d :: s'' =>
          if ceqb c bt && ceqb d dq && negb (match prev with Some p => ceqb p bs | None => false end)
          then option_map (cons dq) (unquote (Some dq) (negb inside) s'')
          else if inside && ceqb c nl && negb (match prev with Some p => ceqb p bs | None => false end)
          then option_map (fun r => bs :: nl :: r) (unquote (Some nl) inside s')
          else option_map (cons c) (unquote (Some c) inside s')
      | [] =>
          if inside then None else Some [c]
      end
  end.
