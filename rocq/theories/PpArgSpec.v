(** What the arguments of a macro call are: a grammar for texts in which brackets match, written without regard to the lexer. *)
From Verif Require Import Base StrSpec.

(** The inside of a string literal: plain characters and pairs of a backslash and any character. *)
Inductive string_body : str -> Prop :=
| sb_nil : string_body []
| sb_char c s : c <> dq -> c <> bs -> c <> cr -> c <> nl -> string_body s -> string_body (c :: s)
| sb_pair c s : c <> cr -> c <> nl -> string_body s -> string_body (bs :: c :: s).
(** The last character is no backslash. *)
Definition no_final_bs (s : str) : Prop := forall t, s <> t ++ [bs].

Definition matching (o c : ascii) : Prop := (o = "("%char /\ c = ")"%char) \/ (o = "["%char /\ c = "]"%char) \/ (o = "{"%char /\ c = "}"%char).
Definition plain (c : ascii) : Prop := ~ In c ($"()[]{}," ++ [dq]).
(** The text starts a comment. *)
Definition comment_start (s : str) : Prop := exists t, s = "/"%char :: "/"%char :: t \/ s = "/"%char :: "*"%char :: t.

(** Texts with matching brackets; commas outside the brackets only if [commas]. *)
Inductive balanced (commas : bool) : str -> Prop :=
| ba_nil : balanced commas []
| ba_char c s : plain c -> ~ comment_start (c :: s) -> balanced commas s -> balanced commas (c :: s)
| ba_comma s : commas = true -> balanced commas s -> balanced commas ("," %char :: s)
| ba_string b s : string_body b -> no_final_bs b -> balanced commas s -> balanced commas ((dq :: b ++ [dq]) ++ s)
| ba_group o c t s : matching o c -> balanced true t -> balanced commas s -> balanced commas ((o :: t ++ [c]) ++ s).
(** An argument: no comma outside its brackets and strings. *)
Definition argument : str -> Prop := balanced false.

Fixpoint join (l : list str) : str := match l with [] => [] | [x] => x | x :: l' => x ++ ","%char :: join l' end.
(** The values of the arguments: white space at both ends is removed; a call with nothing between its parentheses has none. *)
Definition values (l vs : list str) : Prop := match l with [[]] => vs = [] | _ => Forall2 (trimmed [sp; tab; nl; cr]) l vs end.
(** A name of a macro. *)
Definition letter (c : ascii) : Prop := In c $"abcdefghijklmnopqrstuvwxyzABCDEFGHIJKLMNOPQRSTUVWXYZ_".
Definition ident (s : str) : Prop := exists c t, s = c :: t /\ letter c /\ Forall (fun x => letter x \/ In x $"0123456789") t.
