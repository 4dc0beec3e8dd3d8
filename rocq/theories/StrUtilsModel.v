(** Model of src/verilogPreproc/str_utils.cpp. *)
From Verif Require Import Base.

(** Default argument of rtrim/ltrim/trim, include/hdlConvertor/verilogPreproc/str_utils.h:10-12. *)
Definition ws_chars : str := [sp; tab; nl; cr].

(** std::string::find_last_not_of(chars) + 1, with npos + 1 == 0. *)
Fixpoint last_not_of_succ (chars s : str) : nat :=
  match s with
  | [] => 0
  | c :: s' =>
      match last_not_of_succ chars s' with
      | 0 => if mem_c c chars then 0 else 1
      | S n => S (S n)
      end
  end.
(** std::string::find_first_not_of(chars); None = npos. *)
Fixpoint first_not_of (chars s : str) : option nat :=
  match s with
  | [] => None
  | c :: s' => if mem_c c chars then option_map S (first_not_of chars s') else Some 0
  end.

(** str_utils.cpp:10-13 *)
Definition rtrim (chars s : str) : str := firstn (last_not_of_succ chars s) s.
(** str_utils.cpp:15-18; erase(0, npos) erases everything. *)
Definition ltrim (chars s : str) : str :=
  match first_not_of chars s with
  | Some n => skipn n s
  | None => []
  end.
(** str_utils.cpp:20-22 *)
Definition trim (chars s : str) : str := rtrim chars (ltrim chars s).

(** The loop of str_utils.cpp:26-30 and 35-39 (the two functions are identical up to names).
    One unit of fuel per iteration. *)
Fixpoint replace_loop (fuel : nat) (s pat repl : str) (pos : nat) : outcome str :=
  match fuel with
  | 0 => OutOfFuel
  | S fuel' =>
      match find_from pat s pos with
      | None => Ok s
      | Some i =>
          (* str.replace(i, pat.size(), repl); pos = i + repl.size() *)
          replace_loop fuel' (firstn i s ++ repl ++ skipn (i + length pat) s) pat repl
                       (i + length repl)
      end
  end.
(** str_utils.cpp:34-40.  For a non-empty pattern the loop runs at most once per character
    (proved in StrUtilsProofs), so this amount of fuel is never exhausted. *)
Definition replace_substring (s pat repl : str) : outcome str :=
  replace_loop (S (length s)) s pat repl 0.
(** str_utils.cpp:24-31 *)
Definition replaceStringInPlace (s pat repl : str) : outcome str :=
  replace_loop (S (length s)) s pat repl 0.

(** str_utils.cpp:55-62: the loop that escapes newlines between two macro quotes.
    Returns the string and the shifted start_pos. *)
Fixpoint escape_nl_loop (fuel : nat) (s : str) (i start_pos : nat) : outcome (str * nat) :=
  match fuel with
  | 0 => OutOfFuel
  | S fuel' =>
      if i <? start_pos then
        c <- char_at s i ;;
        if ceqb c nl then
          (* str[in_str_i - 1]; for in_str_i == 0 the index wraps to SIZE_MAX *)
          p <- (match i with
                | 0 => UB "str[-1]"
                | S j => char_at s j
                end) ;;
          if ceqb p bs then escape_nl_loop fuel' s (S i) start_pos
          else escape_nl_loop fuel' (firstn i s ++ [bs] ++ skipn i s) (S i) (S start_pos)
        else escape_nl_loop fuel' s (S i) start_pos
      else Ok (s, start_pos)
  end.

(** str_utils.cpp:46-67; [prev] is prev_start_pos with None = npos. *)
Fixpoint unescape_loop (fuel : nat) (s : str) (start_pos : nat) (prev : option nat)
  : outcome (str * option nat) :=
  match fuel with
  | 0 => OutOfFuel
  | S fuel' =>
      match find_from [bt; dq] s start_pos with
      | None => Ok (s, prev)
      | Some p =>
          is_escaped <- (match p with
                         | 0 => Ok false
                         | S j => c <- char_at s j ;; Ok (ceqb c bs)
                         end) ;;
          if is_escaped : bool then unescape_loop fuel' s (S p) prev
          else
            let s1 := firstn p s ++ skipn (S p) s in
            match prev with
            | None => unescape_loop fuel' s1 (S p) (Some p)
            | Some q =>
                '(s2, p2) <- escape_nl_loop (S (2 * length s1)) s1 q p ;;
                unescape_loop fuel' s2 (S p2) None
            end
      end
  end.

(** str_utils.cpp:42-70 *)
Definition unescape_string_dblquotes (s : str) : outcome str :=
  '(s', prev) <- unescape_loop (S (length s)) s 0 None ;;
  match prev with
  | None => Ok s'
  | Some _ => Throw (ParseException $"Unfinished `"" string")
  end.
