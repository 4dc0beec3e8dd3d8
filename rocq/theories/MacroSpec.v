(** Independent specification of macro parameter substitution and argument binding. *)
From Verif Require Import Base MacroDefModel.

(** Characters of identifiers (IEEE 1800 5.6). *)
Definition word_char (c : ascii) : bool := is_alpha c || is_digit c || ceqb c "_" || ceqb c "$".

(** A quote starts or ends a string literal unless a backtick or a backslash precedes it. *)
Definition string_quote (prev : option ascii) (c : ascii) : bool :=
  ceqb c dq && negb (match prev with Some p => ceqb p bt || ceqb p bs | None => false end).

(** What a maximal run [w] of word characters becomes; [next] is the character behind it and
    [stop] the set of characters behind an identifier that prevent its substitution. *)
Definition subst_word (stop : ascii -> bool) (f : str -> option str) (w : str) (next : option ascii)
  : str :=
  match f w with
  | Some v => if match next with Some c => stop c | None => false end then w else v
  | None => w
  end.

(** One pass over a macro body: [w] is the identifier being read, [inside] tells whether we are
    in a string literal, [prev] is the previous character. None: a string is not terminated. *)
Fixpoint subst_body (stop : ascii -> bool) (f : str -> option str)
         (w : str) (inside : bool) (prev : option ascii) (s : str) : option str :=
  match s with
  | [] => if inside then None else Some (subst_word stop f w None)
  | c :: s' =>
      if inside then
        option_map (cons c) (subst_body stop f [] (negb (string_quote prev c)) (Some c) s')
      else if word_char c then subst_body stop f (w ++ [c]) false (Some c) s'
      else option_map (fun r => subst_word stop f w (Some c) ++ c :: r)
             (subst_body stop f [] (string_quote prev c) (Some c) s')
  end.

(** Substitution as the standard demands: every whole identifier outside strings. *)
Definition subst_std (f : str -> option str) (body : str) : option str :=
  subst_body (fun _ => false) f [] false None body.
(** The same except that an identifier directly followed by an opening bracket is not replaced. *)
Definition open_bracket (c : ascii) : bool := ceqb c "(" || ceqb c "[" || ceqb c "{".
Definition subst_no_bracket (f : str -> option str) (body : str) : option str :=
  subst_body open_bracket f [] false None body.

(** Value of the parameter called [w]. *)
Fixpoint lookup (names vals : list str) (w : str) : option str :=
  match names, vals with
  | n :: names', v :: vals' => if seqb n w then Some v else lookup names' vals' w
  | _, _ => None
  end.

(** A simple identifier. *)
Definition identifier (s : str) : Prop :=
  exists c r, s = c :: r /\ (is_alpha c || ceqb c "_") = true
              /\ Forall (fun c => word_char c = true) r.

(** Binding of actual arguments to formal parameters (IEEE 1800 22.5.1): [has_def]/[def] describe
    the i-th formal parameter, [args] are the actuals.  An omitted argument is allowed if there
    is a default; a call with empty parentheses supplies one empty argument. *)
Definition binds (has_def : bool) (def : str) (args : list str) (i : nat) (v : str) : Prop :=
  match nth_error args i with
  | Some a => v = if has_def && seqb a [] then def else a
  | None => (has_def = true /\ v = def) \/ (has_def = false /\ args = [] /\ i = 0 /\ v = [])
  end.

(** [vals] are the values of the formal parameters [ps] in a call with actuals [args]. *)
Definition bound (ps : list param_info) (args vals : list str) : Prop :=
  length vals = length ps /\
  forall i p v, nth_error ps i = Some p -> nth_error vals i = Some v ->
                binds (p_has_def p) (p_def p) args i v.
