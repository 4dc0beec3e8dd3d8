(** Small specifications used by the preprocessor properties: they mention the parse tree and
    the output buffer, never the visitor. *)
From Verif Require Import Base OutBufferModel PpLexerModel PpParserModel MacroDefModel PpModel.

(** ** Databases, outcomes, states *)
(** Macros in a database come from the constructor. *)
Definition mdef_ok (d : mdef) : Prop :=
  match d with
  | MUser m => exists name hp params body, new_macro name hp params body = Ok m
  | _ => True
  end.
Definition db_ok (d : db) : Prop := Forall (fun p => mdef_ok (e_def (snd p))) d.
(** Keys of a std::map are unique. *)
Definition uniq (d : db) : Prop := NoDup (map fst d).
(** The only undefined behaviour a run can meet: the erased iterator of `undef, and an
    assertion of the lexer. *)
Definition UNDEF_UB : string := "visitUndef: m->second after defineDB.erase(m)".
Definition known_ub (w : string) : Prop := w = UNDEF_UB \/ w = "assert(!define_param_LP_seen)"%string.
(** Exceptions: ParseException, runtime errors, and std::out_of_range from an empty include name. *)
Definition known_exn (e : exn) : Prop :=
  match e with
  | ParseException _ | RuntimeError _ => True
  | OutOfRange m => m = $"basic_string::substr"
  | InvalidArgument _ => False
  end.
(** Same include directories, include stack and macro call stack. *)
Definition ctx_eq (s s' : pst) : Prop :=
  ps_incdirs s' = ps_incdirs s /\ ps_incstack s' = ps_incstack s /\ ps_mstack s' = ps_mstack s.

(** ** Conditional compilation (C06) *)
Definition defined (d : db) (n : str) : bool := match db_find d n with Some _ => true | None => false end.
(** names, and bodies with the line they start at, of the branches in source order *)
Fixpoint branch_names (bs : branches) : list str :=
  match bs with BNil => [] | BCons n _ _ bs' => n :: branch_names bs' end.
Fixpoint branch_bodies (bs : branches) : list (nat * texts) :=
  match bs with BNil => [] | BCons _ line g bs' => (line, g) :: branch_bodies bs' end.
Definition else_body (e : else_part) : option (nat * texts) :=
  match e with ENone => None | ESome line g => Some (line, g) end.
(** IEEE 1800: in `ifndef only the first condition is negated *)
Definition std_conditions (d : db) (neg : bool) (names : list str) : list bool :=
  match names with
  | [] => []
  | n :: ns => xorb neg (defined d n) :: map (defined d) ns
  end.
(** the code negates the conditions of `elsif as well *)
Definition code_conditions (d : db) (neg : bool) (names : list str) : list bool :=
  map (fun n => xorb neg (defined d n)) names.
(** body of the first true condition, otherwise the else body *)
Fixpoint first_true {A} (conds : list bool) (bodies : list A) (els : option A) : option A :=
  match conds, bodies with
  | true :: _, b :: _ => Some b
  | false :: cs, _ :: bs => first_true cs bs els
  | _, _ => els
  end.

(** Processing the chosen body: its first line is announced, then its items are visited. *)
Definition visit_body l fs rs rf src added (o : option (nat * texts)) (out : outbuf) : MM outbuf :=
  match o with
  | None => ret out
  | Some (line, g) => out' <-- lift (set_line out (line0 line)) ;;; visit_texts l fs rs rf src added g out'
  end.

(** ** Definitions (C07) *)
(** The macro that a define directive denotes. *)
Definition macro_of (d : ddef) : outcome macro_def :=
  body <- define_body d ;;
  new_macro (dd_name d) (match dd_args d with Some _ => true | None => false end)
            (match dd_args d with Some ps => map conv_param ps | None => [] end) body.
Fixpoint defines (ds : list ddef) : texts :=
  match ds with [] => TNil | d :: ds' => TCons (TDefine d) (defines ds') end.

(** ** Line accounting (C10, C11) *)
(** The counter is the number of newlines (modulo the machine word); the map is sorted and points
    into the text. *)
Definition items_sorted (m : list lm_item) : Prop :=
  forall i j a b, i <= j -> nth_error m i = Some a -> nth_error m j = Some b -> (lm_line a <= lm_line b)%Z.
Definition counted (b : outbuf) : Prop :=
  ob_line b = to_size (Z.of_nat (count_nl (ob_text b))).
Definition accounted (b : outbuf) : Prop :=
  counted b /\
  ((Z.of_nat (count_nl (ob_text b)) < two64)%Z ->
   items_sorted (ob_map b) /\ Forall (fun i => (0 <= lm_line i <= ob_line b)%Z) (ob_map b)).
(** Everything that can be done to an output buffer. *)
Inductive history : outbuf -> Prop :=
| h_new k b : new_buf k = Ok b -> history b
| h_put b s : history b -> history (buf_put b s)
| h_endl b : history b -> history (buf_endl b)
| h_line b n b' : history b -> set_line b n = Ok b' -> history b'
| h_file b f n b' : history b -> set_file_line b f n = Ok b' -> history b'
| h_merge b o : history b -> history o -> history (buf_append b o).

(** The source position that the line map gives for output line [n]: the last entry that starts
    at or before [n], advanced by the distance to it. *)
Fixpoint origin (m : list lm_item) (n : Z) (acc : option (str * Z)) : option (str * Z) :=
  match m with
  | [] => acc
  | i :: m' => origin m' n (if (lm_line i <=? n)%Z then Some (lm_file i, (lm_over i + (n - lm_line i))%Z) else acc)
  end.

(** ** Include lookup (C12) *)
(** File name between the delimiters of an include argument. *)
Definition file_of_arg (p : str) : str := match p with [] => [] | _ :: r => removelast r end.
(** [name] is the file in the first directory of the list that has it. *)
Definition first_dir_with (fs : fsys) (dirs : list str) (f name : str) : Prop :=
  exists pre d post, dirs = pre ++ d :: post /\ name = path_join d f /\ fs name <> None
                     /\ forall d', In d' pre -> fs (path_join d' f) = None.

(** A buffer that was only written and re-synchronised (no included buffer was merged into it),
    with the name of the file that was set last. *)
Inductive in_file : outbuf -> option str -> Prop :=
| if_new : in_file (mkBuf [] [] 0 0 0) None
| if_put b f s : in_file b f -> in_file (buf_put b s) f
| if_endl b f : in_file b f -> in_file (buf_endl b) f
| if_line b f n b' : in_file b f -> set_line b n = Ok b' -> in_file b' f
| if_file b f g n b' : in_file b f -> set_file_line b g n = Ok b' -> in_file b' (Some g).

(** ** Expansion of one call (C15, C52) *)
(** Replacement text of a call before token pasting: the macro's own replacement; if the macro
    takes no parameters but the call has parentheses, the source text of the parentheses follows. *)
Definition raw_expansion (src : str) (m : mcall) (out : outbuf) (d : db) : outcome str :=
  let t := mc_tok m in
  match db_find d (call_name t) with
  | None => input_error src t (call_name t ++ $" is not defined")
  | Some e =>
      if requires_args (e_def e) then
        let args := if call_has_args t then parse_macro_args (mc_children m) true false else [] in
        wrap_parse_exn src t (def_replace (e_def e) args (call_has_args t) out t)
      else
        r <- wrap_parse_exn src t (def_replace (e_def e) [] false out t) ;;
        Ok (if call_has_args t then r ++ skipn (length (call_name t)) (mc_raw m) else r)
  end.
(** Every backtick is part of a macro quote and does not follow a slash. *)
Definition only_macro_quotes (s : str) : Prop :=
  forall a b, s = a ++ bt :: b -> (exists b', b = dq :: b') /\ (forall a', a <> a' ++ ["/"%char]).
