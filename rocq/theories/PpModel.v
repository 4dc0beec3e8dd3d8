(** Model of src/verilogPreproc/verilogPreproc.cpp, verilogPreprocContainer.cpp,
    default_macro_defs.cpp and the preprocessor entry points of src/hdlConvertor.cpp. *)
From Verif Require Import Base StrUtilsModel MacroDefModel OutBufferModel
                          RegexModel PpLexerModel PpParserModel.

(** ** Macro database: std::map<string, aMacroDef*>, include/.../macroDB.h *)
Inductive mdef := MUser (m : macro_def) | MLine | MFile.
Record entry := mkEntry { e_persistent : bool; e_def : mdef }.
Definition db := list (str * entry).

(** map::find *)
Fixpoint db_find (d : db) (k : str) : option entry :=
  match d with
  | [] => None
  | (k', e) :: d' => if seqb k' k then Some e else db_find d' k
  end.
(** map::insert does nothing if the key is present. *)
Definition db_insert (d : db) (k : str) (e : entry) : db :=
  match db_find d k with Some _ => d | None => d ++ [(k, e)] end.
(** map::erase *)
Definition db_erase (d : db) (k : str) : db := filter (fun p => negb (seqb (fst p) k)) d.

(** default_macro_defs.cpp:55-60 *)
Definition add_default_defs (d : db) (l : lang) : db :=
  if lang_ge l SV2009
  then db_insert (db_insert d $"__LINE__" (mkEntry false MLine)) $"__FILE__" (mkEntry false MFile)
  else d.
(** verilogPreprocContainer.cpp:114-123 *)
Definition delete_non_persistent (d : db) : db := filter (fun p => e_persistent (snd p)) d.

(** ** Container state, verilogPreprocContainer.h:17-31 *)
Record pst := mkPst {
  ps_db : db;
  ps_incdirs : list str;
  ps_incstack : list str;        (* incfile_stack, oldest first *)
  ps_mstack : list str           (* macro_call_stack, oldest first *)
}.
Definition set_db (st : pst) (d : db) : pst :=
  mkPst d (ps_incdirs st) (ps_incstack st) (ps_mstack st).
Definition set_incdirs (st : pst) (d : list str) : pst :=
  mkPst (ps_db st) d (ps_incstack st) (ps_mstack st).
Definition set_incstack (st : pst) (d : list str) : pst :=
  mkPst (ps_db st) (ps_incdirs st) d (ps_mstack st).
Definition set_mstack (st : pst) (d : list str) : pst :=
  mkPst (ps_db st) (ps_incdirs st) (ps_incstack st) d.

(** State is kept when an exception is thrown: the C++ code has no clean-up on that path. *)
Definition MM (A : Type) := pst -> outcome A * pst.
Definition ret {A} (a : A) : MM A := fun st => (Ok a, st).
Definition lift {A} (m : outcome A) : MM A := fun st => (m, st).
Definition mbind {A B} (m : MM A) (f : A -> MM B) : MM B :=
  fun st => match m st with
            | (Ok a, st') => f a st'
            | (Throw e, st') => (Throw e, st')
            | (UB w, st') => (UB w, st')
            | (OutOfFuel, st') => (OutOfFuel, st')
            end.
Definition get : MM pst := fun st => (Ok st, st).
Definition modify (f : pst -> pst) : MM unit := fun st => (Ok tt, f st).
Notation "x <-- m ;;; k" := (mbind m (fun x => k))
  (at level 61, m at next level, right associativity).
Notation "m ;;; k" := (mbind m (fun _ => k)) (at level 61, right associativity).

(** DEFAULT_MAX_MACRO_CALL_STACK_SIZE, verilogPreprocContainer.h:26 *)
Definition max_macro_call_stack_size : nat := 128.
(** include_depth_limit default, include/hdlConvertor/verilogPreproc/verilogPreproc.h:48 *)
Definition include_depth_limit : nat := 100.
(** STRING_FILENAME, include/hdlConvertor/universal_fs.h *)
Definition STRING_FILENAME : str := $"<string>".

(** File system: path to (already transcoded) content; None = does not exist. *)
Definition fsys := str -> option str.

(** std::filesystem::path operator/ and parent_path (POSIX, lexical; the model compares paths
    as strings). *)
Definition slash : ascii := "/"%char.
Definition path_join (a b : str) : str :=
  match b with
  | c :: _ => if ceqb c slash then b
              else match rev a with
                   | [] => b
                   | x :: _ => if ceqb x slash then a ++ b else a ++ slash :: b
                   end
  | [] => match rev a with
          | [] => []
          | x :: _ => if ceqb x slash then a else a ++ [slash]
          end
  end.
Fixpoint drop_slashes (r : str) : str :=
  match r with c :: r' => if ceqb c slash then drop_slashes r' else r | [] => [] end.
Fixpoint drop_component (r : str) : str :=
  match r with c :: r' => if ceqb c slash then r else drop_component r' | [] => [] end.
Definition parent_path (p : str) : str :=
  let r := drop_component (rev p) in
  match r with
  | [] => []
  | _ => match drop_slashes r with [] => [slash] | r' => rev r' end
  end.

(** throw_input_caused_error, verilogPreproc.cpp:471-486 *)
Definition input_error {A} (src : str) (t : token) (msg : str) : outcome A :=
  Throw (ParseException (src ++ $":" ++ nat_str (tk_line t) ++ $":" ++ nat_str (tk_col t)
                         ++ $":Error: " ++ msg)).

(** Token text of an interval (hidden tokens included). *)
Definition toks_text (ts : list token) : str := concat (map tk_text ts).
(** RuleContext::getText: default channel only. *)
Definition toks_ctx_text (ts : list token) : str := concat (map tk_text (filter is_default ts)).

(** remove_comment, verilogPreproc.cpp:492-508 *)
Fixpoint remove_comment (ts : list token) (s : str) : outcome str :=
  match ts with
  | [] => Ok s
  | t :: ts' =>
      s' <- (match tk_chan t with
             | CH_LINE_ESCAPE => replaceStringInPlace s (tk_text t) [nl]
             | CH_LINE_COMMENT => replaceStringInPlace s (tk_text t) []
             | _ => Ok s
             end) ;;
      remove_comment ts' s'
  end.

(** visitDefine_args_*, verilogPreproc.cpp:151-188 *)
Definition conv_param (p : dparam) : param_info :=
  mkParam (dp_name p) (dp_eq p) (toks_ctx_text (dp_def p)).

(** catch ParseException -> throw_input_caused_error (verilogPreproc.cpp:218-223, 308-312) *)
Definition wrap_parse_exn {A} (src : str) (t : token) (m : outcome A) : outcome A :=
  match m with
  | Throw (ParseException e) => input_error src t e
  | _ => m
  end.

(** visitDefine, verilogPreproc.cpp:191-230 *)
Definition define_body (d : ddef) : outcome str :=
  match dd_repl d with
  | None => Ok []
  | Some ts => b <- remove_comment ts (toks_text ts) ;; Ok (rtrim ws_chars b)
  end.
Definition visit_define (src : str) (d : ddef) (st : pst) : outcome unit * pst :=
  let params := match dd_args d with Some ps => map conv_param ps | None => [] end in
  let has_params := match dd_args d with Some _ => true | None => false end in
  match (body <- define_body d ;;
         wrap_parse_exn src (dd_tok d) (new_macro (dd_name d) has_params params body)) with
  | Ok m => (Ok tt, set_db st (db_insert (ps_db st) (dd_name d) (mkEntry false (MUser m))))
  | Throw e => (Throw e, st)
  | UB w => (UB w, st)
  | OutOfFuel => (OutOfFuel, st)
  end.

(** visitUndef, verilogPreproc.cpp:132-143: the iterator is used after erase. *)
Definition visit_undef (name : str) (st : pst) : outcome unit * pst :=
  match db_find (ps_db st) name with
  | Some e => if e_persistent e then (Ok tt, st)
              else (UB "visitUndef: m->second after defineDB.erase(m)",
                    set_db st (db_erase (ps_db st) name))
  | None => (Ok tt, st)
  end.
(** The same directive with the iterator bug disregarded: what typical builds do when the freed
    map node still holds its old content. Used to state the functional part of the property. *)
Definition visit_undef_lenient (name : str) (st : pst) : outcome unit * pst :=
  match db_find (ps_db st) name with
  | Some e => if e_persistent e then (Ok tt, st)
              else (Ok tt, set_db st (db_erase (ps_db st) name))
  | None => (Ok tt, st)
  end.

(** parse_macro_args, verilogPreproc.cpp:232-258 *)
Fixpoint parse_macro_args (cs : list child) (expected_value last_was_comma : bool)
  : list str :=
  match cs with
  | [] => []
  | CComma :: cs' =>
      (if expected_value then [[]] else []) ++ parse_macro_args cs' true true
  | CRp :: cs' =>
      (if expected_value && last_was_comma then [[]] else []) ++ parse_macro_args cs' true false
  | CValue ts :: cs' =>
      trim ws_chars (toks_text ts) :: parse_macro_args cs' false false
  end.

(** verilogPreproc.cpp:281-287: the leading identifier of the OTHER_MACRO_CALL_WITH_ARGS text
    (the first character is taken unconditionally). *)
Fixpoint id_prefix (s : str) : str :=
  match s with
  | c :: s' => if isalnum c || ceqb c "_" then c :: id_prefix s' else []
  | [] => []
  end.
Definition call_name (t : token) : str :=
  match tk_type t with
  | T_CALL_NO_ARGS => tk_text t
  | _ => match tk_text t with c :: s => c :: id_prefix s | [] => [] end
  end.
Definition call_has_args (t : token) : bool :=
  match tk_type t with T_CALL_NO_ARGS => false | _ => true end.

Definition requires_args (d : mdef) : bool :=
  match d with MUser m => m_has_params m | _ => false end.

(** aMacroDef::replace: MacroDefVerilog, __LINE__ and __FILE__
    (default_macro_defs.cpp:12-23, 31-50). *)
Definition def_replace (d : mdef) (args : list str) (spec : bool) (out : outbuf) (t : token)
  : outcome str :=
  match d with
  | MUser m => macro_replace m args spec
  | MLine => if spec then Throw (ParseException (msg_no_args $"__line__"))
             else Ok (Z_str (ob_begin out + Z.of_nat (tk_line t)))
  | MFile => if spec then Throw (ParseException (msg_no_args $"__file__"))
             else match rev (ob_map out) with
                  | [] => UB "file_line_map.back()"
                  | it :: _ => Ok ([dq] ++ lm_file it ++ [dq])
                  end
  end.

(** vector_to_string, str_utils.h:20-34 *)
Fixpoint join_comma (l : list str) : str :=
  match l with
  | [] => []
  | [x] => x
  | x :: l' => x ++ $"," ++ join_comma l'
  end.

Section Visitor.
  Variable l : lang.
  Variable fs : fsys.
  (** run_preproc_str / run_preproc_file of the next nesting level. *)
  Variable rec_str : str -> outbuf -> MM outbuf.
  Variable rec_file : str -> outbuf -> MM outbuf.
  (** name of the current input stream *)
  Variable src : str.
  (** VerilogPreproc::added_incdir *)
  Variable added_incdir : bool.

  (** verilogPreproc.cpp:291-320: expansion before rescanning. *)
  Definition expand_call (m : mcall) (out : outbuf) (d : db) : outcome str :=
    let t := mc_tok m in
    let name := call_name t in
    match db_find d name with
    | None => input_error src t (name ++ $" is not defined")
    | Some e =>
        let def := e_def e in
        let req := requires_args def in
        let args := if req && call_has_args t
                    then parse_macro_args (mc_children m) true false else [] in
        let spec := if req then call_has_args t else false in
        r <- wrap_parse_exn src t (def_replace def args spec out t) ;;
        let r1 := if negb req && call_has_args t
                  then r ++ skipn (length name) (mc_raw m) else r in
        if lang_ge l SV2005 then
          r2 <- replace_substring r1 [bt; bt] [] ;;
          replace_substring r2 [bt; bs; bt] [bs]
        else Ok r1
    end.

  (** visitMacro_call(ctx, false), verilogPreproc.cpp:264-349: the replacement text. *)
  Definition call_text (m : mcall) (out : outbuf) : MM str :=
    st <-- get ;;;
    r <-- lift (expand_call m out (ps_db st)) ;;;
    r' <-- (match find [bt] r with
            | None => ret r
            | Some _ =>
                if max_macro_call_stack_size <=? length (ps_mstack st) then
                  lift (input_error src (mc_tok m)
                          ($"Macro call stack overflow [" ++ join_comma (ps_mstack st) ++ $"]."))
                else
                  modify (fun s => set_mstack s (ps_mstack s ++ [call_name (mc_tok m)])) ;;;
                  b0 <-- lift (new_buf (ob_begin out + Z.of_nat (tk_line (mc_tok m)) - 1)) ;;;
                  b <-- rec_str r b0 ;;;
                  modify (fun s => set_mstack s (removelast (ps_mstack s))) ;;;
                  ret (ob_text b)
            end) ;;;
    if lang_ge l SV2005 then lift (unescape_string_dblquotes r') else ret r'.

  Definition line0 (n : nat) : Z := Z.of_nat n - 1.

  (** visitMacro_call(ctx, true), verilogPreproc.cpp:350-356 *)
  Definition visit_call (m : mcall) (out : outbuf) : MM outbuf :=
    r <-- call_text m out ;;;
    out' <-- lift (set_line out (line0 (tk_line (mc_tok m)))) ;;;
    ret (buf_put out' r).

  (** First directory that contains the file, verilogPreproc.cpp:423-435;
      inc_file_path.substr(1, size - 2) throws for an empty path. *)
  Fixpoint find_include (dirs : list str) (p : str) : outcome (option str) :=
    match dirs with
    | [] => Ok None
    | d :: dirs' =>
        f <- (match p with
              | [] => Throw (OutOfRange $"basic_string::substr")
              | _ :: rest => Ok (removelast rest)   (* size - 2 wraps for size 1: whole tail *)
              end) ;;
        let name := path_join d f in
        match fs name with
        | Some _ => Ok (Some name)
        | None => find_include dirs' p
        end
    end.

  (** visitInclude, verilogPreproc.cpp:405-469 *)
  Definition visit_include (tok : token) (arg : str + mcall) (out : outbuf) : MM outbuf :=
    p <-- (match arg with inl s => ret s | inr m => call_text m out end) ;;;
    st <-- get ;;;
    f <-- lift (find_include (ps_incdirs st) p) ;;;
    match f with
    | None => lift (input_error src tok (p ++ $" was not found in include directories" ++ [nl]))
    | Some name =>
        if include_depth_limit <? length (ps_incstack st) then
          lift (input_error src tok
            ($"Nested include limit reach" ++ [nl]
             ++ concat (map (fun x => $"    """ ++ x ++ $"""" ++ [nl]) (ps_incstack st))))
        else
          (if added_incdir then
             match rev (ps_incdirs st) with
             | [] => lift (UB "container.incdirs.back()")
             | _ => modify (fun s => set_incdirs s (removelast (ps_incdirs s)))
             end
           else ret tt) ;;;
          b0 <-- lift (new_buf 0) ;;;
          b <-- rec_file name b0 ;;;
          (if added_incdir then
             modify (fun s => set_incdirs s (ps_incdirs s ++ [last (ps_incdirs st) []]))
           else ret tt) ;;;
          ret (buf_append out b)
    end.

  (** istringstream >> size_t on a run of digits, verilogPreproc.cpp:125-127
      (values >= 2^64 set failbit and store the maximum). *)
  Definition digits_val (s : str) : Z :=
    fold_left (fun a c => (a * 10 + Z.of_N (N_of_ascii c) - 48)%Z) s 0%Z.
  Definition parse_size_t (s : str) : Z := Z.min (digits_val s) (two64 - 1).

  (** Visitor over the tree: visitText :44-69, processIfdef :362-390 and the directives. *)
  Fixpoint visit_texts (ts : texts) (out : outbuf) {struct ts} : MM outbuf :=
    match ts with
    | TNil => ret out
    | TCons t ts' => out' <-- visit_text t out ;;; visit_texts ts' out'
    end
  with visit_text (t : text) (out : outbuf) {struct t} : MM outbuf :=
    match t with
    | TTok tok =>
        out' <-- lift (set_line out (line0 (tk_line tok))) ;;; ret (buf_put out' (tk_text tok))
    | TDefine d => visit_define src d ;;; ret out
    | TCond neg bs e => visit_branches neg bs (visit_else e) out
    | TCall m => visit_call m out
    | TUndef name => visit_undef name ;;; ret out
    | TInclude tok a => visit_include tok a out
    | TLine n f => lift (set_file_line out f (parse_size_t n))
    | TUndefineAll => modify (fun s => set_db s (delete_non_persistent (ps_db s))) ;;; ret out
    | TIgnored _ => ret out
    end
  with visit_branches (neg : bool) (bs : branches) (els : outbuf -> MM outbuf) (out : outbuf)
    {struct bs} : MM outbuf :=
    match bs with
    | BNil => els out
    | BCons name line g bs' =>
        st <-- get ;;;
        let is_defined := match db_find (ps_db st) name with Some _ => true | None => false end in
        if Bool.eqb is_defined (negb neg) then
          out' <-- lift (set_line out (line0 line)) ;;; visit_texts g out'
        else visit_branches neg bs' els out
    end
  with visit_else (e : else_part) (out : outbuf) {struct e} : MM outbuf :=
    match e with
    | ENone => ret out
    | ESome line g => out' <-- lift (set_line out (line0 line)) ;;; visit_texts g out'
    end.
End Visitor.

(** VerilogPreproc ctor, verilogPreproc.cpp:20-39: accepted languages *)
Definition is_verilog (l : lang) : bool :=
  match l with VHDL | HWT | LANG_INVALID => false | _ => true end.
(** run_preproc, verilogPreprocContainer.cpp:31-66 *)
Definition run_preproc (l : lang) (fs : fsys)
    (rec_str rec_file : str -> outbuf -> MM outbuf)
    (src : str) (added : bool) (input : str) (out : outbuf) : MM outbuf :=
  tree <-- lift (pp_parse l input) ;;;
  if negb (is_verilog l) then lift (Throw (RuntimeError $"vPreprocessor: unsupported language"))
  else visit_texts l fs rec_str rec_file src added tree out.

(** run_preproc_str :96-112 and run_preproc_file :81-94 with [fuel] nesting levels left. *)
Fixpoint run_str (fuel : nat) (l : lang) (fs : fsys) (input : str) (out : outbuf) {struct fuel}
  : MM outbuf :=
  match fuel with
  | O => lift OutOfFuel
  | S fuel' =>
      st <-- get ;;;
      let name := match rev (ps_incstack st) with f :: _ => f | [] => STRING_FILENAME end in
      out' <-- lift (set_file_line out name 0) ;;;
      run_preproc l fs (run_str fuel' l fs) (run_file fuel' l fs) name false input out'
  end
with run_file (fuel : nat) (l : lang) (fs : fsys) (file : str) (out : outbuf) {struct fuel}
  : MM outbuf :=
  match fuel with
  | O => lift OutOfFuel
  | S fuel' =>
      st <-- get ;;;
      let dir := parent_path file in
      let add := negb (existsb (seqb dir) (ps_incdirs st)) in
      modify (fun s => if add then set_incdirs s (ps_incdirs s ++ [dir]) else s) ;;;
      modify (fun s => set_incstack s (ps_incstack s ++ [file])) ;;;
      match fs file with
      | None => lift (Throw (RuntimeError $"Can not open file"))
      | Some input =>
          out' <-- lift (set_file_line out file 0) ;;;
          b <-- run_preproc l fs (run_str fuel' l fs) (run_file fuel' l fs) file add input out' ;;;
          modify (fun s => set_incstack s (removelast (ps_incstack s))) ;;;
          modify (fun s => if add then set_incdirs s (removelast (ps_incdirs s)) else s) ;;;
          ret b
      end
  end.

(** VerilogPreprocContainer ctor and init, :11-29 *)
Definition pp_init (l : lang) (d : db) (incdirs : list str) : pst :=
  mkPst (add_default_defs (delete_non_persistent d) l) incdirs [] [].

(** Levels of nesting that can ever be used: one for the top level input plus the macro stack
    and include stack limits (termination is a theorem, see PpTermination). *)
Definition enough_fuel : nat :=
  S (S (max_macro_call_stack_size + include_depth_limit + 2)).

(** verilog_pp / verilog_pp_str, src/hdlConvertor.cpp:136-156.  The result is the text and the
    state of the macro database afterwards. *)
Definition verilog_pp_str (l : lang) (fs : fsys) (d : db) (incdirs : list str) (input : str)
  : outcome outbuf * pst :=
  (b <-- lift (new_buf 0) ;;; run_str enough_fuel l fs input b) (pp_init l d incdirs).
Definition verilog_pp_file (l : lang) (fs : fsys) (d : db) (incdirs : list str) (file : str)
  : outcome outbuf * pst :=
  (b <-- lift (new_buf 0) ;;; run_file enough_fuel l fs file b) (pp_init l d incdirs).
Definition text_of (r : outcome outbuf * pst) : outcome str :=
  match fst r with Ok b => Ok (ob_text b) | Throw e => Throw e | UB w => UB w
                 | OutOfFuel => OutOfFuel end.
