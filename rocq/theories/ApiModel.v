(** Model of the error logger and of the parse entry points: src/syntaxErrorLogger.cpp,
    include/hdlConvertor/parserContainer.h, src/hdlConvertor.cpp, hdlConvertor/_hdlConvertor.pyx. *)
From Verif Require Import Base OutBufferModel PpModel EncodingModel.

(** ErrorData, include/hdlConvertor/syntaxErrorLogger.h:12-25 (without the unused kind). *)
Record err := mkErr { er_file : str; er_line : Z; er_col : Z; er_msg : str }.
(** What ANTLR passes to syntaxError: line (from 1), column (from 0), message. *)
Record report := mkRep { rp_line : Z; rp_col : Z; rp_msg : str }.

(** SyntaxErrorLogger::syntaxError, syntaxErrorLogger.cpp:35-55; [map] is *file_line_map or None. *)
Definition log_error (map : option (list lm_item)) (source : str) (r : report) : outcome err :=
  match map with
  | Some m =>
      match rev m with
      | lm :: _ =>
          if (rp_line r <? lm_line lm)%Z then UB "assert(line >= lm.line)"
          else Ok (mkErr (lm_file lm) (to_size (lm_over lm + (rp_line r - lm_line lm))) (rp_col r) (rp_msg r))
      | [] => Ok (mkErr source (rp_line r) (rp_col r) (rp_msg r))
      end
  | None => Ok (mkErr source (rp_line r) (rp_col r) (rp_msg r))
  end.
Fixpoint log_errors (map : option (list lm_item)) (source : str) (rs : list report) : outcome (list err) :=
  match rs with
  | [] => Ok []
  | r :: rs' => e <- log_error map source r ;; es <- log_errors map source rs' ;; Ok (e :: es)
  end.

(** SyntaxErrorLogger::check_errors, syntaxErrorLogger.cpp:22-33; the column is cast to uint32_t. *)
Definition error_line (prefix : str) (e : err) : str :=
  er_file e ++ $":" ++ Z_str (er_line e) ++ $":" ++ Z_str (er_col e mod 4294967296) ++ $":"
  ++ prefix ++ $"SyntaxError:" ++ er_msg e ++ [nl].
Definition check_errors (prefix : str) (es : list err) : outcome unit :=
  match es with
  | [] => Ok tt
  | _ => Throw (ParseException ([nl] ++ concat (map (error_line prefix) es)))
  end.

(** What exists under a file name: stat() succeeds or not; a directory or an unreadable file is
    present but cannot be read. *)
Inductive fentry := FFile (bytes : str) | FUnreadable.

Section Api.
  Variable obj : Type.
  (** The ANTLR generated lexers and parsers with the conversion visitors, as unknown functions:
      the syntax errors reported for a text, and the objects the visitor appends to the context,
      with the exception that ended the visit if there was one. *)
  Variable vhdl_syntax : str -> list report.
  Variable vhdl_visit : bool -> str -> list obj * option exn.
  Variable sv_syntax : lang -> str -> list report.
  Variable sv_visit : lang -> bool -> str -> list obj * option exn.

  (** Result of an entry point: the outcome and the objects of the context afterwards. *)
  Definition res := (outcome unit * list obj)%type.

  (** iParserContainer::_parse with parseFn, parserContainer.h:87-102, hdlConvertor.cpp:27-32,78-84.
      The second check_errors call sees the same (empty) list. *)
  Definition run_parser (map : option (list lm_item)) (source : str) (reports : list report)
      (v : list obj * option exn) (ctx : list obj) : res :=
    match log_errors map source reports with
    | Ok es =>
        match check_errors [] es with
        | Ok _ => let '(os, e) := v in
                  (match e with None => check_errors [] es | Some x => Throw x end, ctx ++ os)
        | Throw x => (Throw x, ctx)
        | UB w => (UB w, ctx)
        | OutOfFuel => (OutOfFuel, ctx)
        end
    | Throw x => (Throw x, ctx)
    | UB w => (UB w, ctx)
    | OutOfFuel => (OutOfFuel, ctx)
    end.

  (** VHDL: iParserContainer::parse_str, parserContainer.h:80-85. *)
  Definition vhdl_parse_text (h : bool) (source text : str) (ctx : list obj) : res :=
    run_parser None source (vhdl_syntax text) (vhdl_visit h text) ctx.
  Definition vhdl_parse_str (h : bool) (enc s : str) (ctx : list obj) : res :=
    match to_utf8 s enc with
    | Ok t => vhdl_parse_text h $"<string>" t ctx
    | Throw x => (Throw x, ctx) | UB w => (UB w, ctx) | OutOfFuel => (OutOfFuel, ctx)
    end.
  (** VHDL: iParserContainer::parse_file, parserContainer.h:64-78; tellg() of an unreadable file is
      -1 and the string constructor throws std::length_error. *)
  Definition vhdl_parse_file (h : bool) (enc f : str) (c : fentry) (ctx : list obj) : res :=
    match c with
    | FFile s =>
        match to_utf8 s enc with
        | Ok t => vhdl_parse_text h f t ctx
        | Throw x => (Throw x, ctx) | UB w => (UB w, ctx) | OutOfFuel => (OutOfFuel, ctx)
        end
    | FUnreadable => (Throw (OutOfRange $"basic_string::_M_create"), ctx)
    end.

  (** SVParserContainer::parse_file / parse_str, hdlConvertor.cpp:50-76.  file_line_map is copied
      into the container but never handed to the logger.  The preprocessor model reads utf-8. *)
  Definition sv_parse_text (l : lang) (h : bool) (source : str) (r : outcome outbuf * pst)
      (ctx : list obj) : res * db :=
    let '(o, st) := r in
    (match o with
     | Ok b => run_parser None source (sv_syntax l (ob_text b)) (sv_visit l h (ob_text b)) ctx
     | Throw x => (Throw x, ctx) | UB w => (UB w, ctx) | OutOfFuel => (OutOfFuel, ctx)
     end, ps_db st).
  Definition pp_fs (fs : str -> option fentry) : fsys :=
    fun f => match fs f with Some (FFile s) => Some s | _ => None end.
  Definition sv_parse_file (l : lang) (h : bool) (fs : str -> option fentry) (d : db) (dirs : list str)
      (f : str) (ctx : list obj) : res * db :=
    sv_parse_text l h f (verilog_pp_file l (pp_fs fs) d dirs f) ctx.
  Definition sv_parse_str (l : lang) (h : bool) (fs : str -> option fentry) (d : db) (dirs : list str)
      (s : str) (ctx : list obj) : res * db :=
    sv_parse_text l h $"<string>" (verilog_pp_str l (pp_fs fs) d dirs s) ctx.

  Definition is_verilog_lang (l : lang) : bool := lang_ge l VERILOG1995 && lang_ge SV2017 l.

  (** HdlConvertor::parse, hdlConvertor.cpp:91-116 (utf-8 sources for Verilog). *)
  Fixpoint parse_files (l : lang) (h : bool) (fs : str -> option fentry) (enc : str) (dirs : list str)
      (files : list str) (d : db) (ctx : list obj) : res * db :=
    match files with
    | [] => ((Ok tt, ctx), d)
    | f :: files' =>
        match fs f with
        | None => ((Throw (ParseException (f ++ $" does not exist.")), ctx), d)
        | Some c =>
            let '(r, d') :=
              match l with
              | VHDL => (vhdl_parse_file h enc f c ctx, d)
              | _ => if is_verilog_lang l then sv_parse_file l h fs d dirs f ctx
                     else ((Throw (RuntimeError $"Unsupported language."), ctx), d)
              end in
            match fst r with
            | Ok _ => parse_files l h fs enc dirs files' d' (snd r)
            | _ => (r, d')
            end
        end
    end.
  (** HdlConvertor::parse_str, hdlConvertor.cpp:118-134. *)
  Definition parse_text (l : lang) (h : bool) (fs : str -> option fentry) (enc : str) (dirs : list str)
      (s : str) (d : db) (ctx : list obj) : res * db :=
    match l with
    | VHDL => (vhdl_parse_str h enc s ctx, d)
    | _ => if is_verilog_lang l then sv_parse_str l h fs d dirs s ctx
           else ((Throw (RuntimeError $"Unsupported language."), ctx), d)
    end.

  (** HdlConvertorPy.parse / parse_str, _hdlConvertor.pyx:136-223: the value returned to Python (the
      whole context of the convertor, or a fresh empty one) and the context afterwards. *)
  Definition returned (r : res) : outcome (list obj) :=
    match fst r with Ok _ => Ok (snd r) | Throw x => Throw x | UB w => UB w | OutOfFuel => OutOfFuel end.
  Definition py_parse (l : lang) h fs enc dirs (files : list str) (d : db) (ctx : list obj)
    : outcome (list obj) * list obj * db :=
    match files with
    | [] => (Ok [], ctx, d)
    | _ => let '(r, d') := parse_files l h fs enc dirs files d ctx in (returned r, snd r, d')
    end.
  Definition py_parse_str (l : lang) h fs enc dirs (s : str) (d : db) (ctx : list obj)
    : outcome (list obj) * list obj * db :=
    match s with
    | [] => (Ok [], ctx, d)
    | _ => let '(r, d') := parse_text l h fs enc dirs s d ctx in (returned r, snd r, d')
    end.
End Api.
