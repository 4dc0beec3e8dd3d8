(** Calls of one convertor, one after the other (C100). *)
From Verif Require Import Base AstModel LitModel MacroDefModel PpModel ApiModel.

(** A call of parse or of parse_str with all its arguments.  [fs] are the files at the time of the call. *)
Inductive call :=
| Parse (l : lang) (hierarchy_only : bool) (fs : str -> option fentry) (enc : str) (dirs files : list str)
| ParseStr (l : lang) (hierarchy_only : bool) (fs : str -> option fentry) (enc : str) (dirs : list str) (text : str).
(** A call with nothing to parse: parse([]) or parse_str of the empty string. *)
Definition idle (c : call) : bool :=
  match c with Parse _ _ _ _ _ [] | ParseStr _ _ _ _ _ [] => true | _ => false end.
(** verilog_pp and verilog_pp_str may be called in between. *)
Inductive step := Call (c : call) | VerilogPp (l : lang) (fs : str -> option fentry) (dirs : list str) (file : str)
  | VerilogPpStr (l : lang) (fs : str -> option fentry) (dirs : list str) (text : str).

Section Calls.
  Variable obj : Type.
  Variable vhdl_syntax : str -> list report.
  Variable vhdl_visit : bool -> str -> list obj * option exn.
  Variable sv_syntax : lang -> str -> list report.
  Variable sv_visit : lang -> bool -> str -> list obj * option exn.
  (** A convertor: the objects of its context and its macros. *)
  Definition convertor : Type := (list obj * db)%type.
  (** The result of a call, which may be an exception, and the convertor afterwards (_hdlConvertor.pyx:136-223). *)
  Definition do_call (c : call) (s : convertor) : outcome (list obj) * convertor :=
    let '(r, ctx, d) :=
      match c with
      | Parse l h fs enc dirs files => py_parse obj vhdl_syntax vhdl_visit sv_syntax sv_visit l h fs enc dirs files (snd s) (fst s)
      | ParseStr l h fs enc dirs text => py_parse_str obj vhdl_syntax vhdl_visit sv_syntax sv_visit l h fs enc dirs text (snd s) (fst s)
      end in (r, (ctx, d)).
  (** The convertor after some calls, whatever their results.  verilog_pp and verilog_pp_str only preprocess
      (hdlConvertor.cpp:136-156: their context is a local variable, the macros are those of the convertor). *)
  Definition step_of (c : step) (s : convertor) : convertor :=
    match c with
    | Call c => snd (do_call c s)
    | VerilogPp l fs dirs file => (fst s, ps_db (snd (verilog_pp_file l (pp_fs fs) (snd s) dirs file)))
    | VerilogPpStr l fs dirs text => (fst s, ps_db (snd (verilog_pp_str l (pp_fs fs) (snd s) dirs text)))
    end.
  Fixpoint after (cs : list step) (s : convertor) : convertor :=
    match cs with [] => s | c :: cs' => after cs' (step_of c s) end.
  (** What a call gives on a new convertor with the macros [d]: the result and the objects. *)
  Definition alone (c : call) (d : db) : outcome (list obj) * list obj := let '(r, s) := do_call c ([], d) in (r, fst s).
  (** The objects that a step adds. *)
  Definition adds (c : step) (d : db) : list obj := match c with Call c => snd (alone c d) | _ => [] end.
End Calls.
(** The result with earlier objects in front. *)
Definition in_front {A : Type} (earlier : list A) (r : outcome (list A)) : outcome (list A) :=
  match r with Ok l => Ok (earlier ++ l) | other => other end.
