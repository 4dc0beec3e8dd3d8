(** What it means that all files were read and converted (C97). *)
From Verif Require Import Base AstModel EncodingModel OutBufferModel PpModel ApiModel SvFileModel ConvertModel VhdlDeclModel ConvertVhdlModel.

(** The call is over: with a result or with an exception.  It neither runs for ever nor does it have undefined behaviour. *)
Definition comes_back {A : Type} (o : outcome A) : Prop := (exists x, o = Ok x) \/ exists e, o = Throw e.

(** A VHDL text is one file of the language, and each of its units gives its objects. *)
Definition vhdl_whole (h : bool) (text : str) (objs : list hobj) : Prop := exists f, vhdl_tree text = Ok f /\ conv_file h f = Ok objs.
(** The same for a file, whose bytes are in the encoding enc. *)
Definition vhdl_file_whole (h : bool) (fs : str -> option fentry) (enc file : str) (objs : list hobj) : Prop :=
  exists bytes text, fs file = Some (FFile bytes) /\ to_utf8 bytes enc = Ok text /\ vhdl_whole h text objs.

(** A Verilog text without directives is one file of the language, and each of its modules gives its object. *)
Definition verilog_whole (l : lang) (text : str) (objs : list fobj) : Prop := exists f, sv_tree l text = Ok f /\ conv_source f = Ok objs.
(** Files are read one after the other: the preprocessor finishes each of them and hands its macros to the next. *)
Inductive verilog_files_whole (l : lang) (fs : str -> option fentry) (dirs : list str) : db -> list str -> list (list fobj) -> db -> Prop :=
| vw_nil d : verilog_files_whole l fs dirs d [] [] d
| vw_cons d file b st objs files rest d' :
    fs file <> None -> verilog_pp_file l (pp_fs fs) d dirs file = (Ok b, st) -> verilog_whole l (ob_text b) objs ->
    verilog_files_whole l fs dirs (ps_db st) files rest d' -> verilog_files_whole l fs dirs d (file :: files) (objs :: rest) d'.
