(** C19: syntax errors are never lost and never invented. *)
From Verif Require Import Base OutBufferModel PpModel ApiModel ApiSpec ApiProofs.

(** For every (unknown) generated parser and visitor: parse_str raises ParseException exactly when
    the parser reported an error, with a message that lists all of them in order, and then no
    object of the source is added; without a report the objects are returned. *)
Theorem C19_vhdl (obj : Type) vhdl_syntax (vhdl_visit : bool -> str -> list obj * option exn) sv_syntax sv_visit
    h fs dirs s d ctx :
  s <> [] -> columns_ok (vhdl_syntax s) -> snd (vhdl_visit h s) = None ->
  py_parse_str obj vhdl_syntax vhdl_visit sv_syntax sv_visit VHDL h fs $"utf-8" dirs s d ctx =
  match vhdl_syntax s with
  | [] => (Ok (ctx ++ fst (vhdl_visit h s)), ctx ++ fst (vhdl_visit h s), d)
  | rs => (Throw (ParseException (error_message $"<string>" rs)), ctx, d)
  end.
Proof. exact (vhdl_errors obj vhdl_syntax vhdl_visit sv_syntax sv_visit h fs dirs s d ctx). Qed.
Print Assumptions C19_vhdl.

(** The same for Verilog behind the preprocessor ([b] is its output). *)
Theorem C19_verilog (obj : Type) vhdl_syntax vhdl_visit sv_syntax (sv_visit : lang -> bool -> str -> list obj * option exn)
    l h fs dirs s d ctx b st :
  s <> [] -> is_verilog_lang l = true ->
  verilog_pp_str l (pp_fs fs) d dirs s = (Ok b, st) -> columns_ok (sv_syntax l (ob_text b)) ->
  snd (sv_visit l h (ob_text b)) = None ->
  py_parse_str obj vhdl_syntax vhdl_visit sv_syntax sv_visit l h fs $"utf-8" dirs s d ctx =
  match sv_syntax l (ob_text b) with
  | [] => (Ok (ctx ++ fst (sv_visit l h (ob_text b))), ctx ++ fst (sv_visit l h (ob_text b)), ps_db st)
  | rs => (Throw (ParseException (error_message $"<string>" rs)), ctx, ps_db st)
  end.
Proof. exact (sv_errors obj vhdl_syntax vhdl_visit sv_syntax sv_visit l h fs dirs s d ctx b st). Qed.
Print Assumptions C19_verilog.

(** The logger itself: it throws iff something was logged. *)
Theorem C19_logger p es : check_errors p es = Ok tt <-> es = [].
Proof. exact (check_errors_iff p es). Qed.
Print Assumptions C19_logger.
Example C19_ex :
  fst (fst (py_parse_str nat (fun _ => [mkRep 3 7 $"no viable alternative"; mkRep 4 0 $"extraneous input"])
    (fun _ _ => ([1], None)) (fun _ _ => []) (fun _ _ _ => ([], None)) VHDL false (fun _ => None) $"utf-8" [] $"x" [] []))
  = Throw (ParseException ([nl] ++ $"<string>:3:7:SyntaxError:no viable alternative" ++ [nl]
                                ++ $"<string>:4:0:SyntaxError:extraneous input" ++ [nl])).
Proof. vm_compute. reflexivity. Qed.
