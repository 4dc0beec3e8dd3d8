(** C21: files are parsed in order and results accumulate. *)
From Verif Require Import Base OutBufferModel PpModel PpSpec ApiModel ApiSpec ApiProofs.

(** [obj] and the generated parsers and visitors [vs vv ss sv] (VHDL and Verilog syntax errors and
    objects) are arbitrary. *)
(** Parsing a list of files behaves as parsing each of them alone, with the macros the user
    supplied and an empty context, and concatenating the objects in file order behind those
    already there; the first failing file ends it. *)
Theorem C21_order (obj : Type) vs (vv : bool -> str -> list obj * option exn) ss (sv : lang -> bool -> str -> list obj * option exn)
    l h fs enc dirs files d ctx : uniq d ->
  fst (parse_files obj vs vv ss sv l h fs enc dirs files d ctx) =
  let '(o, os) := in_order (map (fun f => fst (parse_files obj vs vv ss sv l h fs enc dirs [f] d [])) files) in (o, ctx ++ os).
Proof. intros H. exact (files_in_order obj vs vv ss sv l h fs enc dirs files d d ctx H eq_refl). Qed.

(** A missing file raises ParseException naming it; the objects of the files before it stay. *)
Theorem C21_missing (obj : Type) vs (vv : bool -> str -> list obj * option exn) ss (sv : lang -> bool -> str -> list obj * option exn)
    l h fs enc dirs before f after d ctx : uniq d -> fs f = None ->
  Forall (fun g => fst (fst (parse_files obj vs vv ss sv l h fs enc dirs [g] d [])) = Ok tt) before ->
  fst (parse_files obj vs vv ss sv l h fs enc dirs (before ++ f :: after) d ctx) =
  (Throw (ParseException (f ++ $" does not exist.")),
   ctx ++ concat (map (fun g => snd (fst (parse_files obj vs vv ss sv l h fs enc dirs [g] d []))) before)).
Proof. exact (missing_file obj vs vv ss sv l h fs enc dirs before f after d ctx). Qed.

(** An unsupported language raises and changes neither the objects nor the macros. *)
Theorem C21_unsupported (obj : Type) vs (vv : bool -> str -> list obj * option exn) ss (sv : lang -> bool -> str -> list obj * option exn)
    l h fs enc dirs f files d ctx : l = HWT \/ l = LANG_INVALID -> fs f <> None ->
  parse_files obj vs vv ss sv l h fs enc dirs (f :: files) d ctx = ((Throw (RuntimeError $"Unsupported language."), ctx), d).
Proof. exact (unsupported obj vs vv ss sv l h fs enc dirs f files d ctx). Qed.

(** Python: a successful parse of at least one file returns the earlier objects followed by the
    new ones.  Missing: an empty list of files. *)
Theorem C21_python_partial (obj : Type) vs (vv : bool -> str -> list obj * option exn) ss (sv : lang -> bool -> str -> list obj * option exn)
    l h fs enc dirs f files d ctx : uniq d ->
  let '(o, os) := in_order (map (fun f => fst (parse_files obj vs vv ss sv l h fs enc dirs [f] d [])) (f :: files)) in
  fst (py_parse obj vs vv ss sv l h fs enc dirs (f :: files) d ctx) =
  (match o with Ok _ => Ok (ctx ++ os) | Throw x => Throw x | UB w => UB w | OutOfFuel => OutOfFuel end, ctx ++ os).
Proof.
  intros H. pose proof (C21_order obj vs vv ss sv l h fs enc dirs (f :: files) d ctx H) as E.
  destruct (in_order _) as [o os]. unfold py_parse.
  destruct (parse_files obj vs vv ss sv l h fs enc dirs (f :: files) d ctx) as [r d']. cbn [fst] in *. subst r. destruct o; reflexivity.
Qed.
Print Assumptions C21_order.
Print Assumptions C21_missing.
Print Assumptions C21_unsupported.
Print Assumptions C21_python_partial.

(** parse([]) and parse_str("") return an empty context although the convertor holds objects. *)
Theorem C21_empty_refuted :
  py_parse nat (fun _ => []) (fun _ _ => ([2], None)) (fun _ _ => []) (fun _ _ _ => ([], None)) VHDL false (fun _ => None) $"utf-8" [] [] [] [1]
  = (Ok [], [1], []) /\
  py_parse_str nat (fun _ => []) (fun _ _ => ([2], None)) (fun _ _ => []) (fun _ _ _ => ([], None)) VHDL false (fun _ => None) $"utf-8" [] [] [] [1]
  = (Ok [], [1], []).
Proof. split; reflexivity. Qed.
Print Assumptions C21_empty_refuted.
Definition fs21 (f : str) : option fentry :=
  if seqb f $"a" then Some (FFile $"A") else if seqb f $"b" then Some (FFile $"B") else None.
Example C21_ex :
  fst (py_parse str (fun _ => []) (fun _ s => ([s], None)) (fun _ _ => []) (fun _ _ _ => ([], None)) VHDL false fs21 $"utf-8" []
    [$"a"; $"b"; $"c"; $"a"] [] [$"old"]) = (Throw (ParseException $"c does not exist."), [$"old"; $"A"; $"B"]).
Proof. vm_compute. reflexivity. Qed.
