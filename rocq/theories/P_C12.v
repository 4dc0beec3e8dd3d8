(** C12: include lookup uses the first directory that has the file, and the context is restored. *)
From Verif Require Import Base OutBufferModel PpLexerModel PpParserModel PpModel PpSpec PpRunProofs PpMonoProofs PpCondProofs.

(** Lookup finds the file in the first directory that has it, and fails iff none has it. *)
Theorem C12_lookup fs dirs p : p <> [] ->
  match find_include fs dirs p with
  | Ok (Some name) => first_dir_with fs dirs (file_of_arg p) name
  | Ok None => forall d, In d dirs -> fs (path_join d (file_of_arg p)) = None
  | _ => False
  end.
Proof. exact (fun H => find_include_spec fs p H dirs). Qed.
Print Assumptions C12_lookup.
Theorem C12_lookup_unique fs dirs f n n' : first_dir_with fs dirs f n -> first_dir_with fs dirs f n' -> n = n'.
Proof. exact (first_dir_unique fs dirs f n n'). Qed.
Print Assumptions C12_lookup_unique.

(** No directory has the file: ParseException. *)
Theorem C12_missing l fs rs rf src added tok p out st : p <> [] ->
  (forall d, In d (ps_incdirs st) -> fs (path_join d (file_of_arg p)) = None) ->
  exists msg, visit_include l fs rs rf src added tok (inl p) out st = (Throw (ParseException msg), st).
Proof. exact (fun Hp H => ex_intro _ _ (include_missing l fs rs rf src added tok p out st Hp H)). Qed.
Print Assumptions C12_missing.

(** A successful include appends exactly the result of preprocessing that file, with the macros
    defined so far, and keeps its effects on the macros. *)
Theorem C12_found l fs rs rf src added tok p out st out' st' : p <> [] ->
  visit_include l fs rs rf src added tok (inl p) out st = (Ok out', st') ->
  exists name b st0 st1, first_dir_with fs (ps_incdirs st) (file_of_arg p) name /\
    ps_db st0 = ps_db st /\
    rf name (mkBuf [] [] 0 0 0) st0 = (Ok b, st1) /\
    out' = buf_append out b /\ ps_db st' = ps_db st1.
Proof. exact (include_found l fs rs rf src added tok p out st out' st'). Qed.
Print Assumptions C12_found.

(** Processing a file at any nesting level restores include list, include stack and macro stack. *)
Theorem C12_restored l fs fuel file out st b st' :
  db_ok (ps_db st) -> (0 <= ob_begin out)%Z -> accounted out -> length (ps_incstack st) <= 100 ->
  run_file fuel l fs file out st = (Ok b, st') -> ctx_eq st st'.
Proof.
  intros H1 H2 H3 H4 E.
  pose proof (proj2 (run_spec l fs (fuel + need st)) file out st H1 (conj H2 H3) H4 (Nat.le_add_l _ _)) as P.
  rewrite (run_file_more l fs fuel (fuel + need st) file out st) in P;
    [rewrite E in P; exact (proj1 P)|rewrite E; discriminate|apply Nat.le_add_r].
Qed.
Print Assumptions C12_restored.
Theorem C12_restored_top l fs d dirs file b st' : db_ok d ->
  verilog_pp_file l fs d dirs file = (Ok b, st') -> ctx_eq (pp_init l d dirs) st'.
Proof.
  intros H E. pose proof (verilog_pp_file_spec l fs d dirs file H) as P. rewrite E in P. exact (proj1 P).
Qed.
Print Assumptions C12_restored_top.

Definition fs12 : fsys := fun f =>
  if seqb f $"x/top.v" then Some ($"`include ""a.v""" ++ [nl] ++ $"`include ""b.v""")
  else if seqb f $"p/a.v" then Some $"A1"
  else if seqb f $"q/a.v" then Some $"A2"
  else if seqb f $"q/b.v" then Some ($"`include ""a.v""")
  else None.
Example C12_ex : text_of (verilog_pp_file SV2012 fs12 [] [$"n"; $"p"; $"q"] $"x/top.v") = Ok $"A1A1".
Proof. vm_compute. reflexivity. Qed.
Example C12_ex_order : text_of (verilog_pp_file SV2012 fs12 [] [$"q"; $"p"] $"x/top.v") = Ok $"A2A2".
Proof. vm_compute. reflexivity. Qed.
Example C12_ex_missing : exists msg, text_of (verilog_pp_file SV2012 fs12 [] [$"p"] $"x/top.v") = Throw (ParseException msg).
Proof. vm_compute. eauto. Qed.
