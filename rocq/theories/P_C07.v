(** C07: a later define of the same name takes effect. *)
From Verif Require Import Base OutBufferModel PpLexerModel PpParserModel MacroDefModel PpModel PpSpec PpCondProofs.

(** A define directive of an undefined name gives it the macro it denotes, leaves the meaning of
    every other name unchanged.  Missing: redefinition, which the code ignores. *)
Theorem C07_define_partial src d st st' : visit_define src d st = (Ok tt, st') ->
  (exists m, macro_of d = Ok m /\
    (db_find (ps_db st) (dd_name d) = None ->
     db_find (ps_db st') (dd_name d) = Some (mkEntry false (MUser m)))) /\
  (forall e, db_find (ps_db st) (dd_name d) = Some e -> db_find (ps_db st') (dd_name d) = Some e) /\
  (forall k, k <> dd_name d -> db_find (ps_db st') k = db_find (ps_db st) k).
Proof. exact (define_effect src d st st'). Qed.
Print Assumptions C07_define_partial.

(** Any sequence of defines with distinct names: afterwards each name means its own definition,
    all other names mean what they did. *)
Theorem C07_defines_partial l fs rs rf src added ds st st' out out' :
  visit_texts l fs rs rf src added (defines ds) out st = (Ok out', st') ->
  out' = out /\
  (forall k e, db_find (ps_db st) k = Some e -> db_find (ps_db st') k = Some e) /\
  (forall k, ~ In k (map dd_name ds) -> db_find (ps_db st') k = db_find (ps_db st) k) /\
  (NoDup (map dd_name ds) -> forall d, In d ds -> db_find (ps_db st) (dd_name d) = None ->
     exists m, macro_of d = Ok m /\ db_find (ps_db st') (dd_name d) = Some (mkEntry false (MUser m))).
Proof. exact (defines_effect l fs rs rf src added ds st st' out out'). Qed.
Print Assumptions C07_defines_partial.

(** Undef, with the memory error of C08 disregarded: the name is no longer defined unless it is
    persistent, other names are untouched. *)
Theorem C07_undef_partial name st st' : visit_undef_lenient name st = (Ok tt, st') ->
  (forall e, db_find (ps_db st') name = Some e -> e_persistent e = true) /\
  (forall k, k <> name -> db_find (ps_db st') k = db_find (ps_db st) k).
Proof. exact (undef_lenient_effect name st st'). Qed.
Print Assumptions C07_undef_partial.

(** Redefinition: the first definition stays (std::map::insert). *)
Theorem C07_redefinition_refuted :
  text_of (verilog_pp_str SV2012 (fun _ => None) [] []
     ($"`define A 1" ++ [nl] ++ $"`define A 2" ++ [nl] ++ $"`A")) = Ok ([nl; nl] ++ $"1").
Proof. vm_compute. reflexivity. Qed.
Print Assumptions C07_redefinition_refuted.

Example C07_ex :
  text_of (verilog_pp_str SV2012 (fun _ => None) [] []
     ($"`define A 1" ++ [nl] ++ $"`define B 2" ++ [nl] ++ $"`A`B")) = Ok ([nl; nl] ++ $"12").
Proof. vm_compute. reflexivity. Qed.
Definition d7 (n : str) : ddef := mkDef (mkTok T_ID CH_DEFAULT n n 1 0) n None None.
Example C07_hyp : exists out' st',
  visit_texts SV2012 (fun _ => None) (fun _ _ => lift OutOfFuel) (fun _ _ => lift OutOfFuel) [] false
    (defines [d7 $"A"; d7 $"B"]) (mkBuf [] [] 0 0 0) (pp_init SV2012 [] []) = (Ok out', st').
Proof. vm_compute. eauto. Qed.
