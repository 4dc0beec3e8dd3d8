(** Model of the conversion of modules and whole files of Verilog: src/svConvertor/{moduleParser,source_textParser,
    attributeParser}.cpp.  The input is the parse tree with the text the comment parser (C47) finds in front of a module,
    a module item and a port.  Positions are not modelled. *)
From Verif Require Import Base AstModel StmModel LitModel SvExprModel SvStmModel SvTypeModel SvDeclModel SvTfModel SvGenModel SvImportModel.

(** module_header_common, sv2017Parser.g4:1439-1441 *)
Record mheader := mk_mheader { mh_doc : str; mh_attrs : list attr; mh_lifetime : option bool; mh_name : ident; mh_imports : list (list import_item); mh_params : option plist }.
(** list_of_port_declarations or ( .* ), sv2017Parser.g4:1620-1637; the names of a non-ANSI header may be missing *)
Inductive hports := HP_none | HP_all | HP_nonansi (l : list (option (str * naport))) | HP_ansi (l : list (str * list attr * ansi)).
(** module_item, sv2017Parser.g4:2235-2245.  [MT_skipped]: specify_block, program_declaration, interface_declaration,
    timeunits_declaration, and specparam_declaration. *)
Inductive mditem (M : Type) :=
| MT_region (l : list gitem) | MT_item (doc : str) (at_ : list attr) (g : gitem) | MT_ports (doc : str) (at_ : list attr) (n : nadecl)
| MT_module (m : M) | MT_skipped.
Arguments MT_region {M}. Arguments MT_item {M}. Arguments MT_ports {M}. Arguments MT_module {M}. Arguments MT_skipped {M}.
(** module_declaration: extern or not *)
Inductive mdecl := MD (ext : bool) (h : mheader) (p : hports) (l : list (mditem mdecl)).
(** description, sv2017Parser.g4:17-25.  [DE_skipped]: udp, interface, program, package, package_item, bind, config. *)
Inductive description := DE_module (m : mdecl) | DE_skipped.

(** HdlModuleDec and HdlModuleDef, hdlModuleDec.h, hdlModuleDef.h.  The name in a HdlModuleDef is that of its
    declaration.  [FO_other]: [doc] is in front of the documentation the object has itself, [at_] behind its
    attributes. *)
Record mdec := mk_mdec { md_name : str; md_doc : str; md_attrs : list (str * option expr); md_generics : list iddef; md_ports : list iddef }.
Inductive fobj := FO_id (d : iddef) | FO_other (doc : str) (at_ : list (str * option expr)) (o : sobj) | FO_dec (m : mdec) | FO_def (m : mdec) (l : list fobj).

(** Attributes that are added to the new objects of a vector by a destructor, attributeParser.h:26-50: an exception
    ends the process *)
Definition in_destructor {X} (x : outcome X) : outcome X := match x with Throw _ => UB "exception in a destructor" | _ => x end.
Definition new_attrs {X} (new : list X) (at_ : list attr) : outcome (list (str * option expr)) :=
  match new with [] => Ok [] | _ => in_destructor (mapM conv_attr at_) end.
Definition set_doc (d : iddef) (s : str) : iddef :=
  mk_iddef (d_name d) (d_type d) (d_value d) (d_dir d) (d_latched d) (d_const d) (d_static d) (d_shared d) (d_alias d) s (d_attrs d).
Definition more_attrs (a : list (str * option expr)) (d : iddef) : iddef :=
  mk_iddef (d_name d) (d_type d) (d_value d) (d_dir d) (d_latched d) (d_const d) (d_static d) (d_shared d) (d_alias d) (d_doc d) (d_attrs d ++ a).
(** The objects of a module body. *)
Definition of_sobj (o : sobj) : mobj fobj := match o with SO_id d => MO_id d | _ => MO_other (FO_other [] [] o) end.
Definition add_attr (a : list (str * option expr)) (o : mobj fobj) : mobj fobj :=
  match o with MO_id d => MO_id (more_attrs a d) | MO_other (FO_other d b x) => MO_other (FO_other d (b ++ a) x) | _ => o end.
Definition add_doc (s : str) (o : mobj fobj) : mobj fobj :=
  match o with MO_id d => MO_id (set_doc d (s ++ d_doc d)) | MO_other (FO_other d b x) => MO_other (FO_other (s ++ d) b x) | _ => o end.
Definition doc_first (s : str) (l : list (mobj fobj)) : list (mobj fobj) := match l with [] => [] | o :: l' => add_doc s o :: l' end.
Definition of_mobj (o : mobj fobj) : fobj := match o with MO_id d => FO_id d | MO_other x => x end.

(** visitList_of_port_declarations, portParser.cpp:101-134; ( .* ), moduleParser.cpp:73-79.  Here the attributes of the
    ports are converted after the ports; in the code the attributes of a port come before the next port. *)
Definition conv_hports (p : hports) : outcome (list iddef) :=
  match p with
  | HP_none => Ok []
  | HP_all => Ok [new_var $".*" (ESym symb_ALL) None]
  | HP_nonansi l => concatM (fun o => match o with Some (d, p) => x <- conv_naport p ;; Ok [set_doc x d] | None => Ok [] end) l
  | HP_ansi l =>
      ps <- conv_ansi_ports (map snd l) ;; ats <- mapM (fun x => mapM conv_attr (snd (fst x))) l ;;
      Ok (map (fun x => more_attrs (snd (snd x)) (set_doc (fst x) (fst (snd x)))) (combine ps (combine (map (fun x => fst (fst x)) l) ats)))
  end.
(** The declarations of a non-ANSI port declaration, portParser.cpp:202-254: the documentation is that of the first *)
Definition conv_mports (doc : str) (at_ : list attr) (n : nadecl) : outcome (list iddef) :=
  l <- conv_nadecl n ;; a <- new_attrs l at_ ;;
  Ok (map (more_attrs a) (match l with [] => [] | d :: l' => set_doc d doc :: l' end)).
(** The loop over the declarations, moduleParser.cpp:247-281.  The documentation of the item goes to the first port: a
    port of the header gets it instead of that of the declaration, which is dropped; a new port has it twice. *)
Definition add_decls (doc : str) (ports : list iddef) (l : list iddef) : outcome (list iddef) :=
  match l with
  | [] => Ok ports
  | d :: l' =>
      ps <- add_decl ports (set_doc d (match find_port (d_name d) ports with Some _ => doc | None => d_doc d ++ doc end)) ;;
      foldM add_decl ps l'
  end.
(** State of visitModule_declaration: generics, ports, objects of the body *)
Record mstate := mk_mstate { ms_generics : list iddef; ms_ports : list iddef; ms_objs : list (mobj fobj) }.
Section Item.
Context (conv_mdecl : mdecl -> outcome fobj).
(** visitModule_item, visitModule_item_item: moduleParser.cpp:157-281 *)
Definition run_mditem (st : mstate) (i : mditem mdecl) : outcome mstate :=
  match i with
  | MT_region l => r <- conv_gitem (GI_region l) ;; Ok (mk_mstate (ms_generics st) (ms_ports st) (ms_objs st ++ map of_sobj r))
  | MT_item doc at_ g =>
      r <- conv_top g ;;
      b <- new_attrs (snd r) at_ ;; a <- new_attrs (fst r) at_ ;;
      Ok (mk_mstate (ms_generics st ++ map (more_attrs b) (snd r)) (ms_ports st) (ms_objs st ++ map (add_attr a) (doc_first doc (map of_sobj (fst r)))))
  | MT_ports doc at_ n =>
      l <- conv_mports doc at_ n ;; ps <- add_decls doc (ms_ports st) l ;; Ok (mk_mstate (ms_generics st) ps (ms_objs st))
  | MT_module m => o <- conv_mdecl m ;; Ok (mk_mstate (ms_generics st) (ms_ports st) (ms_objs st ++ [MO_other o]))
  | MT_skipped => Ok st
  end.
End Item.
(** visitModule_header_common, moduleParser.cpp:28-50: lifetime and imports are not read *)
Definition conv_header (h : mheader) : outcome (list (str * option expr) * list iddef) :=
  a <- mapM conv_attr (mh_attrs h) ;; g <- match mh_params h with Some p => conv_plist p | None => Ok [] end ;; Ok (a, g).
(** visitModule_declaration, moduleParser.cpp:52-155 *)
Fixpoint conv_mdecl (m : mdecl) : outcome fobj :=
  match m with
  | MD ext h p l =>
      hg <- conv_header h ;; ps <- conv_hports p ;;
      let dec gs ps := mk_mdec (raw_text (mh_name h)) (mh_doc h) (fst hg) (map fill_type gs) ps in
      if ext then Ok (FO_dec (dec (snd hg) (map fill_type ps)))
      else
        st <- foldM (run_mditem conv_mdecl) (mk_mstate (snd hg) ps []) l ;;
        let '(ports, objs) := consume (ms_ports st) (ms_objs st) in
        Ok (FO_def (dec (ms_generics st) (fill_dirs DIR_INOUT ports)) (map of_mobj objs))
  end.
(** visitSource_text, visitDescription, source_textParser.cpp:17-121: everything else is dropped *)
Definition conv_source (l : list description) : outcome (list fobj) :=
  concatM (fun d => match d with DE_module m => o <- conv_mdecl m ;; Ok [o] | DE_skipped => Ok [] end) l.
