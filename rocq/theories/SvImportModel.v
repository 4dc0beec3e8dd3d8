(** Model of import declarations of SystemVerilog. *)
From Verif Require Import Base AstModel LitModel SvExprModel.

(** package_import_item, sv2017Parser.g4:827-830: [None] is the star *)
Definition import_item : Type := ident * option ident.
Definition conv_import_item (i : import_item) : outcome (list expr) :=
  p <- visit_ident (fst i) ;; n <- match snd i with Some n => visit_ident n | None => Ok (ESym symb_ALL) end ;; Ok [p; n].
(** visitPackage_import_declaration, declrParser.cpp:63-82: the paths of all HdlStmImport objects made; there
    is one object.  Positions and doc comments are not modelled. *)
Definition conv_import (l : list import_item) : outcome (list (list expr)) := r <- mapM conv_import_item l ;; Ok [List.concat r].
(** visitModule_header_common, moduleParser.cpp:41-45: imports in the header of a module are dropped *)
Definition conv_header_imports (l : list (list import_item)) : outcome (list (list expr)) := Ok [].
