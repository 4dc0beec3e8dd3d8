(** Model of the type declarations of SystemVerilog: src/svConvertor/declrParser.cpp:17-60, 132-183.  Code positions
    and documentation comments are not modelled. *)
From Verif Require Import Base AstModel LitModel SvExprModel StmModel SvTypeModel SvDeclModel SvImportModel.

(** The word of a forward declaration *)
Inductive forward := F_enum | F_struct | F_union | F_class | F_interface_class.
(** type_declaration, sv2017Parser.g4:800-809:
    typedef t name [d] ...;   typedef word name;   typedef x [e] ... . m name;   typedef name; *)
Inductive typedef :=
| TY_type (t : dtype) (i : ident) (ds : list vdim)
| TY_forward (w : forward) (i : ident)
| TY_member (x : ident) (sel : list vexpr) (m i : ident)
| TY_plain (i : ident).
(** visitIdentifier_with_bit_select without a name before it, exprParser.cpp:480-491 *)
Definition conv_selected (x : ident) (sel : list vexpr) : outcome expr := e <- visit_ident x ;; conv_selects conv e sel.
(** visitType_declaration, declrParser.cpp:132-175.  In the last form there is no identifier_with_bit_select: lines
    164-165 call visitIdentifier_with_bit_select with a null pointer, which it dereferences. *)
Definition conv_typedef (t : typedef) : outcome iddef :=
  match t with
  | TY_type t i ds =>
      x <- conv_dtype t ;; l <- conv_vdims ds ;; n <- ident_str i ;; Ok (new_var n (ESym symb_T) (Some (snd (apply_dims x l))))
  | TY_forward _ i => n <- ident_str i ;; Ok (new_var n (ESym symb_T) (Some null_sym))
  | TY_member x sel m i =>
      e <- conv_selected x sel ;; y <- visit_ident m ;; n <- ident_str i ;; Ok (new_var n (ESym symb_T) (Some (mk2 e DOT y)))
  | TY_plain _ => UB "ctx->identifier() of a null pointer"
  end.
(** data_declaration, sv2017Parser.g4:1581-1588; of net_type_declaration (810-811) only the name is kept here *)
Inductive data_declaration :=
| DD_vars (d : data_decl) | DD_type (t : typedef) | DD_import (l : list import_item) | DD_nettype (i : ident).
Inductive declared := DO_id (d : iddef) | DO_import (path : list expr).
(** visitData_declaration, declrParser.cpp:17-60; visitNet_type_declaration, 176-183, only writes a message *)
Definition conv_data_declaration (d : data_declaration) : outcome (list declared) :=
  match d with
  | DD_vars d => r <- conv_data d ;; Ok (map DO_id r)
  | DD_type t => x <- conv_typedef t ;; Ok [DO_id x]
  | DD_import l => r <- conv_import l ;; Ok (map DO_import r)
  | DD_nettype _ => Ok []
  end.
