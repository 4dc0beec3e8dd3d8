(** Model of the conversion of Verilog generate constructs: src/svConvertor/generateParser.cpp.  The input is the
    parse tree (sv2017Parser.g4:2133-2239).  Attributes and positions are not modelled.  The vectors of objects are
    seen as vectors of definitions or statements by reinterpret_cast; the model has one type for all objects. *)
From Verif Require Import Base AstModel StmModel LitModel SvExprModel SvStmModel SvTypeModel SvDeclModel SvTfModel.

(** Items without generate items inside.  [GL_skipped]: checker, property, sequence, let, covergroup, clocking,
    assertion, final, DPI, class, bind, alias, defparam, UDP, extern, rand. *)
Inductive gleaf :=
| GL_inst (i : inst) | GL_gates (g : gates) | GL_local (b : pbody) | GL_param (b : pbody) | GL_semi | GL_net (n : net_decl) | GL_data (d : data_decl)
| GL_tf (f : tf) | GL_genvar (l : list ident) | GL_assign (l : list (vexpr * vexpr * str)) | GL_initial (s : vstm) | GL_always (k : always_kind) (d : str) (s : vstm)
| GL_task_call (e : vexpr)                                         (* elaboration system task *)
| GL_skipped.
(** genvar_initialization; genvar_iteration *)
Record ginit := mk_ginit { gi_genvar : bool; gi_name : ident; gi_value : vexpr; gi_doc : str }.
Inductive gstep := GS_assign (i : ident) (o : asgop) (e : vexpr) | GS_incdec (prefix incr : bool) (i : ident).
(** generate_item.  The identifiers of a block: in front of begin, after begin, after end. *)
Inductive gitem :=
| GI_leaf (l : gleaf)
| GI_block (pre name end_ : option ident) (l : list gitem)
| GI_for (i : ginit) (c : vexpr) (s : gstep) (b : gitem)
| GI_if (doc : str) (c : vexpr) (t : gitem) (e : option gitem)
| GI_case (doc : str) (sel : vexpr) (l : list (list vexpr * gitem))       (* no labels: default *)
| GI_region (l : list gitem).

(** The objects of the AST. *)
Inductive sobj :=
| SO_id (d : iddef) | SO_inst (c : compinst) | SO_func (f : sfunc) | SO_stm (s : stm)
| SO_block (h : hdr) (l : list sobj)
| SO_for (h : hdr) (init : list sobj) (c : expr) (step : stm) (b : sobj)
| SO_if (h : hdr) (c : expr) (t : sobj) (elifs : list (expr * sobj)) (f : option sobj)
| SO_case (h : hdr) (sel : expr) (l : list (expr * sobj)) (dflt : option sobj).

(** The statement of a gate, gateParser.cpp:148-177 *)
Definition of_gobj (g : gobj) : sobj := match g with GO_assign d s => SO_stm (SAssign hdr0 d s None None false) | GO_inst c => SO_inst c end.
(** visitGenvar_declaration, generateParser.cpp:424-438 *)
Definition conv_genvar (i : ident) : outcome iddef := n <- ident_str i ;; Ok (new_iddef n (EId $"genvar") None DIR_INTERNAL false).
(** visitModule_or_generate_or_interface_or_checker_item, visitModule_or_generate_or_interface_item,
    visitModule_or_generate_item, generateParser.cpp:44-423, for items without generate items inside: the objects
    and the parameters.  visitElaboration_system_task, statementParser.cpp:857-869 *)
Definition conv_gleaf (l : gleaf) : outcome (list sobj * list iddef) :=
  match l with
  | GL_inst i => r <- conv_inst i ;; Ok (map SO_inst r, [])
  | GL_gates g => r <- conv_gates g ;; Ok (map of_gobj r, [])
  | GL_local b => r <- conv_local b ;; Ok (map SO_id r, [])
  | GL_param b => r <- conv_pbody b ;; Ok ([], r)
  | GL_semi => Ok ([SO_stm (SNop hdr0)], [])
  | GL_net n => r <- conv_net_decl n ;; Ok (map SO_id r, [])
  | GL_data d => r <- conv_data d ;; Ok (map SO_id r, [])
  | GL_tf f => r <- conv_tf f ;; Ok ([SO_func r], [])
  | GL_genvar l => r <- mapM conv_genvar l ;; Ok (map SO_id r, [])
  | GL_assign l => r <- conv_cont_assign l ;; Ok (map SO_stm r, [])
  | GL_initial s => r <- conv_initial s ;; Ok ([SO_stm r], [])
  | GL_always k d s => r <- conv_always k d s ;; Ok ([SO_stm r], [])
  | GL_task_call e => x <- conv e ;; Ok ([SO_stm (SExpr hdr0 x)], [])
  | GL_skipped => Ok ([], [])
  end.
(** visitGenvar_initialization, generateParser.cpp:439-456 *)
Definition conv_ginit (g : ginit) : outcome sobj :=
  v <- conv (gi_value g) ;;
  if gi_genvar g then n <- ident_str (gi_name g) ;; Ok (SO_id (new_iddef n type_auto (Some v) DIR_INTERNAL true))
  else x <- visit_ident (gi_name g) ;; s <- mk_assign (hdr_doc (gi_doc g)) x v None None true ;; Ok (SO_stm s).
(** visitGenvar_iteration, generateParser.cpp:458-483 *)
Definition conv_gstep (s : gstep) : outcome stm :=
  match s with
  | GS_assign i o e => x <- visit_ident i ;; v <- conv e ;; Ok (SExpr hdr0 (mk2 x (visit_asgop o) v))
  | GS_incdec p b i => x <- visit_ident i ;; Ok (SExpr hdr0 (op1 (visit_incdec p b) x))
  end.
(** pop_block_if_possible, generateParser.cpp:622-628; the same in visitLoop_generate_construct 509-516 *)
Definition pop_block (l : list sobj) : sobj := match l with [o] => o | _ => SO_block hdr0 l end.
(** HdlStmIf_collapse_elifs, statementParser.cpp:30-58 *)
Definition join_doc (a b : str) : str := match b with [] => a | _ => match a with [] => b | _ => a ++ [nl] ++ b end end.
Definition collapse (o : sobj) : outcome sobj :=
  match o with
  | SO_if h c t elifs (Some (SO_if h2 c2 t2 elifs2 f2)) =>
      if Bool.eqb (in_preproc h) (in_preproc h2)
      then Ok (SO_if (mk_hdr (labels h) (join_doc (doc h) (doc h2)) (attrs h) (in_preproc h)) c t (elifs ++ (c2, t2) :: elifs2) f2)
      else UB "assert(ifStm.in_preproc == as_if->in_preproc)"
  | _ => Ok o
  end.
(** dynamic_cast<iHdlStatement*> and in_preproc = true, generateParser.cpp:32-39; definitions, functions and
    instances are no statements (hdlIdDef.h, hdlFunctionDef.h, hdlCompInst.h) *)
Definition set_pre (b : bool) (h : hdr) : hdr := mk_hdr (labels h) (doc h) (attrs h) b.
Definition mark (b : bool) (o : sobj) : sobj :=
  match o with
  | SO_stm s => SO_stm (set_hdr (set_pre b) s)
  | SO_block h l => SO_block (set_pre b h) l
  | SO_for h i c s x => SO_for (set_pre b h) i c s x
  | SO_if h c t l f => SO_if (set_pre b h) c t l f
  | SO_case h s l d => SO_case (set_pre b h) s l d
  | SO_id _ | SO_inst _ | SO_func _ => o
  end.
Definition opt_ident (i : option ident) : outcome (list str) := match i with Some i => s <- ident_str i ;; Ok [s] | None => Ok [] end.
(** The only object of a case item, generateParser.cpp:578-588 *)
Definition the_one (l : list sobj) : outcome sobj := match l with [o] => Ok o | _ => UB "assert(_gi.size() == 1)" end.
(** The loop over the labels and bodies, generateParser.cpp:603-617 *)
Fixpoint split_alts (l : list (option expr * sobj)) (d : option sobj) : outcome (list (expr * sobj) * option sobj) :=
  match l with
  | [] => Ok ([], d)
  | (Some e, s) :: l' => r <- split_alts l' d ;; Ok ((e, s) :: fst r, snd r)
  | (None, s) :: l' =>
      match d with
      | Some _ => Throw (RuntimeError $"VerGenerateParser.visitCase_generate_construct case with multiple default")
      | None => split_alts l' (Some s)
      end
  end.
Section Alt.
Context (f : gitem -> outcome (list sobj)).
(** visitCase_generate_item, generateParser.cpp:564-592: the item is converted for every label *)
Definition conv_alt (a : list vexpr * gitem) : outcome (list (option expr * sobj)) :=
  match fst a with
  | [] => r <- f (snd a) ;; o <- the_one r ;; Ok [(None, o)]
  | _ => mapM (fun e => x <- conv e ;; r <- f (snd a) ;; o <- the_one r ;; Ok (match x with ENull => None | _ => Some x end, o)) (fst a)
  end.
End Alt.
(** visitGenerate_item (parameters are dropped), visitGenerate_begin_end_block, visitLoop_generate_construct,
    visitIf_generate_construct, visitCase_generate_construct, visitGenerate_region: generateParser.cpp:27-42, 493-711 *)
Fixpoint conv_gitem (g : gitem) : outcome (list sobj) :=
  match g with
  | GI_leaf l => r <- conv_gleaf l ;; Ok (fst r)
  | GI_block pre name end_ l =>
      r <- concatM conv_gitem l ;;
      a <- opt_ident pre ;; b <- opt_ident name ;; c <- opt_ident end_ ;;
      Ok [SO_block (mk_hdr (a ++ b ++ c) [] [] false) r]
  | GI_for i c s b =>
      i' <- conv_ginit i ;; c' <- conv c ;; s' <- conv_gstep s ;; r <- conv_gitem b ;;
      Ok [SO_for hdr0 [i'] c' s' (pop_block r)]
  | GI_if d c t e =>
      c' <- conv c ;; a <- conv_gitem t ;;
      b <- match e with Some e => r <- conv_gitem e ;; Ok (Some (pop_block r)) | None => Ok None end ;;
      o <- collapse (SO_if (hdr_doc d) c' (pop_block a) [] b) ;; Ok [o]
  | GI_case d sel l =>
      s <- conv sel ;; r <- concatM (conv_alt conv_gitem) l ;; q <- split_alts r None ;;
      Ok [SO_case (hdr_doc d) s (fst q) (snd q)]
  | GI_region l => r <- concatM conv_gitem l ;; Ok (map (mark true) r)
  end.
(** An item of a module: visitModule_item, visitModule_item_item, moduleParser.cpp; the objects and the parameters
    of the module *)
Definition conv_top (g : gitem) : outcome (list sobj * list iddef) :=
  match g with GI_leaf l => conv_gleaf l | _ => r <- conv_gitem g ;; Ok (r, []) end.
