(** What can be converted to Python, and the AST as Python sees it: [readable] leaves out null pointers, unknown directions,
    do-while loops and texts that are not UTF-8; [seen] is the AST without the differences that Python does not keep. *)
From Verif Require Import Base AstModel StmModel PySpec PyObjModel PyObjSpec.
From Verif Require Import SvDeclModel VhdlDeclModel.

(** ** What can be converted *)
Fixpoint readable (e : expr) : bool :=
  match e with
  | EId s => negb (length s =? 0) && sendable_text s
  | EInt _ (Digits d _) => sendable_text d
  | EInt _ (Val _) => true
  | EStr s => sendable_text s
  | EArr l | EOp _ l => forallb readable l
  | EFloat _ | ESym _ | ENotImpl => true
  | ENull => false
  end.
Definition readable_type (e : expr) : bool := match e with ENull => true | _ => readable e end.
Definition readable_attrs (l : list (str * option expr)) : bool := forallb (fun a => sendable_text (fst a) && opt_all readable (snd a)) l.
Definition readable_hdr (h : hdr) : bool := sendable_text (doc h) && forallb sendable_text (labels h) && readable_attrs (attrs h).
Definition known_dir (d : direction) : bool := match d with DIR_UNKNOWN => false | _ => true end.
(** [readable_head]: all of a definition but the value *)
Definition readable_head (d : iddef) : bool :=
  sendable_text (d_name d) && sendable_text (d_doc d) && readable_type (d_type d) && known_dir (d_dir d) && readable_attrs (d_attrs d).
Definition readable_def (d : iddef) : bool := readable_head d && opt_all readable (d_value d).
(** Statements without parts that are statements. *)
Definition readable_leaf (s : stm) : bool :=
  match s with
  | SNop h | SBreak h | SContinue h => readable_hdr h
  | SExpr _ e => readable e
  | SAssign h d s td ed _ => readable_hdr h && readable d && readable s && opt_all readable td && opt_all (forallb readable) ed
  | SWait h l => readable_hdr h && forallb readable l
  | SReturn h e => readable_hdr h && opt_all readable e
  | _ => false
  end.
Definition readable_nhdr (h : nhdr) : bool := sendable_text (n_name h) && sendable_text (n_doc h) && readable_attrs (n_attrs h).
Definition readable_member (m : option str * option expr) : bool := opt_all sendable_text (fst m) && opt_all readable (snd m).
Definition readable_unit (m : str * option expr) : bool := sendable_text (fst m) && opt_all readable (snd m).
Definition readable_tval (v : tval) : bool :=
  match v with
  | TV_expr e => readable e
  | TV_enum l => forallb readable_member l
  | TV_physical r l => readable r && forallb readable_unit l
  | TV_record l => forallb readable_def l
  end.
Fixpoint readable_obj (o : obj) : bool :=
  match o with
  | B_id d => readable_def d
  | B_type d v => readable_head d && readable_tval v
  | B_func h f ps ret body => readable_nhdr h && opt_all (forallb readable_def) ps && opt_all readable ret && forallb readable_obj body
  | B_dec h gs ps l => readable_nhdr h && forallb readable_def gs && forallb readable_def ps && forallb readable_obj l
  | B_def h m d l => readable_nhdr h && opt_all readable m && match d with Some d => readable_obj d | None => true end && forallb readable_obj l
  | B_space h _ l => readable_nhdr h && forallb readable_obj l
  | B_inst c _ a => readable (ci_name c) && readable (ci_module c) && forallb readable (ci_generics c) && forallb readable (ci_ports c) && readable_attrs a
  | B_library h => readable_nhdr h
  | B_import h l => readable_hdr h && forallb readable l
  | B_process h se _ b => readable_hdr h && opt_all (forallb readable) se && readable_obj b
  | B_block h _ l => readable_hdr h && forallb readable_obj l
  | B_if h c t l f => readable_hdr h && readable c && readable_obj t && forallb (fun p => match p with (e, b) => readable e && readable_obj b end) l &&
      match f with Some b => readable_obj b | None => true end
  | B_case h _ _ e l d => readable_hdr h && readable e && forallb (fun p => match p with (e, b) => readable e && readable_obj b end) l &&
      match d with Some b => readable_obj b | None => true end
  | B_for h i c st b => readable_hdr h && readable_obj i && readable c && readable_obj st && readable_obj b
  | B_forin h l c b => readable_hdr h && forallb readable_obj l && readable c && readable_obj b
  | B_while h c b => readable_hdr h && readable c && readable_obj b
  | B_repeat h n b => readable_hdr h && readable n && readable_obj b
  | B_stm s => readable_leaf s
  | B_null => false
  end.

(** ** What Python sees *)
(** open is null; a width of 0 or less is no width. *)
Fixpoint seen (e : expr) : expr :=
  match e with
  | EInt b v => EInt (if (0 <? b)%Z then b else -1) v
  | ESym symb_OPEN => ESym symb_NULL
  | EArr l => EArr (map seen l)
  | EOp o l => EOp o (map seen l)
  | _ => e
  end.
(** An optional value that is null is no value. *)
Definition told_apart (e : expr) : bool := match e with ESym symb_NULL => false | _ => true end.
Definition seen_opt (o : option expr) : option expr :=
  match o with Some e => if told_apart (seen e) then Some (seen e) else None | None => None end.
Definition seen_type (e : expr) : expr := if told_apart (seen e) then seen e else ENull.
Definition seen_attrs (l : list (str * option expr)) : list (str * option expr) := map (fun a => (fst a, seen_opt (snd a))) l.
Definition seen_hdr (h : hdr) : hdr := mk_hdr (labels h) (doc h) (seen_attrs (attrs h)) (in_preproc h).
Definition with_value (d : iddef) (v : option expr) : iddef :=
  mk_iddef (d_name d) (seen_type (d_type d)) v (d_dir d) (d_latched d) (d_const d) (d_static d) (d_shared d) (d_alias d) (d_doc d) (seen_attrs (d_attrs d)).
Definition seen_def (d : iddef) : iddef := with_value d (seen_opt (d_value d)).
(** An expression that is a statement has no labels, no documentation and no attributes; an empty list of events is none. *)
Definition seen_leaf (s : stm) : stm :=
  match s with
  | SNop h => SNop (seen_hdr h)
  | SBreak h => SBreak (seen_hdr h)
  | SContinue h => SContinue (seen_hdr h)
  | SExpr _ e => SExpr hdr0 (seen e)
  | SAssign h d s td ed b => SAssign (seen_hdr h) (seen d) (seen s) (seen_opt td) (match ed with Some (x :: l) => Some (map seen (x :: l)) | _ => None end) b
  | SWait h l => SWait (seen_hdr h) (map seen l)
  | SReturn h e => SReturn (seen_hdr h) (seen_opt e)
  | _ => s
  end.
Definition seen_nhdr (h : nhdr) : nhdr := mk_nhdr (n_name h) (n_doc h) (seen_attrs (n_attrs h)).
Definition seen_tval (v : tval) : tval :=
  match v with
  | TV_expr e => TV_expr (seen e)
  | TV_enum l => TV_enum (map (fun m => (fst m, seen_opt (snd m))) l)
  | TV_physical r l => TV_physical (seen r) (map (fun m => (fst m, seen_opt (snd m))) l)
  | TV_record l => TV_record (map seen_def l)
  end.
(** The documentation of an instance is not seen; a type that is an expression is a value; an else branch that is null is
    no branch. *)
Fixpoint seen_obj (o : obj) : obj :=
  let part (x : option obj) := match x with Some b => let y := seen_obj b in if obj_not_none y then Some y else None | None => None end in
  match o with
  | B_id d => B_id (seen_def d)
  | B_type d (TV_expr e) => B_id (with_value d (seen_opt (Some e)))
  | B_type d v => B_type (with_value d None) (seen_tval v)
  | B_func h f ps ret body => B_func (seen_nhdr h) f (option_map (map seen_def) ps) (seen_opt ret) (map seen_obj body)
  | B_dec h gs ps l => B_dec (seen_nhdr h) (map seen_def gs) (map seen_def ps) (map seen_obj l)
  | B_def h m d l => B_def (seen_nhdr h) (seen_opt m) (part d) (map seen_obj l)
  | B_space h x l => B_space (seen_nhdr h) x (map seen_obj l)
  | B_inst c _ a => B_inst (mk_compinst (seen (ci_name c)) (seen (ci_module c)) (map seen (ci_generics c)) (map seen (ci_ports c))) [] (seen_attrs a)
  | B_library h => B_library (seen_nhdr h)
  | B_import h l => B_import (seen_hdr h) (map seen l)
  | B_process h se t b => B_process (seen_hdr h) (option_map (map seen) se) t (seen_obj b)
  | B_block h j l => B_block (seen_hdr h) j (map seen_obj l)
  | B_if h c t l f => B_if (seen_hdr h) (seen c) (seen_obj t) (map (fun p => match p with (e, b) => (seen e, seen_obj b) end) l) (part f)
  | B_case h u k e l d => B_case (seen_hdr h) u k (seen e) (map (fun p => match p with (e, b) => (seen e, seen_obj b) end) l) (part d)
  | B_for h i c st b => B_for (seen_hdr h) (seen_obj i) (seen c) (seen_obj st) (seen_obj b)
  | B_forin h l c b => B_forin (seen_hdr h) (map seen_obj l) (seen c) (seen_obj b)
  | B_while h c b => B_while (seen_hdr h) (seen c) (seen_obj b)
  | B_repeat h n b => B_repeat (seen_hdr h) (seen n) (seen_obj b)
  | B_stm s => B_stm (seen_leaf s)
  | B_null => B_null
  end.
