(** Verilog files in which every part has a meaning, also what is in branches of generate that are not taken.  Nothing
    here refers to the conversion. *)
From Verif Require Import Base AstModel LitModel SvExprModel SvExprSpec StmModel SvStmModel SvStmSpec SvTypeModel SvDeclModel SvDeclSpec SvInstSpec SvTfModel SvTfSpec SvGenModel SvGenSpec SvProcProofs SvTypeSpec SvFileModel SvFileSpec.

Section Whole.
Context (A : algebra) (M : machine A) (n : nat).
Definition given {X : Type} (o : option X) : bool := match o with Some _ => true | None => false end.
Definition whole_expr (e : vexpr) : bool := given (vmeaning A e).
Definition whole_attr (a : attr) : bool := given (plain_id (fst a)) && match snd a with Some e => whole_expr e | None => true end.
(** Items that are in the fragment of C76. *)
Definition whole_leaf (l : gleaf) : bool := kept_leaf A M n l && given (v_leaf A M n l).
(** An item of a case is one item: [wire a, b;] are two. *)
Definition one_leaf (l : gleaf) : bool := match l with GL_semi => true | _ => match v_leaf A M n l with Some [_] => true | _ => false end end.
Definition one_item (g : gitem) : bool := match g with GI_leaf l => one_leaf l | GI_region _ => false | _ => true end.
Definition no_region_here (g : gitem) : bool := match g with GI_region _ => false | _ => true end.
Definition whole_step (s : gstep) : bool :=
  match s with GS_assign i _ e => given (plain_id i) && whole_expr e | GS_incdec _ _ i => given (plain_id i) end.
Definition is_default (a : list vexpr * gitem) : bool := match fst a with [] => true | _ => false end.
Fixpoint whole_gitem (g : gitem) : bool :=
  match g with
  | GI_leaf l => whole_leaf l
  | GI_block pre name end_ l => given (block_name pre name end_) && forallb whole_gitem l
  | GI_for i c s b => given (plain_id (gi_name i)) && whole_expr (gi_value i) && whole_expr c && whole_step s && no_region_here b && whole_gitem b
  | GI_if _ c t f => whole_expr c && no_region_here t && whole_gitem t && match f with Some f => no_region_here f && whole_gitem f | None => true end
  | GI_case _ sel l =>
      whole_expr sel && labels_ok A l && (length (filter is_default l) <=? 1) && forallb (fun a => one_item (snd a) && whole_gitem (snd a)) l
  | GI_region l => forallb whole_gitem l
  end.
(** Every port of the body is in the header and declared once. *)
Definition whole_ports (p : hports) (ds : list (object A)) : bool :=
  match p with
  | HP_nonansi l => match omapM header_name l with Some names => distinct (map (ob_name A) ds) && forallb (fun d => mem (ob_name A d) names) ds | None => false end
  | _ => match ds with [] => true | _ => false end
  end.
Definition whole_header (p : hports) : bool :=
  match p with
  | HP_none | HP_all => true
  | HP_nonansi l => given (omapM header_name l)
  | HP_ansi l =>
      plain_ports None (map snd l) && forallb kept_ansi (spell_out V_INOUT None (map snd l)) && given (omapM (v_ansi A) (spell_out V_INOUT None (map snd l)))
      && forallb (fun x => forallb whole_attr (snd (fst x))) l
  end.
Fixpoint whole_module (m : mdecl) : bool :=
  match m with
  | MD ext h p l =>
      let whole_item (i : mditem mdecl) : bool :=
        match i with
        | MT_region l => forallb whole_gitem l
        | MT_item _ at_ (GI_leaf (GL_param b)) => forallb whole_attr at_ && given (body_params A i)
        | MT_item _ at_ g => forallb whole_attr at_ && whole_gitem g
        | MT_ports _ at_ _ => forallb whole_attr at_
        | MT_module m => whole_module m
        | MT_skipped => true
        end in
      forallb whole_attr (mh_attrs h) && given (v_plist A (mh_params h)) && whole_header p
      && (if ext then true else forallb whole_item l && match flat (body_ports A) l with Some ds => whole_ports p ds | None => false end)
  end.
Definition whole_file (f : list description) : bool := forallb (fun d => match d with DE_module m => whole_module m | DE_skipped => true end) f.
End Whole.
