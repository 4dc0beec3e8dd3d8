(** What generate constructs stand for (IEEE 1800 clause 27): the items that are there after elaboration, each with
    the scopes it is in and the values of the genvars it sees; for the source and for the AST.  Nothing here refers
    to the conversion. *)
From Verif Require Import Base AstModel StmModel LitModel SvExprModel SvExprSpec SvStmModel SvStmSpec SvTypeModel SvDeclModel SvTfModel SvGenModel.

Definition plain_id (i : ident) : option str := match i with IdPlain s => Some s | IdEsc _ => None end.
(** The name of a block: in front of begin or after it; the name after end repeats it. *)
Definition block_name (pre name end_ : option ident) : option (option str) :=
  match pre, name with
  | None, None => match end_ with None => Some None | Some _ => None end
  | Some i, None | None, Some i =>
      n <~ plain_id i ;;
      match end_ with None => Some (Some n) | Some j => m <~ plain_id j ;; if seqb m n then Some (Some n) else None end
  | Some _, Some _ => None
  end.

Section Elab.
(** Constant expressions have values in an arbitrary algebra; genvars have values in [N]. *)
Context (A : algebra) (N : Type).
Definition genv := list (str * N).
Definition gpath := list (option str * option N).                      (* the scopes; with a value for every step of a loop *)
Context (num : genv -> V A -> N) (test : genv -> V A -> bool) (matches : genv -> V A -> V A -> bool) (arith : asgop -> N -> N -> N) (one_more : bool -> N -> N).
Definition gres (L : Type) : Type := gpath * genv * L.
(** The place of an item: None in a list of items, Some i as the only item of a loop (with the value of the genvar)
    or of a branch.  A loop and a branch are a scope; the scope of a branch that is itself an if or case is the
    scope of its branch. *)
Definition place := option (option N).
Definition in_block (w : place) (n : option str) (p : gpath) : gpath := p ++ [(n, match w with Some i => i | None => None end)].
Definition in_single (w : place) (p : gpath) : gpath := match w with Some i => p ++ [(None, i)] | None => p end.
Definition in_choice (w : place) (p : gpath) : gpath := match w with Some (Some k) => p ++ [(None, Some k)] | _ => p end.

(** A loop: the body for every value until the condition is false; None after [m] steps. *)
Section Loop.
Context {L : Type} (go : N -> bool) (next : N -> N) (body : N -> option (list L)).
Fixpoint steps (m : nat) (k : N) : option (list L) :=
  match m with 0 => None | S m' => if go k then a <~ body k ;; r <~ steps m' (next k) ;; Some (a ++ r) else Some [] end.
End Loop.

(** ** The source *)
(** The value of the genvar after a step. *)
Definition s_next (x : str) (s : gstep) : option (N -> genv -> N) :=
  match s with
  | GS_assign i o e => y <~ plain_id i ;; v <~ vmeaning A e ;; if seqb y x then Some (fun k en => arith o k (num en v)) else None
  | GS_incdec _ b i => y <~ plain_id i ;; if seqb y x then Some (fun k _ => one_more b k) else None
  end.
Fixpoint s_match (e : genv) (w : V A) (ls : list vexpr) : option bool :=
  match ls with [] => Some false | l :: ls' => v <~ vmeaning A l ;; if matches e w v then Some true else s_match e w ls' end.
Section Choice.
Context {R : Type} (e : genv) (w : V A) (f : gitem -> option R).
(** The first alternative with a matching label; the alternative without labels if there is none. *)
Definition s_pick (d : option R) : list (list vexpr * gitem) -> option R :=
  fix go l := match l with
  | [] => d
  | (ls, g) :: l' => t <~ s_match e w ls ;; if t then f g else go l'
  end.
Definition s_default (d : option R) : list (list vexpr * gitem) -> option R :=
  fix go l := match l with [] => d | (ls, g) :: l' => match ls with [] => f g | _ => go l' end end.
End Choice.
Definition labels_ok (l : list (list vexpr * gitem)) : bool := forallb (fun a => forallb (fun e => match vmeaning A e with Some _ => true | None => false end) (fst a)) l.
(** None: outside of the fragment (a parameter in a generate block, a region in a branch, names that do not fit). *)
Fixpoint s_gen (n : nat) (g : gitem) (w : place) (p : gpath) (e : genv) : option (list (gres gleaf)) :=
  match g with
  | GI_leaf (GL_param _) => None
  | GI_leaf l => Some [(in_single w p, e, l)]
  | GI_block pre name end_ l =>
      nm <~ block_name pre name end_ ;; r <~ omapM (fun g => s_gen n g None (in_block w nm p) e) l ;; Some (List.concat r)
  | GI_for i c s b =>
      x <~ plain_id (gi_name i) ;; v <~ vmeaning A (gi_value i) ;; vc <~ vmeaning A c ;; next <~ s_next x s ;;
      steps (fun k => test ((x, k) :: e) vc) (fun k => next k ((x, k) :: e)) (fun k => s_gen n b (Some (Some k)) (in_single w p) ((x, k) :: e)) n (num e v)
  | GI_if _ c t f =>
      v <~ vmeaning A c ;;
      if test e v then s_gen n t (Some None) (in_choice w p) e
      else match f with Some f => s_gen n f (Some None) (in_choice w p) e | None => Some [] end
  | GI_case _ sel l =>
      v <~ vmeaning A sel ;;
      if labels_ok l then
        s_pick e v (fun g => s_gen n g (Some None) (in_choice w p) e) (s_default (fun g => s_gen n g (Some None) (in_choice w p) e) (Some []) l) l
      else None
  | GI_region l => match w with None => r <~ omapM (fun g => s_gen n g None p e) l ;; Some (List.concat r) | Some _ => None end
  end.
Definition s_gens (n : nat) (p : gpath) (e : genv) (l : list gitem) : option (list (gres gleaf)) := r <~ omapM (fun g => s_gen n g None p e) l ;; Some (List.concat r).

(** ** The AST *)
Definition first_label (h : hdr) : option str := match labels h with l :: _ => Some l | [] => None end.
Definition a_init (l : list sobj) : option (str * V A) :=
  match l with
  | [SO_id d] => e <~ d_value d ;; v <~ meaning A e ;; Some (d_name d, v)
  | [SO_stm (SAssign _ (EId x) e None None true)] => v <~ meaning A e ;; Some (x, v)
  | _ => None
  end.
Definition a_next (x : str) (s : stm) : option (N -> genv -> N) :=
  match s with
  | SExpr _ (EOp o [EId y; e]) => a <~ m_asgop o ;; v <~ meaning A e ;; if seqb y x then Some (fun k en => arith a k (num en v)) else None
  | SExpr _ (EOp o [EId y]) => t <~ m_step o ;; if seqb y x then Some (fun k _ => one_more (snd t) k) else None
  | _ => None
  end.
Section AChoice.
Context {R : Type} (e : genv) (f : sobj -> option R).
Definition a_elifs (d : option R) : list (expr * sobj) -> option R :=
  fix go l := match l with [] => d | (c, o) :: l' => v <~ meaning A c ;; if test e v then f o else go l' end.
Definition a_cases (w : V A) (d : option R) : list (expr * sobj) -> option R :=
  fix go l := match l with [] => d | (c, o) :: l' => v <~ meaning A c ;; if matches e w v then f o else go l' end.
End AChoice.
(** in_preproc of what is left after elaboration does not matter. *)
Fixpoint a_gen (n : nat) (o : sobj) (w : place) (p : gpath) (e : genv) : option (list (gres sobj)) :=
  match o with
  | SO_block h l => r <~ omapM (fun o => a_gen n o None (in_block w (first_label h) p) e) l ;; Some (List.concat r)
  | SO_for _ i c s b =>
      xv <~ a_init i ;; vc <~ meaning A c ;; next <~ a_next (fst xv) s ;;
      steps (fun k => test ((fst xv, k) :: e) vc) (fun k => next k ((fst xv, k) :: e)) (fun k => a_gen n b (Some (Some k)) (in_single w p) ((fst xv, k) :: e)) n (num e (snd xv))
  | SO_if _ c t l f =>
      v <~ meaning A c ;;
      if test e v then a_gen n t (Some None) (in_choice w p) e
      else a_elifs e (fun o => a_gen n o (Some None) (in_choice w p) e) (match f with Some f => a_gen n f (Some None) (in_choice w p) e | None => Some [] end) l
  | SO_case _ sel l d =>
      v <~ meaning A sel ;;
      a_cases e (fun o => a_gen n o (Some None) (in_choice w p) e) v (match d with Some d => a_gen n d (Some None) (in_choice w p) e | None => Some [] end) l
  | _ => Some [(in_single w p, e, mark false o)]
  end.
Definition a_gens (n : nat) (p : gpath) (e : genv) (l : list sobj) : option (list (gres sobj)) := r <~ omapM (fun o => a_gen n o None p e) l ;; Some (List.concat r).
(** The elaborated items of the source, each converted by itself. *)
Definition conv_gres (x : gres gleaf) : outcome (list (gres sobj)) := r <- conv_gleaf (snd x) ;; Ok (map (fun o => (fst x, mark false o)) (fst r)).
Definition conv_gress : list (gres gleaf) -> outcome (list (gres sobj)) := concatM conv_gres.
End Elab.

(** ** Marks *)
Definition hdr_of (o : sobj) : option hdr :=
  match o with SO_block h _ | SO_for h _ _ _ _ | SO_if h _ _ _ _ | SO_case h _ _ _ => Some h | _ => None end.
(** The generate constructs in an object, itself first, and whether they are marked (in_preproc). *)
Fixpoint gen_marks (o : sobj) : list bool :=
  match o with
  | SO_block h l => in_preproc h :: flat_map gen_marks l
  | SO_for h _ _ _ b => in_preproc h :: gen_marks b
  | SO_if h _ t l f => in_preproc h :: gen_marks t ++ flat_map (fun p => gen_marks (snd p)) l ++ match f with Some f => gen_marks f | None => [] end
  | SO_case h _ l d => in_preproc h :: flat_map (fun p => gen_marks (snd p)) l ++ match d with Some d => gen_marks d | None => [] end
  | _ => []
  end.
Definition kid_marks (o : sobj) : list bool := tl (gen_marks o).
Fixpoint no_region (g : gitem) : bool :=
  match g with
  | GI_leaf _ => true | GI_region _ => false | GI_block _ _ _ l => forallb no_region l | GI_for _ _ _ b => no_region b
  | GI_if _ _ t e => no_region t && match e with Some e => no_region e | None => true end
  | GI_case _ _ l => forallb (fun a => no_region (snd a)) l
  end.
