(** How sequential statements, concurrent assignments and processes of VHDL are written down: IEEE 1076-2008
    clauses 10, 11.3 and 11.6.  Nothing here refers to the parser.  Trees and tokens are those of VhdlStmModel.v
    and VhdlStmSyntaxModel.v; expressions are written as in VhdlSyntaxSpec.v. *)
From Verif Require Import Base AstModel StmModel LitModel SvExprModel VhdlExprModel VhdlStmModel VhdlSyntaxModel VhdlSyntaxSpec VhdlLexSpec VhdlStmSyntaxModel.

(** ** Tokens *)
Definition xs (e : hexpr) : list hstk := map X (vshow e).
Section Lists.
Context {A : Type} (sep : hstk) (f : A -> list hstk).
Fixpoint sep_by (l : list A) : list hstk := match l with [] => [] | [x] => f x | x :: l' => f x ++ sep :: sep_by l' end.
End Lists.
Definition name_ (s : str) : hstk := X (KLit (NL_id s)).
Definition opt_ (k : hkw) (e : option hexpr) : list hstk := match e with Some e => Kw k :: xs e | None => [] end.
Definition label_toks (l : option str) : list hstk := match l with Some s => [name_ s] | None => [] end.
Definition quest_toks (q : bool) : list hstk := if q then [Quest] else [].
(** value after delay, value after delay *)
Definition welem_toks (p : wave_elem) : list hstk := xs (fst p) ++ opt_ k_after (snd p).
Definition wave_toks (w : wave) : list hstk := match w with W_elems x l => sep_by (X KComma) welem_toks (x :: l) | W_unaffected => [Kw k_unaffected] end.
(** x when c else y when d else z *)
Section Conditions.
Context {A : Type} (f : A -> list hstk).
Fixpoint cond_toks (l : list (A * hexpr)) (e : option A) : list hstk :=
  match l with
  | [] => match e with Some x => Kw k_else :: f x | None => [] end
  | p :: l' => Kw k_else :: f (fst p) ++ Kw k_when :: xs (snd p) ++ cond_toks l' e
  end.
Definition conds_toks (l : list (A * hexpr)) (e : option A) : list hstk := match l with [] => [] | p :: l' => f (fst p) ++ Kw k_when :: xs (snd p) ++ cond_toks l' e end.
End Conditions.
Definition condwave_toks (w : condwave) : list hstk := match w with CW p l e => conds_toks wave_toks (p :: l) e end.
Definition range_toks (r : hrange hexpr) : list hstk := match r with R_name e => xs e | R_explicit a d b => xs a ++ X (KDir d) :: xs b end.
Definition choice_toks (c : hchoice hexpr) : list hstk := match c with Ch_others => [X KOthers] | Ch r => range_toks r end.
Definition choices_toks (l : list (hchoice hexpr)) : list hstk := sep_by (X KBar) choice_toks l.
Definition selwave_toks (p : selwave) : list hstk := wave_toks (fst p) ++ Kw k_when :: choices_toks (snd p).
Section Item.
Context (f : hstm -> list hstk).
Definition seq_toks (l : list hstm) : list hstk := flat_map f l.
Definition close_toks (k : hkw) (n : option str) : list hstk := Kw k_end :: Kw k :: label_toks n ++ [Semi].
Definition item_toks (i : hitem hstm) : list hstk :=
  match i with
  | J_wait on u d => Kw k_wait :: match on with [] => [] | _ => Kw k_on :: sep_by (X KComma) xs on end ++ opt_ k_until u ++ opt_ k_for d ++ [Semi]
  | J_assert c m s => Kw k_assert :: xs c ++ opt_ k_report m ++ opt_ k_severity s ++ [Semi]
  | J_report e s => Kw k_report :: xs e ++ opt_ k_severity s ++ [Semi]
  | J_signal t _ w => xs t ++ X (KRel O_LE) :: wave_toks w ++ [Semi]
  | J_signal_cond t _ w => xs t ++ X (KRel O_LE) :: condwave_toks w ++ [Semi]
  | J_variable t e => xs t ++ VarAsg :: xs e ++ [Semi]
  | J_variable_cond t l e => xs t ++ VarAsg :: conds_toks xs l e ++ [Semi]
  | J_call n => xs n ++ [Semi]
  | J_if c b l e n =>
      Kw k_if :: xs c ++ Kw k_then :: seq_toks b ++ flat_map (fun p => Kw k_elsif :: xs (fst p) ++ Kw k_then :: seq_toks (snd p)) l
        ++ match e with Some b => Kw k_else :: seq_toks b | None => [] end ++ close_toks k_if n
  | J_case q e l n =>
      Kw k_case :: quest_toks q ++ xs e ++ Kw k_is :: flat_map (fun p => Kw k_when :: choices_toks (fst p) ++ X KArrow :: seq_toks (snd p)) l
        ++ Kw k_end :: Kw k_case :: quest_toks q ++ label_toks n ++ [Semi]
  | J_while c b n => Kw k_while :: xs c ++ Kw k_loop :: seq_toks b ++ close_toks k_loop n
  | J_for i r b n => Kw k_for :: name_ i :: Kw k_in :: range_toks r ++ Kw k_loop :: seq_toks b ++ close_toks k_loop n
  | J_loop b n => Kw k_loop :: seq_toks b ++ close_toks k_loop n
  | J_next l c => Kw k_next :: label_toks l ++ opt_ k_when c ++ [Semi]
  | J_exit l c => Kw k_exit :: label_toks l ++ opt_ k_when c ++ [Semi]
  | J_return e => Kw k_return :: match e with Some e => xs e | None => [] end ++ [Semi]
  | J_null => [X KNull; Semi]
  | J_force _ _ _ | J_release _ _ | J_force_cond _ _ _ | J_signal_select _ _ _ | J_variable_select _ _ _ => []
  end.
End Item.
Fixpoint stm_toks (s : hstm) : list hstk := match s with HS l i => match l with Some n => [name_ n; Colon] | None => [] end ++ item_toks stm_toks i end.
Definition sens_toks (s : hsens) : list hstk :=
  match s with HSens_none => [] | HSens_all => [X KLp; X KAll; X KRp] | HSens l => X KLp :: sep_by (X KComma) xs l ++ [X KRp] end.
(** [is_]: the word is behind the sensitivity list; [n]: the label behind end process *)
Definition process_toks (is_ : bool) (n : option str) (s : hsens) (l : list hstm) : list hstk :=
  Kw k_process :: sens_toks s ++ (if is_ then [Kw k_is] else []) ++ Kw k_begin :: seq_toks stm_toks l ++ close_toks k_process n.
Definition conc_toks (c : hconc) : list hstk :=
  match c with
  | CC_wave t w => xs t ++ X (KRel O_LE) :: wave_toks w ++ [Semi]
  | CC_cond t w => xs t ++ X (KRel O_LE) :: condwave_toks w ++ [Semi]
  | CC_select q e t l => Kw k_with :: xs e ++ Kw k_select :: quest_toks q ++ xs t ++ X (KRel O_LE) :: sep_by (X KComma) selwave_toks l ++ [Semi]
  end.

(** ** What the standard allows *)
Definition legal_opt (e : option hexpr) : Prop := match e with Some e => legal e | None => True end.
Definition legal_name (e : hexpr) : Prop := legal e /\ is_name e = true.
Definition legal_target (e : hexpr) : Prop := legal e /\ (is_name e = true \/ exists l, e = HAgg l).
Definition legal_simple (e : hexpr) : Prop := legal e /\ c_simple <= category e.
Definition legal_welem (p : wave_elem) : Prop := legal (fst p) /\ legal_opt (snd p).
Definition legal_wave (w : wave) : Prop := match w with W_elems x l => legal_welem x /\ all legal_welem l | W_unaffected => True end.
Definition legal_conds {A : Type} (P : A -> Prop) (l : list (A * hexpr)) (e : option A) : Prop :=
  l <> [] /\ all (fun p => P (fst p) /\ legal (snd p)) l /\ match e with Some x => P x | None => True end.
Definition legal_condwave (w : condwave) : Prop := match w with CW p l e => legal_conds legal_wave (p :: l) e end.
(** the range of a loop: a name (of a type, or an attribute), or a to b *)
Definition legal_range (r : hrange hexpr) : Prop := match r with R_name e => legal_name e | R_explicit a _ b => legal_simple a /\ legal_simple b end.
Definition legal_choices (l : list (hchoice hexpr)) : Prop := l <> [] /\ all (legal_choice legal) l.
(** Upper and lower case letters of an identifier are the same, unless it is an extended one. *)
Definition same_name (a b : str) : Prop := a = b \/ (~ In bs a /\ map small a = map small b).
(** The label behind the end of a statement repeats the one of the statement. *)
Definition repeats_label (l n : option str) : Prop := match n with None => True | Some e => match l with Some s => same_name s e | None => False end end.
Section Legal.
(** [strict]: this is required *)
Context (strict : bool).
Definition end_fits (l n : option str) : Prop := if strict then repeats_label l n else True.
Section LegalItem.
Context (P : hstm -> Prop).
Definition legal_item (l : option str) (i : hitem hstm) : Prop :=
  match i with
  | J_wait on u d => all legal_name on /\ legal_opt u /\ legal_opt d
  | J_assert c m s => legal c /\ legal_opt m /\ legal_opt s
  | J_report e s => legal e /\ legal_opt s
  | J_signal t None w => legal_target t /\ legal_wave w
  | J_signal_cond t None w => legal_target t /\ legal_condwave w
  | J_variable t e => legal_target t /\ legal e
  | J_variable_cond t l e => legal_target t /\ legal_conds legal l e
  | J_call n => legal_name n
  | J_if c b r e n => legal c /\ all P b /\ all (fun p => legal (fst p) /\ all P (snd p)) r /\ match e with Some b => all P b | None => True end /\ end_fits l n
  | J_case _ e r n => legal e /\ r <> [] /\ all (fun p => legal_choices (fst p) /\ all P (snd p)) r /\ end_fits l n
  | J_while c b n => legal c /\ all P b /\ end_fits l n
  | J_for _ r b n => legal_range r /\ all P b /\ end_fits l n
  | J_loop b n => all P b /\ end_fits l n
  | J_next _ c | J_exit _ c => legal_opt c
  | J_return e => legal_opt e
  | J_null => True
  | J_signal _ (Some _) _ | J_signal_cond _ (Some _) _ | J_force _ _ _ | J_release _ _ | J_force_cond _ _ _ | J_signal_select _ _ _ | J_variable_select _ _ _ => False
  end.
End LegalItem.
Fixpoint legal_stm (s : hstm) : Prop := match s with HS l i => legal_item legal_stm l i end.
End Legal.
Definition legal_sens (s : hsens) : Prop := match s with HSens l => l <> [] /\ all legal_name l | _ => True end.
Definition legal_conc (c : hconc) : Prop :=
  match c with
  | CC_wave t w => legal_target t /\ legal_wave w
  | CC_cond t w => legal_target t /\ legal_condwave w
  | CC_select _ e t l => legal e /\ legal_target t /\ l <> [] /\ all (fun p => legal_wave (fst p) /\ legal_choices (snd p)) l
  end.
