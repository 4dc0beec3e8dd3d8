(** A concrete algebra and machine for the examples: integer variables and a trace of waits.
    Parallel branches run from the last to the first, which is one of the allowed orders. *)
From Verif Require Import Base AstModel StmModel LitModel LitSpec SvExprModel SvExprSpec SvStmModel SvStmSpec.

Definition env := list (str * Z).
Fixpoint look (e : env) (x : str) : Z := match e with [] => 0%Z | (y, v) :: e' => if seqb x y then v else look e' x end.
(** A value: what it names, and what it evaluates to. *)
Definition dv : Type := str * (env -> Z).
Definition demo : algebra := {|
  V := dv; a_name s := (s, fun e => look e s); a_scope v _ := v; a_member v _ := v; a_param v _ := v;
  a_number _ b s := ([], fun _ => value b s); a_real _ := ([], fun _ => 0%Z); a_string _ := ([], fun _ => 0%Z); a_null := ([], fun _ => 0%Z);
  a_unary o v := match o with LogNot => ([], fun e => if (snd v e =? 0)%Z then 1%Z else 0%Z) | _ => v end;
  a_binary o x y := ([], fun e => match o with Add => (snd x e + snd y e)%Z | Sub => (snd x e - snd y e)%Z | Lt => (if (snd x e <? snd y e)%Z then 1 else 0)%Z | Eq => (if (snd x e =? snd y e)%Z then 1 else 0)%Z | _ => 0%Z end);
  a_cond c x y := ([], fun e => if (snd c e =? 0)%Z then snd y e else snd x e);
  a_slice _ v _ _ := v; a_call f _ := f; a_step _ _ v := v; a_array _ := ([], fun _ => 0%Z)
|}.
Definition note : Type := list Z.
Definition dst_ : Type := env * list note.
Definition ev_note (w : when dv) (e : env) : note :=
  match w with AfterTime v => [snd v e] | AfterEvents l => map (fun x => match x with EvAny => (-1)%Z | Ev (Some true) v => (-2)%Z | Ev (Some false) v => (-3)%Z | Ev None v => (-4)%Z end) l end.
Definition rev_run (l : list (dst_ -> res dst_ dv)) : dst_ -> res dst_ dv :=
  fold_left (fun k f s => match f s with Normal s' => k s' | r => r end) l (fun s => Normal s).
Lemma rev_run_ext l l' : Forall2 (fun f g => forall s : dst_, f s = g s :> res dst_ dv) l l' -> forall k k', (forall s, k s = k' s) ->
  forall s, fold_left (fun k f s => match f s with Normal s' => k s' | r => r end) l k s = fold_left (fun k f s => match f s with Normal s' => k s' | r => r end) l' k' s.
Proof. induction 1 as [|f g l l' Hf H IH]; intros k k' Hk s; [apply Hk|]. cbn [fold_left]. apply IH. intros s'. rewrite Hf. destruct (g s'); auto. Qed.
Definition demo_machine : machine demo := Build_machine demo dst_ Z
  (* test *) (fun (v : dv) (s : dst_) => (negb (snd v (fst s) =? 0)%Z, s))
  (* eval *) (fun (v : dv) (s : dst_) => (fst s, [snd v (fst s)] :: snd s))
  (* opassign *) (fun o (d x : dv) (s : dst_) => ((fst d, match o with A_PLUS => (snd d (fst s) + snd x (fst s))%Z | A_MINUS => (snd d (fst s) - snd x (fst s))%Z | _ => snd x (fst s) end) :: fst s, snd s))
  (* assign *) (fun b (d x : dv) (w : option (when dv)) (s : dst_) => ((fst d, snd x (fst s)) :: fst s, match w with Some w => ev_note w (fst s) :: snd s | None => snd s end))
  (* count *) (fun (v : dv) (s : dst_) => (Z.to_nat (snd v (fst s)), s))
  (* select *) (fun _ _ (v : dv) (s : dst_) => (snd v (fst s), s))
  (* match *) (fun _ w (v : dv) (s : dst_) => ((w =? snd v (fst s))%Z, s))
  (* define *) (fun x _ (v : option dv) _ (s : dst_) => ((x, match v with Some v => snd v (fst s) | None => 0%Z end) :: fst s, snd s))
  (* wait *) (fun (w : when dv) (s : dst_) => (fst s, ev_note w (fst s) :: snd s))
  (* fork *) (fun _ l s => rev_run l s)
  (* foreach *) (fun _ _ f s => f s)
  (fun _ l l' s H => rev_run_ext l l' H (fun s => Normal s) (fun s => Normal s) (fun s => eq_refl) s)
  (fun _ _ f g s H => H s).
(** The variables and the trace after a run. *)
Definition watch (xs : list str) (r : option (dst_ -> res dst_ dv)) : option (list Z * list note) :=
  match r with Some k => match k ([], []) with Normal s => Some (map (look (fst s)) xs, rev (snd s)) | _ => None end | None => None end.
Definition run_ast (n : nat) (xs : list str) (o : outcome stm) := match o with Ok o => watch xs (m_stm demo demo_machine n o) | _ => None end.
Definition run_src (n : nat) (xs : list str) (s : vstm) := watch xs (v_stm demo demo_machine n s).
(** Small source programs. *)
Definition vid (s : string) : vexpr := VPath (VPathOf false H_none [(IdPlain $s, None)]).
Definition vnum (s : string) : vexpr := VLit (L_NUMBER (TokUnsigned $s)).
Definition st (i : item vstm) : vstm := TStm None [] [] i.
Definition set_ (x v : string) : vstm := st (I_assign_op (vid x) A_ASSIGN (vnum v)).
Definition add_ (x v : string) : vstm := st (I_assign_op (vid x) A_PLUS (vnum v)).
