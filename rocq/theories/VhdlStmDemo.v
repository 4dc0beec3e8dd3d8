(** A concrete algebra and machine for the examples: integer variables and a trace of waits and messages. *)
From Verif Require Import Base AstModel StmModel LitModel LitSpec SvExprModel SvExprSpec SvStmDemo VhdlExprModel VhdlExprSpec VhdlStmModel VhdlStmSpec.

(** A value: what it names, and what it evaluates to; a range is the list of its values. *)
Definition hd_ : Type := str * (env -> list Z).
Definition val (v : hd_) (e : env) : Z := hd 0%Z (snd v e).
Definition num (z : Z) : hd_ := ([], fun _ => [z]).
Fixpoint from (a : Z) (n : nat) : list Z := match n with 0 => [] | S n => a :: from (a + 1)%Z n end.
Definition hdemo : halgebra := {|
  HV := hd_; h_name s := (s, fun e => [look e s]); h_char s := num 0; h_string s := num (Z.of_nat (length s)); h_int z := num z; h_real _ := num 0;
  h_bits _ b s := num (value b s); h_null := num 0; h_unit v _ := v; h_unary o v := match o with HNot => ([], fun e => [if (val v e =? 0)%Z then 1%Z else 0%Z]) | _ => v end;
  h_binary o x y := ([], fun e => [match o with HbAdd => (val x e + val y e)%Z | HbSub => (val x e - val y e)%Z | HbLt => (if (val x e <? val y e)%Z then 1 else 0)%Z | HbEq => (if (val x e =? val y e)%Z then 1 else 0)%Z | _ => 0%Z end]);
  h_range d x y := ([], fun e => match d with To => from (val x e) (Z.to_nat (val y e - val x e + 1)%Z) | Downto => rev (from (val y e) (Z.to_nat (val x e - val y e + 1)%Z)) end);
  h_apply f l := match l with [(_, HaVal x)] => x | _ => f end; h_attr v _ := v; h_member v _ := v; h_all v := v; h_aggregate _ := num 0; h_qualified _ v := v; h_new v := v; h_constrained v _ := v; h_resolved _ v := v
|}.
Definition oval (o : option hd_) (e : env) : Z := match o with Some v => val v e | None => (-1)%Z end.
Definition hdemo_machine : hmachine hdemo := Build_hmachine hdemo dst_ Z Z (fun s => s)
  (* test *) (fun (v : hd_) (s : dst_) => (negb (val v (fst s) =? 0)%Z, s))
  (* assign *) (fun _ (d x : hd_) (s : dst_) => ((fst d, val x (fst s)) :: fst s, snd s))
  (* call *) (fun (v : hd_) (s : dst_) => (fst s, [1; val v (fst s)]%Z :: snd s))
  (* assert *) (fun (v : hd_) (r q : option hd_) (s : dst_) => (fst s, [2; val v (fst s); oval r (fst s); oval q (fst s)]%Z :: snd s))
  (* report *) (fun (v : hd_) (q : option hd_) (s : dst_) => (fst s, [3; val v (fst s); oval q (fst s)]%Z :: snd s))
  (* wait *) (fun (l : list hd_) (u t : option hd_) (s : dst_) => (fst s, ([4; Z.of_nat (length l); oval u (fst s); oval t (fst s)]%Z) :: snd s))
  (* select *) (fun (v : hd_) (s : dst_) => (val v (fst s), s))
  (* match *) (fun w (v : hd_) (s : dst_) => (existsb (fun z => (w =? z)%Z) (snd v (fst s)), s))
  (* elems *) (fun (v : hd_) (s : dst_) => (snd v (fst s), s))
  (* bind *) (fun x z (s : dst_) => ((x, z) :: fst s, snd s))
  (* define *) (fun _ s => s).
(** The variables and the trace after a run. *)
Definition hwatch (xs : list str) (r : option (dst_ -> hend dst_ hd_)) : option (list Z * list note) :=
  match r with Some k => match k ([], []) with HNormal s => Some (map (look (fst s)) xs, rev (snd s)) | _ => None end | None => None end.
Definition hrun_ast (n : nat) (xs : list str) (o : outcome stm) := match o with Ok o => hwatch xs (mh_stm hdemo hdemo_machine n o) | _ => None end.
Definition hrun_src (n : nat) (xs : list str) (s : hstm) := hwatch xs (hv_stm hdemo hdemo_machine n s).
(** Small source programs. *)
Definition hid (s : string) : hexpr := HLit (NL_id $s).
Definition hnum (s : string) : hexpr := HNum false $s None.
Definition hns (s : string) : hexpr := HNum false $s (Some (hid "ns")).
Definition hst (i : hitem hstm) : hstm := HS None i.
Definition hset (x v : string) : hstm := hst (J_variable (hid x) (hnum v)).
Definition w1 (e : hexpr) : wave := W_elems (e, None) [].
Definition heq (x v : string) : hexpr := HRel O_EQ (hid x) (hnum v).
(** Statements one after the other. *)
Definition hall_ (l : list hstm) : hstm := hst (J_for $"unused_" (R_explicit (hnum "1") To (hnum "1")) l None).
