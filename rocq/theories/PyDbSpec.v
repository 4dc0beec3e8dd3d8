(** What a user expects from the database of macros: a Python dict whose values are macros.
    Objects are numbered in the order of their creation; a dict never destroys them. *)
From Verif Require Import Base MacroDefModel MacroSpec PyDbModel.
From Coq Require Import Permutation.

(** A macro as it was created. *)
Record made := mkMade { mk_name : str; mk_params : option (list (str * option str)); mk_body : str }.
(** The objects, the dict in the order of insertion, and the objects whose entry was deleted with [del]. *)
Record world := mkWorld { w_objs : list made; w_dict : list (str * nat); w_gone : list nat }.

Definition dget (d : list (str * nat)) (k : str) : option nat := option_map snd (List.find (fun p => seqb (fst p) k) d).
Definition ddel (d : list (str * nat)) (k : str) : list (str * nat) := filter (fun p => negb (seqb (fst p) k)) d.
Definition dset (d : list (str * nat)) (k : str) (a : nat) : list (str * nat) :=
  match dget d k with Some _ => map (fun p => if seqb (fst p) k then (k, a) else p) d | None => d ++ [(k, a)] end.

(** d[k] = v: a macro is stored itself, text is stored as a macro without parameters, None as an empty one. *)
Definition set_entry (w : world) (k : str) (v : pyval) : world * pyres :=
  let fresh t := (mkWorld (w_objs w ++ [mkMade k None t]) (dset (w_dict w) k (length (w_objs w))) (w_gone w), RUnit) in
  match v with
  | PMacro a => (mkWorld (w_objs w) (dset (w_dict w) k a) (w_gone w), RUnit)
  | PText t => fresh t
  | PNone => fresh []
  | POpaque => (w, RRaise AttributeError)
  end.
Fixpoint set_all (w : world) (l : list (str * pyval)) : world * pyres :=
  match l with
  | [] => (w, RUnit)
  | (k, v) :: l' => let (w', r) := set_entry w k v in match r with RRaise e => (w', RRaise e) | _ => set_all w' l' end
  end.
Definition attribute (w : world) (v : pyval) (f : made -> pyres) : pyres :=
  match v with PMacro a => match nth_error (w_objs w) a with Some m => f m | None => RRaise AttributeError end | _ => RRaise AttributeError end.

(** One operation on the dict. *)
Definition dict_step (w : world) (o : op) : world * pyres :=
  match o with
  | ONew n ps b => (mkWorld (w_objs w ++ [mkMade n ps (match b with Some t => t | None => [] end)]) (w_dict w) (w_gone w), RVal (PMacro (length (w_objs w))))
  | OGet k d => (w, RVal (match dget (w_dict w) k with Some a => PMacro a | None => d end))
  | OGetItem k => (w, match dget (w_dict w) k with Some a => RVal (PMacro a) | None => RRaise KeyError end)
  | OSetItem k v => set_entry w k v
  | ODel k => match dget (w_dict w) k with Some a => (mkWorld (w_objs w) (ddel (w_dict w) k) (a :: w_gone w), RUnit) | None => (w, RRaise KeyError) end
  | OPop k d =>
      match dget (w_dict w) k with
      | Some a => (mkWorld (w_objs w) (ddel (w_dict w) k) (w_gone w), RVal (PMacro a))
      | None => (w, match d with Some v => RVal v | None => RRaise KeyError end)
      end
  | OSetDefault k d =>
      match dget (w_dict w) k with
      | Some a => (w, RVal (PMacro a))
      | None => let (w', r) := set_entry w k d in
                (w', match r with RRaise e => RRaise e | _ => match dget (w_dict w') k with Some a => RVal (PMacro a) | None => r end end)
      end
  | OContains k => (w, RBool (match dget (w_dict w) k with Some _ => true | None => false end))
  | OLen => (w, RLen (length (w_dict w)))
  | OKeys | OIter => (w, RKeys (map fst (w_dict w)))
  | OValues => (w, RValues (map (fun p => PMacro (snd p)) (w_dict w)))
  | OItems => (w, RItems (map (fun p => (fst p, PMacro (snd p))) (w_dict w)))
  | OClear => (mkWorld (w_objs w) [] (w_gone w), RUnit)
  | OUpdate l => set_all w l
  | OCopy => (w, RUnit)
  | OBody v => (w, attribute w v (fun m => RText (mk_body m)))
  | OParams v => (w, attribute w v (fun m => RParams (mk_params m)))
  | OName v => (w, attribute w v (fun m => RText (mk_name m)))
  end.
Fixpoint dict_run (w : world) (l : list op) : world * list pyres :=
  match l with
  | [] => (w, [])
  | o :: l' => let (w1, r) := dict_step w o in let (w2, rs) := dict_run w1 l' in (w2, r :: rs)
  end.
Definition world0 : world := mkWorld [] [] [].

(** Equal results; the order of keys, values and items is left open. *)
Definition agree (r r' : pyres) : Prop :=
  match r, r' with
  | RKeys l, RKeys l' => Permutation l l'
  | RValues l, RValues l' => Permutation l l'
  | RItems l, RItems l' => Permutation l l'
  | _, _ => r = r'
  end.

(** ** Histories for which the claim is made *)
(** Every string literal in the text is terminated. *)
Definition terminated (b : str) : Prop := subst_std (fun _ => None) b <> None.
(** The object exists and its entry was not deleted. *)
Definition usable (w : world) (v : pyval) : Prop := match v with PMacro a => a < length (w_objs w) /\ ~ In a (w_gone w) | _ => True end.
Definition storable (w : world) (v : pyval) : Prop := usable w v /\ match v with PText t => terminated t | _ => True end.
(** The parameters: distinct identifiers, all with a default. *)
Definition good_params (ps : option (list (str * option str))) : Prop :=
  match ps with
  | None => True
  | Some l => Forall (fun p => snd p <> None /\ identifier (fst p)) l /\ NoDup (map fst l)
  end.
(** The first parameter does not occur in the text. *)
Definition first_unused (m : made) : Prop := match mk_params m with Some (p :: _) => forall a b, mk_body m <> a ++ fst p ++ b | _ => True end.
Fixpoint all_storable (w : world) (l : list (str * pyval)) : Prop :=
  match l with [] => True | (k, v) :: l' => storable w v /\ all_storable (fst (set_entry w k v)) l' end.
Definition covered (w : world) (o : op) : Prop :=
  match o with
  | ONew n ps b => good_params ps /\ match b with Some t => terminated t | None => True end
  | OSetItem k v => storable w v
  | OUpdate l => all_storable w l
  | OSetDefault k d => dget (w_dict w) k = None -> match d with PMacro _ | POpaque => usable w d | _ => False end
  | OPop k _ => dget (w_dict w) k = None
  | ODel k => forall a k', dget (w_dict w) k = Some a -> dget (w_dict w) k' = Some a -> k' = k
  | OBody v => usable w v /\ forall a m, v = PMacro a -> nth_error (w_objs w) a = Some m -> first_unused m
  | OParams v | OName v => usable w v
  | OCopy | OIter => False
  | _ => True
  end.
Fixpoint history (w : world) (l : list op) : Prop :=
  match l with [] => True | o :: l' => covered w o /\ history (fst (dict_step w o)) l' end.
