(** What a copy is. *)
From Verif Require Import Base AstModel CloneModel.

Definition ptr_map {B} (f : node -> B) (l : list (option str * option node)) : list (option str * option B) :=
  map (fun p => (fst p, match snd p with Some x => Some (f x) | None => None end)) l.
(** The expression without addresses, positions and attributes. *)
Inductive tree := Tree (k : kind) (l : list (option str * option tree)).
Fixpoint shape (x : node) : tree := match x with Node _ _ _ k l => Tree k (ptr_map shape l) end.
(** All addresses of an expression, those in its attributes as well. *)
Definition in_ptrs (f : node -> list nat) (l : list (option str * option node)) : list nat :=
  flat_map (fun p => match snd p with Some x => f x | None => [] end) l.
Fixpoint addresses (x : node) : list nat := match x with Node a _ at_ _ l => a :: in_ptrs addresses at_ ++ in_ptrs addresses l end.
(** Any change of the object at address [a]. *)
Fixpoint change_at (a : nat) (f : node -> node) (x : node) : node :=
  match x with Node b p at_ k l =>
    let y := Node b p (ptr_map (change_at a f) at_) k (ptr_map (change_at a f) l) in if a =? b then f y else y end.
(** The expressions that can be copied: no null operand, no attribute without value on a leaf, an enum
    without base type, no class definition inside. *)
Inductive copyable : node -> Prop :=
| Co_leaf a p at_ k : (match k with KId _ | KInt _ _ | KFloat _ | KStr _ => True | _ => False end) ->
    Forall (fun q => exists x, snd q = Some x /\ copyable x) at_ -> copyable (Node a p at_ k [])
| Co_sym a p at_ s : copyable (Node a p at_ (KSym s) [])
| Co_notimpl a p at_ : copyable (Node a p at_ KNotImpl [])
| Co_arr a p at_ l : Forall (fun q => exists x, snd q = Some x /\ copyable x) l -> copyable (Node a p at_ KArr l)
| Co_op a p at_ o l : Forall (fun q => exists x, snd q = Some x /\ copyable x) l -> copyable (Node a p at_ (KOp o) l)
| Co_enum a p at_ l : Forall (fun q => forall x, snd q = Some x -> copyable x) l -> copyable (Node a p at_ KEnum ((None, None) :: l))
| Co_physical a p at_ t x l : copyable x -> Forall (fun q => forall x, snd q = Some x -> copyable x) l ->
    copyable (Node a p at_ KPhysical ((t, Some x) :: l)).
