(** Copies are equal and independent. *)
From Verif Require Import Base BaseFacts AstModel CloneModel CloneSpec.

Fixpoint node_ind' (P : node -> Prop)
  (H : forall a p at_ k l, Forall (fun q => forall x, snd q = Some x -> P x) at_ -> Forall (fun q => forall x, snd q = Some x -> P x) l -> P (Node a p at_ k l))
  (x : node) : P x :=
  let all := fix all (l : list (option str * option node)) : Forall (fun q => forall x, snd q = Some x -> P x) l :=
    match l with
    | [] => Forall_nil _
    | (t, p) :: l' => Forall_cons (P := fun q => forall x, snd q = Some x -> P x) (t, p)
        (match p return forall x, snd (t, p) = Some x -> P x with
         | Some y => fun x E => eq_ind y P (node_ind' P H y) x (f_equal (fun o => match o with Some z => z | None => y end) E)
         | None => fun x E => match eq_ind None (fun o => match o with Some _ => False | None => True end) I (Some x) E with end end)
        (all l')
    end in
  match x with Node a p at_ k l => H a p at_ k l (all at_) (all l) end.

Definition good (x : node) : Prop := copyable x -> forall n, exists y m, clone n x = Ok (y, m) /\ n < m /\ shape y = shape x /\ addresses y = seq n (m - n).

Lemma clone_list_good tested l :
  Forall (fun q => forall x, snd q = Some x -> good x) l ->
  Forall (fun q => (tested = false -> exists x, snd q = Some x) /\ forall x, snd q = Some x -> copyable x) l ->
  forall n, exists r m, clone_list clone tested n l = Ok (r, m) /\ n <= m /\ ptr_map shape r = ptr_map shape l /\ in_ptrs addresses r = seq n (m - n).
Proof.
  intros G. induction G as [|(t, p) l Hp _ IH]; intros C n.
  - exists [], n. cbn. rewrite Nat.sub_diag. auto.
  - inversion C as [|q l' (Ct & Cp) Cl]; subst. cbn [clone_list]. destruct p as [x|].
    + destruct (Hp x eq_refl (Cp x eq_refl) n) as (y & m & E & L & Sh & Ad). unfold clone_ptr. rewrite E. cbn [bind fst snd].
      destruct (IH Cl m) as (r & m' & E' & L' & Sh' & Ad'). rewrite E'. cbn [bind fst snd].
      eexists _, m'. split; [reflexivity|]. split; [lia|]. split.
      * unfold ptr_map in *. cbn [map fst snd]. rewrite Sh, Sh'. reflexivity.
      * unfold in_ptrs in *. cbn [flat_map snd]. rewrite Ad, Ad'. replace (seq m (m' - m)) with (seq (n + (m - n)) (m' - m)) by (f_equal; lia).
        rewrite <- seq_app. f_equal. lia.
    + destruct tested; [|destruct (Ct eq_refl) as (x & E); discriminate E]. cbn [clone_ptr bind fst snd].
      destruct (IH Cl n) as (r & m' & E' & L' & Sh' & Ad'). rewrite E'. cbn [bind fst snd].
      eexists _, m'. split; [reflexivity|]. split; [lia|]. split.
      * unfold ptr_map in *. cbn [map fst snd]. rewrite Sh'. reflexivity.
      * exact Ad'.
Qed.
Lemma not_tested l : Forall (fun q : option str * option node => exists x, snd q = Some x /\ copyable x) l ->
  Forall (fun q => (false = false -> exists x, snd q = Some x) /\ forall x, snd q = Some x -> copyable x) l.
Proof.
  intros H. eapply Forall_impl; [|exact H]. intros q (x & E & C). split; [intros _; exists x; exact E|]. intros y E'. congruence.
Qed.
Lemma is_tested l : Forall (fun q : option str * option node => forall x, snd q = Some x -> copyable x) l ->
  Forall (fun q => (true = false -> exists x, snd q = Some x) /\ forall x, snd q = Some x -> copyable x) l.
Proof. intros H. eapply Forall_impl; [|exact H]. intros q C. split; [discriminate|exact C]. Qed.
Lemma seq_S_sub n m : n < m -> seq n (m - n) = n :: seq (S n) (m - S n).
Proof. intros L. replace (m - n) with (S (m - S n)) by lia. reflexivity. Qed.

Theorem clone_good x : good x.
Proof.
  induction x as [a p at_ k l Hat Hl] using node_ind'. intros C n.
  inversion C as [a' p' at' k' K F|a' p' at' s'|a' p' at'|a' p' at' l' F|a' p' at' o' l' F|a' p' at' l' F|a' p' at' t' x' l' Cx F]; subst.
  - destruct (clone_list_good false at_ Hat (not_tested at_ F) (S n)) as (r & m & E & L & Sh & Ad).
    exists (Node n p r k []), m. split; [|split; [lia|split; [reflexivity|]]].
    + destruct k; try contradiction; cbn [clone]; rewrite E; reflexivity.
    + cbn [addresses]. rewrite Ad. cbn [in_ptrs flat_map]. rewrite app_nil_r. symmetry. apply seq_S_sub. lia.
  - exists (Node n None [] (KSym s') []), (S n). replace (S n - n) with 1 by lia. repeat split; lia.
  - exists (Node n None [] KNotImpl []), (S n). replace (S n - n) with 1 by lia. repeat split; lia.
  - destruct (clone_list_good false l Hl (not_tested l F) (S n)) as (r & m & E & L & Sh & Ad).
    exists (Node n None [] KArr r), m. cbn [clone]. rewrite E. repeat split; try lia.
    + cbn [shape]. rewrite Sh. reflexivity.
    + cbn [addresses]. change (in_ptrs addresses []) with (@nil nat). cbn [app]. rewrite Ad. symmetry. apply seq_S_sub. lia.
  - destruct (clone_list_good false l Hl (not_tested l F) (S n)) as (r & m & E & L & Sh & Ad).
    exists (Node n None [] (KOp o') r), m. cbn [clone]. rewrite E. repeat split; try lia.
    + cbn [shape]. rewrite Sh. reflexivity.
    + cbn [addresses]. change (in_ptrs addresses []) with (@nil nat). cbn [app]. rewrite Ad. symmetry. apply seq_S_sub. lia.
  - apply Forall_inv_tail in Hl. destruct (clone_list_good true l' Hl (is_tested l' F) (S n)) as (r & m & E & L & Sh & Ad).
    exists (Node n None [] KEnum ((None, None) :: r)), m. cbn [clone]. rewrite E. repeat split; try lia.
    + cbn [shape]. unfold ptr_map in *. cbn [map]. rewrite Sh. reflexivity.
    + cbn [addresses]. change (in_ptrs addresses []) with (@nil nat). change (in_ptrs addresses ((None, None) :: r)) with (in_ptrs addresses r).
      cbn [app]. rewrite Ad. symmetry. apply seq_S_sub. lia.
  - pose proof (Forall_inv Hl) as Hx. apply Forall_inv_tail in Hl. destruct (Hx x' eq_refl Cx (S n)) as (y & m1 & E1 & L1 & Sh1 & Ad1).
    destruct (clone_list_good true l' Hl (is_tested l' F) m1) as (r & m & E & L & Sh & Ad).
    exists (Node n None [] KPhysical ((t', Some y) :: r)), m. cbn [clone clone_ptr]. rewrite E1. cbn [bind fst snd]. rewrite E. repeat split; try lia.
    + cbn [shape]. unfold ptr_map in *. cbn [map fst snd]. rewrite Sh, Sh1. reflexivity.
    + cbn [addresses]. change (in_ptrs addresses []) with (@nil nat). change (in_ptrs addresses ((t', Some y) :: r)) with (addresses y ++ in_ptrs addresses r).
      cbn [app]. rewrite Ad, Ad1.
      rewrite (seq_S_sub n m) by lia. f_equal. replace (seq m1 (m - m1)) with (seq (S n + (m1 - S n)) (m - m1)) by (f_equal; lia).
      rewrite <- seq_app. f_equal. lia.
Qed.

Lemma change_at_other a f x : ~ In a (addresses x) -> change_at a f x = x.
Proof.
  induction x as [b p at_ k l Hat Hl] using node_ind'. intros N. cbn [addresses] in N. cbn [change_at].
  assert (K : forall l', Forall (fun q => forall x, snd q = Some x -> ~ In a (addresses x) -> change_at a f x = x) l' -> ~ In a (in_ptrs addresses l') -> ptr_map (change_at a f) l' = l').
  { clear. induction 1 as [|(t, q) l' Hq _ IH]; intros N; [reflexivity|]. unfold ptr_map in *. cbn [map fst snd].
    unfold in_ptrs in *. cbn [flat_map snd] in N. rewrite IH by (intros I; apply N; apply in_or_app; right; exact I).
    destruct q as [x|]; [|reflexivity]. rewrite (Hq x eq_refl) by (intros I; apply N; apply in_or_app; left; exact I). reflexivity. }
  rewrite (K at_ Hat), (K l Hl).
  - destruct (Nat.eqb_spec a b) as [->|]; [|reflexivity]. exfalso. apply N. left. reflexivity.
  - intros I. apply N. right. apply in_or_app. right. exact I.
  - intros I. apply N. right. apply in_or_app. left. exact I.
Qed.
