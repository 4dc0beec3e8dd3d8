(** C30: copies of AST expressions are equal and independent. *)
From Verif Require Import Base AstModel CloneModel CloneSpec CloneProofs.

(** Equal and disjoint: [n] is any number above the addresses in use. *)
Theorem C30_equal_partial (x : node) (n : nat) : copyable x -> (forall a, In a (addresses x) -> a < n) ->
  exists y m, clone n x = Ok (y, m) /\ shape y = shape x /\ NoDup (addresses y) /\ (forall a, In a (addresses y) -> ~ In a (addresses x)).
Proof.
  intros C B. destruct (clone_good x C n) as (y & m & E & L & Sh & Ad). exists y, m. split; [exact E|]. split; [exact Sh|]. rewrite Ad.
  split; [apply seq_NoDup|]. intros a Ha I. apply in_seq in Ha. specialize (B a I). lia.
Qed.
Print Assumptions C30_equal_partial.
(** Independence: no change of an object of the copy changes the original, and vice versa. *)
Theorem C30_independent_partial (x : node) (n : nat) : copyable x -> (forall a, In a (addresses x) -> a < n) ->
  exists y m, clone n x = Ok (y, m) /\
    (forall a f, In a (addresses y) -> change_at a f x = x) /\ (forall a f, In a (addresses x) -> change_at a f y = y).
Proof.
  intros C B. destruct (C30_equal_partial x n C B) as (y & m & E & _ & _ & D). exists y, m. split; [exact E|].
  split; intros a f I; apply change_at_other; [exact (D a I)|]. intros J. exact (D a J I).
Qed.
Print Assumptions C30_independent_partial.
(** Identifiers, numbers and strings keep the position and the attributes as well. *)
Theorem C30_leaf_partial (x : node) (n : nat) : copyable x -> (match kind_of x with KId _ | KInt _ _ | KFloat _ | KStr _ => True | _ => False end) ->
  exists y m, clone n x = Ok (y, m) /\ pos_of y = pos_of x /\ ptr_map shape (attrs_of y) = ptr_map shape (attrs_of x).
Proof.
  intros C K. inversion C; subst; cbn [kind_of] in K; try contradiction.
  destruct (clone_list_good false at_ (proj2 (Forall_forall _ at_) (fun q _ x _ => clone_good x)) (not_tested at_ H0) (S n)) as (r & m & E & L & Sh & Ad).
  exists (Node n p r k []), m. split; [|split; [reflexivity|exact Sh]].
  destruct k; try contradiction; cbn [clone]; rewrite E; reflexivity.
Qed.
Print Assumptions C30_leaf_partial.
(** a[1] + "b" at addresses 0.. *)
Example C30_ex :
  let id n s := Node n (Some (1, 1, 1, 1)) [] (KId $s) [] in
  let x := Node 0 (Some (1, 1, 1, 9)) [] (KOp ADD) [(None, Some (Node 1 None [] (KOp INDEX) [(None, Some (id 2 "a"%string)); (None, Some (Node 3 None [] (KInt (-1) (Val 1)) []))]));
                                                    (None, Some (Node 4 None [(Some $"full", Some (id 5 "b"%string))] (KStr $"b") []))] in
  copyable x /\ (forall a, In a (addresses x) -> a < 6) /\
  exists y, clone 6 x = Ok (y, 12) /\ addresses y = [6; 7; 8; 9; 10; 11].
Proof.
  split; [|split].
  - repeat (constructor; cbn; eauto); eexists; (split; [reflexivity|]); repeat (constructor; cbn; eauto); eexists; (split; [reflexivity|]); repeat (constructor; cbn; eauto).
  - cbn. intros a [|[|[|[|[|[|[]]]]]]]; lia.
  - eexists. split; vm_compute; reflexivity.
Qed.
(** Operators, arrays, symbols and type definitions lose their position and their attributes. *)
Theorem C30_position_refuted n a p at_ k l y m : (match k with KId _ | KInt _ _ | KFloat _ | KStr _ => False | _ => True end) ->
  clone n (Node a p at_ k l) = Ok (y, m) -> pos_of y = None /\ attrs_of y = [].
Proof.
  intros K E. destruct k; try contradiction; cbn [clone] in E;
    repeat match type of E with
    | Ok _ = Ok _ => injection E as <- <-; split; reflexivity
    | bind ?o _ = Ok _ => destruct o; cbn [bind] in E; try discriminate E
    | match ?l with [] => _ | _ => _ end = Ok _ => destruct l
    | (let (_, _) := ?q in _) = Ok _ => destruct q
    | _ => discriminate E
    end.
Qed.
Print Assumptions C30_position_refuted.
Example C30_position_ex : exists y m, clone 5 (Node 0 (Some (3, 3, 1, 9)) [(Some $"keep", Some (Node 1 None [] (KStr $"x") []))] (KSym symb_ALL) []) = Ok (y, m).
Proof. eexists _, _. reflexivity. Qed.
(** An attribute without value is a null dereference when a leaf is copied. *)
Theorem C30_attribute_refuted n a p t k : (match k with KId _ | KInt _ _ | KFloat _ | KStr _ => True | _ => False end) ->
  clone n (Node a p [(t, None)] k []) = UB "clone of a null pointer".
Proof. destruct k; try contradiction; reflexivity. Qed.
Print Assumptions C30_attribute_refuted.
(** The base type of an enumeration is not copied; a struct or class definition cannot be copied. *)
Theorem C30_enum_refuted n a p at_ b vals : (match clone n (Node a p at_ KEnum ((None, b) :: vals)) with Ok (y, _) => hd_error (kids_of y) = Some (None, None) | _ => True end).
Proof. cbn [clone]. destruct (clone_list clone true (S n) vals); reflexivity. Qed.
Print Assumptions C30_enum_refuted.
Theorem C30_class_refuted n a p at_ l : clone n (Node a p at_ KClass l) = Throw (RuntimeError $"HdlClassDef copy constructor not implemented").
Proof. reflexivity. Qed.
Print Assumptions C30_class_refuted.
