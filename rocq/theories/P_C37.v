(** C37: VHDL association and aggregate choices are all kept. *)
From Verif Require Import Base AstModel LitModel LitSpec SvExprModel SvExprSpec VhdlExprModel VhdlExprSpec VhdlExprProofs.

(** Elements with at most one choice keep it: the AST has the meaning of the aggregate, so aggregates
    merged by the conversion have equal choices in every interpretation. *)
Theorem C37_single_partial (A : halgebra) l r : (forall e, l <> [([], e)]) ->
  omapM (hv_element A (hvmeaning A)) l = Some r ->
  exists a, hconv (HAgg l) = Ok a /\ hmeaning A a = Some (h_aggregate A r).
Proof.
  intros N H. assert (hvmeaning A (HAgg l) = Some (h_aggregate A r)) as E; cycle 1.
  { destruct (hconv_sim A (HAgg l) _ E) as (a & Ha & Hm & _). exists a. split; assumption. }
  cbn [hvmeaning]. unfold hv_aggregate. destruct l as [|([|c cs], x) [|p l]]; try (rewrite H; reflexivity). exfalso. apply (N x). reflexivity.
Qed.
Print Assumptions C37_single_partial.
Example C37_ex : forall A, h_name A $"x" <> h_name A $"y" ->
  omapM (hv_element A (hvmeaning A)) [([Ch (R_name (HLit (NL_id $"x")))], HNull); ([Ch_others], HLit (NL_id $"y"))] =
    Some [([HsVal (h_name A $"x")], h_null A); ([HsOthers], h_name A $"y")].
Proof. reflexivity. Qed.
(** All choices but the first are lost, for every aggregate. *)
Theorem C37_choices_refuted c cs cs' e l : (exists x, mapM (conv_choice hconv) cs = Ok x) -> (exists x, mapM (conv_choice hconv) cs' = Ok x) ->
  hconv (HAgg ((c :: cs, e) :: l)) = hconv (HAgg ((c :: cs', e) :: l)).
Proof.
  intros (x & Hx) (y & Hy). cbn [hconv]. unfold conv_aggregate. cbn [mapM].
  assert (conv_element hconv (c :: cs, e) = conv_element hconv (c :: cs', e)) as ->; [|reflexivity].
  unfold conv_element. cbn [fst snd mapM]. rewrite Hx, Hy. destruct (hconv e); try reflexivity. cbn [bind]. destruct (conv_choice hconv c); reflexivity.
Qed.
Print Assumptions C37_choices_refuted.
Example C37_choices_ex : let ch s := Ch (R_name (HLit (NL_id $s))) in
  hconv (HAgg [([ch "a"%string; ch "b"%string], HNull); ([Ch_others], HNull)]) = hconv (HAgg [([ch "a"%string], HNull); ([Ch_others], HNull)]).
Proof. vm_compute. reflexivity. Qed.
