(** C72: generate constructs are marked as evaluated during elaboration. *)
From Verif Require Import Base AstModel StmModel SvExprModel SvStmModel SvStmDemo SvTypeModel SvDeclModel SvTfModel SvGenModel SvGenSpec SvGenProofs.

(** The constructs directly between generate and endgenerate are. *)
Theorem C72_region_partial l r o h : conv_gitem (GI_region l) = Ok r -> In o r -> hdr_of o = Some h -> in_preproc h = true.
Proof.
  cbn [conv_gitem]. intros H Ho Hh. destruct (concatM conv_gitem l) as [k| | |]; try discriminate. injection H as <-. apply in_map_iff in Ho as (o' & <- & _). destruct o'; try discriminate; injection Hh as <-; reflexivity.
Qed.
Print Assumptions C72_region_partial.
(** No others are: not those of a module without generate ... endgenerate, *)
Theorem C72_bare_refuted g r : no_region g = true -> conv_gitem g = Ok r -> Forall (fun b => b = false) (flat_map gen_marks r).
Proof. intros N H. exact (unmarked g N r H). Qed.
Print Assumptions C72_bare_refuted.
(** and not those inside of another construct. *)
Theorem C72_inner_refuted l r o : forallb no_region l = true -> conv_gitem (GI_region l) = Ok r -> In o r -> Forall (fun b => b = false) (kid_marks o).
Proof.
  cbn [conv_gitem]. intros N H Ho. destruct (concatM conv_gitem l) as [k| | |] eqn:E; try discriminate. injection H as <-. apply in_map_iff in Ho as (o' & <- & Ho).
  assert (all_false (flat_map gen_marks k)) as F by (apply (concat_marks l); [apply Forall_forall; intros g _; apply unmarked|exact N|exact E]).
  assert (all_false (gen_marks o')) as F' by (apply Forall_forall; intros b Hb; apply (proj1 (Forall_forall _ _) F), in_flat_map; eauto).
  destruct o' as [| | |s| | | |]; try constructor; unfold kid_marks; cbn [mark gen_marks tl] in *; apply af_cons in F'; apply F'.
Qed.
Print Assumptions C72_inner_refuted.
(** Run-time statements are marked if they are directly between generate and endgenerate. *)
Theorem C72_process_refuted s x : conv_initial s = Ok x -> conv_gitem (GI_region [GI_leaf (GL_initial s)]) = Ok [SO_stm (set_hdr (set_pre true) x)].
Proof. intros H. cbn [conv_gitem conv_gleaf]. unfold concatM. cbn [conv_gitem conv_gleaf]. rewrite H. reflexivity. Qed.
Print Assumptions C72_process_refuted.
(** generate if (a) begin if (b) ; end endgenerate *)
Definition ex_if : gitem := GI_if [] (vid "a") (GI_block None None None [GI_if [] (vid "b") (GI_leaf GL_semi) None]) None.
Example C72_ex : no_region ex_if = true /\ match conv_gitem ex_if, conv_gitem (GI_region [ex_if]) with Ok [o], Ok [o'] => gen_marks o = [false; false; false] /\ gen_marks o' = [true; false; false] | _, _ => False end.
Proof. vm_compute. repeat split. Qed.
