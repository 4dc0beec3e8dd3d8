(** C95: type declarations of SystemVerilog keep the name and the type. *)
From Verif Require Import Base AstModel LitModel SvExprModel SvExprSpec SvExprProofs StmModel SvTypeModel SvDeclModel SvDeclSpec SvInstSpec SvTypeSpec SvDeclProofs SvTypeProofs SvImportModel SvTypedefModel SvTypedefSpec.

Lemma type_def A n e T : m_typ A FromValue e = Some T -> m_typedef A (new_var n (ESym symb_T) (Some e)) = Some (named_type A n (Some T)).
Proof.
  intros H. assert (m_typedef A (new_var n (ESym symb_T) (Some e)) = m_object A false (new_var n (ESym symb_T) (Some e))) as ->.
  { unfold m_typedef. cbn [new_var new_iddef d_type d_value]. destruct e as [| | | | |[]| | |]; try reflexivity; discriminate H. }
  unfold m_object. cbn [m_typ d_type d_value new_var new_iddef obind default_base plain]. rewrite H. reflexivity.
Qed.
(** A type declaration is converted to one definition that means the same: the name, and the type with all its
    dimensions. *)
Theorem C95_typedef_partial A t o : kept_typedef t = true -> v_typedef A t = Some o ->
  exists d, conv_data_declaration (DD_type t) = Ok [DO_id d] /\ m_typedef A d = Some o.
Proof.
  intros Hk H. cbn [conv_data_declaration].
  enough (exists d, conv_typedef t = Ok d /\ m_typedef A d = Some o) as (d & Hd & Hm) by (exists d; rewrite Hd; auto).
  destruct t as [t i ds|w i|x sel m i|i]; cbn [kept_typedef v_typedef conv_typedef] in *; [| | |discriminate].
  - apply andb_prop in Hk as (Hk & Ho). apply andb_prop in Hk as (Ht & Hds).
    apply obind_inv in H as (T & HT & H). apply obind_inv in H as (l & Hl & H). apply obind_inv in H as (n & Hn & H). injection H as <-.
    destruct (dtype_sim A FromValue t T Ht HT) as (x & Hx & Hxt & _). destruct (vdims_sim A FromValue ds l Hds Hl) as (l' & Hl' & Hf).
    assert (Hopen : l' = [] \/ open_wire x = false).
    { apply orb_prop in Ho as [Ho|Ho]; [right; exact (dtype_open t x Ho Hx)|]. left. destruct ds; [|discriminate]. injection Hl' as <-. reflexivity. }
    destruct (apply_sim A FromValue x T l' l Hopen Hf Hxt) as ((Hm & _) & _).
    eexists. split; [rewrite Hx; cbn [bind]; rewrite Hl'; cbn [bind]; rewrite (ident_name _ _ Hn); reflexivity|].
    exact (type_def A n _ _ Hm).
  - apply obind_inv in H as (n & Hn & H). injection H as <-. eexists. split; [rewrite (ident_name _ _ Hn); reflexivity|]. reflexivity.
  - apply obind_inv in H as (s & Hs & H). apply obind_inv in H as (v & Hv & H). apply obind_inv in H as (k & Hk' & H). apply obind_inv in H as (n & Hn & H). injection H as <-.
    assert (Hsel : exists b, conv_selected x sel = Ok b /\ meaning A b = Some v).
    { unfold conv_selected. destruct x as [x|]; [|discriminate]. cbn [v_ident] in Hs. destruct (seqb x $"void") eqn:Ev; [discriminate|]. injection Hs as <-.
      cbn [visit_ident bind]. destruct (selects_sim A sel (proj2 (Forall_forall _ _) (fun e _ => conv_sim A e)) (EId x) (a_name A x) v) as (b & Hb & Hm & _); [|reflexivity|exact Hv|eauto].
      cbn [meaning]. rewrite Ev. reflexivity. }
    destruct Hsel as (b & Hb & Hm). destruct m as [m|]; [|discriminate]. cbn [v_ident] in Hk'. destruct (seqb m $"void") eqn:Ev; [discriminate|]. injection Hk' as <-.
    eexists. split; [rewrite Hb; cbn [bind visit_ident]; rewrite (ident_name _ _ Hn); reflexivity|].
    rewrite (mk2_ok A b DOT (EId m) v (a_name A m) Hm) by (cbn [meaning]; rewrite Ev; reflexivity).
    apply type_def. cbn [m_typ is_op]. unfold m_named. cbn [meaning]. rewrite Hm. reflexivity.
Qed.
Print Assumptions C95_typedef_partial.

(** [typedef name;] has a meaning and is undefined behaviour. *)
Theorem C95_plain_refuted A s : seqb s $"void" = false ->
  v_typedef A (TY_plain (IdPlain s)) = v_typedef A (TY_forward F_class (IdPlain s)) /\ v_typedef A (TY_plain (IdPlain s)) <> None /\
  exists u, conv_data_declaration (DD_type (TY_plain (IdPlain s))) = UB u.
Proof. intros H. split; [reflexivity|]. split; [cbn [v_typedef v_ident]; rewrite H; discriminate|eexists; reflexivity]. Qed.
Print Assumptions C95_plain_refuted.
(** A vector of bits and an array of bits are the same definition: [typedef logic \[3:0\] t;] and [typedef logic t \[3:0\];]. *)
Theorem C95_unpacked_refuted kw s r i : conv_data_declaration (DD_type (TY_type (D_prim (P_vector kw) s []) i [VD_range r])) =
  conv_data_declaration (DD_type (TY_type (D_prim (P_vector kw) s [VD_range r]) i [])).
Proof.
  cbn [conv_data_declaration conv_typedef conv_dtype]. unfold conv_vdims. cbn [mapM conv_vdim bind apply_dims snd].
  destruct (conv_range r) as [x| | |]; reflexivity.
Qed.
Theorem C95_unpacked_differ A kw s r d i n : v_word A kw = Some (Word kw) -> v_dim A r = Some d -> v_ident i = Some n ->
  v_typedef A (TY_type (D_prim (P_vector kw) s []) i [VD_range r]) = Some (named_type A n (Some (Typ (Word kw) s [] [Dim A d]))) /\
  v_typedef A (TY_type (D_prim (P_vector kw) s [VD_range r]) i []) = Some (named_type A n (Some (Typ (Word kw) s [Dim A d] []))).
Proof. intros Hw Hr Hi. cbn [v_typedef v_dtype omapM v_vdim]. rewrite Hw, Hr, Hi. split; reflexivity. Qed.
Print Assumptions C95_unpacked_refuted.
(** Enumerations and structures become the same definition. *)
Theorem C95_aggregate_refuted ds i ds' : conv_data_declaration (DD_type (TY_type (D_enum ds) i ds')) = conv_data_declaration (DD_type (TY_type (D_struct ds) i ds')).
Proof. reflexivity. Qed.
Print Assumptions C95_aggregate_refuted.
(** Net types are dropped. *)
Theorem C95_nettype_refuted i : conv_data_declaration (DD_nettype i) = Ok [].
Proof. reflexivity. Qed.
Print Assumptions C95_nettype_refuted.
(** Forward declarations: the word does not matter, the name is kept and nothing else fails. *)
Theorem C95_forward w w' i d : conv_data_declaration (DD_type (TY_forward w i)) = Ok [DO_id d] ->
  ident_str i = Ok (d_name d) /\ conv_data_declaration (DD_type (TY_forward w' i)) = Ok [DO_id d].
Proof. cbn [conv_data_declaration conv_typedef]. intros H. destruct (ident_str i) as [n| | |]; try discriminate. cbn [bind] in *. injection H as <-. split; reflexivity. Qed.
Print Assumptions C95_forward.

(** [typedef byte unsigned t \[7:0\];], [typedef struct s;], [typedef p\[1\] . q r;] *)
Example C95_ex A : let t := TY_type (D_prim (P_atom $"byte") (Some Unsigned) []) (IdPlain $"t") [VD_range (RG_two R_COLON (VLit (L_NUMBER (TokUnsigned $"7"))) (VLit (L_NUMBER (TokUnsigned $"0"))))] in
  kept_typedef t = true /\ v_typedef A t <> None /\
  conv_data_declaration (DD_type (TY_forward F_struct (IdPlain $"s"))) = Ok [DO_id (new_var $"s" (ESym symb_T) (Some (ESym symb_NULL)))] /\
  v_typedef A (TY_member (IdPlain $"p") [VLit (L_NUMBER (TokUnsigned $"1"))] (IdPlain $"q") (IdPlain $"r")) <> None.
Proof. cbv zeta. repeat split; try discriminate; vm_compute; discriminate. Qed.
