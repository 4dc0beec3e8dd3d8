(** C42: a statement that instantiates a module several times gives one complete instance per name. *)
From Verif Require Import Base AstModel LitModel SvExprModel SvExprSpec SvTypeModel SvDeclModel SvInstSpec SvInstProofs P_C27.

(** The instances have module, parameters, names, dimensions and connections of the source, in order, for
    every interpretation of the expressions.  Missing: .name without parentheses (refuted below), escaped
    module names (refuted below), types as parameter values. *)
Theorem C42_instances_partial (A : algebra) (s : inst) (l : list (instance A)) :
  in_list s <> [] -> uses_shorthand s = false -> v_inst A (by_name A) s = Some l ->
  exists cs, conv_inst s = Ok cs /\ omapM (m_inst A) cs = Some l.
Proof. exact (inst_sim A (by_name A) s l). Qed.
Print Assumptions C42_instances_partial.
(** Without any restriction: each instance is the one the statement with this instance alone gives. *)
Theorem C42_each_instance (s : inst) (cs : list compinst) :
  conv_inst s = Ok cs -> Forall2 (fun h c => conv_inst (only s h) = Ok [c]) (in_list s) cs.
Proof. exact (inst_each s cs). Qed.
Print Assumptions C42_each_instance.
(** .name means .name(name), but is converted like the unconnected .name() . *)
Theorem C42_shorthand_refuted :
  let s c := mk_inst (IdPlain $"m") None [mk_hinst (IdPlain $"u") [] (CO_named [c])] in
  conv_inst (s (NC_name (IdPlain $"clk"))) = conv_inst (s (NC_conn (IdPlain $"clk") None)) /\
  conv_inst (s (NC_name (IdPlain $"clk"))) <> conv_inst (s (NC_conn (IdPlain $"clk") (Some (n "clk")))).
Proof. split; [reflexivity|discriminate]. Qed.
Print Assumptions C42_shorthand_refuted.
(** \m followed by a space is the identifier m; as the name of an instantiated module it keeps backslash and
    space, so that no statement is converted alike with the two spellings. *)
Theorem C42_escaped_module_refuted :
  forall p l, l <> [] -> conv_inst (mk_inst (IdEsc $"\m ") p l) = conv_inst (mk_inst (IdPlain $"m") p l) -> forall cs, conv_inst (mk_inst (IdPlain $"m") p l) <> Ok cs.
Proof.
  intros p l Hl E cs H. assert (H2 : conv_inst (mk_inst (IdEsc $"\m ") p l) = Ok cs) by congruence.
  destruct l as [|h l]; [congruence|]. unfold conv_inst in H, H2. cbn [in_params in_list in_module raw_text] in H, H2.
  destruct (match p with Some g => conv_gvalues g | None => Ok [] end) as [g| | |]; try discriminate. cbn [bind] in H, H2. unfold conv_hinst at 1 in H. unfold conv_hinst at 1 in H2.
  destruct (visit_ident (hi_name h)) as [x| | |]; try discriminate. cbn [bind] in H, H2. destruct (apply_udims x (hi_dims h)) as [y| | |]; try discriminate. cbn [bind] in H, H2.
  destruct (conv_conns (hi_conns h)) as [z| | |]; try discriminate. cbn [bind ci_generics] in H, H2.
  destruct (mapM _ l) as [r| | |] in H; try discriminate. destruct (mapM _ l) as [r2| | |] in H2; try discriminate. cbn [bind] in H, H2. injection H as <-. discriminate H2.
Qed.
Print Assumptions C42_escaped_module_refuted.

(** m #(.W(8), .D()) u1 (a, , c + 1), u2 [1:0] (.x(a), .y(), .star); with .* for the last one *)
Example C42_ex :
  let env s := if seqb s $"a" then 3%Z else 7%Z in
  let A := ex_algebra env in
  let s := mk_inst (IdPlain $"m") (Some (GV_named [(IdPlain $"W", Some (PE_expr (num "8"))); (IdPlain $"D", None)]))
    [mk_hinst (IdPlain $"u1") [] (CO_ordered [Some (n "a"); None; Some (VBinary B_PLUS (n "c") (num "1"))]);
     mk_hinst (IdPlain $"u2") [RG_two R_COLON (num "1") (num "0")] (CO_named [NC_conn (IdPlain $"x") (Some (n "a")); NC_conn (IdPlain $"y") None; NC_star])] in
  uses_shorthand s = false /\
  v_inst A (by_name A) s = Some
    [mk_instance A $"m" [(Some $"W", Some 8%Z); (Some $"D", None)] $"u1" [] [Conn A None (Some 3%Z); Conn A None None; Conn A None (Some 8%Z)];
     mk_instance A $"m" [(Some $"W", Some 8%Z); (Some $"D", None)] $"u2" [Two A FromTo 1%Z 0%Z] [Conn A (Some $"x") (Some 3%Z); Conn A (Some $"y") None; ConnAll A]].
Proof. split; reflexivity. Qed.
