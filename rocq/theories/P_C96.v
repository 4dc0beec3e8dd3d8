(** C96: the position of an object is the region of the text from its first to its last token. *)
From Verif Require Import Base BaseFacts SvExprModel RegexModel OutBufferModel PpLexerModel MacroDefModel PpModel VhdlLexModel SvLexModel PosSpec PosModel PosProofs PosLexProofs.
From Verif Require VhdlSpellSpec SvSpellSpec VhdlCoverProofs SvLexProofs SvCoverProofs.
Local Open Scope nat_scope.

(** VHDL: for every text and every element of it, made of the tokens [lr], the position that Python shows is a region of
    the text.  It begins with the first and ends with the last of these tokens, it contains nothing but them and layout,
    and the other tokens are outside of it. *)
Theorem C96_vhdl (s : str) (l1 lr l2 : list (vkind * str)) : vhdl_lex s = Ok (l1 ++ lr ++ l2) -> lr <> [] -> fits s ->
  exists ts p a x b lin1 col1 lin2 col2,
    vhdl_scan s = Ok ts /\ node_position ts (N_rule (length l1) (length lr)) = Ok p /\
    py_position p = shown lin1 col1 lin2 col2 /\ region lin1 col1 lin2 col2 s = x /\
    s = a ++ x ++ b /\ VhdlSpellSpec.made_of (map snd l1) a /\ VhdlSpellSpec.made_of (map snd lr) x /\ VhdlSpellSpec.made_of (map snd l2) b /\
    (exists k t r y, lr = (k, t) :: r /\ x = t ++ y) /\ (exists k t r y, lr = r ++ [(k, t)] /\ x = y ++ t).
Proof.
  intros H Nr Fs. destruct (v_located (length s) start_place s _ H) as (ts & Hs & Hl & Em). rewrite !seen_app in Em.
  apply map_split in Em as (t1 & tr & -> & E1 & Em). apply map_split in Em as (tr' & t2 & -> & Er & E2).
  destruct (seen_texts _ _ E1) as (X1 & L1). destruct (seen_texts _ _ Er) as (Xr & Lr). destruct (seen_texts _ _ E2) as (X2 & L2). rewrite <- !app_assoc in Hs, Hl.
  destruct (span vlay s t1 tr' t2 Hl (nonempty_texts tr' lr Nr Lr)) as (a & x & b & p & n1 & c1 & n2 & c2 & Es & Ha & Hx & Hb & (t & r & y & Et & Ex) & (z & r' & y' & Ez & Nz & Ex' & R) & Hp & Hpy).
  rewrite X1, L1, Lr in *. rewrite Xr, X2 in *.
  eexists _, p, a, x, b, n1, c1, n2, c2. split; [exact Hs|]. split; [exact Hp|]. split; [exact (Hpy Fs)|].
  assert (I : In z (map snd lr)) by (rewrite Ez; apply in_or_app; right; left; reflexivity).
  split.
  { apply R. intros I'. apply VhdlCoverProofs.v_loop_steps in H. apply v_no_line in H. apply in_map_iff in I as ((k & z') & <- & I). rewrite Forall_forall in H.
    assert (I2 : In (k, z') (l1 ++ lr ++ l2)) by (apply in_or_app; right; apply in_or_app; left; exact I). apply (H _ I2). cbn [snd] in *.
    rewrite (app_removelast_last "0"%char Nz). apply in_or_app. left. exact I'. }
  split; [exact Es|]. split; [exact (v_made _ _ Ha)|]. split; [exact (v_made _ _ Hx)|]. split; [exact (v_made _ _ Hb)|]. split.
  - destruct lr as [|(k & t') lr]; [congruence|]. cbn [map snd] in Et. injection Et as <- <-. exists k, t', lr, y. auto.
  - destruct (exists_last Nr) as (lr' & (k & z') & ->). rewrite map_app in Ez. cbn [map snd] in Ez. apply app_inj_tail in Ez as (_ & <-). exists k, z', lr', y'. auto.
Qed.
Print Assumptions C96_vhdl.

(** Verilog: the same for the preprocessed text, if the last token has no line end before its last character - and only then. *)
Theorem C96_verilog_partial (v : lang) (s : str) (l1 lr l2 : list (skind * str)) (k : skind) (z : str) :
  sv_lex v s = Ok (l1 ++ (lr ++ [(k, z)]) ++ l2) -> fits s ->
  exists ts p a x b lin1 col1 lin2 col2,
    sv_scan v s = Ok ts /\ node_position ts (N_rule (length l1) (length (lr ++ [(k, z)]))) = Ok p /\
    py_position p = shown lin1 col1 lin2 col2 /\ (region lin1 col1 lin2 col2 s = x <-> ~ In nl (removelast z)) /\
    s = a ++ x ++ b /\ SvSpellSpec.made_of (map snd l1) a /\ SvSpellSpec.made_of (map snd (lr ++ [(k, z)])) x /\ SvSpellSpec.made_of (map snd l2) b /\
    (exists k' t r y, lr ++ [(k, z)] = (k', t) :: r /\ x = t ++ y) /\ (exists y, x = y ++ z).
Proof.
  intros H Fs. assert (Nr : lr ++ [(k, z)] <> []) by (destruct lr; discriminate).
  destruct (s_located v (length s) false start_place s _ H) as (ts & Hs & Hl & Em). rewrite !(seen_app l1), (seen_app (lr ++ [(k, z)])) in Em.
  apply map_split in Em as (t1 & tr & -> & E1 & Em). apply map_split in Em as (tr' & t2 & -> & Er & E2).
  destruct (seen_texts _ _ E1) as (X1 & L1). destruct (seen_texts _ _ Er) as (Xr & Lr). destruct (seen_texts _ _ E2) as (X2 & L2). rewrite <- (app_assoc t1), <- (app_assoc tr') in Hs, Hl.
  destruct (span slay s t1 tr' t2 Hl (nonempty_texts tr' _ Nr Lr)) as (a & x & b & p & n1 & c1 & n2 & c2 & Es & Ha & Hx & Hb & (t & r & y & Et & Ex) & (z' & r' & y' & Ez & Nz & Ex' & R) & Hp & Hpy).
  rewrite X1, L1, Lr in *. rewrite Xr, X2 in *.
  eexists _, p, a, x, b, n1, c1, n2, c2. split; [exact Hs|]. split; [exact Hp|]. split; [exact (Hpy Fs)|].
  rewrite map_app in Ez. cbn [map snd] in Ez. apply app_inj_tail in Ez as (_ & <-).
  split; [exact R|]. split; [exact Es|]. split; [exact (s_made _ _ Ha)|]. split; [exact (s_made _ _ Hx)|]. split; [exact (s_made _ _ Hb)|]. split; [|exists y'; exact Ex'].
  destruct (lr ++ [(k, z)]) as [|(k' & t') q]; [congruence|]. cbn [map snd] in Et. injection Et as <- <-. exists k', t', q, y. auto.
Qed.
Print Assumptions C96_verilog_partial.
(** Tokens that can contain line ends: strings, escaped names, numbers with a base. *)
Theorem C96_one_line v s l k t : sv_lex v s = Ok l -> In (k, t) l -> In nl t ->
  In k [S_STRING_LITERAL; S_ESCAPED_IDENTIFIER; S_ANY_BASED_NUMBER; S_BASED_NUMBER_WITH_SIZE].
Proof.
  intros H I N. apply SvCoverProofs.s_loop_steps in H. apply s_no_line in H. rewrite Forall_forall in H. specialize (H _ I). cbn [fst snd] in H.
  destruct (many_lines k) eqn:E; [|destruct (H eq_refl N)]. destruct k; try discriminate E; cbn; auto.
Qed.
Print Assumptions C96_one_line.
(** A string with a continued line: the region ends in the line in which the string begins. *)
Definition two_lines : str := [dq] ++ $"a" ++ [bs; nl] ++ $"b" ++ [dq].
Theorem C96_string_refuted v : sv_lex v two_lines = Ok [(S_STRING_LITERAL, two_lines)] /\
  exists ts p, sv_scan v two_lines = Ok ts /\ node_position ts (literal_node LF_string 0) = Ok p /\ py_position p = shown 1 1 1 6 /\ region 1 1 1 6 two_lines <> two_lines.
Proof. destruct v; (split; [vm_compute; reflexivity|]); eexists; eexists; (split; [vm_compute; reflexivity|]); (split; [vm_compute; reflexivity|]); (split; [vm_compute; reflexivity|]); vm_compute; discriminate. Qed.
Print Assumptions C96_string_refuted.
(** Numbers with a base, reals and unbased literals have no position. *)
Theorem C96_number_refuted (ts : list (token skind)) f i : f <> LF_name -> f <> LF_unsigned -> f <> LF_string -> f <> LF_time ->
  exists p, node_position ts (literal_node f i) = Ok p /\ py_position p = (None, None, None, None).
Proof. intros. exists no_position. destruct f; try congruence; split; reflexivity. Qed.
Print Assumptions C96_number_refuted.
(** The other literals and names have the position of their token. *)
Theorem C96_name (ts : list (token skind)) f i : In f [LF_name; LF_unsigned; LF_string; LF_time] -> node_position ts (literal_node f i) = node_position ts (N_rule i 1).
Proof. intros [<-|[<-|[<-|[<-|[]]]]]; reflexivity. Qed.
(** A name made of a keyword inside of a larger element has the position of the larger element: the name NEXT that
    stands for [next] in [next when c;] (statementParser.cpp:142). *)
Theorem C96_terminal_refuted : let s := $"next when c;" in
  exists ts p, vhdl_scan s = Ok ts /\ node_position ts (N_terminal (Some (0, 4))) = Ok p /\ py_position p = shown 1 1 1 12 /\ region 1 1 1 12 s = s.
Proof. cbv zeta. eexists _, _. repeat (split; [vm_compute; reflexivity|]). vm_compute. reflexivity. Qed.
Print Assumptions C96_terminal_refuted.
(** The text behind the preprocessor is not the text of the file: the name mm is in the columns 4 and 5 of
    line 2, Python shows 3 and 4. *)
Definition macro_source : str := $"`define A b" ++ [nl] ++ $"`A mm".
Theorem C96_macro_refuted : exists out, text_of (verilog_pp_str SV2012 (fun _ => None) [] [] macro_source) = Ok out /\
  exists ts p l1 c1 l2 c2, sv_scan SV2012 out = Ok ts /\ node_position ts (literal_node LF_name 1) = Ok p /\ py_position p = shown l1 c1 l2 c2 /\
    region l1 c1 l2 c2 out = $"mm" /\ region l1 c1 l2 c2 macro_source <> $"mm".
Proof.
  eexists. split; [vm_compute; reflexivity|]. eexists _, _, 2, 3, 2, 4. split; [vm_compute; reflexivity|]. split; [vm_compute; reflexivity|]. split; [vm_compute; reflexivity|].
  split; [vm_compute; reflexivity|vm_compute; discriminate].
Qed.
Print Assumptions C96_macro_refuted.

Example C96_ex : let s := $"a <=" ++ [nl] ++ $"  b; -- c" in
  vhdl_lex s = Ok ([(V_BASIC_IDENTIFIER, $"a")] ++ [(V_DELIM $"<=", $"<="); (V_BASIC_IDENTIFIER, $"b")] ++ [(V_DELIM $";", $";")]) /\ fits s /\
  exists ts p, vhdl_scan s = Ok ts /\ node_position ts (N_rule 1 2) = Ok p /\ py_position p = shown 1 3 2 3 /\ region 1 3 2 3 s = $"<=" ++ [nl] ++ $"  b".
Proof. cbv zeta. split; [vm_compute; reflexivity|]. split; [vm_compute; reflexivity|]. eexists _, _. repeat (split; [vm_compute; reflexivity|]). vm_compute. reflexivity. Qed.
