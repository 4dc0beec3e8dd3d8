(** C93: what a Verilog design means can be read off the Python objects.  [python_means] (SvReadSpec.v): the meaning of
    the objects that Python shows; [tells_file p l] (PyObjSpec.v): the attributes of the Python object p are those of the AST l. *)
From Verif Require Import Base BaseFacts StrSpec AstModel LitModel LitSpec StmModel SvExprModel SvExprSpec SvStmModel SvStmSpec SvStmDemo SvTypeModel SvDeclModel SvDeclSpec SvDeclProofs SvModuleSpec SvInstSpec SvTfModel SvGenModel SvGenSpec SvTypeSpec SvFileModel SvFileSpec SvFileProofs.
From Verif Require Import OutBufferModel PpModel PpSpec PpDbProofs MacroSpec PpArgSpec PpSrcSpec PpSrcRunProofs ApiModel.
From Verif Require Import VhdlLexSpec SvLexModel SvLexSpec SvSpellSpec SvTextProofs SvModSyntaxModel SvModSyntaxSpec SvModSyntaxComplete SvModSpellSpec SvModTextProofs ConvertModel ConvertSpec SvSyntaxModel SvSyntaxSpec SvStmSyntaxModel SvStmSyntaxSpec SvStmSpellSpec SvWholeSpec SvWholeProofs PpSrcWfTac P_C73 P_C76 P_C83 P_C85 P_C86 P_C91 P_C92.
From Verif Require Import PyModel PySpec PyObjModel PyObjSpec PyObjProofs PySeenSpec PySeenProofs ConvertPySvModel SvPySpec SvPyProofs SvPyProofs2 SvPyTextProofs SvReadSpec SvReadProofs.
Import PySpec PyObjModel PyObjSpec.

Lemma w_files a b ts us : w_file true a ts -> w_file true b us -> w_file true (a ++ b) (ts ++ us).
Proof. intros Wa Wb. induction Wa as [|m l t t' Wm W IH]; [exact Wb|]. cbn [app]. rewrite <- app_assoc. apply w_f_cons; assumption. Qed.
Lemma files_written l (src : str -> str -> Prop) files fl : Forall2 (fun file f => exists text, src file text /\ utf8_source l text f) files fl -> exists ts, w_file true (List.concat fl) ts.
Proof.
  induction 1 as [|file f files fl (text & _ & U) _ (us & IH)]; [exists []; apply w_f_nil|]. destruct (utf8_tokens l text f U) as (ts & W & _). exists (ts ++ us). exact (w_files _ _ _ _ W IH).
Qed.
Lemma read_back (A : algebra) (M : machine A) (N : Type) num test matches arith one_more (n : nat) l ts objs ms' :
  w_file true l ts -> whole_file A M n l = true -> conv_source l = Ok objs -> m_file A M N num test matches arith one_more n objs = Some ms' ->
  python_means A M N num test matches arith one_more n (map of_fobj objs) = Some ms'.
Proof. intros W H C E. unfold python_means. rewrite (file_back A M n l ts objs W H C). exact E. Qed.

(** The Python object of files that Python keeps all of (an optional value that is the literal null, a width of 0, the
    label of a call and the documentation of an instance are not kept, C73) has the meaning of the files. *)
Theorem C93_files_partial (vs : str -> list report) (vv : bool -> str -> list fobj * option exn) (h : bool)
  (A : algebra) (M : machine A) (N : Type) (num : genv N -> V A -> N) (test : genv N -> V A -> bool) (matches : genv N -> V A -> V A -> bool) (arith : asgop -> N -> N -> N) (one_more : bool -> N -> N) (n : nat)
  (l : lang) (fs : str -> option fentry) (enc : str) (dirs : list str) (files : list str) (fl : list (list description)) (d : db) (objs : list fobj) (ms : list (smodule A M N)) :
  n <> 0 -> PpModel.is_verilog l = true -> files <> [] -> nothing_given d ->
  Forall2 (fun file f => exists text, fs file = Some (FFile text) /\ utf8_source l text f) files fl ->
  whole_file A M n (List.concat fl) = true -> v_file A M N num test matches arith one_more n (List.concat fl) = Some ms -> known_file (List.concat fl) = true ->
  conv_source (List.concat fl) = Ok objs -> map seen_obj (map of_fobj objs) = map of_fobj objs ->
  exists p tree ms', fst (fst (verilog_to_python vs vv l h fs enc dirs files d [])) = Ok p /\ tells_file p tree
    /\ python_means A M N num test matches arith one_more n tree = Some ms' /\ Forall2 (mod_same A M N) ms ms'.
Proof.
  intros Hn V NF ND F W HM K C E. destruct (C86_files_partial vs vv h l fs enc dirs files fl d [] objs V NF ND (to_verilog l fs files fl F) C) as (d' & P & _).
  destruct (file_sim A M N num test matches arith one_more n Hn _ objs ms C HM) as (ms' & H1 & H2).
  destruct (file_seen _ (files_readable l (fun file text => fs file = Some (FFile text)) files fl F K objs C)) as (p & Ep & T). rewrite E in T.
  destruct (files_written l (fun file text => fs file = Some (FFile text)) files fl F) as (ts & Wt). exists p, (map of_fobj objs), ms'.
  unfold verilog_to_python, verilog_shown. rewrite P. cbn [fst snd bind app]. split; [exact Ep|split; [exact T|split; [|exact H2]]]. exact (read_back A M N num test matches arith one_more n _ ts objs ms' Wt W C H1).
Qed.
Print Assumptions C93_files_partial.
Theorem C93_string_partial (vs : str -> list report) (vv : bool -> str -> list fobj * option exn) (h : bool)
  (A : algebra) (M : machine A) (N : Type) (num : genv N -> V A -> N) (test : genv N -> V A -> bool) (matches : genv N -> V A -> V A -> bool) (arith : asgop -> N -> N -> N) (one_more : bool -> N -> N) (n : nat)
  (l : lang) (fs : str -> option fentry) (enc : str) (dirs : list str) (text : str) (f : list description) (d : db) (objs : list fobj) (ms : list (smodule A M N)) :
  n <> 0 -> PpModel.is_verilog l = true -> text <> [] -> nothing_given d -> utf8_source l text f ->
  whole_file A M n f = true -> v_file A M N num test matches arith one_more n f = Some ms -> known_file f = true ->
  conv_source f = Ok objs -> map seen_obj (map of_fobj objs) = map of_fobj objs ->
  exists p tree ms', fst (fst (verilog_str_to_python vs vv l h fs enc dirs text d [])) = Ok p /\ tells_file p tree
    /\ python_means A M N num test matches arith one_more n tree = Some ms' /\ Forall2 (mod_same A M N) ms ms'.
Proof.
  intros Hn V T0 ND S W HM K C E. pose proof (utf8_verilog l text f S) as S'.
  destruct (C86_macros_partial vs vv h l fs enc dirs text text f d d [] objs V ND ND T0 T0 S' S' C) as (P & _).
  destruct (file_sim A M N num test matches arith one_more n Hn _ objs ms C HM) as (ms' & H1 & H2).
  destruct (file_seen _ (utf8_readable l text f objs S K C)) as (p & Ep & T). rewrite E in T. destruct (utf8_tokens l text f S) as (ts & Wt & _). exists p, (map of_fobj objs), ms'.
  unfold verilog_str_to_python, verilog_shown. rewrite P. cbn [fst snd bind app]. split; [exact Ep|split; [exact T|split; [|exact H2]]]. exact (read_back A M N num test matches arith one_more n _ ts objs ms' Wt W C H1).
Qed.
Print Assumptions C93_string_partial.
(** The meaning that is read off a Python object is one. *)
Theorem C93_one_meaning (A : algebra) (M : machine A) (N : Type) (num : genv N -> V A -> N) (test : genv N -> V A -> bool) (matches : genv N -> V A -> V A -> bool) (arith : asgop -> N -> N -> N) (one_more : bool -> N -> N) (n : nat)
  (p : pyval) (t1 t2 : list obj) (m1 m2 : list (smodule A M N)) :
  tells_file p t1 -> tells_file p t2 -> python_means A M N num test matches arith one_more n t1 = Some m1 -> python_means A M N num test matches arith one_more n t2 = Some m2 -> m1 = m2.
Proof.
  intros T1 T2 E1 E2. assert (X : t1 = t2); [|subst t2; congruence]. destruct T1 as [_ (q1 & A1 & F1)], T2 as [_ (q2 & A2 & F2)]. rewrite A1 in A2. injection A2 as <-. clear - F1 F2. revert t2 F2. induction F1 as [|q o q1 t1 H F1 IH]; intros t2 F2; inversion F2; subst; [reflexivity|].
  f_equal; [eapply C73_one_object; eassumption|auto].
Qed.
Print Assumptions C93_one_meaning.

(** Without the condition it does not hold: [wire a = null;] and [wire a;] mean different things and Python shows the
    same objects.  (a is any name, m the name of any module.) *)
Definition wire_module (m a : str) (v : option vexpr) : list description :=
  [DE_module (MD false (mk_mheader [] [] None (IdPlain m) [] None) HP_none [MT_item [] [] (GI_leaf (GL_net (mk_net (NK_net $"wire") false None [mk_nitem (IdPlain a) [] v])))])].
Theorem C93_null_refuted (A : algebra) (M : machine A) (N : Type) (num : genv N -> V A -> N) (test : genv N -> V A -> bool) (matches : genv N -> V A -> V A -> bool) (arith : asgop -> N -> N -> N) (one_more : bool -> N -> N) (n : nat) (m a : str) :
  m <> $"void" -> a <> $"void" -> n <> 0 ->
  (exists o1 o2, conv_source (wire_module m a (Some (VLit L_NULL))) = Ok o1 /\ conv_source (wire_module m a None) = Ok o2 /\ map seen_obj (map of_fobj o1) = map seen_obj (map of_fobj o2))
  /\ exists m1 m2, v_file A M N num test matches arith one_more n (wire_module m a (Some (VLit L_NULL))) = Some m1 /\ v_file A M N num test matches arith one_more n (wire_module m a None) = Some m2 /\ ~ Forall2 (mod_same A M N) m1 m2.
Proof.
  intros Nm Na Hn. apply not_void in Nm, Na. cbn -[seqb] in Nm, Na. split.
  - eexists. eexists. split; [|split]; [vm_compute; reflexivity|vm_compute; reflexivity|]. cbn. reflexivity.
  - destruct n as [|k]; [congruence|]. eexists. eexists. split; [|split].
    + unfold v_file, wire_module. cbn -[seqb s_gens]. rewrite Nm. unfold s_gens. cbn -[seqb]. unfold all_located, located, omapM, v_kleaf. cbn -[seqb]. unfold v_nitem. cbn -[seqb]. rewrite ?Na. cbn -[seqb]. reflexivity.
    + unfold v_file, wire_module. cbn -[seqb s_gens]. rewrite Nm. unfold s_gens. cbn -[seqb]. unfold all_located, located, omapM, v_kleaf. cbn -[seqb]. unfold v_nitem. cbn -[seqb]. rewrite ?Na. cbn -[seqb]. reflexivity.
    + intros F. inversion F as [|x y l l' S _ E1 E2]; subst. inversion S as [? ? ? ? i i' ? ? P _ E1 E2]; subst. inversion P as [|? ? ? ? Q _ E1 E2]; subst. destruct Q as [_ Q]. discriminate Q.
Qed.
Print Assumptions C93_null_refuted.

(** ** The files of C86, C92 *)
Example C93_ex (vs : str -> list report) (vv : bool -> str -> list fobj * option exn) (h : bool) :
  exists p tree ms', fst (fst (verilog_to_python vs vv SV2012 h two_files $"utf-8" [] [ $"a.v"; $"b.v" ] [] [])) = Ok p /\ tells_file p tree
    /\ python_means demo demo_machine Z g_num g_test g_matches g_arith g_more 9 tree = Some ms' /\ length ms' = 2.
Proof.
  assert (X : SvWholeSpec.given (v_file demo demo_machine Z g_num g_test g_matches g_arith g_more 9 (List.concat [one_file; one_file])) = true) by (vm_compute; reflexivity).
  apply is_given in X as (ms & X).
  assert (Y : exists objs, conv_source (List.concat [one_file; one_file]) = Ok objs /\ map seen_obj (map of_fobj objs) = map of_fobj objs) by (eexists; split; vm_compute; reflexivity). destruct Y as (objs & C & E).
  destruct (C93_files_partial vs vv h demo demo_machine Z g_num g_test g_matches g_arith g_more 9 SV2012 two_files $"utf-8" [] [ $"a.v"; $"b.v" ] [one_file; one_file] [] objs ms) as (p & tree & ms' & R & T & Hm & F).
  - discriminate.
  - reflexivity.
  - discriminate.
  - split; constructor.
  - repeat (apply Forall2_cons; [eexists; split; [reflexivity|exact C92_ex_source]|]). apply Forall2_nil.
  - vm_compute. reflexivity.
  - exact X.
  - reflexivity.
  - exact C.
  - exact E.
  - exists p, tree, ms'. split; [exact R|split; [exact T|split; [exact Hm|]]]. assert (LF : length ms = length ms') by (clear - F; induction F; [reflexivity|cbn [length]; congruence]). rewrite <- LF. assert (L : match v_file demo demo_machine Z g_num g_test g_matches g_arith g_more 9 (List.concat [one_file; one_file]) with Some l => length l | None => 0 end = 2) by (vm_compute; reflexivity). rewrite X in L. exact L.
Qed.
(** Also for the file of C85, with ports, parameters, instances, processes, functions and generate constructs. *)
Example C93_ex_file : exists objs, conv_source demo_file = Ok objs /\ map seen_obj (map of_fobj objs) = map of_fobj objs /\ omapM read_obj (map of_fobj objs) = Some objs.
Proof. eexists. split; [|split]; vm_compute; reflexivity. Qed.
