(** C91: Verilog files in which every part has a meaning are converted: no exception is thrown, no assertion of the
    C++ fails.  [whole_file] (SvWholeSpec.v) asks for a meaning of every part, also of what is in branches of generate
    that are not elaborated, and for one item per alternative of a case-generate. *)
From Verif Require Import Base BaseFacts StrSpec AstModel LitModel LitSpec StmModel SvExprModel SvExprSpec SvStmModel SvStmSpec SvStmDemo SvTypeModel SvDeclModel SvDeclSpec SvDeclProofs SvModuleSpec SvInstSpec SvTfModel SvGenModel SvGenSpec SvTypeSpec SvFileModel SvFileSpec SvFileProofs.
From Verif Require Import OutBufferModel PpModel PpSpec PpDbProofs MacroSpec PpArgSpec PpSrcSpec PpSrcRunProofs ApiModel.
From Verif Require Import VhdlLexSpec SvLexModel SvLexSpec SvSpellSpec SvTextProofs SvModSyntaxModel SvModSyntaxSpec SvModSyntaxComplete SvModSpellSpec SvModTextProofs ConvertModel ConvertSpec SvSyntaxModel SvSyntaxSpec SvStmSyntaxModel SvStmSyntaxSpec SvStmSpellSpec SvWholeSpec SvWholeProofs P_C83 P_C85 P_C86.

(** The conversion ends with the objects. *)
Theorem C91_converted (A : algebra) (M : machine A) (n : nat) (f : list description) :
  n <> 0 -> whole_file A M n f = true -> exists objs, conv_source f = Ok objs.
Proof. intros Hn. exact (file_total A M n Hn f). Qed.
Print Assumptions C91_converted.

(** The text of the file gives modules with the interfaces, the items and the behaviour of those in the file. *)
Theorem C91_text (A : algebra) (M : machine A) (N : Type) (num : genv N -> V A -> N) (test : genv N -> V A -> bool) (matches : genv N -> V A -> V A -> bool) (arith : asgop -> N -> N -> N) (one_more : bool -> N -> N) (n : nat)
  (v : lang) (ps : list part) (text : str) (ts : list mtk) (f : list description) (ms : list (smodule A M N)) :
  n <> 0 -> is_file f ts -> spelled_mod v ts (elems ps) -> plain_verilog v ps text ->
  whole_file A M n f = true -> v_file A M N num test matches arith one_more n f = Some ms ->
  exists objs ms', convert_file_text v text = Ok objs
    /\ m_file A M N num test matches arith one_more n objs = Some ms' /\ Forall2 (mod_same A M N) ms ms'.
Proof.
  intros Hn W S P H HM. destruct (file_total A M n Hn f H) as (objs & C).
  destruct (file_sim A M N num test matches arith one_more n Hn f objs ms C HM) as (ms' & H1 & H2). exists objs, ms'.
  split; [rewrite (C85_text v f ts ps text W S P); exact C|split; assumption].
Qed.
Print Assumptions C91_text.

(** Files reach the user as the modules of their sources: with macros, conditionals and several files (C86). *)
Theorem C91_files (vs : str -> list report) (vv : bool -> str -> list fobj * option exn) (h : bool)
  (A : algebra) (M : machine A) (N : Type) (num : genv N -> V A -> N) (test : genv N -> V A -> bool) (matches : genv N -> V A -> V A -> bool) (arith : asgop -> N -> N -> N) (one_more : bool -> N -> N) (n : nat)
  (l : lang) (fs : str -> option fentry) (enc : str) (dirs : list str) (files : list str) (fl : list (list description)) (d : db) (ctx : list fobj) (ms : list (smodule A M N)) :
  n <> 0 -> PpModel.is_verilog l = true -> files <> [] -> nothing_given d ->
  Forall2 (fun file f => exists text, fs file = Some (FFile text) /\ verilog_source l text f) files fl ->
  whole_file A M n (List.concat fl) = true -> v_file A M N num test matches arith one_more n (List.concat fl) = Some ms ->
  exists objs d' ms', py_parse fobj vs vv sv_errors sv_objects l h fs enc dirs files d ctx = (Ok (ctx ++ objs), ctx ++ objs, d') /\ nothing_given d'
    /\ m_file A M N num test matches arith one_more n objs = Some ms' /\ Forall2 (mod_same A M N) ms ms'.
Proof.
  intros Hn V NF ND F H HM. destruct (file_total A M n Hn _ H) as (objs & C).
  destruct (C86_files_partial vs vv h l fs enc dirs files fl d ctx objs V NF ND F C) as (d' & R & ND').
  destruct (file_sim A M N num test matches arith one_more n Hn _ objs ms C HM) as (ms' & H1 & H2).
  exists objs, d', ms'. split; [exact R|split; [exact ND'|split; assumption]].
Qed.
Print Assumptions C91_files.
Theorem C91_string (vs : str -> list report) (vv : bool -> str -> list fobj * option exn) (h : bool)
  (A : algebra) (M : machine A) (N : Type) (num : genv N -> V A -> N) (test : genv N -> V A -> bool) (matches : genv N -> V A -> V A -> bool) (arith : asgop -> N -> N -> N) (one_more : bool -> N -> N) (n : nat)
  (l : lang) (fs : str -> option fentry) (enc : str) (dirs : list str) (text : str) (f : list description) (d : db) (ctx : list fobj) (ms : list (smodule A M N)) :
  n <> 0 -> PpModel.is_verilog l = true -> text <> [] -> nothing_given d -> verilog_source l text f ->
  whole_file A M n f = true -> v_file A M N num test matches arith one_more n f = Some ms ->
  exists objs ms', fst (py_parse_str fobj vs vv sv_errors sv_objects l h fs enc dirs text d ctx) = (Ok (ctx ++ objs), ctx ++ objs)
    /\ m_file A M N num test matches arith one_more n objs = Some ms' /\ Forall2 (mod_same A M N) ms ms'.
Proof.
  intros Hn V T ND S H HM. destruct (file_total A M n Hn _ H) as (objs & C).
  destruct (C86_macros_partial vs vv h l fs enc dirs text text f d d ctx objs V ND ND T T S S C) as (R & _).
  destruct (file_sim A M N num test matches arith one_more n Hn _ objs ms C HM) as (ms' & H1 & H2).
  exists objs, ms'. split; [exact R|split; assumption].
Qed.
Print Assumptions C91_string.

Lemma not_void s : s <> $"void" -> seqb s $"void" = false.
Proof. intros H. destruct (seqb s $"void") eqn:E; [|reflexivity]. apply seqb_eq in E. congruence. Qed.
(** An alternative of a case-generate that declares two things at once has a meaning, and an assertion of the C++
    fails: [case (s) default: wire a, b; endcase].  The statement is for every selector with a meaning and every two
    names. *)
Definition two_wires (a b : str) : gitem := GI_leaf (GL_net (mk_net (NK_net $"wire") false None [mk_nitem (IdPlain a) [] None; mk_nitem (IdPlain b) [] None])).
Definition case_module (m : str) (sel : vexpr) (g : gitem) : list description :=
  [DE_module (MD false (mk_mheader [] [] None (IdPlain m) [] None) HP_none [MT_item [] [] (GI_case [] sel [([], g)])])].
Theorem C91_case_item_refuted (A : algebra) (M : machine A) (N : Type) (num : genv N -> V A -> N) (test : genv N -> V A -> bool) (matches : genv N -> V A -> V A -> bool) (arith : asgop -> N -> N -> N) (one_more : bool -> N -> N) (n : nat)
  (m a b : str) (sel : vexpr) : m <> $"void" -> a <> $"void" -> b <> $"void" -> n <> 0 -> vmeaning A sel <> None ->
  (exists ms, v_file A M N num test matches arith one_more n (case_module m sel (two_wires a b)) = Some ms)
  /\ exists w, conv_source (case_module m sel (two_wires a b)) = UB w.
Proof.
  intros Nm Na Nb Hn H. apply not_void in Nm, Na, Nb. cbn -[seqb] in Nm, Na, Nb. destruct n as [|n]; [congruence|]. destruct (vmeaning A sel) as [v|] eqn:E; [|congruence]. split.
  - assert (X : SvWholeSpec.given (v_file A M N num test matches arith one_more (Datatypes.S n) (case_module m sel (two_wires a b))) = true).
    { unfold v_file, case_module. cbn -[vmeaning seqb s_gens]. rewrite Nm. unfold s_gens. cbn -[vmeaning seqb]. rewrite E. cbn -[vmeaning seqb]. unfold all_located, located, omapM, v_kleaf. cbn -[vmeaning seqb]. unfold kept_net_decl, v_nitem. cbn -[vmeaning seqb]. rewrite ?Na, ?Nb. cbn -[vmeaning seqb]. reflexivity. }
    apply is_given in X. exact X.
  - destruct (expr_total A sel) as (x & y & C & _); [unfold whole_expr; rewrite E; reflexivity|]. eexists. unfold conv_source, case_module. cbn -[conv]. rewrite C. cbn -[conv]. reflexivity.
Qed.
Print Assumptions C91_case_item_refuted.
(** What is in a branch that is not taken matters, though not to what the file means: an exception or undefined
    behaviour while it is converted is the outcome for the file. *)
Definition dead_module (m : str) (c : vexpr) (g : gitem) : list description :=
  [DE_module (MD false (mk_mheader [] [] None (IdPlain m) [] None) HP_none [MT_item [] [] (GI_if [] c g None)])].
Theorem C91_dead_branch_refuted (A : algebra) (M : machine A) (N : Type) (num : genv N -> V A -> N) (test : genv N -> V A -> bool) (matches : genv N -> V A -> V A -> bool) (arith : asgop -> N -> N -> N) (one_more : bool -> N -> N) (n : nat)
  (m : str) (c : vexpr) (v : V A) (g : gitem) : m <> $"void" -> n <> 0 -> vmeaning A c = Some v -> test [] v = false ->
  (exists ms, v_file A M N num test matches arith one_more n (dead_module m c g) = Some ms)
  /\ (forall e, conv_gitem g = Throw e -> conv_source (dead_module m c g) = Throw e)
  /\ (forall w, conv_gitem g = UB w -> conv_source (dead_module m c g) = UB w).
Proof.
  intros Nm Hn E T. apply not_void in Nm. cbn -[seqb] in Nm. destruct n as [|n]; [congruence|]. split.
  - assert (X : SvWholeSpec.given (v_file A M N num test matches arith one_more (Datatypes.S n) (dead_module m c g)) = true).
    { unfold v_file, dead_module. cbn -[vmeaning seqb s_gens]. rewrite Nm. unfold s_gens. cbn -[vmeaning seqb]. rewrite E. cbn -[vmeaning seqb]. rewrite T. reflexivity. }
    apply is_given in X. exact X.
  - destruct (expr_total A c) as (x & y & C & _); [unfold whole_expr; rewrite E; reflexivity|]. split; intros w G; unfold conv_source, dead_module; cbn -[conv conv_gitem];
    unfold conv_top; cbn -[conv conv_gitem]; change (conv_gitem (GI_if [] c g None)) with (c' <- conv c ;; a <- conv_gitem g ;; o <- collapse (SO_if (hdr_doc []) c' (pop_block a) [] None) ;; Ok [o]); rewrite C, G; reflexivity.
Qed.
Print Assumptions C91_dead_branch_refuted.

(** ** The files of C85 and C86 *)
Example C91_ex_whole : whole_file demo demo_machine 9 demo_file = true /\ whole_file demo demo_machine 9 one_file = true.
Proof. vm_compute. split; reflexivity. Qed.
Example C91_ex_files (vs : str -> list report) (vv : bool -> str -> list fobj * option exn) (h : bool) :
  exists objs d' ms', py_parse fobj vs vv sv_errors sv_objects SV2012 h two_files $"utf-8" [] [ $"a.v"; $"b.v" ] [] [] = (Ok objs, objs, d')
    /\ m_file demo demo_machine Z g_num g_test g_matches g_arith g_more 9 objs = Some ms' /\ length ms' = 2.
Proof.
  assert (X : SvWholeSpec.given (v_file demo demo_machine Z g_num g_test g_matches g_arith g_more 9 (List.concat [one_file; one_file])) = true) by (vm_compute; reflexivity).
  apply is_given in X as (ms & X).
  destruct (C91_files vs vv h demo demo_machine Z g_num g_test g_matches g_arith g_more 9 SV2012 two_files $"utf-8" [] [ $"a.v"; $"b.v" ] [one_file; one_file] [] [] ms) as (objs & d' & ms' & R & _ & Hm & F).
  - discriminate.
  - reflexivity.
  - discriminate.
  - split; constructor.
  - repeat (apply Forall2_cons; [eexists; split; [reflexivity|exact (proj1 C86_ex_source)]|]). apply Forall2_nil.
  - vm_compute. reflexivity.
  - exact X.
  - exists objs, d', ms'. split; [exact R|split; [exact Hm|]]. assert (LF : length ms = length ms') by (clear - F; induction F; [reflexivity|cbn [length]; congruence]). rewrite <- LF. assert (L : match v_file demo demo_machine Z g_num g_test g_matches g_arith g_more 9 (List.concat [one_file; one_file]) with Some l => length l | None => 0 end = 2) by (vm_compute; reflexivity). rewrite X in L. exact L.
Qed.
(** [module m; case (0) default: wire a, b; endcase endmodule] *)
Example C91_ex_case : (exists w, convert_file_text SV2012 $"module m; case (0) default: wire a, b; endcase endmodule" = UB w)
  /\ (exists objs, convert_file_text SV2012 $"module m; case (0) default: begin wire a, b; end endcase endmodule" = Ok objs)
  /\ whole_file demo demo_machine 9 (case_module $"m" (P_C83.num_ "0") (two_wires $"a" $"b")) = false
  /\ whole_file demo demo_machine 9 (case_module $"m" (P_C83.num_ "0") (GI_block None None None [two_wires $"a" $"b"])) = true.
Proof. split; [eexists|split; [eexists|split]]; vm_compute; reflexivity. Qed.
(** A number of 4294967296 bits in a branch that is not taken *)
Definition wide (t : inttok) : gitem := GI_leaf (GL_assign [(target_ "w", VLit (L_NUMBER t), [])]).
Example C91_ex_dead : (exists w, convert_file_text SV2012 $"module m; if (0) assign w = 4294967296'h1; endmodule" = UB w)
  /\ (exists objs, convert_file_text SV2012 $"module m; if (0) assign w = 32'h1; endmodule" = Ok objs)
  /\ (exists w, conv_gitem (wide (TokSized $"4294967296'h1")) = UB w)
  /\ match vmeaning demo (P_C83.num_ "0") with Some v => g_test [] v = false | None => False end.
Proof. split; [eexists|split; [eexists|split; [eexists|]]]; vm_compute; reflexivity. Qed.
