(** C92: from Verilog files to Python objects.  [tells_file p l] (PyObjSpec.v): the attributes of the Python object p are those of the AST l; [seen_obj] (PySeenSpec.v): what of an AST
    reaches Python; [utf8_source], [known_file]: SvPySpec.v. *)
From Verif Require Import Base BaseFacts StrSpec AstModel LitModel LitSpec StmModel SvExprModel SvExprSpec SvStmModel SvStmSpec SvStmDemo SvTypeModel SvDeclModel SvDeclSpec SvDeclProofs SvModuleSpec SvInstSpec SvTfModel SvGenModel SvGenSpec SvTypeSpec SvFileModel SvFileSpec SvFileProofs.
From Verif Require Import OutBufferModel PpModel PpSpec PpDbProofs MacroSpec PpArgSpec PpSrcSpec PpSrcRunProofs ApiModel.
From Verif Require Import VhdlLexSpec SvLexModel SvLexSpec SvSpellSpec SvTextProofs SvModSyntaxModel SvModSyntaxSpec SvModSyntaxComplete SvModSpellSpec SvModTextProofs ConvertModel ConvertSpec SvSyntaxModel SvSyntaxSpec SvStmSyntaxModel SvStmSyntaxSpec SvStmSpellSpec SvWholeSpec SvWholeProofs PpSrcWfTac P_C76 P_C83 P_C85 P_C86 P_C91.
From Verif Require Import PyModel PySpec PyObjModel PyObjSpec PyObjProofs PySeenSpec PySeenProofs ConvertPySvModel SvPySpec SvPyProofs SvPyProofs2 SvPyTextProofs.
Import PySpec PyObjModel PyObjSpec.

Lemma shown_verilog objs ctx : forallb readable_obj (map of_fobj ctx) = true -> forallb readable_obj (map of_fobj objs) = true ->
  exists p, py_context (map of_fobj (ctx ++ objs)) = Ok p /\ tells_file p (map seen_obj (map of_fobj ctx) ++ map seen_obj (map of_fobj objs)).
Proof. intros H R. destruct (file_seen (map of_fobj (ctx ++ objs))) as (p & E & T); [rewrite map_app, forallb_app, H; exact R|]. exists p. split; [exact E|]. rewrite !map_app in T. exact T. Qed.
Lemma to_verilog l (fs : str -> option fentry) files fl : Forall2 (fun file f => exists text, fs file = Some (FFile text) /\ utf8_source l text f) files fl ->
  Forall2 (fun file f => exists text, fs file = Some (FFile text) /\ verilog_source l text f) files fl.
Proof. induction 1 as [|file f files fl (text & F & S) _ IH]; constructor; [|exact IH]. exists text. split; [exact F|exact (utf8_verilog l text f S)]. Qed.

(** The Python object shows the ASTs that were there before and behind them those of the files, and these have the meaning
    of the modules in the files. *)
Theorem C92_files (vs : str -> list report) (vv : bool -> str -> list fobj * option exn) (h : bool)
  (A : algebra) (M : machine A) (N : Type) (num : genv N -> V A -> N) (test : genv N -> V A -> bool) (matches : genv N -> V A -> V A -> bool) (arith : asgop -> N -> N -> N) (one_more : bool -> N -> N) (n : nat)
  (l : lang) (fs : str -> option fentry) (enc : str) (dirs : list str) (files : list str) (fl : list (list description)) (d : db) (ctx : list fobj) (ms : list (smodule A M N)) :
  n <> 0 -> PpModel.is_verilog l = true -> files <> [] -> nothing_given d ->
  Forall2 (fun file f => exists text, fs file = Some (FFile text) /\ utf8_source l text f) files fl ->
  whole_file A M n (List.concat fl) = true -> v_file A M N num test matches arith one_more n (List.concat fl) = Some ms ->
  known_file (List.concat fl) = true -> forallb readable_obj (map of_fobj ctx) = true ->
  exists objs p d' ms', verilog_to_python vs vv l h fs enc dirs files d ctx = (Ok p, ctx ++ objs, d') /\ nothing_given d'
    /\ tells_file p (map seen_obj (map of_fobj ctx) ++ map seen_obj (map of_fobj objs))
    /\ m_file A M N num test matches arith one_more n objs = Some ms' /\ Forall2 (mod_same A M N) ms ms'.
Proof.
  intros Hn V NF ND F H HM K R. destruct (file_total A M n Hn _ H) as (objs & C).
  destruct (C86_files_partial vs vv h l fs enc dirs files fl d ctx objs V NF ND (to_verilog l fs files fl F) C) as (d' & P & ND').
  destruct (file_sim A M N num test matches arith one_more n Hn _ objs ms C HM) as (ms' & H1 & H2).
  destruct (shown_verilog objs ctx R (files_readable l (fun file text => fs file = Some (FFile text)) files fl F K objs C)) as (p & Ep & T).
  exists objs, p, d', ms'. unfold verilog_to_python, verilog_shown. rewrite P. cbn [fst snd bind]. rewrite Ep. split; [reflexivity|split; [exact ND'|split; [exact T|split; assumption]]].
Qed.
Print Assumptions C92_files.
Theorem C92_string (vs : str -> list report) (vv : bool -> str -> list fobj * option exn) (h : bool)
  (A : algebra) (M : machine A) (N : Type) (num : genv N -> V A -> N) (test : genv N -> V A -> bool) (matches : genv N -> V A -> V A -> bool) (arith : asgop -> N -> N -> N) (one_more : bool -> N -> N) (n : nat)
  (l : lang) (fs : str -> option fentry) (enc : str) (dirs : list str) (text : str) (f : list description) (d : db) (ctx : list fobj) (ms : list (smodule A M N)) :
  n <> 0 -> PpModel.is_verilog l = true -> text <> [] -> nothing_given d -> utf8_source l text f ->
  whole_file A M n f = true -> v_file A M N num test matches arith one_more n f = Some ms ->
  known_file f = true -> forallb readable_obj (map of_fobj ctx) = true ->
  exists objs p ms', fst (verilog_str_to_python vs vv l h fs enc dirs text d ctx) = (Ok p, ctx ++ objs)
    /\ tells_file p (map seen_obj (map of_fobj ctx) ++ map seen_obj (map of_fobj objs))
    /\ m_file A M N num test matches arith one_more n objs = Some ms' /\ Forall2 (mod_same A M N) ms ms'.
Proof.
  intros Hn V T0 ND S H HM K R. destruct (file_total A M n Hn _ H) as (objs & C). pose proof (utf8_verilog l text f S) as S'.
  destruct (C86_macros_partial vs vv h l fs enc dirs text text f d d ctx objs V ND ND T0 T0 S' S' C) as (P & _).
  destruct (file_sim A M N num test matches arith one_more n Hn _ objs ms C HM) as (ms' & H1 & H2).
  destruct (shown_verilog objs ctx R (utf8_readable l text f objs S K C)) as (p & Ep & T).
  exists objs, p, ms'. unfold verilog_str_to_python, verilog_shown. rewrite P. cbn [fst snd bind]. rewrite Ep. split; [reflexivity|split; [exact T|split; assumption]].
Qed.
Print Assumptions C92_string.
(** What the convertor has from an earlier parse of Verilog sources meets the condition on ctx. *)
Theorem C92_earlier (l : lang) (text : str) (f : list description) (objs : list fobj) :
  utf8_source l text f -> known_file f = true -> conv_source f = Ok objs -> forallb readable_obj (map of_fobj objs) = true.
Proof. intros S K C. exact (utf8_readable l text f objs S K C). Qed.
Print Assumptions C92_earlier.
(** A condition on the texts alone: the strings of a source are UTF-8 when what the preprocessor makes of it is. *)
Theorem C92_text_of (l : lang) (p : items) (out : str) (ps : list part) (ts : list mtk) (f : list description) :
  wf p [] -> meaning (lang_ge l SV2005) p out -> (Z.of_nat (1 + lines (PpSrcSpec.render p)) < 2 ^ 61)%Z ->
  plain_verilog l ps out -> spelled_mod l ts (elems ps) -> is_file f ts -> sendable_text out = true -> utf8_source l (PpSrcSpec.render p) f.
Proof. intros H1 H2 H3 H4 H5 H6 U. exact (a_utf8_source l p out ps ts f H1 H2 H3 H4 H5 H6 (utf8_strings l ps out H4 U)). Qed.
Print Assumptions C92_text_of.
(** A module without body whose first port has no direction of its own: [extern module m(wire a);].  The file is parsed
    and nothing of it reaches Python. *)
Lemma unknown_port p : rd0 p -> d_dir p = DIR_UNKNOWN -> py_iddef p = py_error "Invalid direction value".
Proof.
  intros R D. assert (Q : readable_def (mk_iddef (d_name p) (d_type p) (d_value p) DIR_IN (d_latched p) (d_const p) (d_static p) (d_shared p) (d_alias p) (d_doc p) (d_attrs p)) = true) by (apply rd1_def; split; [exact R|reflexivity]).
  apply def_seen in Q as (x & E & _). unfold py_iddef in *. cbn [d_name d_type d_value d_dir d_latched d_const d_static d_shared d_alias d_doc d_attrs] in E.
  apply bind_inv in E as (a1 & -> & E). apply bind_inv in E as (a2 & -> & E). apply bind_inv in E as (a3 & -> & E). apply bind_inv in E as (a4 & -> & E). rewrite D. reflexivity.
Qed.
Lemma py_first {A} (f : A -> outcome pyval) w x l : f x = py_error w -> mapM f (x :: l) = py_error w.
Proof. intros E. cbn [mapM]. rewrite E. reflexivity. Qed.
Lemma py_behind {A} (f : A -> outcome pyval) w l x r : mapM f l = Ok r -> f x = py_error w -> mapM f (l ++ [x]) = py_error w.
Proof. revert r. induction l as [|y l IH]; intros r E X; [exact (py_first f w x [] X)|]. cbn [mapM] in E. apply bind_inv in E as (a & Ha & E). apply bind_inv in E as (b & Hb & _). cbn [app mapM]. rewrite Ha. cbn [bind]. rewrite (IH b Hb X). reflexivity. Qed.
Lemma fill0 l : Forall rd0 l -> Forall rd0 (map fill_type l).
Proof. intros F. apply Forall_map. eapply Forall_impl; [|exact F]. intros d D. exact (proj1 (fill_rd d D)). Qed.
Lemma extern_unseen h dc a t v ps ts o : w_module true (MD true h (HP_ansi ((dc, a, AN_port None t v) :: ps)) []) ts -> Forall good_m ts ->
  conv_mdecl (MD true h (HP_ansi ((dc, a, AN_port None t v) :: ps)) []) = Ok o -> py_obj (of_fobj o) = py_error "Invalid direction value".
Proof.
  intros W G C. inversion W; subst. mgoods. match goal with X : w_header _ _ |- _ => destruct (header_rd _ _ _ X ltac:(assumption)) as (Hn & Hd & Hh & Hp) end.
  pose proof C as C'. cbn [conv_mdecl] in C. binv C. binv C. injection C as <-. destruct (C76_extern_refuted _ _ _ _ _ _ _ _ C') as (p & q & E & D). cbn [md_ports] in E. destruct (Hh _ Hx) as [A1 A2]. destruct (Hp _ Hx0) as [B1 _].
  assert (P : rd0 p) by (apply fill0 in B1; rewrite E in B1; exact (Forall_inv B1)).
  pose proof (dec_rd _ _ [] Hn A2 (Forall_nil _)) as R. rewrite Hd, A1, E. apply obj_seen in R as (z & R & _). unfold of_mdec in *. cbn [of_fobj of_mdec py_obj md_name md_doc md_attrs md_generics md_ports] in *.
  apply bind_inv in R as (k & -> & R). apply bind_inv in R as (g & -> & _). cbn [bind]. rewrite (py_first _ _ p q (unknown_port p P D)). reflexivity.
Qed.
Theorem C92_extern_refuted (vs : str -> list report) (vv : bool -> str -> list fobj * option exn) (h : bool)
  (l : lang) fs enc dirs (text : str) mh dc a t v ps d (ctx objs : list fobj) :
  PpModel.is_verilog l = true -> text <> [] -> nothing_given d ->
  utf8_source l text [DE_module (MD true mh (HP_ansi ((dc, a, AN_port None t v) :: ps)) [])] ->
  conv_source [DE_module (MD true mh (HP_ansi ((dc, a, AN_port None t v) :: ps)) [])] = Ok objs -> forallb readable_obj (map of_fobj ctx) = true ->
  fst (py_parse_str fobj vs vv sv_errors sv_objects l h fs enc dirs text d ctx) = (Ok (ctx ++ objs), ctx ++ objs)
  /\ fst (verilog_str_to_python vs vv l h fs enc dirs text d ctx) = (Throw (RuntimeError $"Invalid direction value"), ctx ++ objs).
Proof.
  intros V T0 ND S C R. pose proof (utf8_verilog _ _ _ S) as S'. destruct (C86_macros_partial vs vv h l fs enc dirs text text _ d d ctx objs V ND ND T0 T0 S' S' C) as (P & _). split; [exact P|].
  destruct (utf8_tokens _ _ _ S) as (ts & F & G). unfold is_file in F. inversion F; subst. mgoods. unfold conv_source in C. rewrite concat_cons in C. binv C. binv Hx. injection Hx as <-. binv C. injection Hx as <-. injection C as <-.
  unfold verilog_str_to_python, verilog_shown. rewrite P. cbn [fst snd bind]. f_equal. unfold py_context. rewrite map_app. destruct (file_seen _ R) as (z & Z & _). unfold py_context in Z. apply bind_inv in Z as (zs & Z & _).
  cbn [app map]. rewrite (py_behind _ _ _ _ _ Z (extern_unseen _ _ _ _ _ _ _ _ ltac:(eassumption) ltac:(assumption) Hx0)). reflexivity.
Qed.
Print Assumptions C92_extern_refuted.

(** ** The files of C86 *)
Lemma no_strings l s : forallb (fun t => match t with T_string _ => false | _ => true end) l = true -> In (T_string s) l -> sendable_text s = true.
Proof. intros H I. rewrite forallb_forall in H. discriminate (H _ I). Qed.
Example C92_ex_source : utf8_source SV2012 (PpSrcSpec.render demo_source) one_file.
Proof.
  apply (a_utf8_source SV2012 demo_source demo_out one_parts one_toks).
  - unfold demo_source. cbn [wf wf_item wf_branches wf_else chars]. wf_source.
  - unfold demo_source, chars. meaning_of. + use_plain (Cons (IText [PChar "8"%char]) Nil); reflexivity. + vm_compute. reflexivity.
  - reflexivity.
  - unfold plain_verilog, one_parts, demo_out. cbn [app s2l list_ascii_of_string]. repeat step.
  - unfold spelled_mod, one_toks, one_parts. cbn [elems app]. repeat (apply Forall2_cons; [cbn [spells_mtk spells_stk kw_text mkw_text]; first [reflexivity | solve [split; [reflexivity|sign_ok]] | solve [split; [reflexivity|split; sign_ok]] | (cbn [spells]; split; [reflexivity|split; [not_in|discriminate]])]|]). apply Forall2_nil.
  - refine (eq_ind _ (is_file one_file) _ one_toks _); [unfold one_file; apply w_f_cons; [|apply w_f_nil]|].
    + eapply (w_md true _ _ _ None); [apply (w_hd m_module); [left; reflexivity|apply w_pl_none|apply w_po_none]| |left; reflexivity].
      apply w_it_top; [apply w_tp_item; [exact Logic.I|]; apply w_g_leaf; apply w_l_net; [apply w_ot_none|]; apply wc_one; apply (w_ni _ [] None); [constructor|exact Logic.I]|].
      apply w_it_top; [apply w_tp_item; [exact Logic.I|]; apply w_g_leaf; apply w_l_assign; apply w_in_one; [good_lv|good_e]|apply w_it_nil].
    + reflexivity.
  - intros s. apply no_strings. reflexivity.
Qed.
Example C92_ex_files (vs : str -> list report) (vv : bool -> str -> list fobj * option exn) (h : bool) :
  exists objs p d', verilog_to_python vs vv SV2012 h two_files $"utf-8" [] [ $"a.v"; $"b.v" ] [] [] = (Ok p, objs, d')
    /\ tells_file p (map seen_obj (map of_fobj objs)).
Proof.
  assert (X : SvWholeSpec.given (v_file demo demo_machine Z g_num g_test g_matches g_arith g_more 9 (List.concat [one_file; one_file])) = true) by (vm_compute; reflexivity).
  apply is_given in X as (ms & X).
  destruct (C92_files vs vv h demo demo_machine Z g_num g_test g_matches g_arith g_more 9 SV2012 two_files $"utf-8" [] [ $"a.v"; $"b.v" ] [one_file; one_file] [] [] ms) as (objs & p & d' & ms' & R & _ & T & _).
  - discriminate.
  - reflexivity.
  - discriminate.
  - split; constructor.
  - repeat (apply Forall2_cons; [eexists; split; [reflexivity|exact C92_ex_source]|]). apply Forall2_nil.
  - vm_compute. reflexivity.
  - exact X.
  - reflexivity.
  - reflexivity.
  - exists objs, p, d'. split; [exact R|exact T].
Qed.
(** [extern module m(wire a);] *)
Definition extern_source : items := Cons (chars $"extern module m(wire a);") Nil.
Definition extern_mod : mdecl := MD true (mk_mheader [] [] None (IdPlain $"m") [] None) (HP_ansi [([], [], AN_port None (Some (T_nv (N_net $"wire" None))) (mk_vitem (IdPlain $"a") [] None))]) [].
Definition extern_toks : list mtk := [M m_extern; M m_module; yx (KId $"m"); yx KLp; Net $"wire"; yx (KId $"a"); yx KRp; Y Semi].
Definition extern_parts : list part := Eval cbv [w_ s_ sp_] in [w_ "extern"; sp_; w_ "module"; sp_; w_ "m"; s_ "("; w_ "wire"; sp_; w_ "a"; s_ ")"; s_ ";"].
Example C92_ex_extern_source : utf8_source SV2012 $"extern module m(wire a);" [DE_module extern_mod].
Proof.
  apply (a_utf8_source SV2012 extern_source $"extern module m(wire a);" extern_parts extern_toks).
  - unfold extern_source. cbn [wf wf_item wf_branches wf_else chars]. wf_source.
  - unfold extern_source, chars. meaning_of. vm_compute. reflexivity.
  - reflexivity.
  - unfold plain_verilog, extern_parts. cbn [app s2l list_ascii_of_string]. repeat step.
  - unfold spelled_mod, extern_toks, extern_parts. cbn [elems app]. repeat (apply Forall2_cons; [cbn [spells_mtk spells_stk kw_text mkw_text]; first [reflexivity | solve [split; [reflexivity|sign_ok]] | solve [split; [reflexivity|split; sign_ok]] | (cbn [spells]; split; [reflexivity|split; [not_in|discriminate]])]|]). apply Forall2_nil.
  - refine (eq_ind _ (is_file [DE_module extern_mod]) _ extern_toks _); [unfold extern_mod; apply w_f_cons; [|apply w_f_nil]|].
    + apply w_md_extern; [|discriminate]. apply (w_hd m_module); [left; reflexivity|apply w_pl_none|]. apply w_po_ansi; [exact Logic.I|]. apply wc_one. apply (w_an None (Some (N_net $"wire" None))); [discriminate|apply w_nv_net, w_ot_none|apply (w_vi _ [] None); [constructor|exact Logic.I]].
    + reflexivity.
  - intros s. apply no_strings. reflexivity.
Qed.
Example C92_ex_extern (vs : str -> list report) (vv : bool -> str -> list fobj * option exn) (h : bool) fs :
  exists objs, fst (verilog_str_to_python vs vv SV2012 h fs $"utf-8" [] $"extern module m(wire a);" [] []) = (Throw (RuntimeError $"Invalid direction value"), objs) /\ length objs = 1.
Proof.
  assert (X : exists objs, conv_source [DE_module extern_mod] = Ok objs /\ length objs = 1) by (eexists; split; vm_compute; reflexivity). destruct X as (objs & C & L). exists objs.
  split; [|exact L]. refine (proj2 (C92_extern_refuted vs vv h SV2012 fs $"utf-8" [] _ _ _ _ _ _ _ [] [] objs eq_refl _ _ C92_ex_extern_source C eq_refl)); [discriminate|split; constructor].
Qed.
