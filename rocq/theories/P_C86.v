(** C86: from Verilog files to the objects the user gets.  [verilog_source l text f] (ConvertSpec.v): the text of a
    file, with its macros and conditionals (C78), describes the modules f (C85). *)
From Verif Require Import Base BaseFacts StrSpec AstModel LitModel LitSpec StmModel SvExprModel SvExprSpec SvStmModel SvStmSpec SvStmDemo SvTypeModel SvDeclModel SvDeclSpec SvDeclProofs SvModuleSpec SvInstSpec SvTfModel SvGenModel SvGenSpec SvTypeSpec SvFileModel SvFileSpec SvFileProofs.
From Verif Require Import OutBufferModel PpModel PpSpec PpDbProofs MacroSpec PpArgSpec PpSrcSpec PpSrcRunProofs ApiModel.
From Verif Require Import VhdlLexSpec SvLexModel SvLexSpec SvSpellSpec SvTextProofs SvModSyntaxModel SvModSyntaxSpec SvModSyntaxComplete SvModSpellSpec SvModTextProofs ConvertModel ConvertSpec SvSyntaxModel SvSyntaxSpec SvStmSyntaxModel SvStmSyntaxSpec SvStmSpellSpec PpSrcWfTac P_C83.

(** No macro was given by the user before. *)
Definition nothing_given (d : db) : Prop := uniq d /\ Forall (fun x => e_persistent (snd x) = false) d.
Lemma visit_conv f objs : conv_source f = Ok objs -> visit_descs f = (objs, None).
Proof.
  revert objs. induction f as [|x f IH]; intros objs H; [injection H as <-; reflexivity|]. unfold conv_source in H. rewrite concat_cons in H. apply bind_inv in H as (a & Ha & H). apply bind_inv in H as (b & Hb & H). injection H as <-. specialize (IH b Hb).
  cbn [visit_descs]. destruct x as [m|]; [|injection Ha as <-; exact IH]. apply bind_inv in Ha as (o & Ho & Ha). injection Ha as <-. rewrite Ho, IH. reflexivity.
Qed.
Lemma tree_of v ps text ts f : plain_verilog v ps text -> spelled_mod v ts (elems ps) -> is_file f ts -> sv_tree v text = Ok f.
Proof. intros P S W. unfold sv_tree. rewrite (lex_cut v ps text P). cbn [bind]. rewrite (spelled_mod_toks v ts _ S). exact (parse_file_written true f ts W). Qed.
Lemma nothing_after d d' : nothing_given d -> uniq d' -> delete_non_persistent d' = delete_non_persistent d -> nothing_given d'.
Proof.
  intros [_ F] U E. split; [exact U|]. assert (N : delete_non_persistent d = []).
  { clear - F. induction F as [|x d H _ IH]; [reflexivity|]. unfold delete_non_persistent in *. cbn [filter]. rewrite H. exact IH. }
  rewrite N in E. clear - E. unfold delete_non_persistent in E. induction d' as [|x d' IH]; [constructor|]. cbn [filter] in E. destruct (e_persistent (snd x)) eqn:P; [discriminate E|]. constructor; [exact P|apply IH, E].
Qed.
Section Api.
Context (vs : str -> list report) (vv : bool -> str -> list fobj * option exn) (h : bool).
Lemma run_source l src out f objs st (b : outbuf) ctx : ob_text b = out -> sv_tree l out = Ok f -> conv_source f = Ok objs ->
  sv_parse_text fobj sv_errors sv_objects l h src (Ok b, st) ctx = ((Ok tt, ctx ++ objs), ps_db st).
Proof.
  intros <- T C. unfold sv_parse_text, run_parser. assert (E : sv_errors l (ob_text b) = []) by (unfold sv_errors; rewrite T; reflexivity). rewrite E. cbn [log_errors check_errors].
  unfold sv_objects. rewrite T, (visit_conv f objs C). reflexivity.
Qed.
Lemma source_of l text f : verilog_source l text f -> PpModel.is_verilog l = true -> forall fs d dirs, nothing_given d ->
  (exists b st out, verilog_pp_str l fs d dirs text = (Ok b, st) /\ ob_text b = out /\ sv_tree l out = Ok f) /\
  (forall file, fs file = Some text -> exists b st out, verilog_pp_file l fs d dirs file = (Ok b, st) /\ ob_text b = out /\ sv_tree l out = Ok f).
Proof.
  intros [p out ps ts f' HW HM HL P S W] V fs d dirs [_ N]. split.
  - destruct (source_meaning l fs d dirs p out V N HW HM HL) as (b & st & R & T). exists b, st, out. split; [exact R|split; [exact T|exact (tree_of l ps out ts f' P S W)]].
  - intros file F. destruct (source_meaning_file l fs d dirs file p out V N F HW HM HL) as (b & st & R & T). exists b, st, out. split; [exact R|split; [exact T|exact (tree_of l ps out ts f' P S W)]].
Qed.
Lemma parse_each l fs enc dirs files fl : PpModel.is_verilog l = true -> l <> VHDL -> is_verilog_lang l = true ->
  Forall2 (fun file f => exists text, fs file = Some (FFile text) /\ verilog_source l text f) files fl ->
  forall d ctx objs, nothing_given d -> conv_source (List.concat fl) = Ok objs ->
  exists d', parse_files fobj vs vv sv_errors sv_objects l h fs enc dirs files d ctx = ((Ok tt, ctx ++ objs), d') /\ nothing_given d'.
Proof.
  intros V NV VL. induction 1 as [|file f files fl (text & F & S) _ IH]; intros d ctx objs N C.
  - injection C as <-. exists d. rewrite app_nil_r. split; [reflexivity|exact N].
  - cbn [List.concat] in C. assert (exists o1 o2, conv_source f = Ok o1 /\ conv_source (List.concat fl) = Ok o2 /\ objs = o1 ++ o2) as (o1 & o2 & C1 & C2 & ->).
    { clear - C. revert objs C. induction f as [|x f IH]; intros objs C; [exists [], objs; repeat split; exact C|]. cbn [app] in C. unfold conv_source in C. rewrite concat_cons in C. apply bind_inv in C as (a & Ha & C). apply bind_inv in C as (b & Hb & C). injection C as <-.
      destruct (IH b Hb) as (o1 & o2 & E1 & E2 & ->). exists (a ++ o1), o2. split; [unfold conv_source; rewrite concat_cons, Ha; cbn [bind]; unfold conv_source in E1; rewrite E1; reflexivity|split; [exact E2|apply app_assoc]]. }
    destruct (source_of l text f S V (pp_fs fs) d dirs N) as (_ & HF). destruct (HF file) as (b & st & out & R & T & TR); [unfold pp_fs; rewrite F; reflexivity|].
    assert (N' : nothing_given (ps_db st)).
    { destruct (persistent_survive_file l (pp_fs fs) d dirs file (proj1 N)) as (E & _). rewrite R in E. cbn [snd] in E. apply (nothing_after d); [exact N| |exact E].
      pose proof (proj2 (sp_all l (pp_fs fs) d dirs) file) as SP. unfold same_persistent in SP. rewrite R in SP. exact (proj1 (SP (uniq_init l d dirs (proj1 N)))). }
    cbn [parse_files]. rewrite F. unfold sv_parse_file. rewrite R. rewrite (run_source l file out f o1 st b ctx T TR C1), VL.
    destruct (IH (ps_db st) (ctx ++ o1) o2 N' C2) as (d' & R' & N2). exists d'. split; [|exact N2]. cbn [fst snd]. rewrite app_assoc. destruct l; try exact R'. congruence.
Qed.
End Api.

(** Files of Verilog sources give the objects of all their modules, in the order of the files and of the modules in
    them, behind the objects that were there before. *)
Theorem C86_files_partial (vs : str -> list report) (vv : bool -> str -> list fobj * option exn) (h : bool)
  (l : lang) (fs : str -> option fentry) (enc : str) (dirs : list str) (files : list str) (fl : list (list description)) (d : db) (ctx objs : list fobj) :
  PpModel.is_verilog l = true -> files <> [] -> nothing_given d ->
  Forall2 (fun file f => exists text, fs file = Some (FFile text) /\ verilog_source l text f) files fl -> conv_source (List.concat fl) = Ok objs ->
  exists d', py_parse fobj vs vv sv_errors sv_objects l h fs enc dirs files d ctx = (Ok (ctx ++ objs), ctx ++ objs, d') /\ nothing_given d'.
Proof.
  intros V NF N F C. destruct (parse_each vs vv h l fs enc dirs files fl V) with (d := d) (ctx := ctx) (objs := objs) as (d' & R & N'); try assumption; try (destruct l; try discriminate V; (discriminate || reflexivity)).
  exists d'. split; [|exact N']. unfold py_parse. destruct files; [congruence|]. rewrite R. reflexivity.
Qed.
Print Assumptions C86_files_partial.
(** The modules the user gets have the interfaces, the items and the behaviour of the modules in the sources. *)
Theorem C86_meaning_partial (vs : str -> list report) (vv : bool -> str -> list fobj * option exn) (h : bool)
  (A : algebra) (M : machine A) (N : Type) (num : genv N -> V A -> N) (test : genv N -> V A -> bool) (matches : genv N -> V A -> V A -> bool) (arith : asgop -> N -> N -> N) (one_more : bool -> N -> N) (n : nat)
  (l : lang) (fs : str -> option fentry) (enc : str) (dirs : list str) (files : list str) (fl : list (list description)) (d : db) (objs : list fobj) (ms : list (smodule A M N)) :
  n <> 0 -> PpModel.is_verilog l = true -> files <> [] -> nothing_given d ->
  Forall2 (fun file f => exists text, fs file = Some (FFile text) /\ verilog_source l text f) files fl -> conv_source (List.concat fl) = Ok objs ->
  v_file A M N num test matches arith one_more n (List.concat fl) = Some ms ->
  exists d' ms', py_parse fobj vs vv sv_errors sv_objects l h fs enc dirs files d [] = (Ok objs, objs, d')
    /\ m_file A M N num test matches arith one_more n objs = Some ms' /\ Forall2 (mod_same A M N) ms ms'.
Proof.
  intros Hn V NF ND F C H. destruct (C86_files_partial vs vv h l fs enc dirs files fl d [] objs V NF ND F C) as (d' & R & _). destruct (file_sim A M N num test matches arith one_more n Hn (List.concat fl) objs ms C H) as (ms' & H1 & H2).
  exists d', ms'. split; [exact R|split; assumption].
Qed.
Print Assumptions C86_meaning_partial.
(** A source gives the same objects as the text without macros that it stands for, and as any other source of the
    same modules. *)
Theorem C86_macros_partial (vs : str -> list report) (vv : bool -> str -> list fobj * option exn) (h : bool)
  (l : lang) (fs : str -> option fentry) (enc : str) (dirs : list str) (text text' : str) (f : list description) (d d' : db) (ctx objs : list fobj) :
  PpModel.is_verilog l = true -> nothing_given d -> nothing_given d' -> text <> [] -> text' <> [] -> verilog_source l text f -> verilog_source l text' f -> conv_source f = Ok objs ->
  fst (py_parse_str fobj vs vv sv_errors sv_objects l h fs enc dirs text d ctx) = (Ok (ctx ++ objs), ctx ++ objs)
  /\ fst (py_parse_str fobj vs vv sv_errors sv_objects l h fs enc dirs text' d' ctx) = (Ok (ctx ++ objs), ctx ++ objs).
Proof.
  assert (G : forall t d0, PpModel.is_verilog l = true -> nothing_given d0 -> t <> [] -> verilog_source l t f -> conv_source f = Ok objs -> fst (py_parse_str fobj vs vv sv_errors sv_objects l h fs enc dirs t d0 ctx) = (Ok (ctx ++ objs), ctx ++ objs)).
  { intros t d0 V N T S C. destruct (source_of l t f S V (pp_fs fs) d0 dirs N) as ((b & st & out & R & E & TR) & _).
    assert (P : parse_text fobj vs vv sv_errors sv_objects l h fs enc dirs t d0 ctx = ((Ok tt, ctx ++ objs), ps_db st)).
    { unfold parse_text, sv_parse_str. rewrite R, (run_source h l _ out f objs st b ctx E TR C). destruct l; try discriminate V; reflexivity. }
    unfold py_parse_str. destruct t; [congruence|]. rewrite P. reflexivity. }
  intros V N N' T T' S S' C. split; apply G; assumption.
Qed.
Print Assumptions C86_macros_partial.

(** ** `define VAL 8
       `ifdef SIM
       module sim; endmodule
       `else
       module m; wire w; assign w = `VAL; endmodule
       `endif *)
Definition chars (s : str) : item := IText (map PChar s).
Definition demo_source : items :=
  Cons (IDef [sp] $"VAL" None [sp] $"8" [] None Lf)
  (Cons (IIf false (One [sp] $"SIM" (Cons (chars ([nl] ++ $"module sim; endmodule" ++ [nl])) Nil))
             (Else (SEol Lf) (Cons (chars $"module m; wire w; assign w = ") (Cons (ICall $"VAL" None) (Cons (chars ($"; endmodule" ++ [nl])) Nil)))) (SEol Lf)) Nil).
Definition demo_out : str := $"module m; wire w; assign w = 8; endmodule" ++ [nl].
Definition one_file : list description := [DE_module (MD false (mk_mheader [] [] None (IdPlain $"m") [] None) HP_none
  [MT_item [] [] (GI_leaf (GL_net (mk_net (NK_net $"wire") false None [mk_nitem (IdPlain $"w") [] None]))); MT_item [] [] (GI_leaf (GL_assign [(target_ "w", num_ "8", [])]))])].
Definition one_toks : list mtk := [M m_module; yx (KId $"m"); Y Semi; Net $"wire"; yx (KId $"w"); Y Semi; M m_assign; yx (KId $"w"); Y (Asg A_ASSIGN); yx (KUnsigned $"8"); Y Semi; M m_endmodule].
Definition one_parts : list part := Eval cbv [w_ s_ sp_] in
  [w_ "module"; sp_; w_ "m"; s_ ";"; sp_; w_ "wire"; sp_; w_ "w"; s_ ";"; sp_; w_ "assign"; sp_; w_ "w"; sp_; s_ "="; sp_; G_elem (T_unsigned $"8"); s_ ";"; sp_; w_ "endmodule"; G_white [nl]].
Example C86_ex_source : verilog_source SV2012 (PpSrcSpec.render demo_source) one_file
  /\ PpSrcSpec.render demo_source = $"`define VAL 8" ++ [nl] ++ $"`ifdef SIM" ++ [nl] ++ $"module sim; endmodule" ++ [nl] ++ $"`else" ++ [nl] ++ $"module m; wire w; assign w = `VAL; endmodule" ++ [nl] ++ $"`endif" ++ [nl].
Proof.
  split; [|reflexivity]. apply (a_source SV2012 demo_source demo_out one_parts one_toks).
  - unfold demo_source. cbn [wf wf_item wf_branches wf_else chars]. wf_source.
  - unfold demo_source, chars. meaning_of. + use_plain (Cons (IText [PChar "8"%char]) Nil); reflexivity. + vm_compute. reflexivity.
  - reflexivity.
  - unfold plain_verilog, one_parts, demo_out. cbn [app s2l list_ascii_of_string]. repeat step.
  - unfold spelled_mod, one_toks, one_parts. cbn [elems app]. repeat (apply Forall2_cons; [cbn [spells_mtk spells_stk kw_text mkw_text]; first [reflexivity | solve [split; [reflexivity|sign_ok]] | solve [split; [reflexivity|split; sign_ok]] | (cbn [spells]; split; [reflexivity|split; [not_in|discriminate]])]|]). apply Forall2_nil.
  - refine (eq_ind _ (is_file one_file) _ one_toks _); [unfold one_file; apply w_f_cons; [|apply w_f_nil]|].
    + eapply (w_md true _ _ _ None); [apply (w_hd m_module); [left; reflexivity|apply w_pl_none|apply w_po_none]| |left; reflexivity].
      apply w_it_top; [apply w_tp_item; [exact Logic.I|]; apply w_g_leaf; apply w_l_net; [apply w_ot_none|]; apply wc_one; apply (w_ni _ [] None); [constructor|exact Logic.I]|].
      apply w_it_top; [apply w_tp_item; [exact Logic.I|]; apply w_g_leaf; apply w_l_assign; apply w_in_one; [good_lv|good_e]|apply w_it_nil].
    + reflexivity.
Qed.
(** Two files with this source: two modules m, and the hypotheses of the theorems are met. *)
Definition two_files (f : str) : option fentry := if existsb (seqb f) [ $"a.v"; $"b.v" ] then Some (FFile (PpSrcSpec.render demo_source)) else None.
Example C86_ex_files (vs : str -> list report) (vv : bool -> str -> list fobj * option exn) (h : bool) :
  exists d' o, py_parse fobj vs vv sv_errors sv_objects SV2012 h two_files $"utf-8" [] [ $"a.v"; $"b.v" ] [] [] = (Ok [o; o], [o; o], d')
    /\ match o with FO_def d [FO_id w; FO_other _ _ (SO_stm _)] => md_name d = $"m" /\ d_name w = $"w" | _ => False end
    /\ match v_file demo demo_machine Z (fun e x => snd x e) (fun e x => negb (snd x e =? 0)%Z) (fun e w x => (snd w e =? snd x e)%Z) (fun _ a _ => a) (fun _ a => a) 9 (one_file ++ one_file) with Some [Mod _ _ _ a _ _ _ x []; Mod _ _ _ b _ _ _ y []] => (a, b, length x, length y) = ($"m", $"m", 2, 2) | _ => False end.
Proof.
  destruct (C86_files_partial vs vv h SV2012 two_files $"utf-8" [] [ $"a.v"; $"b.v" ] [one_file; one_file] [] [] (match conv_source (one_file ++ one_file) with Ok o => o | _ => [] end)) as (d' & R & _).
  - reflexivity.
  - discriminate.
  - split; constructor.
  - repeat (apply Forall2_cons; [eexists; split; [reflexivity|exact (proj1 C86_ex_source)]|]). apply Forall2_nil.
  - vm_compute. reflexivity.
  - exists d'. eexists. split; [rewrite R; vm_compute; reflexivity|]. split; [vm_compute; split; reflexivity|vm_compute; reflexivity].
Qed.
