(** C88: from VHDL files to the objects the user gets.  [vhdl_source text l] (ConvertVhdlSpec.v): the text describes the
    design units l (C87). *)
From Verif Require Import Base BaseFacts StrSpec AstModel StmModel LitModel SvExprModel SvExprSpec SvDeclModel SvDeclProofs SvFileProofs VhdlExprModel VhdlExprSpec VhdlStmModel VhdlStmSpec VhdlStmProofs VhdlDeclModel VhdlDeclSpec VhdlFileSpec VhdlFileProofs.
From Verif Require Import EncodingModel EncodingSpec EncodingProofs OutBufferModel PpModel ApiModel VhdlLexModel VhdlLexSpec VhdlSpellSpec VhdlTextProofs VhdlLatin1Proofs VhdlStmSyntaxModel VhdlStmSyntaxSpec VhdlStmSpellSpec VhdlStmTextProofs.
From Verif Require Import VhdlUnitSyntaxModel VhdlUnitSyntaxSpec VhdlUnitSyntaxProofs VhdlUnitNormProofs ConvertVhdlModel ConvertVhdlSpec VhdlStmDemo P_C74 P_C84 P_C87.

Lemma visit_app l o : forall l' o' , visit_steps l = (o, None) -> visit_steps l' = (o', None) -> visit_steps (l ++ l') = (o ++ o', None).
Proof.
  revert o. induction l as [|x l IH]; intros o l' o' H H'; [injection H as <-; exact H'|]. cbn [app visit_steps] in *. destruct x as [a|e|w|]; try discriminate H. destruct (visit_steps l) as [b e] eqn:E. injection H as <- ->. rewrite (IH b l' o' eq_refl H'). rewrite app_assoc. reflexivity.
Qed.
Lemma visit_citem c r : conv_citem c = Ok r -> visit_steps (citem_steps c) = (r, None).
Proof.
  destruct c as [l|l|l]; cbn [conv_citem citem_steps]; intros H; [injection H as <-|revert r H|injection H as <-; reflexivity].
  - induction l as [|n l IH]; [reflexivity|]. cbn [map visit_steps]. rewrite IH. reflexivity.
  - induction l as [|n l IH]; intros r H; [injection H as <-; reflexivity|]. cbn [mapM] in H. apply bind_inv in H as (a & Ha & H). apply bind_inv in H as (b & Hb & H). injection H as <-. cbn [map visit_steps]. rewrite Ha. cbn [bind]. rewrite (IH b Hb). reflexivity.
Qed.
Lemma visit_concat {X} (f : X -> outcome (list hobj)) (g : X -> list (outcome (list hobj))) l :
  (forall x r, f x = Ok r -> visit_steps (g x) = (r, None)) -> forall r, concatM f l = Ok r -> visit_steps (flat_map g l) = (r, None).
Proof.
  intros H. induction l as [|x l IH]; intros r E; [injection E as <-; reflexivity|]. rewrite concat_cons in E. apply bind_inv in E as (a & Ha & E). apply bind_inv in E as (b & Hb & E). injection E as <-. cbn [flat_map]. exact (visit_app _ _ _ _ (H x a Ha) (IH b Hb)).
Qed.
Lemma visit_file h l r : conv_file h l = Ok r -> visit_steps (flat_map (unit_steps h) l) = (r, None).
Proof.
  apply visit_concat. intros u o H. unfold conv_dunit in H. apply bind_inv in H as (a & Ha & H). apply bind_inv in H as (b & Hb & H). injection H as <-. unfold unit_steps.
  apply visit_app; [exact (visit_concat conv_citem citem_steps (fst u) visit_citem a Ha)|]. cbn [visit_steps]. rewrite Hb, app_nil_r. reflexivity.
Qed.
(** Both encodings give the tree. *)
Lemma tree_of enc text l : known_encoding enc -> vhdl_source text l -> exists t, to_utf8 text enc = Ok t /\ vhdl_tree t = Ok (map norm_dunit l).
Proof.
  intros K [text' ps ts l' P S W]. assert (G : forall qs t, plain_vhdl qs t -> lexemes qs = lexemes ps -> vhdl_tree t = Ok (map norm_dunit l')).
  { intros qs t Q E. unfold vhdl_tree. rewrite (lex_reads None qs t Q). cbn [bind]. rewrite E, (spelled_hstm_toks _ _ _ S). exact (parse_vfile_ok true l' ts W). }
  destruct K as [->| ->].
  - exists text'. split; [reflexivity|exact (G ps text' P eq_refl)].
  - exists (iso_8859_1_to_utf8 text'). split; [reflexivity|]. destruct (plain_latin1 ps text' P) as [P' E]. exact (G _ _ P' E).
Qed.
Section Api.
Context (sy : lang -> str -> list report) (sv : lang -> bool -> str -> list hobj * option exn).
Lemma run_text src h t f r ctx : vhdl_tree t = Ok f -> conv_file h f = Ok r -> vhdl_parse_text hobj vhdl_errors vhdl_objects h src t ctx = (Ok tt, ctx ++ r).
Proof.
  intros T C. unfold vhdl_parse_text, run_parser. assert (E : vhdl_errors t = []) by (unfold vhdl_errors; rewrite T; reflexivity). rewrite E. cbn [log_errors check_errors]. unfold vhdl_objects. rewrite T, (visit_file h f r C). reflexivity.
Qed.
Lemma parse_each h fs enc dirs files rs d : known_encoding enc ->
  Forall2 (fun file r => exists text l, fs file = Some (FFile text) /\ vhdl_source text l /\ conv_file h (map norm_dunit l) = Ok r) files rs ->
  forall ctx, parse_files hobj vhdl_errors vhdl_objects sy sv VHDL h fs enc dirs files d ctx = ((Ok tt, ctx ++ List.concat rs), d).
Proof.
  intros K. induction 1 as [|file r files rs (text & l & F & S & C) _ IH]; intros ctx; [cbn [parse_files List.concat]; rewrite app_nil_r; reflexivity|].
  destruct (tree_of enc text l K S) as (t & E & T). cbn [parse_files]. rewrite F. unfold vhdl_parse_file. rewrite E, (run_text file h t _ r ctx T C). cbn [fst snd List.concat]. rewrite IH, app_assoc. reflexivity.
Qed.
End Api.

(** Files of VHDL sources give the objects of all their design units, in the order of the files and of the units in
    them, behind the objects that were there before; with and without hierarchyOnly, in both encodings. *)
Theorem C88_files_partial (sy : lang -> str -> list report) (sv : lang -> bool -> str -> list hobj * option exn)
  (h : bool) (fs : str -> option fentry) (enc : str) (dirs : list str) (files : list str) (rs : list (list hobj)) (d : db) (ctx : list hobj) :
  known_encoding enc -> files <> [] ->
  Forall2 (fun file r => exists text l, fs file = Some (FFile text) /\ vhdl_source text l /\ conv_file h (map norm_dunit l) = Ok r) files rs ->
  py_parse hobj vhdl_errors vhdl_objects sy sv VHDL h fs enc dirs files d ctx = (Ok (ctx ++ List.concat rs), ctx ++ List.concat rs, d).
Proof. intros K N F. unfold py_parse. destruct files; [congruence|]. rewrite (parse_each sy sv h fs enc dirs _ rs d K F ctx). reflexivity. Qed.
Print Assumptions C88_files_partial.
(** The units the user gets have the meaning of the units in the sources (C74). *)
Theorem C88_meaning_partial (sy : lang -> str -> list report) (sv : lang -> bool -> str -> list hobj * option exn)
  (A : halgebra) (M : hmachine A) (fuel : nat) (N : Type)
  (test : VhdlDeclSpec.env N -> HV A -> bool) (range : VhdlDeclSpec.env N -> HV A -> list N) (matches : VhdlDeclSpec.env N -> HV A -> HV A -> bool)
  (fs : str -> option fentry) (enc : str) (dirs : list str) (files : list str) (ls : list (list dunit)) (d : db) (objs ctx : list hobj) (f : list (umean A M N)) :
  known_encoding enc -> files <> [] -> Forall2 (fun file l => exists text, fs file = Some (FFile text) /\ vhdl_source text l) files ls ->
  conv_file false (map norm_dunit (List.concat ls)) = Ok objs -> s_file A M fuel N test range matches (List.concat ls) = Some f ->
  py_parse hobj vhdl_errors vhdl_objects sy sv VHDL false fs enc dirs files d ctx = (Ok (ctx ++ objs), ctx ++ objs, d)
    /\ exists f', m_file A M fuel N test range matches objs = Some f' /\ Forall2 (usame A M N) f' f.
Proof.
  intros K NF F C H. split.
  - assert (exists rs, objs = List.concat rs /\ Forall2 (fun l r => conv_file false (map norm_dunit l) = Ok r) ls rs) as (rs & -> & R).
    { clear - C. revert objs C. induction ls as [|l ls IH]; intros objs C; [injection C as <-; exists []; split; [reflexivity|constructor]|]. cbn [List.concat] in C. rewrite map_app in C.
      assert (exists o1 o2, conv_file false (map norm_dunit l) = Ok o1 /\ conv_file false (map norm_dunit (List.concat ls)) = Ok o2 /\ objs = o1 ++ o2) as (o1 & o2 & C1 & C2 & ->).
      { clear IH. revert objs C. induction (map norm_dunit l) as [|x q IH]; intros objs C; [exists [], objs; repeat split; exact C|]. cbn [app] in C. unfold conv_file in C. rewrite concat_cons in C. apply bind_inv in C as (a & Ha & C). apply bind_inv in C as (b & Hb & C). injection C as <-.
        destruct (IH b Hb) as (o1 & o2 & E1 & E2 & ->). exists (a ++ o1), o2. split; [unfold conv_file; rewrite concat_cons, Ha; cbn [bind]; unfold conv_file in E1; rewrite E1; reflexivity|split; [exact E2|apply app_assoc]]. }
      destruct (IH o2 C2) as (rs & -> & R). exists (o1 :: rs). split; [reflexivity|constructor; assumption]. }
    apply C88_files_partial; [exact K|exact NF|]. clear - F R. revert rs R. induction F as [|file l files ls (text & E & S) _ IH]; intros rs R; inversion R; subst; constructor; [|apply IH; assumption]. exists text, l. repeat split; assumption.
  - apply (file_ok A M fuel N test range matches _ objs f C). rewrite file_kept. exact H.
Qed.
Print Assumptions C88_meaning_partial.
(** Spelling, layout, comments and the encoding do not matter: sources of the same units give the same objects. *)
Theorem C88_layout_partial (sy : lang -> str -> list report) (sv : lang -> bool -> str -> list hobj * option exn)
  (h : bool) (fs : str -> option fentry) (enc enc' : str) (dirs : list str) (text text' : str) (l : list dunit) (d : db) (ctx : list hobj) :
  known_encoding enc -> known_encoding enc' -> text <> [] -> text' <> [] -> vhdl_source text l -> vhdl_source text' l ->
  py_parse_str hobj vhdl_errors vhdl_objects sy sv VHDL h fs enc dirs text d ctx = py_parse_str hobj vhdl_errors vhdl_objects sy sv VHDL h fs enc' dirs text' d ctx.
Proof.
  intros K K' N N' S S'. destruct (tree_of enc text l K S) as (t & E & T). destruct (tree_of enc' text' l K' S') as (t' & E' & T').
  assert (G : forall a b, vhdl_tree a = Ok (map norm_dunit l) -> vhdl_tree b = Ok (map norm_dunit l) -> vhdl_parse_text hobj vhdl_errors vhdl_objects h $"<string>" a ctx = vhdl_parse_text hobj vhdl_errors vhdl_objects h $"<string>" b ctx).
  { intros a b Ha Hb. unfold vhdl_parse_text, vhdl_errors, vhdl_objects. rewrite Ha, Hb. reflexivity. }
  unfold py_parse_str, parse_text, vhdl_parse_str. destruct text; [congruence|]. destruct text'; [congruence|]. rewrite E, E', (G t t' T T'). reflexivity.
Qed.
Print Assumptions C88_layout_partial.

(** ** The file of C87 with a comment of Latin letters in front, in ISO 8859-1 and without it in UTF-8 *)
Definition a_umlaut : ascii := ascii_of_nat 228.
Definition latin_pieces : list piece := [P_line [a_umlaut; "!"%char]; P_blank nl] ++ file_pieces.
Definition latin_text : str := Eval vm_compute in flat_map piece_text latin_pieces.
Example C88_ex_source : vhdl_source file_text file_units /\ vhdl_source latin_text file_units /\ file_text <> latin_text.
Proof.
  split; [|split; [|discriminate]].
  - apply (a_vhdl_source _ file_pieces file_toks); [exact (proj2 C87_ex_text)|exact (proj1 C87_ex_text)|exact C87_ex_written].
  - apply (a_vhdl_source _ latin_pieces file_toks); [|exact (proj1 C87_ex_text)|exact C87_ex_written].
    change latin_text with (piece_text (P_line [a_umlaut; "!"%char]) ++ piece_text (P_blank nl) ++ file_text). apply reads_cons; [cbn; intuition discriminate|reflexivity|exact Logic.I|exact Logic.I|]. apply reads_cons; [reflexivity|exact Logic.I|exact Logic.I|cbn; auto|]. exact (proj2 C87_ex_text).
Qed.
Definition vhdl_files (f : str) : option fentry := if seqb f $"a.vhd" then Some (FFile latin_text) else if seqb f $"b.vhd" then Some (FFile file_text) else None.
Example C88_ex_files (sy : lang -> str -> list report) (sv : lang -> bool -> str -> list hobj * option exn) :
  exists r, py_parse hobj vhdl_errors vhdl_objects sy sv VHDL false vhdl_files $"iso-8859-1" [] [ $"a.vhd"; $"b.vhd" ] [] [] = (Ok (r ++ r), r ++ r, [])
    /\ option_map (map show_u) (m_file hdemo hdemo_machine 9 Z test_ range_ matches_ r) = Some means.
Proof.
  assert (exists r, conv_file false (map norm_dunit file_units) = Ok r /\ option_map (map show_u) (m_file hdemo hdemo_machine 9 Z test_ range_ matches_ r) = Some means) as (r & C & H).
  { destruct (conv_file false (map norm_dunit file_units)) as [r|e|w|] eqn:E; [|vm_compute in E; discriminate E ..]. exists r. split; [reflexivity|]. vm_compute in E. injection E as <-. vm_compute. reflexivity. }
  exists r. split; [|exact H]. pose proof (C88_files_partial sy sv false vhdl_files $"iso-8859-1" [] [ $"a.vhd"; $"b.vhd" ] [r; r] [] []) as G. cbn [List.concat app] in G. rewrite app_nil_r in G. apply G; [right; reflexivity|discriminate|].
  apply Forall2_cons; [exists latin_text, file_units; split; [reflexivity|split; [exact (proj1 (proj2 C88_ex_source))|exact C]]|].
  apply Forall2_cons; [exists file_text, file_units; split; [reflexivity|split; [exact (proj1 C88_ex_source)|exact C]]|]. apply Forall2_nil.
Qed.
