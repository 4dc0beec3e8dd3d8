(** C97: every text is read or refused, and a result means that all of it was read and converted. *)
From Verif Require Import Base BaseFacts AstModel EncodingModel OutBufferModel PpModel ApiModel SvExprModel SvDeclModel SvDeclProofs SvFileModel SvFileProofs ConvertModel VhdlDeclModel VhdlFileProofs ConvertVhdlModel ConvertAllSpec.
From Verif Require Import VhdlLexModel VhdlLexSpec VhdlParseEnds VhdlSyntaxModel VhdlStmSyntaxModel VhdlUnitSyntaxModel VhdlFileEnds SvLexModel SvModSyntaxModel SvModSyntaxSpec SvModReadSpec SvStmSyntaxModel SvSyntaxModel.
From Verif Require Import PpSpec PpRunProofs.
From Verif Require SvSpellSpec P_C81 P_C82 P_C85 P_C86 P_C88.

(** ** The visitors stop at the first exception, and only there *)
Lemma descs_all f : forall objs, visit_descs f = (objs, None) -> conv_source f = Ok objs.
Proof.
  induction f as [|x f IH]; intros objs H; [injection H as <-; reflexivity|]. unfold conv_source. rewrite concat_cons. cbn [visit_descs] in H. destruct x as [m|].
  - destruct (conv_mdecl m) as [o|e|w|]; try discriminate H. destruct (visit_descs f) as [os e] eqn:E. injection H as <- ->. specialize (IH os eq_refl). unfold conv_source in IH. cbn [bind]. rewrite IH. reflexivity.
  - specialize (IH objs H). unfold conv_source in IH. cbn [bind]. rewrite IH. reflexivity.
Qed.
Lemma steps_app l : forall l' r, visit_steps (l ++ l') = (r, None) -> exists a b, visit_steps l = (a, None) /\ visit_steps l' = (b, None) /\ r = a ++ b.
Proof.
  induction l as [|x l IH]; intros l' r H; [exists [], r; repeat split; exact H|]. cbn [app visit_steps] in *. destruct x as [o|e|w|]; try discriminate H.
  destruct (visit_steps (l ++ l')) as [q e] eqn:E. injection H as <- ->. destruct (IH l' q E) as (a & b & -> & -> & ->). exists (o ++ a), b. repeat split. apply app_assoc.
Qed.
Lemma steps_citem c r : visit_steps (citem_steps c) = (r, None) -> conv_citem c = Ok r.
Proof.
  destruct c as [l|l|l]; cbn [conv_citem citem_steps]; [revert r|revert r|intros H; injection H as <-; reflexivity].
  - induction l as [|n l IH]; intros r H; [injection H as <-; reflexivity|]. cbn [map visit_steps] in H. destruct (visit_steps (map _ l)) as [q e] eqn:E. injection H as <- ->. specialize (IH q eq_refl). injection IH as <-. reflexivity.
  - induction l as [|n l IH]; intros r H; [injection H as <-; reflexivity|]. cbn [map visit_steps mapM] in *. destruct (conv_use n) as [o|e|w|]; cbn [bind] in *; try discriminate H. destruct (visit_steps (map _ l)) as [q e] eqn:E. injection H as <- ->. rewrite (IH q eq_refl). reflexivity.
Qed.
Lemma steps_concat {X} (f : X -> outcome (list hobj)) (g : X -> list (outcome (list hobj))) l :
  (forall x r, visit_steps (g x) = (r, None) -> f x = Ok r) -> forall r, visit_steps (flat_map g l) = (r, None) -> concatM f l = Ok r.
Proof.
  intros H. induction l as [|x l IH]; intros r E; [injection E as <-; reflexivity|]. cbn [flat_map] in E. apply steps_app in E as (a & b & Ha & Hb & ->). rewrite concat_cons, (H x a Ha). cbn [bind]. rewrite (IH b Hb). reflexivity.
Qed.
Lemma steps_file h f objs : visit_steps (flat_map (unit_steps h) f) = (objs, None) -> conv_file h f = Ok objs.
Proof.
  apply steps_concat. intros u r H. unfold unit_steps in H. apply steps_app in H as (a & b & Ha & Hb & ->). unfold conv_dunit. rewrite (steps_concat conv_citem citem_steps _ steps_citem a Ha). cbn [bind].
  cbn [visit_steps] in Hb. destruct (conv_lunit h (snd u)) as [o|e|w|]; try discriminate Hb. injection Hb as <-. cbn [bind]. rewrite app_nil_r. reflexivity.
Qed.
Lemma run_all {obj} src (errors : list report) (v : list obj * option exn) ctx r : run_parser obj None src errors v ctx = (Ok tt, r) -> errors = [] /\ snd v = None /\ r = ctx ++ fst v.
Proof.
  unfold run_parser. destruct errors as [|e es]; cbn [log_errors log_error check_errors bind].
  - destruct v as [os [x|]]; [discriminate|]. intros H. injection H as <-. repeat split.
  - destruct (log_errors None src es) as [q|x|w|] eqn:E; cbn [bind check_errors]; discriminate.
Qed.
Lemma vhdl_all src h t ctx r : vhdl_parse_text hobj vhdl_errors vhdl_objects h src t ctx = (Ok tt, r) <-> exists objs, vhdl_whole h t objs /\ r = ctx ++ objs.
Proof.
  split.
  - intros H. apply run_all in H as (E & N & ->). unfold vhdl_errors in E. unfold vhdl_objects in *. destruct (vhdl_tree t) as [f|x|w|] eqn:T; try discriminate E.
    destruct (visit_steps _) as [os e] eqn:V. cbn [fst snd] in *. subst e. exists os. split; [|reflexivity]. exists f. split; [exact T|exact (steps_file h f os V)].
  - intros (objs & (f & T & C) & ->). exact (P_C88.run_text src h t f objs ctx T C).
Qed.

(** Any VHDL text at all is read or refused. *)
Theorem C97_vhdl_ends (text : str) : comes_back (vhdl_tree text).
Proof.
  unfold vhdl_tree. destruct (P_C81.C81_nothing_lost text) as [H|(ts & H & _)]; rewrite H; cbn [bind]; [right; eauto|]. destruct (vhstks_of false ts) as [us|]; [apply vfile_ends|right; unfold no_vparse; eauto].
Qed.
Print Assumptions C97_vhdl_ends.
(** Any Verilog text at all is read or refused, in every version of the language. *)
Theorem C97_verilog_ends (l : lang) (text : str) : comes_back (sv_tree l text).
Proof.
  unfold sv_tree. destruct (P_C82.C82_nothing_lost l text) as [H|(ts & H & _)]; rewrite H; cbn [bind]; [right; eauto|]. destruct (modtoks_of ts) as [us|]; [|right; unfold no_parse; eauto].
  destruct (P_C85.C85_terminates us) as [A B]. destruct (parse_source us) as [f|e|w|]; [left; eauto|right; eauto|destruct (B w eq_refl)|destruct (A eq_refl)].
Qed.
Print Assumptions C97_verilog_ends.
(** parse of VHDL files: the user gets a result exactly when every file exists, is one file of the language to its end, and
    all its units were converted; the result is then all the objects, in order, behind those that were there before. *)
Theorem C97_vhdl_files (sy : lang -> str -> list report) (sv : lang -> bool -> str -> list hobj * option exn)
  (h : bool) (fs : str -> option fentry) (enc : str) (dirs : list str) (files : list str) (d d' : db) (ctx r c : list hobj) : files <> [] ->
  (py_parse hobj vhdl_errors vhdl_objects sy sv VHDL h fs enc dirs files d ctx = (Ok r, c, d')
   <-> exists objs, Forall2 (vhdl_file_whole h fs enc) files objs /\ r = ctx ++ List.concat objs /\ c = r /\ d' = d).
Proof.
  intros N. assert (G : forall ctx r d', parse_files hobj vhdl_errors vhdl_objects sy sv VHDL h fs enc dirs files d ctx = ((Ok tt, r), d') <-> exists objs, Forall2 (vhdl_file_whole h fs enc) files objs /\ r = ctx ++ List.concat objs /\ d' = d).
  { clear N ctx r d'. induction files as [|f files IH]; intros ctx r d'; cbn [parse_files].
    - split; [intros H; injection H as <- <-; exists []; cbn; rewrite app_nil_r; repeat split; constructor|]. intros (objs & F & -> & ->). inversion F. cbn. rewrite app_nil_r. reflexivity.
    - split.
      + intros H. destruct (fs f) as [[bytes|]|] eqn:E; [|cbn in H; discriminate H|discriminate H]. unfold vhdl_parse_file in H. destruct (to_utf8 bytes enc) as [t|x|w|] eqn:U; cbn [fst snd] in H; try discriminate H.
        destruct (vhdl_parse_text hobj vhdl_errors vhdl_objects h f t ctx) as [[[]|x|w|] q] eqn:P; cbn [fst snd] in H; try discriminate H. apply vhdl_all in P as (o & W & ->). apply IH in H as (objs & F & -> & ->).
        exists (o :: objs). split; [constructor; [exists bytes, t; auto|exact F]|]. cbn [List.concat]. rewrite app_assoc. split; reflexivity.
      + intros (objs & F & -> & ->). inversion F as [|? o ? os (bytes & t & E & U & W) F']; subst. rewrite E. unfold vhdl_parse_file. rewrite U. assert (P : vhdl_parse_text hobj vhdl_errors vhdl_objects h f t ctx = (Ok tt, ctx ++ o)) by (apply vhdl_all; eauto). rewrite P. cbn [fst snd List.concat]. apply IH. exists os. rewrite app_assoc. auto. }
  unfold py_parse. destruct files as [|f files]; [congruence|]. destruct (parse_files hobj vhdl_errors vhdl_objects sy sv VHDL h fs enc dirs (f :: files) d ctx) as [[o q] d2] eqn:P. split.
  - intros H. unfold returned in H. cbn [fst snd] in H. destruct o as [[]|x|w|]; try discriminate H. injection H as <- <- <-. apply G in P as (objs & F & E1 & E2). exists objs. auto.
  - intros (objs & F & -> & -> & ->). pose proof (proj2 (G ctx _ d) (ex_intro _ objs (conj F (conj eq_refl eq_refl)))) as Q. rewrite P in Q. injection Q as -> -> ->. reflexivity.
Qed.
Print Assumptions C97_vhdl_files.
(** parse_str of VHDL. *)
Theorem C97_vhdl_text (sy : lang -> str -> list report) (sv : lang -> bool -> str -> list hobj * option exn)
  (h : bool) (fs : str -> option fentry) (enc : str) (dirs : list str) (s : str) (d d' : db) (ctx r c : list hobj) : s <> [] ->
  (py_parse_str hobj vhdl_errors vhdl_objects sy sv VHDL h fs enc dirs s d ctx = (Ok r, c, d')
   <-> exists text objs, to_utf8 s enc = Ok text /\ vhdl_whole h text objs /\ r = ctx ++ objs /\ c = r /\ d' = d).
Proof.
  intros N. unfold py_parse_str, parse_text, vhdl_parse_str. destruct s as [|a s]; [congruence|]. generalize (a :: s). intros u. clear N. destruct (to_utf8 u enc) as [t|x|w|]; cbn [returned fst snd];
    try (split; [discriminate|intros (text & objs & H & _); discriminate H]).
  destruct (vhdl_parse_text hobj vhdl_errors vhdl_objects h $"<string>" t ctx) as [o q] eqn:P. split.
  - intros H. unfold returned in H. cbn [fst snd] in H. destruct o as [[]|x|w|]; try discriminate H. injection H as <- <- <-. apply vhdl_all in P as (objs & W & ->). exists t, objs. auto.
  - intros (text & objs & H & W & -> & -> & ->). injection H as <-. pose proof (proj2 (vhdl_all $"<string>" h t ctx _) (ex_intro _ objs (conj W eq_refl))) as Q. rewrite P in Q. injection Q as -> ->. reflexivity.
Qed.
Print Assumptions C97_vhdl_text.

Lemma verilog_all h l src r st ctx x : sv_parse_text fobj sv_errors sv_objects l h src (r, st) ctx = ((Ok tt, x), ps_db st) <-> exists b objs, r = Ok b /\ verilog_whole l (ob_text b) objs /\ x = ctx ++ objs.
Proof.
  split.
  - intros H. unfold sv_parse_text in H. destruct r as [b|e|w|]; try discriminate H. injection H as H. apply run_all in H as (E & N & ->). unfold sv_errors in E. unfold sv_objects in *. destruct (sv_tree l (ob_text b)) as [f|e|w|] eqn:T; try discriminate E.
    destruct (visit_descs f) as [os e] eqn:V. cbn [fst snd] in *. subst e. exists b, os. split; [reflexivity|split; [|reflexivity]]. exists f. split; [exact T|exact (descs_all f os V)].
  - intros (b & objs & -> & (f & T & C) & ->). exact (P_C86.run_source h l src (ob_text b) f objs st b ctx eq_refl T C).
Qed.
Lemma text_db h l src r st ctx : snd (sv_parse_text fobj sv_errors sv_objects l h src (r, st) ctx) = ps_db st.
Proof. reflexivity. Qed.
(** parse of Verilog files, with and without hierarchyOnly: the user gets a result exactly when every file exists, the preprocessor
    finishes it, the text it gives is one file of the language to its end, and all its modules were converted. *)
Theorem C97_verilog_files (vs : str -> list report) (vv : bool -> str -> list fobj * option exn) (h : bool)
  (l : lang) (fs : str -> option fentry) (enc : str) (dirs : list str) (files : list str) (d d' : db) (ctx r c : list fobj) : PpModel.is_verilog l = true -> files <> [] ->
  (py_parse fobj vs vv sv_errors sv_objects l h fs enc dirs files d ctx = (Ok r, c, d')
   <-> exists objs, verilog_files_whole l fs dirs d files objs d' /\ r = ctx ++ List.concat objs /\ c = r).
Proof.
  intros V N. assert (VL : is_verilog_lang l = true /\ l <> VHDL) by (destruct l; try discriminate V; (split; [reflexivity|discriminate])).
  assert (G : forall d ctx r d', parse_files fobj vs vv sv_errors sv_objects l h fs enc dirs files d ctx = ((Ok tt, r), d') <-> exists objs, verilog_files_whole l fs dirs d files objs d' /\ r = ctx ++ List.concat objs).
  { clear N ctx r d d'. destruct VL as [VL NV]. induction files as [|f files IH]; intros d ctx r d'; cbn [parse_files].
    - split; [intros H; injection H as <- <-; exists []; cbn; rewrite app_nil_r; split; [constructor|reflexivity]|]. intros (objs & F & ->). inversion F; subst. cbn. rewrite app_nil_r. reflexivity.
    - assert (M : forall (x y : res fobj * db), match l with VHDL => x | _ => if is_verilog_lang l then y else ((Throw (RuntimeError $"Unsupported language."), ctx), d) end = y) by (intros x y; rewrite VL; destruct l; try reflexivity; congruence).
      split.
      + intros H. destruct (fs f) as [e|] eqn:E; [|discriminate H]. rewrite M in H. unfold sv_parse_file in H. destruct (verilog_pp_file l (pp_fs fs) d dirs f) as [o st] eqn:P.
        pose proof (verilog_all h l f o st ctx) as VA. pose proof (text_db h l f o st ctx) as TD. destruct (sv_parse_text fobj sv_errors sv_objects l h f (o, st) ctx) as [[u q] d2] eqn:Q. cbn [fst snd] in H, TD. subst d2. destruct u as [[]|x|w|]; try discriminate H.
        destruct (proj1 (VA q) eq_refl) as (b & os & -> & W & ->). apply IH in H as (objs & F & ->). exists (os :: objs). split; [apply (vw_cons _ _ _ d f b st os files objs d'); [rewrite E; discriminate|exact P|exact W|exact F]|]. cbn [List.concat]. rewrite app_assoc. reflexivity.
      + intros (objs & F & ->). inversion F as [|? ? b st o ? os ? E P W F']; subst. destruct (fs f) as [e|] eqn:E'; [|congruence]. rewrite M. unfold sv_parse_file. rewrite P.
        assert (Q : sv_parse_text fobj sv_errors sv_objects l h f (Ok b, st) ctx = ((Ok tt, ctx ++ o), ps_db st)) by (apply verilog_all; eauto). rewrite Q. cbn [fst snd List.concat]. apply IH. exists os. rewrite app_assoc. auto. }
  unfold py_parse. destruct files as [|f files]; [congruence|]. destruct (parse_files fobj vs vv sv_errors sv_objects l h fs enc dirs (f :: files) d ctx) as [[o q] d2] eqn:P. split.
  - intros H. unfold returned in H. cbn [fst snd] in H. destruct o as [[]|x|w|]; try discriminate H. injection H as <- <- <-. apply G in P as (objs & F & E1). exists objs. auto.
  - intros (objs & F & -> & ->). pose proof (proj2 (G d ctx _ d') (ex_intro _ objs (conj F eq_refl))) as Q. rewrite P in Q. injection Q as -> -> ->. reflexivity.
Qed.
Print Assumptions C97_verilog_files.
(** parse_str of Verilog. *)
Theorem C97_verilog_text (vs : str -> list report) (vv : bool -> str -> list fobj * option exn) (h : bool)
  (l : lang) (fs : str -> option fentry) (enc : str) (dirs : list str) (s : str) (d d' : db) (ctx r c : list fobj) : PpModel.is_verilog l = true -> s <> [] ->
  (py_parse_str fobj vs vv sv_errors sv_objects l h fs enc dirs s d ctx = (Ok r, c, d')
   <-> exists b st objs, verilog_pp_str l (pp_fs fs) d dirs s = (Ok b, st) /\ verilog_whole l (ob_text b) objs /\ r = ctx ++ objs /\ c = r /\ d' = ps_db st).
Proof.
  intros V N. unfold py_parse_str. destruct s as [|a s]; [congruence|]. generalize (a :: s). intros u. clear N.
  assert (M : parse_text fobj vs vv sv_errors sv_objects l h fs enc dirs u d ctx = sv_parse_str fobj sv_errors sv_objects l h fs d dirs u ctx) by (unfold parse_text; destruct l; try discriminate V; reflexivity).
  rewrite M. unfold sv_parse_str. destruct (verilog_pp_str l (pp_fs fs) d dirs u) as [o st] eqn:P. pose proof (verilog_all h l $"<string>" o st ctx) as VA. pose proof (text_db h l $"<string>" o st ctx) as TD.
  destruct (sv_parse_text fobj sv_errors sv_objects l h $"<string>" (o, st) ctx) as [[w q] d2] eqn:Q. cbn [snd] in TD. subst d2. split.
  - intros H. unfold returned in H. cbn [fst snd] in H. destruct w as [[]|x|w|]; try discriminate H. injection H as <- <- <-. destruct (proj1 (VA q) eq_refl) as (b & os & -> & W & ->). exists b, st, os. auto.
  - intros (b & st' & os & E & W & -> & -> & ->). injection E as -> <-. pose proof (proj2 (VA _) (ex_intro _ b (ex_intro _ os (conj eq_refl (conj W eq_refl))))) as Z. injection Z as -> ->. reflexivity.
Qed.
Print Assumptions C97_verilog_text.
(** What was read is in the text: the text consists of tokens with layout between them, and these tokens are the modules f
    written in the grammar (C85; [tidy]: no bracket of a variable holds a bare name). *)
Theorem C97_verilog_nothing_else_partial (l : lang) (text : str) (objs : list fobj) : verilog_whole l text objs ->
  exists ls ts f, sv_lex l text = Ok ls /\ SvSpellSpec.made_of (map snd ls) text /\ modtoks_of ls = Some ts /\ conv_source f = Ok objs /\ (~ In (yx KAnd3) ts -> tidy f = true -> w_file false f ts).
Proof.
  intros (f & T & C). unfold sv_tree in T. destruct (P_C82.C82_nothing_lost l text) as [H|(ls & H & M & _)]; rewrite H in T; [discriminate T|]. cbn [bind] in T. destruct (modtoks_of ls) as [ts|] eqn:E; [|discriminate T].
  exists ls, ts, f. repeat split; try assumption. intros A D. apply P_C85.C85_grammar_partial; [exact A|]. split; assumption.
Qed.
Print Assumptions C97_verilog_nothing_else_partial.

Lemma utf8_back s enc : to_utf8 s enc <> Base.OutOfFuel.
Proof. unfold to_utf8. repeat match goal with |- (if ?c then _ else _) <> _ => destruct c end; discriminate. Qed.
(** parse of any files and parse_str of any text come back, in every language; the preprocessor included (C05). *)
Lemma run_back {obj} src (errors : list report) (v : list obj * option exn) ctx : fst (run_parser obj None src errors v ctx) <> Base.OutOfFuel.
Proof.
  assert (L : exists es, log_errors None src errors = Ok es) by (induction errors as [|e es [q IH]]; [exists []; reflexivity|cbn [log_errors log_error bind]; rewrite IH; eexists; reflexivity]).
  destruct L as [es L]. unfold run_parser. rewrite L. destruct es as [|e es]; cbn [check_errors]; [destruct v as [os [x|]]; discriminate|discriminate].
Qed.
Lemma text_back {obj} ss (so : lang -> bool -> str -> list obj * option exn) l h src o st ctx : o <> Base.OutOfFuel -> fst (fst (sv_parse_text obj ss so l h src (o, st) ctx)) <> Base.OutOfFuel.
Proof. intros N. unfold sv_parse_text. destruct o as [b|e|w|]; [apply run_back|discriminate|discriminate|congruence]. Qed.
Theorem C97_files_come_back (obj : Type) (vs : str -> list report) (vv : bool -> str -> list obj * option exn) (ss : lang -> str -> list report) (so : lang -> bool -> str -> list obj * option exn)
  (l : lang) (h : bool) (fs : str -> option fentry) (enc : str) (dirs : list str) (files : list str) (d : db) (ctx : list obj) : db_ok d ->
  fst (fst (py_parse obj vs vv ss so l h fs enc dirs files d ctx)) <> Base.OutOfFuel.
Proof.
  intros D. assert (G : fst (fst (parse_files obj vs vv ss so l h fs enc dirs files d ctx)) <> Base.OutOfFuel).
  { revert d ctx D. induction files as [|f files IH]; intros d ctx D; cbn [parse_files]; [discriminate|]. destruct (fs f) as [c|]; [|discriminate].
    assert (H : exists r d', match l with VHDL => (vhdl_parse_file obj vs vv h enc f c ctx, d) | _ => if is_verilog_lang l then sv_parse_file obj ss so l h fs d dirs f ctx else ((Throw (RuntimeError $"Unsupported language."), ctx), d) end = (r, d')
      /\ fst r <> Base.OutOfFuel /\ ((exists x, fst r = Ok x) -> db_ok d')).
    { assert (SV : exists r d', sv_parse_file obj ss so l h fs d dirs f ctx = (r, d') /\ fst r <> Base.OutOfFuel /\ ((exists x, fst r = Ok x) -> db_ok d')).
      { unfold sv_parse_file. pose proof (verilog_pp_file_spec l (pp_fs fs) d dirs f D) as S. destruct (verilog_pp_file l (pp_fs fs) d dirs f) as [o st].
        destruct (sv_parse_text obj ss so l h f (o, st) ctx) as [r d'] eqn:E. exists r, d'. split; [reflexivity|]. split.
        - pose proof (text_back ss so l h f o st ctx) as T. rewrite E in T. apply T. intros ->. exact S.
        - intros [x X]. unfold sv_parse_text in E. destruct o as [b|e|w|]; injection E as E <-; [exact (proj1 (proj2 S))|rewrite <- E in X; discriminate X ..]. }
      destruct l; try (destruct (is_verilog_lang _); [exact SV|]; do 2 eexists; split; [reflexivity|]; split; [discriminate|intros [x X]; discriminate X]).
      do 2 eexists. split; [reflexivity|]. split; [|intros _; exact D]. unfold vhdl_parse_file. destruct c as [bytes|]; [|discriminate]. pose proof (utf8_back bytes enc) as U. destruct (to_utf8 bytes enc) as [t|x|w|]; [apply run_back|discriminate|discriminate|congruence]. }
    destruct H as (r & d' & -> & N & K). destruct r as [[x|x|w|] q]; cbn [fst snd] in *; try discriminate; [|congruence]. apply IH. apply K. eauto. }
  unfold py_parse. destruct files as [|f files]; [discriminate|]. destruct (parse_files obj vs vv ss so l h fs enc dirs (f :: files) d ctx) as [[o q] d']. unfold returned. cbn [fst snd] in *. destruct o; [discriminate|discriminate|discriminate|congruence].
Qed.
Print Assumptions C97_files_come_back.
Theorem C97_text_comes_back (obj : Type) (vs : str -> list report) (vv : bool -> str -> list obj * option exn) (ss : lang -> str -> list report) (so : lang -> bool -> str -> list obj * option exn)
  (l : lang) (h : bool) (fs : str -> option fentry) (enc : str) (dirs : list str) (s : str) (d : db) (ctx : list obj) : db_ok d ->
  fst (fst (py_parse_str obj vs vv ss so l h fs enc dirs s d ctx)) <> Base.OutOfFuel.
Proof.
  intros D. assert (G : fst (fst (parse_text obj vs vv ss so l h fs enc dirs s d ctx)) <> Base.OutOfFuel).
  { assert (SV : fst (fst (sv_parse_str obj ss so l h fs d dirs s ctx)) <> Base.OutOfFuel).
    { unfold sv_parse_str. pose proof (verilog_pp_str_spec l (pp_fs fs) d dirs s D) as S. destruct (verilog_pp_str l (pp_fs fs) d dirs s) as [o st]. apply text_back. intros ->. exact S. }
    unfold parse_text. destruct l; try (destruct (is_verilog_lang _); [exact SV|discriminate]). unfold vhdl_parse_str. pose proof (utf8_back s enc) as U. destruct (to_utf8 s enc) as [t|x|w|]; [apply run_back|discriminate|discriminate|congruence]. }
  unfold py_parse_str. destruct s as [|a s]; [discriminate|]. destruct (parse_text obj vs vv ss so l h fs enc dirs (a :: s) d ctx) as [[o q] d']. unfold returned. cbn [fst snd] in *. destruct o; [discriminate|discriminate|discriminate|congruence].
Qed.
Print Assumptions C97_text_comes_back.

(** ** Two modules, and the same with the last word cut off: nothing of it is returned, although the first module is complete. *)
Definition two_modules : str := $"module a; wire w; assign w = 8; endmodule module b; endmodule".
Definition cut_off : str := $"module a; wire w; assign w = 8; endmodule module b; endmodul".
Definition no_files (f : str) : option fentry := None.
Definition names_of (l : list fobj) : list str := map (fun o => match o with FO_def d _ => md_name d | _ => [] end) l.
Example C97_ex_verilog (vs : str -> list report) (vv : bool -> str -> list fobj * option exn) (h : bool) :
  (exists r c d, py_parse_str fobj vs vv sv_errors sv_objects SV2012 h no_files $"utf-8" [] two_modules [] [] = (Ok r, c, d) /\ names_of r = [ $"a"; $"b" ])
  /\ (exists e d, py_parse_str fobj vs vv sv_errors sv_objects SV2012 h no_files $"utf-8" [] cut_off [] [] = (Throw e, [], d)).
Proof.
  split.
  - destruct (verilog_pp_str SV2012 (pp_fs no_files) [] [] two_modules) as [o st] eqn:P. destruct o as [b|e|w|]; [|vm_compute in P; discriminate P ..].
    assert (E : sv_tree SV2012 (ob_text b) = sv_tree SV2012 two_modules) by (vm_compute in P; injection P as <- _; vm_compute; reflexivity).
    destruct (sv_tree SV2012 two_modules) as [f|e|w|] eqn:T; [|vm_compute in T; discriminate T ..]. destruct (conv_source f) as [r|e|w|] eqn:C; [|vm_compute in T; injection T as <-; vm_compute in C; discriminate C ..].
    exists r, r, (ps_db st). split; [|vm_compute in T; injection T as <-; vm_compute in C; injection C as <-; reflexivity].
    apply C97_verilog_text; [reflexivity|discriminate|]. exists b, st, r. repeat split; try assumption. exists f. auto.
  - do 2 eexists. vm_compute. reflexivity.
Qed.
Definition two_entities : str := $"library l; entity e is end; entity f is end;".
Definition no_semicolon : str := $"library l; entity e is end; entity f is end".
Example C97_ex_vhdl (sy : lang -> str -> list report) (sv : lang -> bool -> str -> list hobj * option exn) :
  (exists r, py_parse_str hobj vhdl_errors vhdl_objects sy sv VHDL false no_files $"utf-8" [] two_entities [] [] = (Ok r, r, []) /\ length r = 3 /\ hd_error r = Some (O_library $"l"))
  /\ (forall r c d, py_parse_str hobj vhdl_errors vhdl_objects sy sv VHDL false no_files $"utf-8" [] no_semicolon [] [] <> (Ok r, c, d)).
Proof.
  split.
  - destruct (vhdl_tree two_entities) as [f|e|w|] eqn:T; [|vm_compute in T; discriminate T ..]. destruct (conv_file false f) as [r|e|w|] eqn:C; [|vm_compute in T; injection T as <-; vm_compute in C; discriminate C ..].
    exists r. split; [|vm_compute in T; injection T as <-; vm_compute in C; injection C as <-; split; reflexivity].
    apply C97_vhdl_text; [discriminate|]. exists two_entities, r. split; [reflexivity|]. split; [exists f; auto|auto].
  - intros r c d H. apply C97_vhdl_text in H; [|discriminate]. destruct H as (t & o & E & (f & T & _) & _). injection E as <-. vm_compute in T. discriminate T.
Qed.
