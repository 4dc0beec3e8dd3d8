(** C87: design files of VHDL are parsed as IEEE 1076-2008 writes them, and the text of a file becomes an AST that means
    what the file means.  [w_file true true l ts]: ts are the tokens of the design units l (VhdlUnitSyntaxSpec.v);
    [w_file true false]: no concurrent procedure call has a label, and only the alternatives of case generate statements
    have an end of their own, behind begin. *)
From Verif Require Import Base BaseFacts StrSpec AstModel StmModel LitModel LitSpec SvExprModel SvExprSpec SvDeclModel VhdlExprModel VhdlExprSpec VhdlStmModel VhdlStmSpec VhdlStmProofs VhdlDeclModel VhdlDeclSpec VhdlFileSpec VhdlFileProofs VhdlSyntaxModel VhdlSyntaxSpec.
From Verif Require Import VhdlLexModel VhdlLexSpec VhdlSpellSpec VhdlTextProofs VhdlCoverProofs VhdlStmSyntaxModel VhdlStmSyntaxSpec VhdlStmSyntaxProofs VhdlStmSpellSpec VhdlStmTextProofs VhdlUnitSyntaxModel VhdlUnitSyntaxSpec VhdlUnitSyntaxProofs VhdlUnitNormProofs VhdlStmDemo P_C74 P_C84.

(** Every such file is read as its design units, apart from the tree ANTLR chooses for names. *)
Theorem C87_files_partial (l : list dunit) (ts : list hstk) : w_file true false l ts -> parse_vfile ts = Ok (map norm_dunit l).
Proof. exact (parse_vfile_ok true l ts). Qed.
Print Assumptions C87_files_partial.
(** Two of them are never written with the same tokens. *)
Theorem C87_unambiguous (l l' : list dunit) (ts : list hstk) : w_file true false l ts -> w_file true false l' ts -> l = l'.
Proof. intros W W'. pose proof (p_file_ok true l ts W (S (length ts)) (le_n _)) as E. rewrite (p_file_ok true l' ts W' (S (length ts)) (le_n _)) in E. injection E as ->. reflexivity. Qed.
Print Assumptions C87_unambiguous.
(** The text of a file, in any spelling and layout, becomes an AST with the same libraries, use clauses, entities, packages
    and architectures, whose declarations, instances and statements have the same meaning (C74). *)
Theorem C87_meaning_partial (A : halgebra) (M : hmachine A) (fuel : nat) (N : Type)
  (test : VhdlDeclSpec.env N -> HV A -> bool) (range : VhdlDeclSpec.env N -> HV A -> list N) (matches : VhdlDeclSpec.env N -> HV A -> HV A -> bool)
  (l : list dunit) (ts : list hstk) (ps : list piece) (text : str) (r : list hobj) (f : list (umean A M N)) :
  w_file true false l ts -> spelled_hstm false ts (lexemes ps) -> plain_vhdl ps text -> s_file A M fuel N test range matches l = Some f -> convert_vhdl_text false text = Ok r ->
  exists f', m_file A M fuel N test range matches r = Some f' /\ Forall2 (usame A M N) f' f.
Proof.
  intros W S P F R. unfold convert_vhdl_text in R. rewrite (text_read _ _ _ _ _ S P), (parse_vfile_ok true l ts W) in R. cbn [bind] in R.
  apply (file_ok A M fuel N test range matches (map norm_dunit l) r f R). rewrite file_kept. exact F.
Qed.
Print Assumptions C87_meaning_partial.

(** ** What the standard forbids: entity a is end b; *)
Definition other_name (a b : str) : list hstk := [Kw k_entity; name_ a; Kw k_is; Kw k_end; name_ b; Semi].
Theorem C87_end_name_refuted (a b : str) : ~ same_name a b ->
  parse_vfile (other_name a b) = Ok [([], LU_entity a None None [] [])] /\ forall full l, ~ w_file true full l (other_name a b).
Proof.
  intros N. split; [reflexivity|]. intros full l W. unfold other_name in W. inversion W as [|u l' t1 t2 WU WF E0 E]. subst. clear W WF.
  assert (G : forall u t2, w_lunit true full u t1 -> t1 ++ t2 = [Kw k_entity; name_ a; Kw k_is; Kw k_end; name_ b; Semi] -> False).
  { intros v z WL. destruct WL as [n g p ds k m gt pt ts WG WP WD EN|n e ds ss k m ts ts' LE WD WS EN|n ds ts WL|n ds ts WL]; cbn [app]; intros Q; try discriminate Q; [|inversion WL; subst; discriminate Q|inversion WL; subst; discriminate Q].
    injection Q as <- Q. repeat (rewrite <- app_assoc in Q; cbn [app] in Q). destruct WG; [|discriminate Q]. destruct WP; [|discriminate Q]. cbn [app] in Q.
    destruct WD as [|p d l0 ts ts' WD WS]; [|destruct (decl_first _ _ _ _ WD) as (k' & q & -> & K); injection Q as -> _; discriminate K]. cbn [app] in Q.
    destruct k; [discriminate Q|]. destruct m as [m|]; [|discriminate Q]. injection Q as -> _. exact (N (EN eq_refl)). }
  inversion WU as [v t WL E1|c lc v tc t WC WD E1]; subst; [exact (G _ _ WL E)|]. destruct WC; discriminate E.
Qed.
Print Assumptions C87_end_name_refuted.

(** ** What the parser does not read as the standard does *)
(** A concurrent procedure call with a label becomes an instance of a component: architecture a of e is begin l : n ; end ; *)
Theorem C87_call_refuted (a e l : str) (n : hexpr) : legal_name n -> exists ts,
  w_file true true [([], LU_arch a (HLit (NL_id e)) [] [CS_simple (Some l) false (CP_call n)])] ts /\
  parse_vfile ts = Ok [([], LU_arch a (HLit (NL_id e)) [] [CS_inst l (IU_component false (norm n)) None None])].
Proof.
  intros L. eexists. split.
  - eapply (wf_cons true true _ [] _ []); [|constructor]. apply wdu_unit. eapply (wu_arch true true a (HLit (NL_id e)) [] _ false None [] _); [split; [exact Logic.I|reflexivity]|constructor| |exact Logic.I].
    eapply (wcs_cons true true _ [] _ []); [|constructor]. apply wc_simple. apply wcs_call; [discriminate|exact L].
  - change (Ok [([], LU_arch a (HLit (NL_id e)) [] [CS_inst l (IU_component false (norm n)) None None])]) with (Ok (map norm_dunit [([], LU_arch a (HLit (NL_id e)) [] [CS_inst l (IU_component false n) None None])])).
    apply (parse_vfile_ok true). eapply (wf_cons true false _ [] _ []); [|constructor]. apply wdu_unit. eapply (wu_arch true false a (HLit (NL_id e)) [] _ false None [] _); [split; [exact Logic.I|reflexivity]|constructor| |exact Logic.I].
    eapply (wcs_cons true false _ [] _ []); [|constructor]. apply (wc_inst true false l (IU_component false n) None None); [exact L|exact Logic.I|exact Logic.I].
Qed.
Print Assumptions C87_call_refuted.
(** The body of a for generate statement with an end of its own is rejected: l : for i in t generate begin end ; end generate ; *)
Theorem C87_body_end_refuted (a e l i t : str) : exists ts,
  w_file true true [([], LU_arch a (HLit (NL_id e)) [] [CS_for l i (R_name (HLit (NL_id t))) (GB true [] []) None])] ts /\ exists m, parse_vfile ts = Throw (ParseException m).
Proof.
  eexists. split.
  - eapply (wf_cons true true _ [] _ []); [|constructor]. apply wdu_unit. eapply (wu_arch true true a (HLit (NL_id e)) [] _ false None [] _); [split; [exact Logic.I|reflexivity]|constructor| |exact Logic.I].
    eapply (wcs_cons true true _ [] _ []); [|constructor]. eapply (wc_for true true l i _ _ None); [split; [exact Logic.I|reflexivity]| |exact Logic.I]. apply (wg_begin true true [] [] true [] []); [constructor|constructor|discriminate].
  - eexists. vm_compute. reflexivity.
Qed.
Print Assumptions C87_body_end_refuted.
(** An alternative of a case generate statement with begin but without end is rejected: when others => begin end generate ; *)
Theorem C87_alternative_refuted (a e l c : str) : exists ts,
  w_file true true [([], LU_arch a (HLit (NL_id e)) [] [CS_case l (HLit (NL_id c)) [(None, [Ch_others], GB true [] [])] None])] ts /\ exists m, parse_vfile ts = Throw (ParseException m).
Proof.
  eexists. split.
  - eapply (wf_cons true true _ [] _ []); [|constructor]. apply wdu_unit. eapply (wu_arch true true a (HLit (NL_id e)) [] _ false None [] _); [split; [exact Logic.I|reflexivity]|constructor| |exact Logic.I].
    eapply (wcs_cons true true _ [] _ []); [|constructor]. eapply (wc_case true true l _ _ None); [exact Logic.I|discriminate| |exact Logic.I]. eapply (wga_any true true None [Ch_others] _ [] _ []); [reflexivity|split; [discriminate|repeat split]| |constructor].
    apply (wg_begin true true [] [] false [] []); [constructor|constructor|reflexivity].
  - eexists. vm_compute. reflexivity.
Qed.
Print Assumptions C87_alternative_refuted.

(** ** An example *)
Definition file_pieces : list piece := Eval cbv [w_ d_] in
  [w_ "LIBRARY"; P_blank sp; w_ "ieee"; d_ ";"; P_blank sp; w_ "use"; P_blank sp; w_ "ieee"; d_ "."; w_ "p"; d_ "."; w_ "ALL"; d_ ";"; P_blank nl;
   w_ "entity"; P_blank sp; w_ "e"; P_blank sp; w_ "is"; P_blank sp; w_ "port"; d_ "("; w_ "c"; d_ ":"; w_ "in"; P_blank sp; w_ "bit"; d_ ";"; w_ "q"; d_ ":"; w_ "out"; P_blank sp; w_ "bit"; d_ ")"; d_ ";";
     P_blank sp; w_ "end"; P_blank sp; w_ "E"; d_ ";"; P_blank nl;
   w_ "architecture"; P_blank sp; w_ "a"; P_blank sp; w_ "of"; P_blank sp; w_ "e"; P_blank sp; w_ "is"; P_blank sp; w_ "signal"; P_blank sp; w_ "s"; d_ ","; w_ "t"; d_ ":"; w_ "bit"; d_ ";"; P_blank sp; w_ "begin"; P_blank nl;
   w_ "u"; d_ ":"; w_ "x"; P_blank sp; w_ "port"; P_blank sp; w_ "map"; d_ "("; w_ "c"; d_ ","; w_ "o"; d_ "=>"; w_ "s"; d_ ")"; d_ ";"; P_blank nl;
   w_ "g"; d_ ":"; w_ "if"; P_blank sp; w_ "c"; P_blank sp; w_ "generate"; P_blank sp; w_ "q"; d_ "<="; w_ "s"; d_ ";"; P_blank sp; w_ "end"; P_blank sp; w_ "generate"; d_ ";"; P_blank nl;
   w_ "end"; d_ ";"].
Definition file_text : str := Eval vm_compute in flat_map piece_text file_pieces.
Definition file_toks : list hstk := Eval vm_compute in match vhdl_lex file_text with Ok l => match vhstks_of false l with Some ts => ts | None => [] end | _ => [] end.
Definition sub_ (s : string) : hexpr := HSubtype None (id_ s) None.
Definition pos_ (s : string) : hassoc hexpr := Assoc None (Act (D_expr false (id_ s))).
Definition file_units : list dunit :=
  [([CI_library [$"ieee"]; CI_use [HAll (HDot (id_ "ieee") (NL_id $"p"))]],
    LU_entity $"e" None (Some [IF_signal false [$"c"] (Some Md_in) (sub_ "bit") false None; IF_signal false [$"q"] (Some Md_out) (sub_ "bit") false None]) [] []);
   ([], LU_arch $"a" (id_ "e") [DC_signal [$"s"; $"t"] (sub_ "bit") None None]
     [CS_inst $"u" (IU_component false (id_ "x")) None (Some [pos_ "c"; Assoc (Some (id_ "o", None)) (Act (D_expr false (id_ "s")))]);
      CS_if $"g" None (id_ "c") (GB false [] [CS_simple None false (CP_assign (CC_wave (id_ "q") (W_elems (id_ "s", None) [])))]) [] None None])].
Ltac lg := cbn; repeat split; try exact Logic.I; try discriminate; try reflexivity; try (unfold c_primary; lia); auto.
Example C87_ex_written : w_file true false file_units file_toks.
Proof.
  refine (eq_ind _ (w_file true false file_units) _ file_toks _).
  - unfold file_units. eapply wf_cons; [|eapply wf_cons; [|constructor]].
    + eapply wdu_context; [apply wci_library; discriminate|]. eapply wdu_context; [apply wci_use; lg|]. apply wdu_unit. eapply (wu_entity true false _ _ _ _ false (Some $"E")); [apply wcl_none| |apply wds_nil|intros _; right; split; [cbn; intuition discriminate|reflexivity]].
      constructor. constructor. eapply ws_more; [|eapply ws_one]; (apply wi_signal; lg).
    + apply wdu_unit. eapply (wu_arch true false _ _ _ _ false None); [lg| | |exact Logic.I].
      * eapply wds_cons; [apply wd_signal; lg|constructor].
      * eapply wcs_cons; [apply wc_inst; lg|]. eapply wcs_cons; [|constructor]. eapply wc_if; [lg| |constructor|constructor|exact Logic.I].
        eapply (wg_plain true false _ false); [|reflexivity]. eapply wcs_cons; [|constructor]. apply wc_simple. apply wcs_assign. lg.
  - vm_compute. reflexivity.
Qed.
Example C87_ex_text : spelled_hstm false file_toks (lexemes file_pieces) /\ plain_vhdl file_pieces file_text.
Proof.
  split.
  - unfold file_pieces, file_toks. cbn [lexemes].
    repeat (apply sph_cons; [cbn [spells_hstk hkw_text]; first [reflexivity | (split; [reflexivity|eexists; split; reflexivity]) | (cbn [spells name_]; split; [reflexivity|right; apply not_listed; vm_compute; reflexivity]) | (split; reflexivity)]|]). constructor.
  - unfold plain_vhdl, file_pieces, file_text. repeat step.
Qed.
Definition means := Eval vm_compute in
  match s_file hdemo hdemo_machine 9 Z test_ range_ matches_ file_units with Some f => map show_u f | None => [] end.
Example C87_ex_means : option_map (map show_u) (s_file hdemo hdemo_machine 9 Z test_ range_ matches_ file_units) = Some means /\ means <> [].
Proof. split; [vm_compute; reflexivity|discriminate]. Qed.
Example C87_ex_converts : match convert_vhdl_text false file_text with Ok r => option_map (map show_u) (m_file hdemo hdemo_machine 9 Z test_ range_ matches_ r) = Some means | _ => False end.
Proof. vm_compute. reflexivity. Qed.
(** Packages with types, subprograms and components, blocks, and for and case generate statements. *)
Example C87_ex_parse : match from_text parse_vfile (fun l => Ok l)
  $"package p is type st is (idle, run); type m is array (0 to 3) of bit; subtype n is integer range 0 to 7; function f(a, b : in bit; constant c : bit := '0') return bit; component x is port (i : in bit); end component; end p; package body p is function f(a, b : in bit; constant c : bit := '0') return bit is variable r : bit; begin r := a; return r; end function f; end package body p; architecture a of e is begin k : block begin g : for i in 0 to 3 generate signal s : bit; begin p1 : process (s) begin q(i) <= s; end process p1; end generate g; end block; h : case n generate when 0 => begin q <= a; end; when others => z : entity work.x port map (a); end generate; end a;" with
  | Ok [([], LU_package _ None [_; _; _; _; _]); ([], LU_package_body _ [DC_body _ [_] [_; _]]);
        ([], LU_arch _ _ [] [CS_block _ None None None [] [CS_for _ i _ (GB true [_] [CS_simple (Some _) false (CP_process _ [] [_] (Some _))]) (Some g)] None;
           CS_case _ _ [(None, [_], GB true [] [_]); (None, [Ch_others], GB false [] [CS_inst z _ None (Some [_])])] None])] => i = $"i" /\ g = $"g" /\ z = $"z"
  | _ => False
  end.
Proof. vm_compute. repeat split. Qed.
