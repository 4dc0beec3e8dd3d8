(** C85: the modules of a Verilog file are parsed as IEEE 1800-2017 clauses A.1, A.2 and A.4 write them, and the text
    of a file, in any spelling and layout, becomes the AST of these modules.  [is_file f ts]: ts are the tokens of the
    file f (SvModSyntaxSpec.v); [w_file false]: the same, but any name may stand behind an end. *)
From Verif Require Import Base BaseFacts StrSpec AstModel LitModel LitSpec StmModel SvExprModel SvExprSpec SvStmModel SvStmSpec SvStmDemo SvTypeModel SvDeclModel SvDeclSpec SvModuleSpec SvInstSpec SvTfModel SvGenModel SvGenSpec SvTypeSpec SvFileModel SvFileSpec SvFileProofs.
From Verif Require Import SvSyntaxModel SvSyntaxSpec VhdlLexSpec SvLexModel SvLexSpec SvSpellSpec SvTextProofs SvStmSyntaxModel SvStmSyntaxSpec SvStmSpellSpec SvModSyntaxModel SvModSyntaxSpec SvModSyntaxComplete SvModReadSpec SvModSyntaxSound SvModSpellSpec SvModTextProofs P_C83.

(** Every file of the standard is read as this file. *)
Theorem C85_files (f : list description) (ts : list mtk) : is_file f ts -> parse_source ts = Ok f.
Proof. exact (parse_file_written true f ts). Qed.
Print Assumptions C85_files.
(** The names behind the ends do not matter. *)
Theorem C85_any_end_name (f : list description) (ts : list mtk) : w_file false f ts -> parse_source ts = Ok f.
Proof. exact (parse_file_written false f ts). Qed.
Print Assumptions C85_any_end_name.
(** Nothing else is read as a file: every accepted source is a sequence of modules as the clauses write them (with any
    names behind the ends), unless its tree has one of the two readings that the clauses do not have ([tidy],
    SvModReadSpec.v). *)
Theorem C85_grammar_partial (f : list description) (ts : list mtk) : ~ In (yx KAnd3) ts -> (parse_source ts = Ok f /\ tidy f = true <-> w_file false f ts).
Proof. intros N. split; [intros [H T]; exact (parse_file_read ts f H N T)|]. intros W. split; [exact (C85_any_end_name f ts W)|exact (file_tidy false f ts W)]. Qed.
Print Assumptions C85_grammar_partial.
(** Every sequence of tokens is accepted or rejected. *)
Theorem C85_terminates (ts : list mtk) : parse_source ts <> Base.OutOfFuel /\ forall w, parse_source ts <> UB w.
Proof. exact (parse_file_ends ts). Qed.
Print Assumptions C85_terminates.
(** The grammar is not ambiguous. *)
Theorem C85_unambiguous (f f' : list description) (ts : list mtk) : is_file f ts -> is_file f' ts -> f = f'.
Proof. intros H H'. apply C85_files in H, H'. congruence. Qed.
Print Assumptions C85_unambiguous.

(** ** From text to meaning *)
Theorem C85_text (v : lang) (f : list description) (ts : list mtk) (ps : list part) (text : str) :
  is_file f ts -> spelled_mod v ts (elems ps) -> plain_verilog v ps text -> convert_file_text v text = conv_source f.
Proof. intros W S P. unfold convert_file_text. rewrite (lex_cut v ps text P). cbn [bind]. rewrite (spelled_mod_toks v ts _ S), (C85_files f ts W). reflexivity. Qed.
Print Assumptions C85_text.
(** Layout, comments and the base letters do not matter: two texts of the same file have the same AST. *)
Theorem C85_layout (v : lang) (f : list description) (ts : list mtk) (ps ps' : list part) (text text' : str) :
  is_file f ts -> spelled_mod v ts (elems ps) -> plain_verilog v ps text -> spelled_mod v ts (elems ps') -> plain_verilog v ps' text' -> convert_file_text v text = convert_file_text v text'.
Proof. intros W S P S' P'. rewrite (C85_text v f ts ps text W S P), (C85_text v f ts ps' text' W S' P'). reflexivity. Qed.
Print Assumptions C85_layout.
(** The modules in the AST of a text have the interface, the items and the behaviour of the modules in the text. *)
Theorem C85_meaning_partial (A : algebra) (M : machine A) (N : Type) (num : genv N -> V A -> N) (test : genv N -> V A -> bool) (matches : genv N -> V A -> V A -> bool) (arith : asgop -> N -> N -> N) (one_more : bool -> N -> N)
  (n : nat) (v : lang) (f : list description) (ts : list mtk) (ps : list part) (text : str) (objs : list fobj) (ms : list (smodule A M N)) :
  n <> 0 -> is_file f ts -> spelled_mod v ts (elems ps) -> plain_verilog v ps text -> convert_file_text v text = Ok objs -> v_file A M N num test matches arith one_more n f = Some ms ->
  exists ms', m_file A M N num test matches arith one_more n objs = Some ms' /\ Forall2 (mod_same A M N) ms ms'.
Proof. intros Hn W S P C. rewrite (C85_text v f ts ps text W S P) in C. exact (file_sim A M N num test matches arith one_more n Hn f objs ms C). Qed.
Print Assumptions C85_meaning_partial.

(** ** What is read in another way *)
(** module a; endmodule : b *)
Definition two_names (a b : str) : list mtk := [M m_module; yx (KId a); Y Semi; M m_endmodule; yx KColon; yx (KId b)].
Definition empty_module (a : str) : description := DE_module (MD false (mk_mheader [] [] None (IdPlain a) [] None) HP_none []).
Theorem C85_end_name_refuted (a b : str) : a <> b -> parse_source (two_names a b) = Ok [empty_module a] /\ forall f, ~ is_file f (two_names a b).
Proof.
  intros N. assert (E : parse_source (two_names a b) = Ok [empty_module a]) by reflexivity. split; [exact E|].
  intros f W. pose proof (C85_files f _ W) as E2. assert (f = [empty_module a]) as -> by congruence.
  inversion W as [|m l ts ts' WM WF E3 E4]. subst. inversion WF. subst. rewrite app_nil_r in E4. subst ts. inversion WM as [h p l n hs ts H WI EN E5 E6|]. subst. inversion WI. subst.
  inversion H as [k i g p gs ps K G P E7 E8]. subst. inversion G. subst. inversion P. subst. cbn in E6. destruct n as [[n|n]|]; try discriminate E6. injection E6 as _ ->. destruct EN as [Z|[Z|Z]]; [discriminate Z|injection Z as Z; exact (N (eq_sym Z))|discriminate Z].
Qed.
Print Assumptions C85_end_name_refuted.
(** An instance with one or two values for the parameters and a first connection that can be assigned to is taken
    for a primitive, and there is nothing for it in the AST: foo #(8) u (y, a); *)
Definition with_item (a : str) (ts : list mtk) : list mtk := [M m_module; yx (KId a); Y Semi] ++ ts ++ [M m_endmodule].
Definition item_module (a : str) (l : gleaf) : description := DE_module (MD false (mk_mheader [] [] None (IdPlain a) [] None) HP_none [MT_item [] [] (GI_leaf l)]).
Lemma skipped_run n a j q : m_top (idt j :: q) = Ok (MT_item [] [] (GI_leaf GL_skipped), [M m_endmodule]) -> m_source (S (S (S (S n)))) ([M m_module; yx (KId a); Y Semi] ++ idt j :: q) = Ok [item_module a GL_skipped].
Proof.
  intros T. assert (I : m_items (S (S n)) (idt j :: q) = Ok ([MT_item [] [] (GI_leaf GL_skipped)], [M m_endmodule])) by (rewrite (m_items_top (S n) (idt j) q (idt_start j)), T; reflexivity).
  assert (D : m_decl (S (S (S n))) ([M m_module; yx (KId a); Y Semi] ++ idt j :: q) = Ok (MD false (mk_mheader [] [] None (IdPlain a) [] None) HP_none [MT_item [] [] (GI_leaf GL_skipped)], [])).
  { change (m_decl (S (S (S n))) ([M m_module; yx (KId a); Y Semi] ++ idt j :: q)) with ('(l, r2) <- m_items (S (S n)) (idt j :: q) ;; match r2 with M m_endmodule :: r3 => '(_, r4) <- y_name r3 ;; Ok (MD false (mk_mheader [] [] None (IdPlain a) [] None) HP_none l, r4) | _ => no_parse end). rewrite I. reflexivity. }
  change (m_source (S (S (S (S n)))) ([M m_module; yx (KId a); Y Semi] ++ idt j :: q)) with ('(m, r) <- m_decl (S (S (S n))) ([M m_module; yx (KId a); Y Semi] ++ idt j :: q) ;; l <- m_source (S (S (S n))) r ;; Ok (DE_module m :: l)). rewrite D. reflexivity.
Qed.
Lemma skipped_item a x ts : w_inst x ts -> primitive_form x -> parse_source (with_item a ts) = Ok [item_module a GL_skipped].
Proof.
  intros W U. assert (L : forall r, m_leaf (ts ++ r) = Ok (GL_skipped, r)).
  { intros r. pose proof (m_inst_ok x ts r W) as H. rewrite (proj2 (udp_form x ts W) U) in H. destruct (inst_first x ts r W) as (j & q & E & _). rewrite E in *. rewrite m_leaf_inst. exact H. }
  assert (T : m_top (ts ++ [M m_endmodule]) = Ok (MT_item [] [] (GI_leaf GL_skipped), [M m_endmodule])).
  { specialize (L [M m_endmodule]). destruct (inst_first x ts [M m_endmodule] W) as (j & q & E & C). rewrite E in *. unfold m_top.
    assert (m_pre (idt j :: q) = None) as -> by (destruct j; destruct q as [|[[[]| | | | | | | | ]| | | | |] q]; try contradiction; reflexivity).
    assert (forall n, m_gen (S n) (idt j :: q) = '(l, r) <- m_leaf (idt j :: q) ;; Ok (GI_leaf l, r)) as G by (intros n; destruct j; destruct q as [|[[[]| | | | | | | | ]| | | | |] q]; try contradiction; reflexivity).
    unfold gen_fuel. rewrite Nat.add_comm. cbn [Nat.add]. rewrite G, L. reflexivity. }
  destruct (inst_first x ts [M m_endmodule] W) as (j & q & E & _). unfold with_item. rewrite E in *. unfold parse_source. assert (exists n, gen_fuel ([M m_module; yx (KId a); Y Semi] ++ idt j :: q) = S (S (S (S n)))) as (n & ->) by (unfold gen_fuel; cbn [app length]; exists (7 + 2 * length q); lia).
  exact (skipped_run n a j q T).
Qed.
Theorem C85_instance_refuted (a : str) (x : inst) (ts : list mtk) : w_inst x ts -> primitive_form x ->
  (f <- parse_source (with_item a ts) ;; conv_source f) = conv_source [empty_module a].
Proof. intros W U. rewrite (skipped_item a x ts W U). reflexivity. Qed.
Print Assumptions C85_instance_refuted.
(** All other instances are read. *)
Theorem C85_instance (a : str) (x : inst) (ts : list mtk) : w_inst x ts -> ~ primitive_form x -> parse_source (with_item a ts) = Ok [item_module a (GL_inst x)].
Proof.
  intros W U. apply C85_files. unfold with_item, item_module. rewrite <- (app_nil_r (_ ++ _)). apply w_f_cons; [|constructor].
  apply (w_md true _ _ _ None [M m_module; yx (KId a); Y Semi] ts); [apply (w_hd m_module (IdPlain a) None HP_none [] []); [left; reflexivity|apply w_pl_none|apply w_po_none]| |left; reflexivity].
  rewrite <- (app_nil_r ts). apply w_it_top; [|constructor]. apply w_tp_item; [exact Logic.I|]. apply w_g_leaf, w_l_inst; assumption.
Qed.
Print Assumptions C85_instance.

(** ** module cnt #(parameter W = 8) (input clk, input [W-1:0] d, output reg [7:0] q);
         wire n, m; assign n = d; always @(posedge clk) q <= n;
         for (i = 0; i < 2; i = i+1) begin : g sub u (.a(n), .b()); end
         sub #(3) s (1, n);
       endmodule : cnt *)
Definition i_ (s : string) : ident := IdPlain $s.
Definition vi_ (s : string) : vitem := mk_vitem (i_ s) (map VD_range []) None.
Definition rng_ (a b : vexpr) : vrange := RG_two R_COLON a b.
Definition demo_inst : inst := mk_inst (i_ "sub") None [mk_hinst (i_ "u") [] (CO_named [NC_conn (i_ "a") (Some (ident_ "n")); NC_conn (i_ "b") None])].
Definition demo_inst2 : inst := mk_inst (i_ "sub") (Some (GV_ordered [PE_expr (num_ "3")])) [mk_hinst (i_ "s") [] (CO_ordered [Some (num_ "1"); Some (ident_ "n")])].
Definition demo_ff : vstm := TStm None [] [] (I_timing (T_event (EC_expr [EvItem (Some E_posedge) (ident_ "clk") None])) (TStm None [] [] (I_nonblocking (target_ "q") None (ident_ "n")))).
Definition demo_ports : hports :=
  HP_ansi [([], [], AN_port (Some V_INPUT) (option_map T_nv None) (vi_ "clk"));
            ([], [], AN_port (Some V_INPUT) (option_map T_nv (Some (N_plain (DI_implicit (I_type None (map Some [rng_ (VBinary B_MINUS (ident_ "W") (num_ "1")) (num_ "0")])))))) (vi_ "d"));
            ([], [], AN_port (Some V_OUTPUT) (option_map T_nv (Some (N_plain (DI_type (D_prim (P_vector $"reg") None (map VD_range [rng_ (num_ "7") (num_ "0")])))))) (vi_ "q"))].
Definition demo_file : list description := [DE_module (MD false
  (mk_mheader [] [] None (i_ "cnt") [] (Some (PL_decls [PD_param (PB_values None [PA (i_ "W") [] (option_map PE_expr (Some (num_ "8")))])])))
  demo_ports
  [MT_item [] [] (GI_leaf (GL_net (mk_net (NK_net $"wire") false None [mk_nitem (i_ "n") [] None; mk_nitem (i_ "m") [] None])));
   MT_item [] [] (GI_leaf (GL_assign [(target_ "n", ident_ "d", [])]));
   MT_item [] [] (GI_leaf (GL_always K_always [] demo_ff));
   MT_item [] [] (GI_for (mk_ginit false (i_ "i") (num_ "0") []) (VBinary B_LT (ident_ "i") (num_ "2")) (GS_assign (i_ "i") A_ASSIGN (VBinary B_PLUS (ident_ "i") (num_ "1")))
     (GI_block None (Some (i_ "g")) None [GI_leaf (GL_inst demo_inst)]));
   MT_item [] [] (GI_leaf (GL_inst demo_inst2))])].
Definition n_ (s : string) : part := G_elem (T_unsigned $s).
Definition file_parts : list part := Eval cbv [w_ s_ sp_ n_] in
  [w_ "module"; sp_; w_ "cnt"; sp_; s_ "#"; s_ "("; w_ "parameter"; sp_; w_ "W"; sp_; s_ "="; sp_; n_ "8"; s_ ")"; sp_; s_ "("; w_ "input"; sp_; w_ "clk"; s_ ","; sp_;
   w_ "input"; sp_; s_ "["; w_ "W"; s_ "-"; n_ "1"; s_ ":"; n_ "0"; s_ "]"; sp_; w_ "d"; s_ ","; sp_; w_ "output"; sp_; w_ "reg"; sp_; s_ "["; n_ "7"; s_ ":"; n_ "0"; s_ "]"; sp_; w_ "q"; s_ ")"; s_ ";"; sp_;
   w_ "wire"; sp_; w_ "n"; s_ ","; sp_; w_ "m"; s_ ";"; sp_; w_ "assign"; sp_; w_ "n"; sp_; s_ "="; sp_; w_ "d"; s_ ";"; sp_;
   w_ "always"; sp_; s_ "@"; s_ "("; w_ "posedge"; sp_; w_ "clk"; s_ ")"; sp_; w_ "q"; sp_; s_ "<="; sp_; w_ "n"; s_ ";"; sp_;
   w_ "for"; sp_; s_ "("; w_ "i"; sp_; s_ "="; sp_; n_ "0"; s_ ";"; sp_; w_ "i"; sp_; s_ "<"; sp_; n_ "2"; s_ ";"; sp_; w_ "i"; sp_; s_ "="; sp_; w_ "i"; s_ "+"; n_ "1"; s_ ")"; sp_;
   w_ "begin"; sp_; s_ ":"; sp_; w_ "g"; sp_; w_ "sub"; sp_; w_ "u"; sp_; s_ "("; s_ "."; w_ "a"; s_ "("; w_ "n"; s_ ")"; s_ ","; sp_; s_ "."; w_ "b"; s_ "("; s_ ")"; s_ ")"; s_ ";"; sp_; w_ "end"; sp_;
   w_ "sub"; sp_; s_ "#"; s_ "("; n_ "3"; s_ ")"; sp_; w_ "s"; sp_; s_ "("; n_ "1"; s_ ","; sp_; w_ "n"; s_ ")"; s_ ";"; sp_; w_ "endmodule"; sp_; s_ ":"; sp_; w_ "cnt"].
Definition file_text : str := $"module cnt #(parameter W = 8) (input clk, input [W-1:0] d, output reg [7:0] q); wire n, m; assign n = d; always @(posedge clk) q <= n; for (i = 0; i < 2; i = i+1) begin : g sub u (.a(n), .b()); end sub #(3) s (1, n); endmodule : cnt".
Definition file_toks : list mtk := Eval vm_compute in match sv_lex VERILOG2005 file_text with Ok l => match modtoks_of l with Some ts => ts | None => [] end | _ => [] end.
Ltac one := apply wc_one.
Ltac more := eapply wc_more.
Ltac good := solve [good_e | exact Logic.I | repeat constructor].
Lemma ex_inst : exists ts, w_inst demo_inst ts /\ ts = firstn 15 (skipn 72 file_toks).
Proof.
  eexists. split; [eapply w_in; [apply w_gv_none|one; eapply w_hi; [constructor|]; apply w_co_named; more; [apply (w_nc_conn _ (Some _)); good|one; apply (w_nc_conn _ None); good]]|]. vm_compute. reflexivity.
Qed.
Lemma ex_inst2 : exists ts, w_inst demo_inst2 ts /\ ts = firstn 12 (skipn 88 file_toks).
Proof.
  eexists. split; [eapply w_in; [apply w_gv_ordered; one; apply w_op; good|one; eapply w_hi; [constructor|]; apply w_co_ordered; more; [apply (w_oc (Some _)); good|one; apply (w_oc (Some _)); good]]|]. vm_compute. reflexivity.
Qed.
Lemma ex_not_primitive : ~ primitive_form demo_inst /\ ~ primitive_form demo_inst2.
Proof.
  destruct ex_inst as (ti & Wi & _), ex_inst2 as (tj & Wj & _).
  split; intros U; [apply (udp_form demo_inst ti Wi) in U|apply (udp_form demo_inst2 tj Wj) in U]; vm_compute in U; discriminate U.
Qed.
Lemma ex_ports : exists ts, w_ports demo_ports ts /\ ts = firstn 23 (skipn 9 file_toks).
Proof.
  eexists. split; [apply w_po_ansi; [exact Logic.I|]|].
  - more; [apply w_an; [discriminate|apply w_nv_none|apply (w_vi _ [] None); [constructor|good]]|].
    more; [apply w_an; [discriminate|apply w_nv_plain, (w_t_implicit None [rng_ (VBinary B_MINUS (ident_ "W") (num_ "1")) (num_ "0")]); [right; discriminate|repeat constructor; good]|apply (w_vi _ [] None); [constructor|good]]|].
    one. apply w_an; [discriminate|apply w_nv_plain, (w_t_vector $"reg" None [rng_ (num_ "7") (num_ "0")]); repeat constructor; good|apply (w_vi _ [] None); [constructor|good]].
  - vm_compute. reflexivity.
Qed.
Example C85_ex_file : is_file demo_file file_toks.
Proof.
  destruct ex_inst as (ti & Wi & Ei), ex_inst2 as (tj & Wj & Ej), ex_ports as (tp & Wp & Ep). destruct ex_not_primitive as [Ni Nj].
  refine (eq_ind _ (is_file demo_file) _ file_toks _); [unfold demo_file; apply w_f_cons; [|apply w_f_nil]|].
  - eapply (w_md true _ _ _ (Some (i_ "cnt"))); [| |right; left; reflexivity].
    + apply (w_hd m_module); [left; reflexivity| |exact Wp]. apply w_pl_decls. one. apply w_pd_param. apply w_pb; [apply w_ot_none|]. one. apply (w_pa _ [] (Some _)); [constructor|good].
    + apply w_it_top; [apply w_tp_item; [exact Logic.I|]; apply w_g_leaf; apply w_l_net; [apply w_ot_none|]; more; [apply (w_ni _ [] None); [constructor|good]|one; apply (w_ni _ [] None); [constructor|good]]|].
      apply w_it_top; [apply w_tp_item; [exact Logic.I|]; apply w_g_leaf; apply w_l_assign; apply w_in_one; [good_lv|good]|].
      apply w_it_top; [apply w_tp_item; [exact Logic.I|]; apply w_g_leaf; apply w_l_always; [|discriminate]|].
      { apply w_plain. eapply (w_at true _ _ [At; X KLp; Kw k_posedge; x_ "clk"; X KRp]).
        - apply (w_ec_expr [EvItem (Some E_posedge) (ident_ "clk") None] [Kw k_posedge; x_ "clk"]). apply w_evs_one. apply (w_ev (Some E_posedge) (ident_ "clk")); [good_e|exact Logic.I].
        - apply w_plain. apply (w_nonblocking true (target_ "q") (ident_ "n")); [good_lv|good_e]. }
      apply w_it_top; [apply w_tp_item; [exact Logic.I|]; apply w_g_for; [apply (w_gi false); good|good|apply w_gs_assign; good|]|].
      { apply w_g_block; [left; reflexivity|]. apply w_gs_cons; [|apply w_gs_nil]. apply w_g_leaf, w_l_inst; [exact Wi|exact Ni]. }
      apply w_it_top; [apply w_tp_item; [exact Logic.I|]; apply w_g_leaf, w_l_inst; [exact Wj|exact Nj]|]. apply w_it_nil.
  - rewrite Ei, Ej, Ep. vm_compute. reflexivity.
Qed.
Example C85_ex_text : spelled_mod VERILOG2005 file_toks (elems file_parts) /\ plain_verilog VERILOG2005 file_parts file_text.
Proof.
  split.
  - unfold spelled_mod, file_toks, file_parts. cbn [elems app]. repeat (apply Forall2_cons; [cbn [spells_mtk spells_stk kw_text mkw_text]; first [reflexivity | solve [split; [reflexivity|sign_ok]] | solve [split; [reflexivity|split; sign_ok]] | (cbn [spells]; split; [reflexivity|split; [not_in|discriminate]])]|]). apply Forall2_nil.
  - unfold plain_verilog, file_parts, file_text. repeat step.
Qed.
Definition g_num (e : genv Z) (x : dv) : Z := snd x e.
Definition g_test (e : genv Z) (x : dv) : bool := negb (snd x e =? 0)%Z.
Definition g_matches (e : genv Z) (w x : dv) : bool := (snd w e =? snd x e)%Z.
Definition g_arith (o : asgop) (a b : Z) : Z := match o with A_PLUS => (a + b)%Z | A_MINUS => (a - b)%Z | _ => b end.
Definition g_more (b : bool) (a : Z) : Z := if b then (a + 1)%Z else (a - 1)%Z.
(** The file has a meaning and an AST. *)
Example C85_ex_meaning : match v_file demo demo_machine Z g_num g_test g_matches g_arith g_more 9 demo_file with Some [Mod _ _ _ name _ _ ports items []] => name = $"cnt" /\ length ports = 3 /\ length items = 7 | _ => False end
  /\ match convert_file_text VERILOG2005 file_text with Ok [FO_def d l] => md_name d = $"cnt" /\ length (md_ports d) = 3 /\ length l = 6 | _ => False end.
Proof. split; vm_compute; repeat split. Qed.
(** foo #(8) u (y, a); is such an instance *)
Definition lost_inst : inst := mk_inst (i_ "foo") (Some (GV_ordered [PE_expr (num_ "8")])) [mk_hinst (i_ "u") [] (CO_ordered [Some (ident_ "y"); Some (ident_ "a")])].
Example C85_ex_lost : (exists ts, w_inst lost_inst ts) /\ primitive_form lost_inst
  /\ convert_file_text VERILOG2005 $"module m; foo #(8) u (y, a); endmodule" = convert_file_text VERILOG2005 $"module m; endmodule"
  /\ convert_file_text VERILOG2005 $"module m; foo #(8) u (.y(y), .a(a)); endmodule" <> convert_file_text VERILOG2005 $"module m; endmodule".
Proof.
  split; [|split; [|split]].
  - eexists. eapply w_in; [apply w_gv_ordered; one; apply w_op; good|one; eapply w_hi; [constructor|]; apply w_co_ordered; more; [apply (w_oc (Some _)); good|one; apply (w_oc (Some _)); good]].
  - split; [exists [PE_expr (num_ "8")]; split; [reflexivity|left; reflexivity]|]. constructor; [|constructor]. exists (ident_ "y"), (ident_ "a"), [], (target_ "y"). split; [reflexivity|split; [good_lv|reflexivity]].
  - vm_compute. reflexivity.
  - vm_compute. discriminate.
Qed.
(** module m; wire a endmodule is not a file and rejected; module m; reg [T] x; endmodule has an untidy tree, but with
    [2:0] in the place of [T] it is a file of the clauses. *)
Definition toks_of (s : string) : list mtk := match sv_lex VERILOG2005 $s with Ok l => match modtoks_of l with Some ts => ts | None => [] end | _ => [] end.
Example C85_ex_rejected : length (toks_of "module m; wire a endmodule") = 6 /\ match parse_source (toks_of "module m; wire a endmodule") with Throw _ => True | _ => False end.
Proof. split; vm_compute; [reflexivity|exact Logic.I]. Qed.
Example C85_ex_tidy : match parse_source (toks_of "module m; reg [T] x; endmodule") with Ok f => tidy f = false | _ => False end
  /\ exists f, w_file false f (toks_of "module m; reg [2:0] x; endmodule").
Proof.
  split; [vm_compute; reflexivity|]. destruct (parse_source (toks_of "module m; reg [2:0] x; endmodule")) as [f| | |] eqn:E; [|vm_compute in E; discriminate E..].
  exists f. apply C85_grammar_partial; [vm_compute; intuition discriminate|]. split; [exact E|]. vm_compute in E. injection E as <-. reflexivity.
Qed.
