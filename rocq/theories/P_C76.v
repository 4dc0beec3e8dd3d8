(** C76: a Verilog file and its AST have the same modules. *)
From Verif Require Import Base BaseFacts AstModel StmModel LitModel LitSpec SvExprModel SvExprSpec SvStmModel SvStmSpec SvStmDemo SvTypeModel SvDeclModel SvDeclSpec SvDeclProofs SvModuleSpec SvModuleProofs SvInstSpec SvTfModel SvGenModel SvGenSpec SvTypeSpec SvFileModel SvFileSpec SvFileProofs.

(** For every interpretation of expressions, statements, genvars and every bound on the number of steps: the AST of a
    file has the modules of the file, with the same names, parameters, ports, nested modules and, after elaboration,
    the same items in the same scopes; processes and subroutines behave alike.  Missing: the constructs for which
    SvFileSpec.v gives no meaning, and those refuted below and in C26, C31-C36, C39-C41, C60, C70, C71, C75. *)
Theorem C76_file_partial (A : algebra) (M : machine A) (N : Type) (num : genv N -> V A -> N) (test : genv N -> V A -> bool) (matches : genv N -> V A -> V A -> bool) (arith : asgop -> N -> N -> N) (one_more : bool -> N -> N)
  (n : nat) (f : list description) (objs : list fobj) (ms : list (smodule A M N)) :
  n <> 0 -> conv_source f = Ok objs -> v_file A M N num test matches arith one_more n f = Some ms ->
  exists ms', m_file A M N num test matches arith one_more n objs = Some ms' /\ Forall2 (mod_same A M N) ms ms'.
Proof. intros Hn H. exact (file_sim A M N num test matches arith one_more n Hn f objs ms H). Qed.
Print Assumptions C76_file_partial.

(** Packages, interfaces, programs, primitives, binds and configurations are dropped, and so are specify blocks,
    specparams, time units and everything else that is skipped inside of a module. *)
Theorem C76_skipped_refuted a b : conv_source (a ++ DE_skipped :: b) = conv_source (a ++ b).
Proof. unfold conv_source. induction a as [|d a IH]; cbn [app]; rewrite !concat_cons; [cbn [bind]; destruct (concatM _ b); reflexivity|rewrite IH; reflexivity]. Qed.
Theorem C76_skipped_item_refuted ext h p a b : conv_mdecl (MD ext h p (a ++ MT_skipped :: b)) = conv_mdecl (MD ext h p (a ++ b)).
Proof.
  cbn [conv_mdecl]. destruct (conv_header h) as [hg| | |]; cbn [bind]; try reflexivity. destruct (conv_hports p) as [ps| | |]; cbn [bind]; try reflexivity. destruct ext; [reflexivity|].
  assert (forall st, foldM (run_mditem conv_mdecl) st (a ++ MT_skipped :: b) = foldM (run_mditem conv_mdecl) st (a ++ b)) as E; [|rewrite E; reflexivity].
  induction a as [|i a IH]; intros st; cbn [app]; rewrite !foldM_cons; [reflexivity|]. destruct (run_mditem conv_mdecl st i); cbn [bind]; try reflexivity. apply IH.
Qed.
(** automatic and the imports of the header are dropped. *)
Theorem C76_lifetime_refuted ext p l d at_ s g life imp : conv_mdecl (MD ext (mk_mheader d at_ life s imp g) p l) = conv_mdecl (MD ext (mk_mheader d at_ None s [] g) p l).
Proof. reflexivity. Qed.
(** A parameter of the body of a module with parameters in the header is local (6.20.1); in the AST it is one more
    parameter of the module, as if it were in the header. *)
Theorem C76_local_refuted d at_ s ds b p : conv_mdecl (MD false (mk_mheader d at_ None s [] (Some (PL_decls ds))) p [MT_item [] [] (GI_leaf (GL_param b))]) =
  match conv_mdecl (MD false (mk_mheader d at_ None s [] (Some (PL_decls ds))) p []), conv_pbody b with
  | Ok (FO_def m l), Ok r => Ok (FO_def (mk_mdec (md_name m) (md_doc m) (md_attrs m) (md_generics m ++ map fill_type r) (md_ports m)) l)
  | Ok _, Throw e => Throw e | Ok _, UB e => UB e | Ok _, Base.OutOfFuel => Base.OutOfFuel | x, _ => x
  end.
Proof.
  cbn [conv_mdecl]. unfold conv_header. cbn [mh_attrs mh_params mh_name mh_doc]. destruct (mapM conv_attr at_) as [a| | |]; cbn [bind]; try reflexivity. destruct (conv_plist (PL_decls ds)) as [g| | |]; cbn [bind fst snd]; try reflexivity. destruct (conv_hports p) as [ps| | |]; cbn [bind]; try reflexivity.
  cbn [foldM run_mditem conv_top conv_gleaf ms_generics ms_ports ms_objs bind]. destruct (conv_pbody b) as [r| | |]; cbn [bind fst snd]; try reflexivity.
  assert (E : forall r : list iddef, new_attrs r [] = Ok []) by (intros []; reflexivity). rewrite E. cbn [bind new_attrs map doc_first app consume ms_ports ms_objs ms_generics]. rewrite map_app.
  assert (map (more_attrs []) r = r) as -> by (clear; induction r as [|x r IH]; [reflexivity|]; cbn [map]; rewrite IH; f_equal; destruct x; unfold more_attrs; cbn; rewrite app_nil_r; reflexivity). reflexivity.
Qed.
(** A port of an extern module without direction has none in the AST; it is inout (23.2.2.3). *)
Theorem C76_extern_refuted h doc at_ t v l i d : conv_mdecl (MD true h (HP_ansi ((doc, at_, AN_port None t v) :: l)) i) = Ok (FO_dec d) -> exists p ps, md_ports d = p :: ps /\ d_dir p = DIR_UNKNOWN.
Proof.
  cbn [conv_mdecl]. intros H. apply bind_inv in H as (hg & _ & H). apply bind_inv in H as (ps & Hps & H). injection H as <-. cbn [md_ports]. cbn [conv_hports] in Hps. apply bind_inv in Hps as (xs & Hx & Hps). apply bind_inv in Hps as (ats & Ha & Hps). injection Hps as <-.
  unfold conv_ansi_ports in Hx. cbn [map snd conv_ansi_list conv_ansi] in Hx. apply bind_inv in Hx as (((x & dir) & b) & Hx0 & Hx). apply bind_inv in Hx as (ys & _ & Hx). injection Hx as <-.
  apply bind_inv in Hx0 as (bl & _ & Hx0). apply bind_inv in Hx0 as (dims & _ & Hx0). destruct (apply_dims (fst bl) dims) as (b0, ty). apply bind_inv in Hx0 as (z & Hz & Hx0). injection Hx0 as <- <- <-. unfold conv_vitem in Hz. apply bind_inv in Hz as (? & _ & Hz). apply bind_inv in Hz as (? & _ & Hz). injection Hz as <-.
  cbn [mapM] in Ha. apply bind_inv in Ha as (a0 & _ & Ha). apply bind_inv in Ha as (a1 & _ & Ha). injection Ha as <-. cbn [map combine fst snd]. eexists. eexists. split; [reflexivity|]. unfold fill_type. match goal with |- context [match ?x with _ => _ end] => destruct x end; reflexivity.
Qed.
(** An empty port of the header is dropped, which moves the connections by position. *)
Theorem C76_empty_port_refuted a b : conv_hports (HP_nonansi (a ++ None :: b)) = conv_hports (HP_nonansi (a ++ b)).
Proof. cbn [conv_hports]. induction a as [|d a IH]; cbn [app]; rewrite !concat_cons; [cbn [bind]; destruct (concatM _ b); reflexivity|rewrite IH; reflexivity]. Qed.
(** The type in the port declaration is lost when a variable of that name is declared, so  output signed q; reg q;  is
    no longer signed. *)
Theorem C76_sign_refuted h doc s t t' x x' d v : conv_nvtype t = Ok (x, false) -> conv_nvtype t' = Ok (x', false) -> conv_data d = Ok [v] -> d_name v = s ->
  let m t := MD false h (HP_nonansi [Some (doc, NA_expr (NE_one (mk_dotted (IdPlain s) None [])))]) [MT_ports [] [] (ND_input t [mk_vitem (IdPlain s) [] None]); MT_item [] [] (GI_leaf (GL_data d))] in
  conv_mdecl (m t) = conv_mdecl (m t').
Proof.
  intros Ht Ht' Hd En m. unfold m. subst s.
  set (P := [set_doc (new_var (d_name v) ENull None) doc]). assert (HP : conv_hports (HP_nonansi [Some (doc, NA_expr (NE_one (mk_dotted (IdPlain (d_name v)) None [])))]) = Ok P) by reflexivity.
  cbn [conv_mdecl]. rewrite HP. destruct (conv_header h) as [hg| | |]; cbn [bind]; try reflexivity.
  assert (K : forall t x, conv_nvtype t = Ok (x, false) -> run_mditem conv_mdecl (mk_mstate (snd hg) P []) (MT_ports [] [] (ND_input t [mk_vitem (IdPlain (d_name v)) [] None])) =
    Ok (mk_mstate (snd hg) [mk_iddef (d_name v) x None DIR_IN false false false false false (doc ++ []) []] [])).
  { clear. intros t x Ht. cbn [run_mditem]. unfold conv_mports. cbn [conv_nadecl]. rewrite Ht. unfold P. cbn. rewrite seqb_refl. cbn. unfold add_decl. cbn. rewrite !seqb_refl. reflexivity. }
  rewrite !foldM_cons, (K t x Ht), (K t' x' Ht'). cbn [bind]. rewrite !foldM_cons. cbn [run_mditem conv_top conv_gleaf]. rewrite Hd. cbn. rewrite !seqb_refl. reflexivity.
Qed.
(** The attributes of a port declaration are lost when the port is in the header. *)
Lemma decls_attrs l a l' : Forall2 (fun d d' => d' = more_attrs a d) l l' -> forall P P', (forall d, In d l -> mem (d_name d) (map d_name P) = true) -> foldM add_decl P l = Ok P' -> foldM add_decl P l' = Ok P'.
Proof.
  induction 1 as [|d d' l l' -> H IH]; intros P P' Hin E; [exact E|]. rewrite foldM_cons in *. apply bind_inv in E as (P1 & E1 & E). assert (Hd : mem (d_name d) (map d_name P) = true) by (apply Hin; left; reflexivity).
  assert (E1' : add_decl P (more_attrs a d) = Ok P1).
  { unfold add_decl in *. cbn [more_attrs d_name d_value]. destruct (find_port (d_name d) P) as [q|] eqn:Ef; [exact E1|]. apply find_none_names in Ef. unfold mem in Hd. congruence. }
  rewrite E1'. cbn [bind]. apply IH; [|exact E]. intros x Hx.
  unfold add_decl in E1. destruct (find_port (d_name d) P) as [q|] eqn:Ef; [|apply find_none_names in Ef; unfold mem in Hd; congruence].
  destruct (update_some (d_name d) (fun p => merge_decl p d) P) as (r & Hr & Hn & _); [reflexivity|congruence|]. rewrite Hr in E1. assert (r = P1) by (destruct (d_value d), (d_value q); congruence). subst r. rewrite Hn. apply Hin. right. exact Hx.
Qed.
Theorem C76_port_attributes_refuted c st doc at_ nd l a st' : conv_nadecl nd = Ok l -> (forall d, In d l -> mem (d_name d) (map d_name (ms_ports st)) = true) -> mapM conv_attr at_ = Ok a ->
  run_mditem c st (MT_ports doc [] nd) = Ok st' -> run_mditem c st (MT_ports doc at_ nd) = Ok st'.
Proof.
  intros Hl Hin Ha H. cbn [run_mditem] in *. unfold conv_mports in *. rewrite Hl in *. cbn [bind] in *. destruct l as [|d l]; [exact H|]. cbn [new_attrs in_destructor] in *. rewrite Ha. cbn [bind mapM map add_decls in_destructor] in *. 
  apply bind_inv in H as (ps & Hps & H). injection H as <-. rename ps into P'.
  match type of Hps with bind (add_decl ?P ?x) (fun ps => foldM add_decl ps ?y) = _ => assert (K : foldM add_decl P (x :: y) = Ok P') by exact Hps end.
  match goal with |- bind (bind (add_decl ?P ?x) (fun ps => foldM add_decl ps ?y)) _ = _ => assert (K' : foldM add_decl P (x :: y) = Ok P') end.
  - refine (decls_attrs _ a _ _ _ _ _ K).
    + constructor.
      * unfold more_attrs, set_doc. cbn [d_name d_doc d_attrs d_type d_value d_dir d_latched d_const d_static d_shared d_alias]. rewrite app_nil_r. reflexivity.
      * clear. induction l as [|x l IH]; [constructor|]. cbn [map]. constructor; [|exact IH]. unfold more_attrs. cbn [d_name d_doc d_attrs d_type d_value d_dir d_latched d_const d_static d_shared d_alias]. rewrite app_nil_r. reflexivity.
    + intros y [<-|Hy]; [apply (Hin d); left; reflexivity|]. apply in_map_iff in Hy as (z & <- & Hz). apply (Hin z). right. exact Hz.
  - rewrite foldM_cons in K'. rewrite K'. reflexivity.
Qed.
(** The text in front of the declaration of a port that is not in the header is there twice; the text in front of a
    process as well. *)
Theorem C76_port_doc_refuted c st doc nd d st' : conv_nadecl nd = Ok [d] -> find_port (d_name d) (ms_ports st) = None -> forallb no_star (ms_ports st) = true ->
  run_mditem c st (MT_ports doc [] nd) = Ok st' -> exists x, find_port (d_name d) (ms_ports st') = Some x /\ d_doc x = doc ++ doc.
Proof.
  intros Hd Hf Hs H. cbn [run_mditem] in H. unfold conv_mports in H. rewrite Hd in H. cbn [bind new_attrs in_destructor mapM map add_decls foldM more_attrs set_doc d_name d_doc] in H. rewrite Hf in H. apply bind_inv in H as (ps & Hps & H). injection H as <-. cbn [ms_ports].
  apply bind_inv in Hps as (q & Hq & Hps). injection Hps as <-. destruct (add_decl_ok _ _ _ Hs Hq) as (_ & Hfind). rewrite Hfind, Hf. unfold named. cbn [set_doc d_name]. rewrite seqb_refl. eexists. split; reflexivity.
Qed.
Theorem C76_process_doc_refuted c st doc s o st' : conv_stm s = Ok o -> (forall h se t b, o <> SProcess h se t b) -> run_mditem c st (MT_item doc [] (GI_leaf (GL_always K_comb doc s))) = Ok st' ->
  ms_objs st' = ms_objs st ++ [MO_other (FO_other (doc ++ []) [] (SO_stm (SProcess (hdr_doc doc) None ALWAYS_COMB o)))].
Proof.
  intros Hs Ho H. cbn [run_mditem conv_top conv_gleaf] in H. unfold conv_always in H. rewrite Hs in H. assert (E : match o with SProcess h se _ b => SProcess h se ALWAYS_COMB b | _ => SProcess (hdr_doc doc) None ALWAYS_COMB o end = SProcess (hdr_doc doc) None ALWAYS_COMB o) by (destruct o; try reflexivity; exfalso; eapply Ho; reflexivity).
  cbn [bind] in H. rewrite E in H. cbn in H. injection H as <-. reflexivity.
Qed.
Print Assumptions C76_skipped_refuted.
Print Assumptions C76_skipped_item_refuted.
Print Assumptions C76_lifetime_refuted.
Print Assumptions C76_local_refuted.
Print Assumptions C76_extern_refuted.
Print Assumptions C76_empty_port_refuted.
Print Assumptions C76_sign_refuted.
Print Assumptions C76_port_attributes_refuted.
Print Assumptions C76_port_doc_refuted.
Print Assumptions C76_process_doc_refuted.

(** module m #(parameter W = 8) (input clk, a, output reg [7:0] q);
      for (genvar i = 0; i < 2; i++) begin : g  n u(); wire y; end
      function automatic int f(int x); y = 1; endfunction
      always_ff @(posedge clk) q += 1;
      assign a = 1;  wire b, c;
      module k; parameter P = 1; endmodule
    endmodule
    module n (q, a); output q; input a; reg [7:0] q = 1; wire z; endmodule
    extern module e (input a); *)
Definition i_ (s : string) : ident := IdPlain $s.
Definition rng (a b : string) : vrange := RG_two R_COLON (vnum a) (vnum b).
Definition vi (s : string) (v : option vexpr) : vitem := mk_vitem (i_ s) [] v.
Definition head (s : string) (p : option plist) : mheader := mk_mheader [] [] None (i_ s) [] p.
Definition reg8 : doi := DI_type (D_prim (P_vector $"reg") None [VD_range (rng "7" "0")]).
Definition wires (l : list string) : gitem := GI_leaf (GL_net (mk_net (NK_net $"wire") false None (map (fun s => mk_nitem (i_ s) [] None) l))).
Definition it (g : gitem) : mditem mdecl := MT_item [] [] g.
Definition name_ (s : string) : option (str * naport) := Some ([], NA_expr (NE_one (mk_dotted (i_ s) None []))).
Definition ex_file : list description := map DE_module
  [MD false (head "m" (Some (PL_decls [PD_param (PB_values None [PA (i_ "W") [] (Some (PE_expr (vnum "8")))])])))
     (HP_ansi [([], [], AN_port (Some V_INPUT) None (vi "clk" None)); ([], [], AN_port None None (vi "a" None)); ([], [], AN_port (Some V_OUTPUT) (Some (T_nv (N_plain reg8))) (vi "q" None))])
     [it (GI_for (mk_ginit true (i_ "i") (vnum "0") []) (VBinary B_LT (vid "i") (vnum "2")) (GS_incdec false true (i_ "i"))
        (GI_block None (Some (i_ "g")) None [GI_leaf (GL_inst (mk_inst (i_ "n") None [mk_hinst (i_ "u") [] (CO_named [])])); wires ["y"%string]]));
      it (GI_leaf (GL_tf (mk_tf false true (Some (RT_type (D_prim (P_atom $"int") None []))) false (i_ "f")
        (TH_ansi [mk_tfport None false (Some (DI_type (D_prim (P_atom $"int") None []))) (Some (i_ "x")) [] None] []) [set_ "y" "1"])));
      it (GI_leaf (GL_always K_ff [] (st (I_timing (T_event (EC_expr [EvItem (Some E_posedge) (vid "clk") None])) (add_ "q" "1")))));
      it (GI_leaf (GL_assign [(vid "a", vnum "1", [])])); it (wires ["b"%string; "c"%string]);
      MT_module (MD false (head "k" None) HP_none [it (GI_leaf (GL_param (PB_values None [PA (i_ "P") [] (Some (PE_expr (vnum "1")))])))])];
   MD false (head "n" None) (HP_nonansi [name_ "q"; name_ "a"])
     [MT_ports [] [] (ND_output None [vi "q" None]); MT_ports [] [] (ND_input None [vi "a" None]);
      it (GI_leaf (GL_data (mk_data false false (Some reg8) [vi "q" (Some (vnum "1"))]))); it (wires ["z"%string])];
   MD true (head "e" None) (HP_ansi [([], [], AN_port (Some V_INPUT) None (vi "a" None))]) []].
Definition num_ (e : genv Z) (v : dv) : Z := snd v e.
Definition test_ (e : genv Z) (v : dv) : bool := negb (snd v e =? 0)%Z.
Definition matches_ (e : genv Z) (w v : dv) : bool := (snd w e =? snd v e)%Z.
Definition arith_ (o : asgop) (a b : Z) : Z := match o with A_PLUS => (a + b)%Z | A_MINUS => (a - b)%Z | _ => b end.
Definition more_ (b : bool) (a : Z) : Z := if b then (a + 1)%Z else (a - 1)%Z.
(** The names, and how ports are typed. *)
Definition show_object (o : object demo) : str * direction * option str * nat * bool := (ob_name _ o, ob_dir _ o, match ob_type _ o with Typ (Word k) _ _ _ => Some k | _ => None end, match ob_type _ o with Typ _ _ p u => length p + length u end, match ob_value _ o with Some _ => true | None => false end).
Definition show_item (x : gres Z (litem demo demo_machine)) : gpath Z * str := (fst (fst x), match snd x with LObj _ _ o => ob_name _ o | LInst _ _ i => i_name _ i | LDrive _ _ d _ => fst d | LProc _ _ _ _ => $"process" | LSub _ _ f => su_name _ _ f | _ => [] end).
Fixpoint show_module (m : smodule demo demo_machine Z) : list (str * bool * list str * list (str * direction * option str * nat * bool) * list (gpath Z * str)) :=
  match m with Mod _ _ _ s e ps r i l => (s, e, map (ob_name _) ps, map show_object r, map show_item i) :: flat_map show_module l end.
Definition ex_shown : list (str * bool * list str * list (str * direction * option str * nat * bool) * list (gpath Z * str)) :=
  [($"m", false, [$"W"], [($"clk", DIR_IN, Some $"wire", 0, false); ($"a", DIR_IN, Some $"wire", 0, false); ($"q", DIR_OUT, Some $"reg", 1, false)],
     [([(Some $"g", Some 0%Z)], $"u"); ([(Some $"g", Some 0%Z)], $"y"); ([(Some $"g", Some 1%Z)], $"u"); ([(Some $"g", Some 1%Z)], $"y"); ([], $"f"); ([], $"process"); ([], $"a"); ([], $"b"); ([], $"c")]);
   ($"k", false, [$"P"], [], []);
   ($"n", false, [], [($"q", DIR_OUT, Some $"reg", 1, true); ($"a", DIR_IN, Some $"wire", 0, false)], [([], $"z")]);
   ($"e", true, [], [($"a", DIR_IN, Some $"wire", 0, false)], [])].
Example C76_ex_hyp : option_map (flat_map show_module) (v_file demo demo_machine Z num_ test_ matches_ arith_ more_ 9 ex_file) = Some ex_shown.
Proof. vm_compute. reflexivity. Qed.
Example C76_ex : match conv_source ex_file with Ok o => option_map (flat_map show_module) (m_file demo demo_machine Z num_ test_ matches_ arith_ more_ 9 o) = Some ex_shown | _ => False end.
Proof. vm_compute. reflexivity. Qed.
(** The hypotheses of the refutations can be met. *)
Example C76_sign_ex : let signed_ := Some (N_plain (DI_implicit (I_type (Some Signed) []))) in
  exists x x' v, conv_nvtype signed_ = Ok (x, false) /\ conv_nvtype None = Ok (x', false) /\ x <> x' /\ conv_data (mk_data false false (Some reg8) [vi "q" None]) = Ok [v] /\ d_name v = $"q".
Proof. eexists. eexists. eexists. repeat split; try reflexivity. discriminate. Qed.
Example C76_extern_ex : exists d, conv_mdecl (MD true (head "e" None) (HP_ansi [([], [], AN_port None None (vi "a" None))]) []) = Ok (FO_dec d) /\ map d_dir (md_ports d) = [DIR_UNKNOWN].
Proof. eexists. split; reflexivity. Qed.
Example C76_port_attributes_ex : let st := mk_mstate [] [new_var $"q" ENull None] [] in
  exists l a, conv_nadecl (ND_output None [vi "q" None]) = Ok l /\ (forall d, In d l -> mem (d_name d) (map d_name (ms_ports st)) = true) /\ mapM conv_attr [(i_ "keep", None)] = Ok a /\ a <> [].
Proof. eexists. eexists. repeat split; try reflexivity; [intros d [<-|[]]; reflexivity|discriminate]. Qed.
