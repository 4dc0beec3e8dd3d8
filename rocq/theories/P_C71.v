(** C71: Verilog generate constructs elaborate to the same items. *)
From Verif Require Import Base AstModel StmModel LitModel LitSpec SvExprModel SvExprSpec SvStmModel SvStmSpec SvStmDemo SvTypeModel SvDeclModel SvTfModel SvGenModel SvGenSpec SvGenProofs.

(** Elaborating the AST gives what elaborating the source gives, each item converted by itself, in the same scope,
    with the same values of the genvars, in the same order; for every interpretation of conditions, labels and steps.
    Missing: parameters in generate blocks and the cases refuted below; expressions outside of the fragment of C26. *)
Theorem C71_elaboration_partial (A : algebra) (N : Type) (num : genv N -> V A -> N) (test : genv N -> V A -> bool) (matches : genv N -> V A -> V A -> bool) (arith : asgop -> N -> N -> N) (one_more : bool -> N -> N)
  (n : nat) (p : gpath N) (e : genv N) (l : list gitem) (r : list sobj) (items : list (gres N gleaf)) :
  concatM conv_gitem l = Ok r -> s_gens A N num test matches arith one_more n p e l = Some items ->
  exists os, a_gens A N num test matches arith one_more n p e r = Some os /\
    concatM (fun x => c <- conv_gleaf (snd x) ;; Ok (map (fun o => (fst x, mark false o)) (fst c))) items = Ok os.
Proof. intros H K. destruct (gens_sim A N num test matches arith one_more n l p e r items H K) as (os & Ho & Eo). exists os. split; [exact Eo|exact Ho]. Qed.
Print Assumptions C71_elaboration_partial.

(** An alternative of a case that gives no object or more than one ends the process (assert, otherwise the objects
    after the first are lost): case (s) 0: wire a, b; endcase *)
Theorem C71_case_refuted d sel ls g r x y : conv sel = Ok x -> conv_gitem g = Ok r -> length r <> 1 -> Forall (fun e => conv e = Ok y) ls ->
  conv_gitem (GI_case d sel [(ls, g)]) = UB "assert(_gi.size() == 1)".
Proof.
  intros Hs Hg L F. assert (the_one r = UB "assert(_gi.size() == 1)") as E by (destruct r as [|o [|]]; [reflexivity|cbn in L; congruence|reflexivity]).
  cbn [conv_gitem]. rewrite Hs. cbn [bind]. unfold concatM at 1, conv_alt. cbn [fst snd]. destruct ls as [|e ls].
  - rewrite Hg. cbn [bind]. rewrite E. reflexivity.
  - inversion F as [|? ? He _]; subst. cbn [mapM]. rewrite He. cbn [bind]. rewrite Hg. cbn [bind]. rewrite E. reflexivity.
Qed.
Print Assumptions C71_case_refuted.
(** A parameter in a generate block is lost, and so are the items that are not supported. *)
Theorem C71_parameter_refuted b r : conv_pbody b = Ok r -> conv_gitem (GI_leaf (GL_param b)) = conv_gitem (GI_leaf GL_skipped).
Proof. intros H. cbn [conv_gitem conv_gleaf]. rewrite H. reflexivity. Qed.
Print Assumptions C71_parameter_refuted.
(** The name after end becomes a second label. *)
Theorem C71_end_refuted i j s t l r : ident_str i = Ok s -> ident_str j = Ok t -> conv_gitem (GI_block None (Some i) (Some j) l) = Ok r -> exists k, r = [SO_block (mk_hdr [s; t] [] [] false) k].
Proof. intros Hi Hj H. cbn [conv_gitem] in H. destruct (concatM conv_gitem l) as [k| | |]; try discriminate. cbn [bind opt_ident] in H. rewrite Hi, Hj in H. cbn in H. injection H as <-. eauto. Qed.
Print Assumptions C71_end_refuted.
(** if (c) ... else generate if (d) ... endgenerate ends the process. *)
Theorem C71_region_refuted d c a b f g x y h c2 t2 l2 f2 : conv c = Ok x -> conv_gitem a = Ok y -> conv_gitem (GI_if b f g None) = Ok [SO_if h c2 t2 l2 f2] ->
  conv_gitem (GI_if d c a (Some (GI_region [GI_if b f g None]))) = UB "assert(ifStm.in_preproc == as_if->in_preproc)".
Proof.
  intros Hc Ha Hg. assert (conv_gitem (GI_region [GI_if b f g None]) = Ok [SO_if (set_pre true h) c2 t2 l2 f2]) as E.
  { change (conv_gitem (GI_region [GI_if b f g None])) with (r <- (a <- conv_gitem (GI_if b f g None) ;; r <- Ok [] ;; Ok (a ++ r)) ;; Ok (map (mark true) r)). rewrite Hg. reflexivity. }
  change (conv_gitem (GI_if d c a (Some (GI_region [GI_if b f g None])))) with
    (c' <- conv c ;; a <- conv_gitem a ;; b <- (r <- conv_gitem (GI_region [GI_if b f g None]) ;; Ok (Some (pop_block r))) ;; o <- collapse (SO_if (hdr_doc d) c' (pop_block a) [] b) ;; Ok [o]).
  rewrite Hc, Ha, E. reflexivity.
Qed.
Print Assumptions C71_region_refuted.

(** for (genvar i = 0; i < 3; i++) begin : g
      if (i == 0) m u(); else if (i == 1) begin : h m v(); wire a, b; end else assign x = 1;
    end
    generate case (k) default : m w(); 0, 1 : begin : z m y(); end endcase endgenerate *)
Definition i_ (s : string) : ident := IdPlain $s.
Definition m_ (s : string) : gitem := GI_leaf (GL_inst (mk_inst (i_ "m") None [mk_hinst (i_ s) [] (CO_named [])])).
Definition eq_ (x v : string) : vexpr := VBinary B_EQ (vid x) (vnum v).
Definition wires : gitem := GI_leaf (GL_net (mk_net (NK_net $"wire") false None [mk_nitem (i_ "a") [] None; mk_nitem (i_ "b") [] None])).
Definition ex_items : list gitem :=
  [GI_for (mk_ginit true (i_ "i") (vnum "0") []) (VBinary B_LT (vid "i") (vnum "3")) (GS_incdec false true (i_ "i"))
     (GI_block None (Some (i_ "g")) None
        [GI_if [] (eq_ "i" "0") (m_ "u") (Some (GI_if [] (eq_ "i" "1") (GI_block None (Some (i_ "h")) (Some (i_ "h")) [m_ "v"; wires]) (Some (GI_leaf (GL_assign [(vid "x", vnum "1", [])])))))]);
   GI_region [GI_case [] (vid "k") [([], m_ "w"); ([vnum "0"; vnum "1"], GI_block None (Some (i_ "z")) None [m_ "y"])]]].
Definition num_ (e : genv Z) (v : dv) : Z := snd v e.
Definition test_ (e : genv Z) (v : dv) : bool := negb (snd v e =? 0)%Z.
Definition matches_ (e : genv Z) (w v : dv) : bool := (snd w e =? snd v e)%Z.
Definition arith_ (o : asgop) (a b : Z) : Z := match o with A_PLUS => (a + b)%Z | A_MINUS => (a - b)%Z | _ => b end.
Definition more_ (b : bool) (a : Z) : Z := if b then (a + 1)%Z else (a - 1)%Z.
Definition name_of (o : sobj) : str := match o with SO_inst c => match ci_name c with EId s => s | _ => [] end | SO_id d => d_name d | SO_stm (SAssign _ (EId x) _ _ _ _) => x | _ => [] end.
Definition show (l : list (gres Z sobj)) := map (fun it => (fst (fst it), name_of (snd it))) l.
Example C71_ex : match concatM conv_gitem ex_items with
  | Ok r => option_map show (a_gens demo Z num_ test_ matches_ arith_ more_ 9 [] [] r) =
      Some [([(Some $"g", Some 0%Z); (None, None)], $"u");
            ([(Some $"g", Some 1%Z); (Some $"h", None)], $"v"); ([(Some $"g", Some 1%Z); (Some $"h", None)], $"a"); ([(Some $"g", Some 1%Z); (Some $"h", None)], $"b");
            ([(Some $"g", Some 2%Z); (None, None)], $"x"); ([(Some $"z", None)], $"y")]
  | _ => False end.
Proof. vm_compute. reflexivity. Qed.
Example C71_ex_hyp : match s_gens demo Z num_ test_ matches_ arith_ more_ 9 [] [] ex_items with Some l => map (fun it => (fst (fst it), length (snd (fst it)))) l =
      [([(Some $"g", Some 0%Z); (None, None)], 1); ([(Some $"g", Some 1%Z); (Some $"h", None)], 1); ([(Some $"g", Some 1%Z); (Some $"h", None)], 1); ([(Some $"g", Some 2%Z); (None, None)], 1); ([(Some $"z", None)], 0)]
  | None => False end.
Proof. vm_compute. reflexivity. Qed.
Example C71_case_ex : exists items, s_gens demo Z num_ test_ matches_ arith_ more_ 9 [] [] [GI_case [] (vid "s") [([vnum "0"], wires)]] = Some items /\ length items = 1 /\
  conv_gitem (GI_case [] (vid "s") [([vnum "0"], wires)]) = UB "assert(_gi.size() == 1)".
Proof. eexists. split; [vm_compute; reflexivity|]. split; reflexivity. Qed.
