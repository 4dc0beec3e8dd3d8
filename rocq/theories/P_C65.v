(** C65: VHDL generate statements and blocks elaborate to the same objects. *)
From Verif Require Import Base AstModel StmModel SvExprModel SvExprSpec SvDeclModel VhdlExprModel VhdlExprSpec VhdlStmModel VhdlStmDemo VhdlDeclModel VhdlDeclSpec VhdlElabProofs.

(** Elaborating the AST gives the declarations, processes, instances and assignments that elaborating the
    source gives, each converted, in the same scope, with the same values of the generate parameters, in the
    same order; for every interpretation of conditions, ranges and choices.  Missing: alternatives with
    labels of their own (refuted below); guards, generics and ports of blocks (dropped); expressions
    outside of the fragment of C28. *)
Theorem C65_elaboration_partial (A : halgebra) (N : Type) (test : env N -> HV A -> bool) (range : env N -> HV A -> list N) (matches : env N -> HV A -> HV A -> bool)
  (ho : bool) (p : path N) (e : env N) (l : list cstm) (r : list hobj) (items : list (item N leaf)) :
  concatM (conv_cstm ho) l = Ok r -> s_elabs A N test range matches p e l = Some items ->
  exists os, a_elabs A N test range matches p e r = Some os /\
    concatM (fun it => o <- match snd it with Lf_decl d => conv_decl ho d | Lf_stm s => conv_cstm ho s end ;; Ok (map (fun x => (fst it, x)) o)) items = Ok os.
Proof. intros H E. destruct (elabs_sim A N test range matches ho p e l r items H E) as (os & Ho & Eo). exists os. split; [exact Eo|exact Ho]. Qed.
Print Assumptions C65_elaboration_partial.
(** The label of the first alternative becomes a label of the whole statement, as the label after end; the
    labels of the other alternatives are lost. *)
Theorem C65_alternative_label_refuted ho l a c b : conv_cstm ho (CS_if l (Some a) c b [] None None) = conv_cstm ho (CS_if l None c b [] None (Some a)).
Proof. reflexivity. Qed.
Print Assumptions C65_alternative_label_refuted.
Theorem C65_else_label_refuted ho l a c b x y b' : conv_cstm ho (CS_if l (Some a) c b [] (Some (x, b')) None) = conv_cstm ho (CS_if l (Some a) c b [] (Some (y, b')) None).
Proof. reflexivity. Qed.
Print Assumptions C65_else_label_refuted.
Theorem C65_case_label_refuted ho l sel x y cs b end_ : conv_cstm ho (CS_case l sel [(x, cs, b)] end_) = conv_cstm ho (CS_case l sel [(y, cs, b)] end_).
Proof. reflexivity. Qed.
Print Assumptions C65_case_label_refuted.
(** The choice others stays a choice; there is never a default. *)
Theorem C65_no_default ho l sel alts end_ r : conv_cstm ho (CS_case l sel alts end_) = Ok r -> exists h x cs, r = [O_case h x cs None].
Proof. cbn [conv_cstm]. destruct (hconv sel); try discriminate. cbn [bind]. destruct (concatM _ alts); try discriminate. cbn [bind]. intros H. injection H as <-. cbn [label_obj]. eauto. Qed.
Print Assumptions C65_no_default.
(** Guard, generics and ports of a block are dropped. *)
Theorem C65_block_refuted ho l g ge po ds ss e : conv_cstm ho (CS_block l g ge po ds ss e) = conv_cstm ho (CS_block l None None None ds ss None).
Proof. reflexivity. Qed.
Print Assumptions C65_block_refuted.

(** g: for i in 1 to 2 generate
      h: if i = 2 generate signal s : bit; begin u: e port map (i); end generate;
      k: case i generate when 1 => v: e; when others => b: block begin w: e; end block; end generate; ...  *)
Definition inst_ (l : string) (pm : option (list (hassoc hexpr))) : cstm := CS_inst $l (IU_component false (hid "e")) None pm.
Definition ex_gen : list cstm :=
  [CS_for $"g" $"i" (R_explicit (hnum "1") To (hnum "2"))
     (GB false [] [CS_if $"h" None (heq "i" "2") (GB true [DC_signal [$"s"; $"t"] (hid "bit") None None] [inst_ "u" (Some [Assoc None (Act (D_expr false (hid "i")))])]) [] None None;
                   CS_case $"k" (hid "i") [(None, [Ch (R_name (hnum "1"))], GB false [] [inst_ "v" None]);
                                           (None, [Ch_others], GB false [] [CS_block $"b" None None None [] [inst_ "w" None] None])] None]) (Some $"g")].
(** Values are those of the demo algebra. *)
Definition test_ (e : env Z) (v : hd_) : bool := negb (val v e =? 0)%Z.
Definition range_ (e : env Z) (v : hd_) : list Z := snd v e.
Definition matches_ (e : env Z) (w v : hd_) : bool := (val w e =? val v e)%Z.
Definition name_of (o : hobj) : str := match o with O_inst c => match ci_name c with EId s => s | _ => [] end | O_id d => d_name d | _ => [] end.
Definition show (l : list (item Z hobj)) : list (list (str * option Z) * str) := map (fun it => (fst (fst it), name_of (snd it))) l.
Example C65_ex :
  match concatM (conv_cstm false) ex_gen with
  | Ok r => option_map show (a_elabs hdemo Z test_ range_ matches_ [] [] r) =
      Some [([($"g", Some 1%Z); ($"k", None)], $"v");
            ([($"g", Some 2%Z); ($"h", None)], $"s"); ([($"g", Some 2%Z); ($"h", None)], $"t"); ([($"g", Some 2%Z); ($"h", None)], $"u");
            ([($"g", Some 2%Z); ($"k", None); ($"b", None)], $"w")]
  | _ => False
  end.
Proof. vm_compute. reflexivity. Qed.
Example C65_ex_hyp : match s_elabs hdemo Z test_ range_ matches_ [] [] ex_gen with Some l => map (fun it => fst (fst it)) l =
   [[($"g", Some 1%Z); ($"k", None)]; [($"g", Some 2%Z); ($"h", None)]; [($"g", Some 2%Z); ($"h", None)]; [($"g", Some 2%Z); ($"k", None); ($"b", None)]] | None => False end.
Proof. vm_compute. reflexivity. Qed.
