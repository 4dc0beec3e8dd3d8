(** C70: Verilog functions and tasks. *)
From Verif Require Import Base BaseFacts AstModel StmModel LitModel SvExprModel SvExprSpec SvStmModel SvStmSpec SvStmDemo SvTypeModel SvDeclModel SvDeclSpec SvInstProofs SvDeclProofs SvTfModel SvTfSpec SvTfProofs.

Lemma conv_tf_inv f s : conv_tf f = Ok s -> conv_ret (tf_task f) (tf_ret f) = Ok (sf_ret s) /\ ident_str (tf_name f) = Ok (sf_name s) /\ sf_task s = tf_task f /\ sf_static s = negb (tf_automatic f) /\
  exists objs xs, match tf_head f with
    | TH_ansi l ds => mapM conv_tfport l = Ok (sf_params s) /\ concatM conv_bitem ds = Ok objs
    | TH_items l => foldM run_tfitem ([], []) l = Ok (objs, sf_params s) end /\ mapM conv_stm (tf_body f) = Ok xs /\ sf_body s = map SDef objs ++ xs.
Proof.
  unfold conv_tf. intros H. apply bind_inv in H as (r & Hr & H). apply bind_inv in H as (n & Hn & H). apply bind_inv in H as ((objs, ps) & Hs & H). apply bind_inv in H as (b & Hb & H). injection H as <-.
  cbn [sf_ret sf_name sf_task sf_static sf_params sf_body fst snd]. split; [exact Hr|]. split; [exact Hn|]. split; [reflexivity|]. split; [reflexivity|]. exists objs, b. split; [|split; [exact Hb|reflexivity]].
  destruct (tf_head f); [|exact Hs]. apply bind_inv in Hs as (p & Hp & Hs). apply bind_inv in Hs as (o & Ho & Hs). injection Hs as <- <-. split; assumption.
Qed.

(** Arguments in parentheses: every one is there, in order, with name, direction, type and default value. *)
Theorem C70_arguments_partial (f : tf) (s : sfunc) (l : list tfport) (ds : list bitem) (a : list arg) :
  conv_tf f = Ok s -> tf_head f = TH_ansi l ds -> args l = Some a -> plain_args None l = true -> Forall2 arg_is a (sf_params s).
Proof.
  intros H Hh Ha Hp. apply conv_tf_inv in H as (_ & _ & _ & _ & objs & xs & Hl & _). rewrite Hh in Hl. destruct Hl as (Hl & _). exact (ansi_args l None _ a Hp Ha Hl).
Qed.
Print Assumptions C70_arguments_partial.
(** Arguments declared in the body: every one is there, in order; another declaration of an argument gives its
    type, and all other declarations are local. *)
Theorem C70_items_partial (f : tf) (s : sfunc) (l : list tfitem) : conv_tf f = Ok s -> tf_head f = TH_items l ->
  exists ds, concatM declares l = Ok ds /\ (ordered ds = true -> NoDup (map d_name (ports_of ds)) ->
    Forall2 (port_is ds) (ports_of ds) (sf_params s) /\ exists xs, sf_body s = map SDef (filter (fun x => negb (is_arg ds x)) (others_of ds)) ++ xs /\ mapM conv_stm (tf_body f) = Ok xs).
Proof.
  intros H Hh. apply conv_tf_inv in H as (_ & _ & _ & _ & objs & xs & Hl & Hx & Hb). rewrite Hh in Hl. destruct (items_ok l objs (sf_params s) Hl) as (ds & Hd & K). exists ds. split; [exact Hd|].
  intros Ho N. destruct (K Ho N) as (K1 & ->). split; [exact K1|]. exists xs. split; assumption.
Qed.
Print Assumptions C70_items_partial.
Theorem C70_declaration_partial (d : tfdir) (t : option doi) (l : list vitem) (ds : list ditem) : plain_decl t l = true -> declares (TI_port d false t l) = Ok ds ->
  others_of ds = [] /\ Forall2 (fun v x => arg_is (Arg d t (vi_name v) (vi_dims v) (vi_value v)) x) l (ports_of ds).
Proof.
  intros Hp H. cbn [declares] in H. apply bind_inv in H as (r & Hr & H). injection H as <-.
  assert (others_of (map DP r) = [] /\ ports_of (map DP r) = r) as (-> & ->) by (clear; induction r as [|x r (IH1 & IH2)]; [split; reflexivity|]; cbn; split; [exact IH1|f_equal; exact IH2]).
  split; [reflexivity|]. exact (tfdecl_each d t l r Hp Hr).
Qed.
Print Assumptions C70_declaration_partial.
(** The body: the local declarations are made, then the statements run like those of the source. *)
Theorem C70_body_partial (A : algebra) (M : machine A) (n : nat) (f : tf) (s : sfunc) (ks : list (beh A M)) : conv_tf f = Ok s -> omapM (v_stm A M n) (tf_body f) = Some ks ->
  exists locals xs, sf_body s = map SDef locals ++ xs /\ forall ds, omapM (m_def A M) locals = Some ds ->
    exists k, m_stm A M n (SBlock hdr0 SEQ (sf_body s)) = Some k /\ forall st, k st = seqs A M (ds ++ ks) st.
Proof.
  intros H Hk. apply conv_tf_inv in H as (_ & _ & _ & _ & objs & xs & _ & Hx & Hb). exists objs, xs. split; [exact Hb|]. intros ds Hd. rewrite Hb. exact (body_sim A M n _ ks objs ds xs Hk Hd Hx).
Qed.
Print Assumptions C70_body_partial.
(** Name, kind, lifetime and result. *)
Theorem C70_head (f : tf) (s : sfunc) : conv_tf f = Ok s ->
  ident_str (tf_name f) = Ok (sf_name s) /\ sf_task s = tf_task f /\ sf_static s = negb (tf_automatic f) /\
  match tf_task f, tf_ret f with
  | true, _ | false, Some RT_void => sf_ret s = EId $"void"
  | false, None => sf_ret s = ESym symb_T_AUTO
  | false, Some (RT_type t) => conv_dtype t = Ok (sf_ret s)
  | false, Some (RT_implicit i) => conv_doi (Some (DI_implicit i)) None = Ok (sf_ret s)
  end.
Proof.
  intros H. apply conv_tf_inv in H as (Hr & Hn & Ht & Hs & _). split; [exact Hn|]. split; [exact Ht|]. split; [exact Hs|]. unfold conv_ret in Hr.
  destruct (tf_task f); [injection Hr as <-; reflexivity|]. destruct (tf_ret f) as [[|t|i]|]; try (injection Hr as <-; reflexivity); exact Hr.
Qed.
Print Assumptions C70_head.

(** function automatic int f(input int a, int b = 3); int c = 1; begin a += 2; c = 4; end endfunction *)
Definition int_ : option doi := Some (DI_type (D_prim (P_atom $"int") None [])).
Definition nm (s : string) : ident := IdPlain $s.
Definition ex_f : tf := mk_tf false true (Some (RT_type (D_prim (P_atom $"int") None []))) false (nm "f")
  (TH_ansi [mk_tfport (Some (TD V_INPUT)) false int_ (Some (nm "a")) [] None; mk_tfport None false int_ (Some (nm "b")) [] (Some (vnum "3"))]
     [BI_data (mk_data false true int_ [mk_vitem (nm "c") [] (Some (vnum "1"))])]) [add_ "a" "2"; set_ "c" "4"].
Example C70_ex : match conv_tf ex_f, args (match tf_head ex_f with TH_ansi l _ => l | _ => [] end) with
  | Ok s, Some [_; _] => plain_args None (match tf_head ex_f with TH_ansi l _ => l | _ => [] end) = true /\ map d_name (sf_params s) = [$"a"; $"b"] /\ sf_static s = false /\
      watch [$"a"; $"c"] (m_stm demo demo_machine 3 (SBlock hdr0 SEQ (sf_body s))) = Some ([2; 4]%Z, []) /\ match sf_body s with SDef c :: _ => d_name c = $"c" | _ => False end
  | _, _ => False end.
Proof. vm_compute. repeat split. Qed.
(** task t; input a; output b; reg b; reg c; endtask *)
Definition bit_ (s : string) : option doi := Some (DI_type (D_prim (P_vector $s) None [])).
Definition var_ (s : string) : vitem := mk_vitem (nm s) [] None.
Definition ex_t : tf := mk_tf true false None false (nm "t")
  (TH_items [TI_port (TD V_INPUT) false None [var_ "a"]; TI_port (TD V_OUTPUT) false None [var_ "b"]; TI_block (BI_data (mk_data false false (bit_ "reg") [var_ "b"; var_ "c"]))]) [].
Example C70_ex_items : match conv_tf ex_t, concatM declares (match tf_head ex_t with TH_items l => l | _ => [] end) with
  | Ok s, Ok ds => ordered ds = true /\ map d_name (ports_of ds) = [$"a"; $"b"] /\ map (fun d => (d_name d, d_dir d)) (sf_params s) = [($"a", DIR_IN); ($"b", DIR_OUT)] /\
      map d_type (sf_params s) = [type_auto; wire_t (Some (EId $"reg")) null_sym None] /\ match sf_body s with [SDef c] => d_name c = $"c" | _ => False end
  | _, _ => False end.
Proof. vm_compute. repeat split. Qed.

(** The direction of an argument in parentheses is always input: two tasks that differ in nothing else are
    converted to the same AST. *)
Theorem C70_direction_refuted f s l ds : conv_tf f = Ok s -> tf_head f = TH_ansi l ds ->
  Forall (fun x => d_dir x = DIR_IN) (sf_params s) /\
  forall dirs : list (option tfdir), length dirs = length l ->
    conv_tf (mk_tf (tf_task f) (tf_automatic f) (tf_ret f) (tf_scoped f) (tf_name f)
      (TH_ansi (map (fun q : option tfdir * tfport => mk_tfport (fst q) (tp_var (snd q)) (tp_type (snd q)) (tp_name (snd q)) (tp_dims (snd q)) (tp_value (snd q))) (combine dirs l)) ds) (tf_body f)) = Ok s.
Proof.
  intros H Hh. split.
  - apply conv_tf_inv in H as (_ & _ & _ & _ & objs & xs & Hl & _). rewrite Hh in Hl. destruct Hl as (Hl & _). exact (ansi_dirs l _ Hl).
  - intros dirs E. rewrite <- H. unfold conv_tf. cbn [tf_task tf_automatic tf_ret tf_name tf_head tf_body]. rewrite Hh.
    replace (mapM conv_tfport (map _ (combine dirs l))) with (mapM conv_tfport l); [reflexivity|]. clear H Hh. revert l E. induction dirs as [|d dirs IH]; intros [|p l] E; try discriminate; [reflexivity|]. cbn [combine map].
    injection E as E. change (bind (conv_tfport p) (fun y => bind (mapM conv_tfport l) (fun r => Ok (y :: r))) = bind (conv_tfport p) (fun y => bind (mapM conv_tfport (map (fun q : option tfdir * tfport => mk_tfport (fst q) (tp_var (snd q)) (tp_type (snd q)) (tp_name (snd q)) (tp_dims (snd q)) (tp_value (snd q))) (combine dirs l))) (fun r => Ok (y :: r)))).
    rewrite (IH l E). reflexivity.
Qed.
Print Assumptions C70_direction_refuted.
Example C70_direction_ex : exists l a s, args l = Some [a] /\
  conv_tf (mk_tf false true None false (nm "f") (TH_ansi l []) []) = Ok s /\ ~ Forall2 arg_is [a] (sf_params s).
Proof.
  exists [mk_tfport (Some (TD V_OUTPUT)) false int_ (Some (nm "a")) [] None]. do 2 eexists. split; [reflexivity|]. split; [reflexivity|].
  intros F. inversion_clear F as [|? ? ? ? Q _]. destruct Q as (_ & Hd & _). discriminate.
Qed.
(** An argument without direction and type does not take over the type of the one before:
    function f(input [7:0] a, b) *)
Theorem C70_inherited_type_refuted : exists l a b s, args l = Some [a; b] /\ conv_tf (mk_tf false false None false (nm "f") (TH_ansi l []) []) = Ok s /\
  forallb (fun p => match tp_dir p with Some (TD V_INPUT) | None => true | _ => false end) l = true /\ ~ Forall2 arg_is [a; b] (sf_params s).
Proof.
  exists [mk_tfport (Some (TD V_INPUT)) false (Some (DI_implicit (I_type None [Some (RG_two R_COLON (vnum "7") (vnum "0"))]))) (Some (nm "a")) [] None; mk_tfport None false None (Some (nm "b")) [] None].
  do 3 eexists. split; [reflexivity|]. split; [reflexivity|]. split; [reflexivity|]. intros F. inversion_clear F as [|? ? ? ? _ F']. inversion_clear F' as [|? ? ? ? Q _]. destruct Q as (_ & _ & _ & b & ls & Hb & Hl & Ht).
  injection Hb as <-. injection Hl as <-. discriminate.
Qed.
Print Assumptions C70_inherited_type_refuted.
(** var in the declaration of an argument makes it a reference, whatever its direction. *)
Theorem C70_var_refuted d t l r : conv_tfdecl d true t l = Ok r -> Forall (fun x => d_dir x = DIR_LINKAGE) r.
Proof.
  unfold conv_tfdecl. intros H. apply bind_inv in H as (b & Hb & H). destruct l as [|v l]; [injection H as <-; constructor|]. cbn [conv_idlist] in H. apply bind_inv in H as (ds & Hds & H).
  destruct (apply_dims b ds) as (b', t'). apply bind_inv in H as (x & Hx & H). apply bind_inv in H as (r' & Hr & H). injection H as <-.
  assert (forall t v x, conv_vitem t v DIR_LINKAGE false = Ok x -> d_dir x = DIR_LINKAGE) as Q.
  { intros t0 v0 x0 H0. unfold conv_vitem in H0. repeat (apply bind_inv in H0 as (? & ? & H0)). injection H0 as <-. reflexivity. }
  constructor; [exact (Q _ _ _ Hx)|]. apply mapM_ok_in in Hr. clear Hx Hds. induction Hr as [|? ? ? ? Hv Hr IH]; constructor; [|exact IH]. apply bind_inv in Hv as (? & _ & Hv). apply bind_inv in Hv as (? & _ & Hv). exact (Q _ _ _ Hv).
Qed.
Print Assumptions C70_var_refuted.
(** task t; input a = 1; reg a; endtask: the default value is lost. *)
Theorem C70_default_refuted : exists ds p x s l, concatM declares l = Ok ds /\ ports_of ds = [p] /\ d_value p <> None /\ conv_tf (mk_tf true false None false (nm "t") (TH_items l) []) = Ok s /\ sf_params s = [x] /\ d_value x = None.
Proof.
  exists [DP (new_iddef $"a" type_auto (Some (EInt (-1) (Digits $"1" 10))) DIR_IN false); DB (set_flags (new_var $"a" (wire_t (Some (EId $"reg")) null_sym None) None) false true)]. do 3 eexists.
  exists [TI_port (TD V_INPUT) false None [mk_vitem (nm "a") [] (Some (vnum "1"))]; TI_block (BI_data (mk_data false false (bit_ "reg") [var_ "a"]))].
  split; [vm_compute; reflexivity|]. split; [reflexivity|]. split; [discriminate|]. split; [vm_compute; reflexivity|]. split; reflexivity.
Qed.
Print Assumptions C70_default_refuted.
(** task t; reg [7:0] a; input a; endtask: an argument without type and a local variable of the same name. *)
Theorem C70_order_refuted : exists l s x y, conv_tf (mk_tf true false None false (nm "t") (TH_items l) []) = Ok s /\ sf_params s = [x] /\ sf_body s = [SDef y] /\ d_name x = d_name y /\ d_type x = type_auto /\ d_type y <> type_auto.
Proof.
  exists [TI_block (BI_data (mk_data false false (bit_ "reg") [var_ "a"])); TI_port (TD V_INPUT) false None [var_ "a"]]. do 3 eexists. split; [vm_compute; reflexivity|]. split; [reflexivity|]. split; [reflexivity|]. split; [reflexivity|]. split; [reflexivity|discriminate].
Qed.
Print Assumptions C70_order_refuted.
(** The scope of the name is lost: a.f and f give the same AST. *)
Theorem C70_scope_refuted k a r b b' n h l : conv_tf (mk_tf k a r b n h l) = conv_tf (mk_tf k a r b' n h l).
Proof. reflexivity. Qed.
Print Assumptions C70_scope_refuted.
