(** C98: parse and parse_str with hierarchyOnly, from the files to the objects.  The documentation of the flag says that
    only the names of components and modules are read then (_hdlConvertor.pyx:143). *)
From Verif Require Import Base BaseFacts AstModel StmModel SvDeclProofs SvFileProofs EncodingModel OutBufferModel PpModel ApiModel SvDeclModel SvGenModel SvFileModel ConvertModel VhdlDeclModel VhdlDeclSpec ConvertVhdlModel ConvertAllSpec P_C68 P_C97.

Lemma thin_concat objs : map thin (List.concat objs) = List.concat (map (map thin) objs).
Proof. induction objs as [|o objs IH]; [reflexivity|]. cbn [List.concat map]. rewrite map_app, IH. reflexivity. Qed.
(** VHDL: files that can be read can be read with the flag, and the objects are the same without what the flag leaves out
    ([thin], C68): the same libraries, imports and units, with the same instances in the same scopes. *)
Theorem C98_vhdl (sy : lang -> str -> list report) (sv : lang -> bool -> str -> list hobj * option exn)
  (fs : str -> option fentry) (enc : str) (dirs : list str) (files : list str) (d d' : db) (ctx r c : list hobj) : files <> [] ->
  py_parse hobj vhdl_errors vhdl_objects sy sv VHDL false fs enc dirs files d ctx = (Ok r, c, d') ->
  exists objs, r = ctx ++ objs /\ py_parse hobj vhdl_errors vhdl_objects sy sv VHDL true fs enc dirs files d ctx = (Ok (ctx ++ map thin objs), ctx ++ map thin objs, d')
    /\ map head_of (map thin objs) = map head_of objs /\ map unit_instances (map thin objs) = map unit_instances objs.
Proof.
  intros N H. apply C97_vhdl_files in H as (os & F & -> & -> & ->); [|exact N]. exists (List.concat os). split; [reflexivity|]. split.
  - apply C97_vhdl_files; [exact N|]. exists (map (map thin) os). split; [|rewrite thin_concat; auto]. clear N. induction F as [|f o files os (bytes & t & E & U & g & T & C) _ IH]; constructor; [|exact IH].
    exists bytes, t. split; [exact E|split; [exact U|]]. exists g. split; [exact T|exact (C68_hierarchy g o C)].
  - assert (exists l, conv_file false l = Ok (List.concat os)) as (l & C).
    { clear N. induction F as [|f o files os (bytes & t & E & U & g & T & C) _ (l & IH)]; [exists []; reflexivity|]. exists (g ++ l). cbn [List.concat]. clear - C IH. revert o C. induction g as [|u g IHg]; intros o C; [injection C as <-; exact IH|].
      unfold conv_file in C |- *. cbn [app]. rewrite SvFileProofs.concat_cons in C |- *. apply bind_inv in C as (a & Ha & C). apply bind_inv in C as (b & Hb & C). injection C as <-. rewrite Ha. cbn [bind]. unfold conv_file in IHg. rewrite (IHg b Hb). cbn [bind]. rewrite app_assoc. reflexivity. }
    exact (C68_units l _ _ C (C68_hierarchy l _ C)).
Qed.
Print Assumptions C98_vhdl.
(** The same for a text. *)
Theorem C98_vhdl_text (sy : lang -> str -> list report) (sv : lang -> bool -> str -> list hobj * option exn)
  (fs : str -> option fentry) (enc : str) (dirs : list str) (s : str) (d d' : db) (ctx r c : list hobj) : s <> [] ->
  py_parse_str hobj vhdl_errors vhdl_objects sy sv VHDL false fs enc dirs s d ctx = (Ok r, c, d') ->
  exists objs, r = ctx ++ objs /\ py_parse_str hobj vhdl_errors vhdl_objects sy sv VHDL true fs enc dirs s d ctx = (Ok (ctx ++ map thin objs), ctx ++ map thin objs, d')
    /\ map head_of (map thin objs) = map head_of objs /\ map unit_instances (map thin objs) = map unit_instances objs.
Proof.
  intros N H. apply C97_vhdl_text in H as (t & objs & U & (g & T & C) & -> & -> & ->); [|exact N]. exists objs. split; [reflexivity|]. pose proof (C68_hierarchy g objs C) as C'. split.
  - apply C97_vhdl_text; [exact N|]. exists t, (map thin objs). split; [exact U|]. split; [exists g; split; assumption|auto].
  - exact (C68_units g _ _ C C').
Qed.
Print Assumptions C98_vhdl_text.
(** Verilog: the flag has no effect, whatever the outcome. *)
Theorem C98_verilog_same (vs : str -> list report) (vv : bool -> str -> list fobj * option exn)
  (l : lang) (fs : str -> option fentry) (enc : str) (dirs : list str) (files : list str) (s : str) (d : db) (ctx : list fobj) : PpModel.is_verilog l = true ->
  py_parse fobj vs vv sv_errors sv_objects l true fs enc dirs files d ctx = py_parse fobj vs vv sv_errors sv_objects l false fs enc dirs files d ctx
  /\ py_parse_str fobj vs vv sv_errors sv_objects l true fs enc dirs s d ctx = py_parse_str fobj vs vv sv_errors sv_objects l false fs enc dirs s d ctx.
Proof.
  intros V. assert (NV : l <> VHDL) by (intros ->; discriminate V).
  assert (G : forall d ctx, parse_files fobj vs vv sv_errors sv_objects l true fs enc dirs files d ctx = parse_files fobj vs vv sv_errors sv_objects l false fs enc dirs files d ctx).
  { induction files as [|f files IH]; intros d0 ctx0; cbn [parse_files]; [reflexivity|]. destruct (fs f) as [e|]; [|reflexivity].
    change (sv_parse_file fobj sv_errors sv_objects l true fs d0 dirs f ctx0) with (sv_parse_file fobj sv_errors sv_objects l false fs d0 dirs f ctx0).
    destruct l; try congruence; (destruct (is_verilog_lang _); [|reflexivity]); destruct (sv_parse_file _ _ _ _ _ _ _ _ _ _) as [[[u|x|w|] c1] d1]; cbn [fst snd]; try reflexivity; apply IH. }
  split; [unfold py_parse; destruct files; [reflexivity|rewrite G; reflexivity]|]. unfold py_parse_str, parse_text. destruct s; [reflexivity|]. destruct l; try congruence; reflexivity.
Qed.
Print Assumptions C98_verilog_same.
(** So more than the hierarchy is returned: a module is hierarchy if it has no ports and parameters and holds instances and
    other such modules only. *)
Fixpoint only_hierarchy (o : fobj) : bool :=
  match o with
  | FO_id _ => false
  | FO_other _ _ x => match x with SO_inst _ => true | _ => false end
  | FO_dec m => match md_generics m, md_ports m with [], [] => true | _, _ => false end
  | FO_def m l => match md_generics m, md_ports m with [], [] => true | _, _ => false end && forallb only_hierarchy l
  end.
Theorem C98_verilog_refuted (vs : str -> list report) (vv : bool -> str -> list fobj * option exn) (fs : str -> option fentry) (dirs : list str) :
  exists s r d, py_parse_str fobj vs vv sv_errors sv_objects SV2012 true fs $"utf-8" dirs s [] [] = (Ok r, r, d) /\ forallb only_hierarchy r = false.
Proof.
  exists $"module a(input x); wire w; endmodule".
  set (s := $"module a(input x); wire w; endmodule").
  assert (T : exists f o, sv_tree SV2012 s = Ok f /\ conv_source f = Ok o /\ forallb only_hierarchy o = false).
  { destruct (sv_tree SV2012 s) as [f|e|w|] eqn:T; [|vm_compute in T; discriminate T ..]. destruct (conv_source f) as [o|e|w|] eqn:C; [|vm_compute in T; injection T as <-; vm_compute in C; discriminate C ..].
    exists f, o. split; [reflexivity|split; [exact C|]]. vm_compute in T. injection T as <-. vm_compute in C. injection C as <-. reflexivity. }
  destruct T as (f & o & T & C & B). destruct (verilog_pp_str SV2012 (pp_fs fs) [] dirs s) as [q st] eqn:P. assert (E : exists b, q = Ok b /\ ob_text b = s) by (vm_compute in P; injection P as <- _; eexists; split; reflexivity). destruct E as (b & -> & E).
  exists o, (ps_db st). split; [|exact B]. apply C97_verilog_text; [reflexivity|discriminate|]. exists b, st, o. repeat split; [exact P|]. exists f. rewrite E. auto.
Qed.
Print Assumptions C98_verilog_refuted.

Example C98_ex (sy : lang -> str -> list report) (sv : lang -> bool -> str -> list hobj * option exn) : exists r r' : list hobj,
  let fs f := if seqb f $"a.vhd" then Some (FFile $"entity e is port (a : in bit); end;") else None in
  py_parse hobj vhdl_errors vhdl_objects sy sv VHDL false fs $"utf-8" [] [ $"a.vhd" ] [] [] = (Ok r, r, [])
  /\ py_parse hobj vhdl_errors vhdl_objects sy sv VHDL true fs $"utf-8" [] [ $"a.vhd" ] [] [] = (Ok r', r', []) /\ length r = 1 /\ r <> r'.
Proof.
  destruct (vhdl_tree $"entity e is port (a : in bit); end;") as [f|e|w|] eqn:T; [|vm_compute in T; discriminate T ..]. destruct (conv_file false f) as [r|e|w|] eqn:C; [|vm_compute in T; injection T as <-; vm_compute in C; discriminate C ..].
  assert (C' := C68_hierarchy f r C).
  exists r, (map thin r). cbv zeta. split; [|split; [|vm_compute in T; injection T as <-; vm_compute in C; injection C as <-; split; [reflexivity|vm_compute; discriminate]]].
  - apply C97_vhdl_files; [discriminate|]. exists [r]. cbn [List.concat app]. rewrite app_nil_r. split; [|auto]. constructor; [|constructor]. eexists _, _. split; [reflexivity|split; [reflexivity|exists f; auto]].
  - apply C97_vhdl_files; [discriminate|]. exists [map thin r]. cbn [List.concat app]. rewrite app_nil_r. split; [|auto]. constructor; [|constructor]. eexists _, _. split; [reflexivity|split; [reflexivity|exists f; auto]].
Qed.
