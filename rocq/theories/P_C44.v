(** C44: event expressions. *)
From Verif Require Import Base AstModel StmModel SvExprModel SvExprSpec SvStmModel SvStmSpec SvStmProofs SvShapeSpec SvShapeProofs SvStmDemo.

(** Any nesting of or, comma and parentheses: the events from left to right. *)
Theorem C44_flattened l r : mapM (fun p => a <- conv (snd p) ;; Ok (conv_edge (fst p) a)) (flat_map leaves l) = Ok r -> conv_evctl (EC_expr l) = Ok r.
Proof. exact (flat_events l r). Qed.
Print Assumptions C44_flattened.
(** The events of the AST are the events of the source, for every interpretation: same order, same edges. *)
Theorem C44_events_partial (A : algebra) c r : v_evctl A c = Some r -> exists xs, conv_evctl c = Ok xs /\ omapM (m_event A) xs = Some r.
Proof. exact (evctl_sim A c r). Qed.
Print Assumptions C44_events_partial.
Definition ex_events : list evexpr := [EvItem (Some E_posedge) (vid "clk") None; EvList [EvItem (Some E_negedge) (vid "rst") None; EvList [EvItem None (vid "a") None]]; EvItem None (vid "b") None].
Example C44_example : conv_evctl (EC_expr ex_events) = Ok [EOp RISING [EId $"clk"]; EOp FALLING [EId $"rst"]; EId $"a"; EId $"b"] /\
  match v_evctl demo (EC_expr ex_events) with Some [Ev (Some true) _; Ev (Some false) _; Ev None _; Ev None _] => True | _ => False end.
Proof. split; vm_compute; [reflexivity|exact I]. Qed.

(** edge x and x are merged. *)
Theorem C44_edge_refuted x i : conv_event (EvItem (Some E_edge) x i) = conv_event (EvItem None x i).
Proof. reflexivity. Qed.
Print Assumptions C44_edge_refuted.
(** The condition after iff is lost. *)
Theorem C44_iff_refuted e x i : conv_event (EvItem e x (Some i)) = conv_event (EvItem e x None).
Proof. reflexivity. Qed.
Print Assumptions C44_iff_refuted.
(** a = repeat (n) @(e) b  and  a = @(e) b  are merged. *)
Theorem C44_repeat_refuted n c : conv_dectl (DE_event (Some n) c) = conv_dectl (DE_event None c).
Proof. reflexivity. Qed.
Print Assumptions C44_repeat_refuted.
