(** C43: gate primitives. *)
From Verif Require Import Base AstModel LitModel SvExprModel SvExprSpec SvTypeModel SvDeclModel SvInstSpec SvInstProofs P_C27.

(** The gates of a statement keep kind, name, output and inputs, in order; buf and not with one output become
    the assignment of the (inverted) input.  Missing: several outputs (refuted, with the exact law below),
    arrays of gates, the other kinds of gates. *)
Theorem C43_gates_partial (A : algebra) (g : gates) (l : list (gate A)) :
  single_outputs g = true -> v_gates A g = Some l -> exists os, conv_gates g = Ok os /\ omapM (m_gobj A) os = Some l.
Proof. exact (gates_sim A g l). Qed.
Print Assumptions C43_gates_partial.
(** With any number of outputs the input, not extended, drives the concatenation of the outputs. *)
Theorem C43_outputs_law (A : algebra) (t : ogate) (nm : option (ident * list vrange)) (outs : list vexpr) (i : vexpr) (r : list (V A)) (vi : V A) :
  omapM (vmeaning A) outs = Some r -> r <> [] -> vmeaning A i = Some vi ->
  exists o d, conv_ogate t (nm, outs, i) = Ok o /\ concat A r = Some d /\
    m_gobj A o = Some (Drive A d (match t with G_BUF => vi | G_NOT => a_unary A BitNot vi end)).
Proof. exact (ogate_law A t nm outs i r vi). Qed.
Print Assumptions C43_outputs_law.
(** buf (a, b, i); is  a = i, b = i  but is converted to {a, b} = i, which leaves a zero. *)
Theorem C43_outputs_refuted :
  let env s := if seqb s $"a" then 10%Z else if seqb s $"b" then 20%Z else 1%Z in
  let A := ex_algebra env in
  let g := GT_out G_BUF [(None, [n "a"; n "b"], n "i")] in
  v_gates A g = Some [Drive A 10%Z 1%Z; Drive A 20%Z 1%Z] /\
  match conv_gates g with Ok os => omapM (m_gobj A) os = Some [Drive A (10 * 256 + 20)%Z 1%Z] | _ => False end.
Proof. split; reflexivity. Qed.
Print Assumptions C43_outputs_refuted.
(** The other gates (bufif0, nmos, tran, pullup, ...) are dropped; the name of a buf or not is dropped; an array
    of gates is converted like one gate. *)
Theorem C43_other_gates_refuted : conv_gates GT_other = Ok [].
Proof. reflexivity. Qed.
Print Assumptions C43_other_gates_refuted.
Theorem C43_array_refuted t nm ds out ins : conv_igate t (Some (nm, ds), out, ins) = conv_igate t (Some (nm, []), out, ins).
Proof. reflexivity. Qed.
Print Assumptions C43_array_refuted.
Theorem C43_name_refuted t nm outs i : conv_ogate t (nm, outs, i) = conv_ogate t (None, outs, i).
Proof. reflexivity. Qed.
Print Assumptions C43_name_refuted.

(** nand g1 (a, b, i), (a, i, i, b); *)
Example C43_ex :
  let env s := if seqb s $"a" then 10%Z else if seqb s $"b" then 20%Z else 1%Z in
  let A := ex_algebra env in
  let g := GT_in G_NAND [(Some (IdPlain $"g1", []), n "a", [n "b"; n "i"]); (None, n "a", [n "i"; n "i"; n "b"])] in
  single_outputs g = true /\ v_gates A g = Some [Prim A G_NAND (Some $"g1") 10%Z [20; 1]%Z; Prim A G_NAND None 10%Z [1; 1; 20]%Z].
Proof. split; reflexivity. Qed.
Example C43_ex_not :
  let A := ex_algebra (fun s => if seqb s $"a" then 10 else 3)%Z in
  let g := GT_out G_NOT [(None, [n "a"], n "b"); (None, [n "b"], n "a")] in
  single_outputs g = true /\ v_gates A g = Some [Drive A 10%Z 3%Z; Drive A 3%Z 10%Z].
Proof. split; reflexivity. Qed.
