(** C54: CRLF line ends. *)
From Verif Require Import Base OutBufferModel PpLexerModel PpParserModel MacroDefModel PpModel PpSpec PpLimitProofs StrSpec PpArgSpec PpSrcSpec PpSrcEditSpec PpSrcRunProofs PpSrcEditProofs PpSrcWfTac.

Definition fs54 : fsys := fun _ => None.
(** With LF the continued definition is a two-line macro; with CRLF the definition ends at the
    backslash and its second line is left in the output. *)
Theorem C54_crlf_refuted : exists s,
  text_of (verilog_pp_str SV2012 fs54 [] [] s) = Ok ([nl; nl] ++ $"x " ++ [nl] ++ $" y") /\
  text_of (verilog_pp_str SV2012 fs54 [] [] (crlf s)) = Ok ([nl] ++ $" y" ++ [cr; nl] ++ $"x \").
Proof. exists ($"`define A x \" ++ [nl] ++ $" y" ++ [nl] ++ $"`A"). vm_compute. split; reflexivity. Qed.
Print Assumptions C54_crlf_refuted.

(** ** What holds *)
(** A source of PpSrcSpec (its definitions are not continued) with LF line ends, and the same with
    CR LF line ends, give texts that differ only in CR characters. *)
Theorem C54_crlf_partial : forall l fs d dirs p out,
  is_verilog l = true -> Forall (fun x => e_persistent (snd x) = false) d ->
  wf p [] -> short_uses p -> ~ In cr (render p) -> meaning (lang_ge l SV2005) p out -> (Z.of_nat (1 + lines (render p)) < 2 ^ 61)%Z ->
  exists b1 st1 b2 st2, verilog_pp_str l fs d dirs (render p) = (Ok b1, st1) /\ verilog_pp_str l fs d dirs (crlf (render p)) = (Ok b2, st2)
    /\ ob_text b1 = out /\ drop_cr (ob_text b2) = out.
Proof.
  intros l fs d dirs p out HL HD HP HU HC HM HZ.
  destruct (source_meaning l fs d dirs p out HL HD HP HM HZ) as (b1 & st1 & E1 & O1).
  destruct (meaning_crlf _ p out HP HU HC HM) as (HP2 & HR & out' & HM2 & HO). rewrite <- HR.
  destruct (source_meaning l fs d dirs (src_crlf p) out' HL HD HP2 HM2) as (b2 & st2 & E2 & O2); [rewrite HR, lines_crlf; exact HZ|].
  exists b1, st1, b2, st2. rewrite O2. auto.
Qed.
Print Assumptions C54_crlf_partial.

Definition p54 : items :=
  Cons (IDef [sp] $"A" None [sp] $"x" [sp] (Some $" c") Lf)
  (Cons (IIf false (One [sp] $"A" (Cons (IText (map PChar ([nl] ++ $"y ")) ) (Cons (ICall $"A" None) (Cons (IText [PChar nl; PBlock ($" a" ++ [nl] ++ $" b "); PChar nl]) Nil)))) NoElse (SEol Lf)) Nil).
Lemma p54_wf : wf p54 [].
Proof.
  unfold p54. cbn [wf wf_item wf_branches wf_else].
  repeat match goal with |- _ /\ _ => split end; try solve [wf_source].
  repeat (apply Forall_cons; [try solve [nope]|]); [|apply Forall_nil].
  intros (a & b & E). do 6 (destruct a as [|? a]; [discriminate|injection E as _ E]). destruct a; discriminate.
Qed.
Lemma p54_meaning : meaning true p54 ([nl; nl] ++ $"y x" ++ [nl] ++ $"/* a" ++ [nl] ++ $" b */" ++ [nl]).
Proof. unfold p54. meaning_of; [use_plain (Cons (IText [PChar "x"%char]) Nil); reflexivity|vm_compute; reflexivity]. Qed.
Example C54_example : exists b1 st1 b2 st2,
  verilog_pp_str SV2012 fs54 [] [] (render p54) = (Ok b1, st1) /\ verilog_pp_str SV2012 fs54 [] [] (crlf (render p54)) = (Ok b2, st2)
  /\ ob_text b1 = [nl; nl] ++ $"y x" ++ [nl] ++ $"/* a" ++ [nl] ++ $" b */" ++ [nl] /\ drop_cr (ob_text b2) = [nl; nl] ++ $"y x" ++ [nl] ++ $"/* a" ++ [nl] ++ $" b */" ++ [nl].
Proof.
  apply C54_crlf_partial; [reflexivity|constructor|exact p54_wf|cbn; intuition auto| |exact p54_meaning|reflexivity].
  intros H. vm_compute in H. repeat (destruct H as [H|H]; [discriminate|]). contradiction.
Qed.
