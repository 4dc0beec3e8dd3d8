(** C53: a comment behind a macro definition changes no other line. *)
From Verif Require Import Base StrUtilsModel StrUtilsProofs OutBufferModel PpLexerModel PpParserModel MacroDefModel PpModel PpSpec PpLimitProofs StrSpec PpArgSpec PpSrcSpec PpSrcEditSpec PpSrcRunProofs PpSrcEditProofs PpSrcWfTac.

Definition fs53 : fsys := fun _ => None.
Example C53_with_body :
  text_of (verilog_pp_str SV2012 fs53 [] [] ($"`define A(v) v+1 // c" ++ [nl] ++ $"B" ++ [nl] ++ $"`A(x)"))
  = Ok ([nl] ++ $"B" ++ [nl] ++ $"x+1").
Proof. vm_compute. reflexivity. Qed.
(** With an empty body the following line is swallowed and becomes the body of the macro: the
    comment makes line B disappear from its place and appear at the call. *)
Theorem C53_comment_refuted : exists tail,
  text_of (verilog_pp_str SV2012 fs53 [] [] ($"`define A" ++ [nl] ++ tail)) = Ok ([nl] ++ $"B" ++ [nl]) /\
  text_of (verilog_pp_str SV2012 fs53 [] [] ($"`define A // c" ++ [nl] ++ tail)) = Ok ([nl; nl] ++ $"B").
Proof. exists ($"B" ++ [nl] ++ $"`A"). vm_compute. split; reflexivity. Qed.
Print Assumptions C53_comment_refuted.
(** The same happens when the comment stands directly behind a string. *)
Theorem C53_behind_string_refuted : exists tail,
  text_of (verilog_pp_str SV2012 fs53 [] [] ($"`define A ""x""" ++ [nl] ++ tail)) = Ok ([nl] ++ $"B" ++ [nl] ++ $"""x""") /\
  text_of (verilog_pp_str SV2012 fs53 [] [] ($"`define A ""x""// c" ++ [nl] ++ tail)) = Ok ([nl; nl] ++ $"""x""B").
Proof. exists ($"B" ++ [nl] ++ $"`A"). vm_compute. split; reflexivity. Qed.
Print Assumptions C53_behind_string_refuted.
(** A comment with one double quote makes the whole source fail. *)
Theorem C53_quote_refuted : exists tail,
  text_of (verilog_pp_str SV2012 fs53 [] [] ($"`define A x" ++ [nl] ++ tail)) = Ok ([nl] ++ $"B" ++ [nl] ++ $"x") /\
  text_of (verilog_pp_str SV2012 fs53 [] [] ($"`define A x // 5"" disk" ++ [nl] ++ tail)) = Throw syntax_error.
Proof. exists ($"B" ++ [nl] ++ $"`A"). vm_compute. split; reflexivity. Qed.
Print Assumptions C53_quote_refuted.

(** ** What holds *)
(** Two sources that differ only in the comments behind their (non-empty) definitions give the same
    text. *)
Theorem C53_comment_partial : forall l fs d dirs p q out,
  is_verilog l = true -> Forall (fun x => e_persistent (snd x) = false) d ->
  wf p [] -> wf q [] -> strip p = strip q -> meaning (lang_ge l SV2005) p out -> (Z.of_nat (1 + lines (render p)) < 2 ^ 61)%Z ->
  exists b1 st1 b2 st2, verilog_pp_str l fs d dirs (render p) = (Ok b1, st1) /\ verilog_pp_str l fs d dirs (render q) = (Ok b2, st2)
    /\ ob_text b1 = out /\ ob_text b2 = out.
Proof.
  intros l fs d dirs p q out HL HD HP HQ HS HM HZ.
  destruct (source_meaning l fs d dirs p out HL HD HP HM HZ) as (b1 & st1 & E1 & O1).
  assert (HM2 : meaning (lang_ge l SV2005) q out) by (apply (strip_meaning _ q out HQ); rewrite <- HS; apply (strip_meaning _ p out HP); exact HM).
  assert (HZ2 : (Z.of_nat (1 + lines (render q)) < 2 ^ 61)%Z).
  { rewrite <- (proj1 strip_lines q [] HQ), <- HS, (proj1 strip_lines p [] HP). exact HZ. }
  destruct (source_meaning l fs d dirs q out HL HD HQ HM2 HZ2) as (b2 & st2 & E2 & O2). exists b1, st1, b2, st2. auto.
Qed.
Print Assumptions C53_comment_partial.

Definition p53 (cm : option str) : items :=
  Cons (IDef [sp] $"A" (Some [([], $"v", [])]) [sp] $"v+1" [sp] cm Lf) (Cons (IText (map PChar ($"B" ++ [nl]))) (Cons (ICall $"A" (Some [$"x"])) Nil)).
Example C53_texts : render (p53 (Some $" c")) = $"`define A(v) v+1 // c" ++ [nl] ++ $"B" ++ [nl] ++ $"`A(x)" /\ strip (p53 (Some $" c")) = strip (p53 None).
Proof. split; reflexivity. Qed.
Lemma p53_wf cm : cm = None \/ cm = Some $" c" -> wf (p53 cm) [].
Proof. intros [-> | ->]; unfold p53; cbn [wf wf_item]; wf_source; try discriminate. Qed.
Lemma p53_meaning cm : cm = None \/ cm = Some $" c" -> meaning true (p53 cm) ([nl] ++ $"B" ++ [nl] ++ $"x+1").
Proof.
  intros [-> | ->]; unfold p53; meaning_of; try (use_args $"x+1" (Cons (IText (map PChar $"x+1")) Nil); reflexivity); vm_compute; reflexivity.
Qed.
Example C53_example : exists b1 st1 b2 st2,
  verilog_pp_str SV2012 fs53 [] [] ($"`define A(v) v+1 // c" ++ [nl] ++ $"B" ++ [nl] ++ $"`A(x)") = (Ok b1, st1)
  /\ verilog_pp_str SV2012 fs53 [] [] ($"`define A(v) v+1 " ++ [nl] ++ $"B" ++ [nl] ++ $"`A(x)") = (Ok b2, st2)
  /\ ob_text b1 = [nl] ++ $"B" ++ [nl] ++ $"x+1" /\ ob_text b2 = [nl] ++ $"B" ++ [nl] ++ $"x+1".
Proof. apply (C53_comment_partial SV2012 fs53 [] [] (p53 (Some $" c")) (p53 None)); try reflexivity; [constructor|apply p53_wf; auto|apply p53_wf; auto|apply p53_meaning; auto]. Qed.

(** A comment or a continued line among the tokens of a definition: the comment leaves the replacement text, and only
    the line end of a continued line stays.  [once]: the text of the token stands at no other place. *)
Definition once (pat a b : str) : Prop := leftmost pat a b /\ ~ occurs pat b.
Theorem C53_body_tokens d pre t post : dd_repl d = Some (pre ++ t :: post) -> Forall (fun x => tk_chan x = CH_DEFAULT) (pre ++ post) -> tk_text t <> [] ->
  once (tk_text t) (concat (map tk_text pre)) (concat (map tk_text post)) ->
  (tk_chan t = CH_LINE_COMMENT -> define_body d = Ok (rtrim ws_chars (concat (map tk_text pre) ++ concat (map tk_text post)))) /\
  (tk_chan t = CH_LINE_ESCAPE -> define_body d = Ok (rtrim ws_chars (concat (map tk_text pre) ++ [nl] ++ concat (map tk_text post)))).
Proof.
  intros HD HC HT (HL & HO). assert (K : forall ts s, Forall (fun x => tk_chan x = CH_DEFAULT) ts -> remove_comment ts s = Ok s).
  { intros ts s H. induction H as [|x ts Hx _ IH]; [reflexivity|]. cbn [remove_comment]. rewrite Hx. exact IH. }
  assert (K2 : forall ts r s, Forall (fun x => tk_chan x = CH_DEFAULT) ts -> remove_comment (ts ++ r) s = remove_comment r s).
  { intros ts r s H. induction H as [|x ts Hx _ IH]; [reflexivity|]. cbn [app remove_comment]. rewrite Hx. exact IH. }
  apply Forall_app in HC as (HA & HB).
  assert (G : forall repl, replaceStringInPlace (toks_text (pre ++ t :: post)) (tk_text t) repl = Ok (concat (map tk_text pre) ++ repl ++ concat (map tk_text post))).
  { intros repl. unfold toks_text. rewrite map_app, concat_app. cbn [map concat]. destruct (replace_substring_total (concat (map tk_text pre) ++ tk_text t ++ concat (map tk_text post)) (tk_text t) repl HT) as (r & E & _ & U).
    change replaceStringInPlace with replace_substring. rewrite E. f_equal. symmetry. apply U. apply R_some; [exact HL|]. apply R_none. exact HO. }
  unfold define_body. rewrite HD, (K2 pre _ _ HA). cbn [remove_comment]. split; intros C; rewrite C, G; cbn [bind]; rewrite (K post _ HB); reflexivity.
Qed.
Print Assumptions C53_body_tokens.
Definition tok53 (ty : ttype) (c : channel) (s : str) : token := mkTok ty c s s 1 0.
Example C53_body_ex :
  let pre := [tok53 T_CODE CH_DEFAULT $"x+"] in let t := tok53 T_LINE_COMMENT CH_LINE_COMMENT ($"// c" ++ [nl]) in let post := [tok53 T_CODE CH_DEFAULT $"y"] in
  once (tk_text t) (concat (map tk_text pre)) (concat (map tk_text post)) /\ define_body (mkDef t $"A" None (Some (pre ++ t :: post))) = Ok $"x+y".
Proof.
  cbn zeta. split; [split|].
  - intros a' b' E. cbn in E |- *. destruct a' as [|c1 [|c2 a']]; cbn in E |- *; [discriminate E|injection E; intros; discriminate|lia].
  - intros (a & b & E). cbn in E. destruct a as [|c1 [|c2 a]]; discriminate E.
  - vm_compute. reflexivity.
Qed.
