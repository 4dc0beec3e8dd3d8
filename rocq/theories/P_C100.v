(** C100: a convertor can be used again, also after an error: what a call gives does not depend on the calls before it. *)
From Verif Require Import Base AstModel LitModel MacroDefModel PpModel PpSpec PpDbProofs EncodingModel ApiModel ApiSpec ApiProofs CallsSpec CallsProofs.

(** After any calls, successful or not, a call gives what it gives on a new convertor with the same macros of the user,
    with the earlier objects in front.  (parse([]) returns an empty result on every convertor, see C21.) *)
Theorem C100_again (obj : Type) vs (vv : bool -> str -> list obj * option exn) ss (sv : lang -> bool -> str -> list obj * option exn)
    (cs : list step) (c : call) (ctx : list obj) (d : db) : uniq d -> idle c = false ->
  let s := after obj vs vv ss sv cs (ctx, d) in
  let '(r, s') := do_call obj vs vv ss sv c s in
  r = in_front (fst s) (fst (alone obj vs vv ss sv c d)) /\ fst s' = fst s ++ snd (alone obj vs vv ss sv c d).
Proof.
  intros U I s. destruct (after_all obj vs vv ss sv cs d U ctx d (conj U eq_refl)) as [_ S]. fold s in S. destruct s as [ctx' d'].
  destruct (call_ctx obj vs vv ss sv c ctx' d' d S U) as [K1 K2]. specialize (K2 I). destruct (do_call obj vs vv ss sv c (ctx', d')) as [r s']. cbn [fst snd] in *. split; assumption.
Qed.
Print Assumptions C100_again.

(** What was returned is what the convertor keeps. *)
Theorem C100_kept (obj : Type) vs (vv : bool -> str -> list obj * option exn) ss (sv : lang -> bool -> str -> list obj * option exn)
    (c : call) (s s' : convertor obj) (l : list obj) : idle c = false -> do_call obj vs vv ss sv c s = (Ok l, s') -> fst s' = l.
Proof.
  intros I. destruct c as [g h fs enc dirs [|f files]|g h fs enc dirs [|a t]]; try discriminate I; unfold do_call, py_parse, py_parse_str.
  - destruct (parse_files _ _ _ _ _ _ _ _ _ _ _ _ _) as [[o c] d']. unfold returned. cbn [fst snd]. destruct o; intros E; try discriminate E. injection E as <- <-. reflexivity.
  - destruct (parse_text _ _ _ _ _ _ _ _ _ _ _ _ _) as [[o c] d']. unfold returned. cbn [fst snd]. destruct o; intros E; try discriminate E. injection E as <- <-. reflexivity.
Qed.
Print Assumptions C100_kept.

(** The context after any calls: the objects of each call alone, in the order of the calls. *)
Theorem C100_context (obj : Type) vs (vv : bool -> str -> list obj * option exn) ss (sv : lang -> bool -> str -> list obj * option exn)
    (cs : list step) (ctx : list obj) (d : db) : uniq d ->
  fst (after obj vs vv ss sv cs (ctx, d)) = ctx ++ List.concat (map (fun c => adds obj vs vv ss sv c d) cs).
Proof. intros U. exact (proj1 (after_all obj vs vv ss sv cs d U ctx d (conj U eq_refl))). Qed.
Print Assumptions C100_context.

(** The same for verilog_pp and verilog_pp_str. *)
Theorem C100_preprocess (obj : Type) vs (vv : bool -> str -> list obj * option exn) ss (sv : lang -> bool -> str -> list obj * option exn)
    (cs : list step) (ctx : list obj) (d : db) l fs dirs (file text : str) : uniq d -> let d' := snd (after obj vs vv ss sv cs (ctx, d)) in
  fst (verilog_pp_file l fs d' dirs file) = fst (verilog_pp_file l fs d dirs file) /\ fst (verilog_pp_str l fs d' dirs text) = fst (verilog_pp_str l fs d dirs text).
Proof.
  intros U d'. destruct (after_all obj vs vv ss sv cs d U ctx d (conj U eq_refl)) as [_ [_ E]]. fold d' in E. unfold verilog_pp_file, verilog_pp_str, pp_init. rewrite E. split; reflexivity.
Qed.
Print Assumptions C100_preprocess.

(** The macros of the user are the same after any calls. *)
Theorem C100_macros (obj : Type) vs (vv : bool -> str -> list obj * option exn) ss (sv : lang -> bool -> str -> list obj * option exn)
    (cs : list step) (ctx : list obj) (d : db) (n : str) (m : entry) : uniq d -> e_persistent m = true ->
  db_find (snd (after obj vs vv ss sv cs (ctx, d))) n = Some m <-> db_find d n = Some m.
Proof.
  intros U P. destruct (proj2 (after_all obj vs vv ss sv cs d U ctx d (conj U eq_refl))) as [U' E]. pose proof (np_find _ n U') as F1. pose proof (np_find _ n U) as F2. rewrite E, F2 in F1. clear F2.
  split; intros Q; rewrite Q in F1; rewrite P in F1.
  - destruct (db_find d n) as [e|]; [|discriminate F1]. destruct (e_persistent e); [exact F1|discriminate F1].
  - destruct (db_find (snd _) n) as [e|]; [|discriminate F1]. destruct (e_persistent e); [symmetry; exact F1|discriminate F1].
Qed.
Print Assumptions C100_macros.

(** One call with all files is the same as two calls with a part of them each: the result, the objects and the macros. *)
Theorem C100_split (obj : Type) vs (vv : bool -> str -> list obj * option exn) ss (sv : lang -> bool -> str -> list obj * option exn)
    l h fs enc dirs (files files' : list str) (s : convertor obj) : files <> [] -> files' <> [] ->
  do_call obj vs vv ss sv (Parse l h fs enc dirs (files ++ files')) s =
  let '(r, s1) := do_call obj vs vv ss sv (Parse l h fs enc dirs files) s in
  match r with Ok _ => do_call obj vs vv ss sv (Parse l h fs enc dirs files') s1 | _ => (r, s1) end.
Proof.
  intros N N'. destruct files as [|f files]; [contradiction|]. destruct files' as [|f' files']; [contradiction|]. destruct s as [ctx d].
  unfold do_call, py_parse. cbn [fst snd]. change ((f :: files) ++ f' :: files') with (f :: files ++ f' :: files'). cbv iota. change (f :: files ++ f' :: files') with ((f :: files) ++ (f' :: files')). rewrite files_app.
  destruct (parse_files obj vs vv ss sv l h fs enc dirs (f :: files) d ctx) as [[o c] d1]. cbn [fst snd]. unfold returned. cbn [fst snd]. destruct o; try reflexivity.
Qed.
Print Assumptions C100_split.

(** A text, then a file that does not exist (the call raises), then a text and a file that define X: in the next call the objects
    are still there and X is not defined. *)
Definition missing : call := Parse SV2012 false (fun _ => None) $"utf-8" [] [ $"missing.v" ].
Definition calls100 : list step :=
  [Call (ParseStr VHDL false (fun _ => None) $"utf-8" [] $"A"); Call missing; Call (ParseStr SV2012 false (fun _ => None) $"utf-8" [] $"`define X 1"); VerilogPp SV2012 (fun _ => Some (FFile $"`define X 2")) [] $"x.v"].
Example C100_ex : let vs t := @nil report in let vv (h : bool) (t : str) := ([t], @None exn) in let ss (l : lang) t := @nil report in let sv (l : lang) (h : bool) (t : str) := ([t], @None exn) in
  fst (after str vs vv ss sv calls100 ([], [])) = [ $"A"; [] ]
  /\ fst (do_call str vs vv ss sv missing ([ $"A" ], [])) = Throw (ParseException $"missing.v does not exist.")
  /\ fst (do_call str vs vv ss sv (ParseStr SV2012 false (fun _ => None) $"utf-8" [] $"`ifdef X b `endif") (after str vs vv ss sv calls100 ([], []))) = Ok [ $"A"; []; [] ].
Proof. vm_compute. repeat split. Qed.
