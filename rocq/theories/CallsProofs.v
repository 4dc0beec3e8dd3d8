(** Proofs about calls of one convertor, one after the other. *)
From Verif Require Import Base AstModel LitModel MacroDefModel PpModel PpSpec PpDbProofs EncodingModel ApiModel ApiSpec ApiProofs CallsSpec.

Section Calls.
  Variable obj : Type.
  Variable vs : str -> list report.
  Variable vv : bool -> str -> list obj * option exn.
  Variable ss : lang -> str -> list report.
  Variable sv : lang -> bool -> str -> list obj * option exn.
  Local Notation PF := (parse_files obj vs vv ss sv).
  Local Notation PT := (parse_text obj vs vv ss sv).
  Local Notation DO := (do_call obj vs vv ss sv).
  (** Same macros of the user. *)
  Definition same (d d0 : db) : Prop := uniq d /\ delete_non_persistent d = delete_non_persistent d0.

  Lemma files_db l h fs enc dirs files d0 : forall d ctx, same d d0 -> same (snd (PF l h fs enc dirs files d ctx)) d0.
  Proof.
    induction files as [|f files IH]; intros d ctx S; [exact S|]. rewrite cons_files. pose proof (one_file_db obj vs vv ss sv l h fs enc dirs f d ctx (proj1 S)) as [U E].
    destruct (PF l h fs enc dirs [f] d ctx) as [[o c] d']. cbn [fst snd] in *. assert (S' : same d' d0) by (split; [exact U|rewrite E; exact (proj2 S)]).
    destruct o; cbn [snd]; try exact S'. apply IH. exact S'.
  Qed.
  Lemma text_db l h fs enc dirs t d ctx d0 : same d d0 -> same (snd (PT l h fs enc dirs t d ctx)) d0.
  Proof.
    intros S. assert (K : same (snd (sv_parse_str obj ss sv l h fs d dirs t ctx)) d0).
    { unfold sv_parse_str. rewrite sv_text_ctx. cbn [snd]. destruct (persistent_survive l (pp_fs fs) d dirs t (proj1 S)) as (E & _).
      split; [exact (proj1 (proj1 (sp_all l (pp_fs fs) d dirs) t (uniq_init l d dirs (proj1 S))))|rewrite E; exact (proj2 S)]. }
    unfold parse_text. destruct l; try exact S; destruct (is_verilog_lang _); first [exact K|exact S].
  Qed.
  Lemma files_ctx l h fs enc dirs files d d0 ctx : same d d0 -> uniq d0 ->
    fst (PF l h fs enc dirs files d ctx) = (fst (fst (PF l h fs enc dirs files d0 [])), ctx ++ snd (fst (PF l h fs enc dirs files d0 []))).
  Proof.
    intros S U. rewrite (files_in_order obj vs vv ss sv l h fs enc dirs files d d0 ctx (proj1 S) (proj2 S)), (files_in_order obj vs vv ss sv l h fs enc dirs files d0 d0 [] U eq_refl).
    destruct (in_order _) as [o os]. reflexivity.
  Qed.
  Lemma text_ctx l h fs enc dirs t d d0 ctx : same d d0 ->
    fst (PT l h fs enc dirs t d ctx) = (fst (fst (PT l h fs enc dirs t d0 [])), ctx ++ snd (fst (PT l h fs enc dirs t d0 []))).
  Proof.
    intros [_ E]. assert (K : fst (sv_parse_str obj ss sv l h fs d dirs t ctx) = (fst (fst (sv_parse_str obj ss sv l h fs d0 dirs t [])), ctx ++ snd (fst (sv_parse_str obj ss sv l h fs d0 dirs t [])))).
    { unfold sv_parse_str. replace (verilog_pp_str l (pp_fs fs) d dirs t) with (verilog_pp_str l (pp_fs fs) d0 dirs t) by (unfold verilog_pp_str, pp_init; rewrite E; reflexivity). rewrite sv_text_ctx. reflexivity. }
    assert (N : forall o : outcome unit, (o, ctx) = (fst (o, @nil obj), ctx ++ snd (o, @nil obj))) by (intros o; cbn; rewrite app_nil_r; reflexivity).
    unfold parse_text. destruct l; try (destruct (is_verilog_lang _); [exact K|exact (N _)]).
    unfold vhdl_parse_str. destruct (to_utf8 t enc); try exact (N _). cbn [fst]. apply vhdl_text_ctx.
  Qed.

  Lemma call_db c ctx d d0 : same d d0 -> same (snd (snd (DO c (ctx, d)))) d0.
  Proof.
    intros S. destruct c as [l h fs enc dirs files|l h fs enc dirs t]; unfold do_call, py_parse, py_parse_str; cbn [fst snd].
    - destruct files as [|f files]; [exact S|]. pose proof (files_db l h fs enc dirs (f :: files) d0 d ctx S) as K. destruct (PF _ _ _ _ _ _ _ _) as [r d']. exact K.
    - destruct t as [|a t]; [exact S|]. pose proof (text_db l h fs enc dirs (a :: t) d ctx d0 S) as K. destruct (PT _ _ _ _ _ _ _ _) as [r d']. exact K.
  Qed.
  Lemma call_ctx c ctx d d0 : same d d0 -> uniq d0 ->
    fst (snd (DO c (ctx, d))) = ctx ++ snd (alone obj vs vv ss sv c d0)
    /\ (idle c = false -> fst (DO c (ctx, d)) = in_front ctx (fst (alone obj vs vv ss sv c d0))).
  Proof.
    intros S U. unfold alone. destruct c as [l h fs enc dirs files|l h fs enc dirs t]; unfold do_call, py_parse, py_parse_str; cbn [fst snd].
    - destruct files as [|f files]; [cbn; rewrite app_nil_r; split; [reflexivity|discriminate]|]. pose proof (files_ctx l h fs enc dirs (f :: files) d d0 ctx S U) as K.
      destruct (PF _ _ _ _ _ _ d ctx) as [r d1], (PF _ _ _ _ _ _ d0 []) as [[o os] d2]. cbn [fst snd] in *. subst r. cbn [fst snd]. split; [reflexivity|]. intros _. unfold returned. cbn [fst snd]. destruct o; reflexivity.
    - destruct t as [|a t]; [cbn; rewrite app_nil_r; split; [reflexivity|discriminate]|]. pose proof (text_ctx l h fs enc dirs (a :: t) d d0 ctx S) as K.
      destruct (PT _ _ _ _ _ _ d ctx) as [r d1], (PT _ _ _ _ _ _ d0 []) as [[o os] d2]. cbn [fst snd] in *. subst r. cbn [fst snd]. split; [reflexivity|]. intros _. unfold returned. cbn [fst snd]. destruct o; reflexivity.
  Qed.
  Lemma step_ok c ctx d d0 : same d d0 -> uniq d0 -> let s := step_of obj vs vv ss sv c (ctx, d) in
    fst s = ctx ++ adds obj vs vv ss sv c d0 /\ same (snd s) d0.
  Proof.
    intros S U. destruct c as [c|l fs dirs file|l fs dirs text]; cbn [step_of adds].
    - split; [exact (proj1 (call_ctx c ctx d d0 S U))|exact (call_db c ctx d d0 S)].
    - cbn [fst snd]. rewrite app_nil_r. split; [reflexivity|]. destruct (persistent_survive_file l (pp_fs fs) d dirs file (proj1 S)) as (E & _).
      split; [exact (proj1 (proj2 (sp_all l (pp_fs fs) d dirs) file (uniq_init l d dirs (proj1 S))))|rewrite E; exact (proj2 S)].
    - cbn [fst snd]. rewrite app_nil_r. split; [reflexivity|]. destruct (persistent_survive l (pp_fs fs) d dirs text (proj1 S)) as (E & _).
      split; [exact (proj1 (proj1 (sp_all l (pp_fs fs) d dirs) text (uniq_init l d dirs (proj1 S))))|rewrite E; exact (proj2 S)].
  Qed.
  Lemma after_all cs d0 : uniq d0 -> forall ctx d, same d d0 -> let s := after obj vs vv ss sv cs (ctx, d) in
    fst s = ctx ++ List.concat (map (fun c => adds obj vs vv ss sv c d0) cs) /\ same (snd s) d0.
  Proof.
    intros U. induction cs as [|c cs IH]; intros ctx d S; cbn [after map List.concat]; [rewrite app_nil_r; split; [reflexivity|exact S]|].
    destruct (step_ok c ctx d d0 S U) as [K S']. destruct (step_of obj vs vv ss sv c (ctx, d)) as [ctx' d']. cbn [fst snd] in *.
    destruct (IH ctx' d' S') as [K' S'']. split; [|exact S'']. rewrite K', K, app_assoc. reflexivity.
  Qed.
  Lemma files_app l h fs enc dirs files' : forall files d ctx, PF l h fs enc dirs (files ++ files') d ctx =
    let '(r, d') := PF l h fs enc dirs files d ctx in match fst r with Ok _ => PF l h fs enc dirs files' d' (snd r) | _ => (r, d') end.
  Proof.
    induction files as [|f files IH]; intros d ctx; [reflexivity|]. cbn [app]. rewrite (cons_files obj vs vv ss sv l h fs enc dirs f (files ++ files')), (cons_files obj vs vv ss sv l h fs enc dirs f files).
    destruct (PF l h fs enc dirs [f] d ctx) as [[o c] d']. cbn [fst snd]. destruct o; cbn [fst]; try reflexivity. apply IH.
  Qed.
End Calls.
