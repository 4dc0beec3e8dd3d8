From Verif Require Import Base BaseFacts OutBufferModel MacroDefModel PpModel PpSpec PpDbProofs PpLineProofs EncodingModel ApiModel ApiSpec.

Lemma check_errors_iff p es : check_errors p es = Ok tt <-> es = [].
Proof. destruct es; cbn; split; intros H; congruence. Qed.
Lemma log_errors_none src : forall rs, log_errors None src rs
  = Ok (map (fun r => mkErr src (rp_line r) (rp_col r) (rp_msg r)) rs).
Proof. induction rs as [|r rs IH]; [reflexivity|]. cbn. rewrite IH. reflexivity. Qed.

Section Api.
  Variable obj : Type.
  Variable vhdl_syntax : str -> list report.
  Variable vhdl_visit : bool -> str -> list obj * option exn.
  Variable sv_syntax : lang -> str -> list report.
  Variable sv_visit : lang -> bool -> str -> list obj * option exn.
  Notation PF := (parse_files obj vhdl_syntax vhdl_visit sv_syntax sv_visit).
  Notation PT := (parse_text obj vhdl_syntax vhdl_visit sv_syntax sv_visit).

  Lemma run_parser_errors src reports v ctx :
    run_parser obj None src reports v ctx =
    match reports with
    | [] => (match snd v with None => Ok tt | Some x => Throw x end, ctx ++ fst v)
    | _ => (Throw (ParseException ([nl] ++ concat (map (fun r =>
              error_line [] (mkErr src (rp_line r) (rp_col r) (rp_msg r))) reports))), ctx)
    end.
  Proof.
    unfold run_parser. rewrite log_errors_none. destruct reports as [|r rs]; destruct v as [os [x|]]; cbn; rewrite ?map_map; reflexivity.
  Qed.
  Lemma run_parser_ctx m src reports v ctx :
    run_parser obj m src reports v ctx = (fst (run_parser obj m src reports v []), ctx ++ snd (run_parser obj m src reports v [])).
  Proof.
    unfold run_parser. destruct (log_errors m src reports) as [es| | |]; cbn; rewrite ?app_nil_r; try reflexivity.
    destruct (check_errors [] es); cbn; rewrite ?app_nil_r; try reflexivity. destruct v as [os e]. reflexivity.
  Qed.
  Lemma vhdl_text_ctx h src t ctx : vhdl_parse_text obj vhdl_syntax vhdl_visit h src t ctx =
    (fst (vhdl_parse_text obj vhdl_syntax vhdl_visit h src t []), ctx ++ snd (vhdl_parse_text obj vhdl_syntax vhdl_visit h src t [])).
  Proof. apply run_parser_ctx. Qed.
  Lemma vhdl_file_ctx h enc f c ctx : vhdl_parse_file obj vhdl_syntax vhdl_visit h enc f c ctx =
    (fst (vhdl_parse_file obj vhdl_syntax vhdl_visit h enc f c []), ctx ++ snd (vhdl_parse_file obj vhdl_syntax vhdl_visit h enc f c [])).
  Proof.
    unfold vhdl_parse_file. destruct c as [s|]; [|cbn; rewrite app_nil_r; reflexivity].
    destruct (to_utf8 s enc); try (cbn; rewrite app_nil_r; reflexivity). apply vhdl_text_ctx.
  Qed.
  Lemma sv_text_ctx l h src r ctx : sv_parse_text obj sv_syntax sv_visit l h src r ctx =
    ((fst (fst (sv_parse_text obj sv_syntax sv_visit l h src r [])), ctx ++ snd (fst (sv_parse_text obj sv_syntax sv_visit l h src r []))), ps_db (snd r)).
  Proof.
    unfold sv_parse_text. destruct r as [[b| | |] st]; cbn; rewrite ?app_nil_r; try reflexivity.
    rewrite run_parser_ctx. reflexivity.
  Qed.
  (** The database matters only through its persistent part. *)
  Lemma pp_file_db l fs d d' dirs f : delete_non_persistent d' = delete_non_persistent d ->
    verilog_pp_file l fs d' dirs f = verilog_pp_file l fs d dirs f.
  Proof. intros E. unfold verilog_pp_file, pp_init. rewrite E. reflexivity. Qed.
  Lemma sv_file_db l h fs d d' dirs f ctx : delete_non_persistent d' = delete_non_persistent d ->
    sv_parse_file obj sv_syntax sv_visit l h fs d' dirs f ctx = sv_parse_file obj sv_syntax sv_visit l h fs d dirs f ctx.
  Proof. intros E. unfold sv_parse_file. rewrite (pp_file_db l (pp_fs fs) d d' dirs f E). reflexivity. Qed.

  (** One file, any database with the same persistent part, any context. *)
  Lemma one_file l h fs enc dirs f d d' ctx : delete_non_persistent d' = delete_non_persistent d ->
    fst (PF l h fs enc dirs [f] d' ctx) =
    (fst (fst (PF l h fs enc dirs [f] d [])), ctx ++ snd (fst (PF l h fs enc dirs [f] d []))).
  Proof.
    intros E. cbn [parse_files]. destruct (fs f) as [c|]; [|cbn; rewrite app_nil_r; reflexivity].
    assert (forall r1 r2 : (outcome unit * list obj) * db,
      fst (fst r1) = fst (fst r2) -> snd (fst r1) = ctx ++ snd (fst r2) ->
      fst (let '(r, d1) := r1 in match fst r with Ok _ => ((Ok tt, snd r), d1) | _ => (r, d1) end) =
      (fst (fst (let '(r, d1) := r2 in match fst r with Ok _ => ((Ok tt, snd r), d1) | _ => (r, d1) end)),
       ctx ++ snd (fst (let '(r, d1) := r2 in match fst r with Ok _ => ((Ok tt, snd r), d1) | _ => (r, d1) end)))) as G.
    { intros [[o1 c1] e1] [[o2 c2] e2]. cbn. intros -> ->. destruct o2; reflexivity. }
    apply G.
    - destruct l; cbn [fst]; try (rewrite vhdl_file_ctx; reflexivity); try reflexivity;
      cbn [is_verilog_lang]; cbn; rewrite (sv_file_db _ _ _ _ _ _ _ _ E); unfold sv_parse_file; rewrite sv_text_ctx; reflexivity.
    - destruct l; cbn [fst snd]; try (rewrite vhdl_file_ctx; reflexivity); try (cbn; rewrite app_nil_r; reflexivity);
      cbn [is_verilog_lang]; cbn; rewrite (sv_file_db _ _ _ _ _ _ _ _ E); unfold sv_parse_file; rewrite sv_text_ctx; reflexivity.
  Qed.
  Lemma one_file_db l h fs enc dirs f d ctx : uniq d ->
    uniq (snd (PF l h fs enc dirs [f] d ctx)) /\
    delete_non_persistent (snd (PF l h fs enc dirs [f] d ctx)) = delete_non_persistent d.
  Proof.
    intros Hu. cbn [parse_files]. destruct (fs f) as [c|]; [|cbn; auto].
    assert (forall r1 : (outcome unit * list obj) * db,
      snd (let '(r, d1) := r1 in match fst r with Ok _ => ((Ok tt, snd r), d1) | _ => (r, d1) end) = snd r1) as G.
    { intros [[o1 c1] e1]. destruct o1; reflexivity. }
    rewrite G.
    assert (forall lv, uniq (snd (sv_parse_file obj sv_syntax sv_visit lv h fs d dirs f ctx)) /\
      delete_non_persistent (snd (sv_parse_file obj sv_syntax sv_visit lv h fs d dirs f ctx)) = delete_non_persistent d) as K.
    { intros lv. unfold sv_parse_file. rewrite sv_text_ctx. cbn [snd].
      destruct (proj2 (sp_all lv (pp_fs fs) d dirs) f (uniq_init lv d dirs Hu)) as (U & E). rewrite np_init in E. auto. }
    destruct l; cbn [snd]; auto; apply K.
  Qed.
  Lemma cons_files l h fs enc dirs f files d ctx :
    PF l h fs enc dirs (f :: files) d ctx =
    let '(r, d') := PF l h fs enc dirs [f] d ctx in
    match fst r with Ok _ => PF l h fs enc dirs files d' (snd r) | _ => (r, d') end.
  Proof.
    cbn [parse_files]. destruct (fs f); [|reflexivity].
    destruct (match l with VHDL => _ | _ => _ end) as [[o c1] d1]. destruct o; reflexivity.
  Qed.
  Theorem files_in_order l h fs enc dirs : forall files d d0 ctx, uniq d ->
    delete_non_persistent d = delete_non_persistent d0 ->
    fst (PF l h fs enc dirs files d ctx) =
    let '(o, os) := in_order (map (fun f => fst (PF l h fs enc dirs [f] d0 [])) files) in (o, ctx ++ os).
  Proof.
    induction files as [|f files IH]; intros d d0 ctx Hu E; [cbn; rewrite app_nil_r; reflexivity|].
    rewrite cons_files. cbn [map in_order].
    pose proof (one_file l h fs enc dirs f d0 d ctx E) as O1.
    destruct (one_file_db l h fs enc dirs f d ctx Hu) as (U1 & E1).
    destruct (PF l h fs enc dirs [f] d ctx) as [[o c1] d1]. cbn [fst snd] in *.
    destruct (fst (PF l h fs enc dirs [f] d0 [])) as [o0 os0]. cbn [fst snd] in O1. injection O1 as -> ->.
    destruct o0; try reflexivity.
    rewrite (IH d1 d0 (ctx ++ os0) U1 ltac:(congruence)).
    destruct (in_order _) as [o2 os2]. rewrite app_assoc. reflexivity.
  Qed.
  Lemma in_order_stop {X} (a : list (outcome unit * list X)) o os b : (forall x, o <> Ok x) ->
    Forall (fun r => fst r = Ok tt) a ->
    in_order (a ++ (o, os) :: b) = (o, concat (map snd a) ++ os).
  Proof.
    intros Ho. induction 1 as [|[x y] a Hx Ha IH]; cbn [app in_order].
    - destruct o; try reflexivity. destruct (Ho a eq_refl).
    - cbn in Hx. subst x. rewrite IH. cbn. rewrite app_assoc. reflexivity.
  Qed.
  Lemma missing_file l h fs enc dirs before f after d ctx : uniq d -> fs f = None ->
    Forall (fun g => fst (fst (PF l h fs enc dirs [g] d [])) = Ok tt) before ->
    fst (PF l h fs enc dirs (before ++ f :: after) d ctx) =
    (Throw (ParseException (f ++ $" does not exist.")),
     ctx ++ concat (map (fun g => snd (fst (PF l h fs enc dirs [g] d []))) before)).
  Proof.
    intros Hu Hf Hb. rewrite (files_in_order l h fs enc dirs _ d d ctx Hu eq_refl).
    rewrite map_app. cbn [map].
    assert (fst (PF l h fs enc dirs [f] d []) = (Throw (ParseException (f ++ $" does not exist.")), [])) as ->.
    { cbn [parse_files]. rewrite Hf. reflexivity. }
    unfold res in *. rewrite in_order_stop; [rewrite map_map, app_nil_r; reflexivity|discriminate|].
    apply Forall_map. exact Hb.
  Qed.
  Lemma unsupported l h fs enc dirs f files d ctx : l = HWT \/ l = LANG_INVALID -> fs f <> None ->
    PF l h fs enc dirs (f :: files) d ctx = ((Throw (RuntimeError $"Unsupported language."), ctx), d).
  Proof. intros [-> | ->] H; cbn [parse_files]; destruct (fs f); try contradiction; reflexivity. Qed.
  Lemma unsupported_str l h fs enc dirs s d ctx : l = HWT \/ l = LANG_INVALID ->
    PT l h fs enc dirs s d ctx = ((Throw (RuntimeError $"Unsupported language."), ctx), d).
  Proof. intros [-> | ->]; reflexivity. Qed.
End Api.

(** Line map of the logger. *)
Lemma origin_last m it n acc : (lm_line it <= n)%Z ->
  origin (m ++ [it]) n acc = Some (lm_file it, (lm_over it + (n - lm_line it))%Z).
Proof.
  revert acc. induction m as [|i m IH]; intros acc H; cbn [app origin].
  - destruct (Z.leb_spec (lm_line it) n); [reflexivity|lia].
  - apply IH. exact H.
Qed.
Lemma log_last m it src r : (lm_line it < rp_line r)%Z ->
  (0 <= lm_over it)%Z -> (0 <= lm_line it)%Z -> (lm_over it + rp_line r < two64)%Z ->
  exists f n, origin (m ++ [it]) (rp_line r - 1) None = Some (f, n) /\
    log_error (Some (m ++ [it])) src r = Ok (mkErr f (n + 1) (rp_col r) (rp_msg r)).
Proof.
  intros H1 H2 H3 H4. rewrite origin_last by lia. do 2 eexists. split; [reflexivity|].
  unfold log_error. rewrite rev_app_distr. cbn [rev app].
  destruct (Z.ltb_spec (rp_line r) (lm_line it)); [lia|]. do 2 f_equal. unfold to_size.
  rewrite Z.mod_small; lia.
Qed.

(** Error messages. *)
Lemma message_eq src rs : columns_ok rs ->
  concat (map (fun r => error_line [] (mkErr src (rp_line r) (rp_col r) (rp_msg r))) rs) = error_message_lines src rs.
Proof.
  induction 1 as [|r rs H Hs IH]; [reflexivity|]. cbn [map concat error_message_lines]. rewrite IH.
  unfold error_line. cbn [er_file er_line er_col er_msg]. rewrite (Z.mod_small (rp_col r) 4294967296) by exact H.
  repeat (rewrite <- !app_assoc; cbn [app s2l list_ascii_of_string]). reflexivity.
Qed.
Section Errors.
  Variable obj : Type.
  Lemma errors_reported src rs (v : list obj * option exn) ctx : columns_ok rs ->
    run_parser obj None src rs v ctx =
    match rs with
    | [] => (match snd v with None => Ok tt | Some x => Throw x end, ctx ++ fst v)
    | _ => (Throw (ParseException (error_message src rs)), ctx)
    end.
  Proof.
    intros H. rewrite run_parser_errors. destruct rs as [|r rs]; [reflexivity|].
    rewrite (message_eq src (r :: rs) H). reflexivity.
  Qed.
  Variable vhdl_syntax : str -> list report.
  Variable vhdl_visit : bool -> str -> list obj * option exn.
  Variable sv_syntax : lang -> str -> list report.
  Variable sv_visit : lang -> bool -> str -> list obj * option exn.
  Lemma vhdl_errors h fs dirs s d ctx : s <> [] -> columns_ok (vhdl_syntax s) -> snd (vhdl_visit h s) = None ->
    py_parse_str obj vhdl_syntax vhdl_visit sv_syntax sv_visit VHDL h fs $"utf-8" dirs s d ctx =
    match vhdl_syntax s with
    | [] => (Ok (ctx ++ fst (vhdl_visit h s)), ctx ++ fst (vhdl_visit h s), d)
    | rs => (Throw (ParseException (error_message $"<string>" rs)), ctx, d)
    end.
  Proof.
    intros Hs Hc Hv. destruct s as [|c s]; [contradiction|]. unfold py_parse_str, parse_text, vhdl_parse_str, to_utf8.
    change (seqb $"utf-8" $"utf-8") with true. cbv iota. unfold vhdl_parse_text.
    rewrite (errors_reported _ _ _ _ Hc). destruct (vhdl_syntax (c :: s)); [rewrite Hv|]; reflexivity.
  Qed.
  Lemma sv_errors l h fs dirs s d ctx b st : s <> [] -> is_verilog_lang l = true ->
    verilog_pp_str l (pp_fs fs) d dirs s = (Ok b, st) -> columns_ok (sv_syntax l (ob_text b)) ->
    snd (sv_visit l h (ob_text b)) = None ->
    py_parse_str obj vhdl_syntax vhdl_visit sv_syntax sv_visit l h fs $"utf-8" dirs s d ctx =
    match sv_syntax l (ob_text b) with
    | [] => (Ok (ctx ++ fst (sv_visit l h (ob_text b))), ctx ++ fst (sv_visit l h (ob_text b)), ps_db st)
    | rs => (Throw (ParseException (error_message $"<string>" rs)), ctx, ps_db st)
    end.
  Proof.
    intros Hs Hl E Hc Hv. destruct s as [|c s]; [contradiction|]. unfold py_parse_str, parse_text.
    assert (l <> VHDL) as Hn by (intros ->; discriminate).
    assert ((match l with VHDL => (vhdl_parse_str obj vhdl_syntax vhdl_visit h $"utf-8" (c :: s) ctx, d)
      | _ => if is_verilog_lang l then sv_parse_str obj sv_syntax sv_visit l h fs d dirs (c :: s) ctx
             else ((Throw (RuntimeError $"Unsupported language."), ctx), d) end)
      = sv_parse_str obj sv_syntax sv_visit l h fs d dirs (c :: s) ctx) as ->.
    { rewrite Hl. destruct l; try reflexivity. contradiction. }
    unfold sv_parse_str, sv_parse_text. rewrite E. rewrite (errors_reported _ _ _ _ Hc).
    destruct (sv_syntax l (ob_text b)); [rewrite Hv|]; reflexivity.
  Qed.
End Errors.
