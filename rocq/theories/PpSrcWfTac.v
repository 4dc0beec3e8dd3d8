(** Tactics that show that a concrete source is well formed (for the examples). *)
From Verif Require Import Base BaseFacts StrSpec StrUtilsModel StrUtilsProofs MacroSpec PpArgSpec PpSrcSpec.

Lemma no_args_head c t : c <> "("%char -> ~ blank c -> no_arguments (c :: t).
Proof. intros H1 H2 [|x w] u Hw E; injection E; intros; subst; [congruence|]. inversion Hw; subst. auto. Qed.
Fixpoint no_argsb (s : str) : bool := match s with c :: t => if ceqb c sp || ceqb c tab then no_argsb t else negb (ceqb c "(") | [] => true end.
Lemma no_args_ok s : no_argsb s = true -> no_arguments s.
Proof.
  intros H w t Hw ->. induction Hw as [|c w Hc _ IH]; [discriminate|]. apply IH. cbn [app no_argsb] in H. destruct Hc as [-> | ->]; exact H.
Qed.
Definition identb (n : str) : bool :=
  let letterb c := existsb (ceqb c) $"abcdefghijklmnopqrstuvwxyzABCDEFGHIJKLMNOPQRSTUVWXYZ_" in
  match n with c :: t => letterb c && forallb (fun x => letterb x || existsb (ceqb x) $"0123456789") t | [] => false end.
Lemma ident_ok n : identb n = true -> ident n.
Proof.
  assert (X : forall c l, existsb (ceqb c) l = true -> In c l) by (intros c l H; apply existsb_exists in H as (x & Hx & E); apply ceqb_eq in E; subst x; exact Hx).
  destruct n as [|c t]; [discriminate|]. cbn [identb]. intros H. apply andb_true_iff in H as [H1 H2]. exists c, t. split; [reflexivity|]. split; [apply X, H1|].
  rewrite forallb_forall in H2. apply Forall_forall. intros x Hx. specialize (H2 x Hx). apply orb_true_iff in H2 as [H2|H2]; [left|right]; apply X, H2.
Qed.
Lemma is_macro_name n : ident n -> forallb (fun r => negb (seqb r n)) reserved = true -> macro_name n.
Proof. intros H E. split; [exact H|]. intros HI. rewrite forallb_forall in E. specialize (E _ HI). rewrite seqb_refl in E. discriminate. Qed.
(** Bodies without strings. *)
Definition code_partb (x : str) : bool :=
  forallb (fun c => negb (existsb (ceqb c) [bs; dq; nl; cr])) x
  && (fix no_slashes x := match x with a :: (b :: _) as t => negb (ceqb a "/" && ceqb b "/") && no_slashes t | _ => true end) x
  && match rev x with c :: _ => negb (ceqb c "/" || ceqb c bt) | [] => true end.
Lemma code_part_ok x : code_partb x = true -> code_part x.
Proof.
  unfold code_partb. intros H. apply andb_true_iff in H as [H H3]. apply andb_true_iff in H as [H1 H2]. split; [|split].
  - unfold run_chars. rewrite forallb_forall in H1. apply Forall_forall. intros c Hc HI. specialize (H1 c Hc). apply negb_true_iff in H1. assert (existsb (ceqb c) [bs; dq; nl; cr] = true); [|congruence].
    apply existsb_exists. exists c. split; [exact HI|apply ceqb_refl].
  - clear H1 H3. intros (a & b & ->). induction a as [|c a IH]; [discriminate|]. apply IH. destruct a as [|d a]; [discriminate (proj2 (proj1 (andb_true_iff _ _) H2))|exact (proj2 (proj1 (andb_true_iff _ _) H2))].
  - intros y. split; intros ->; rewrite rev_app_distr in H3; discriminate.
Qed.
Lemma body_plain x : code_partb x = true -> dbody x.
Proof. intros H. apply db_last, code_part_ok, H. Qed.
(** Uses of macros. *)
Lemma expands_plain (sv : bool) d e n t b q : body_of e n = Some (None, b) ->
  (if sv then (u <- replace_substring b [bt; bt] [] ;; replace_substring u [bt; bs; bt] [bs]) = Ok (render q) else render q = b) ->
  wf q [] -> texts_and_calls q -> scanned (expands sv d e) 1 1 q t -> handy (render q) -> handy t -> expands sv (S d) e n None t.
Proof.
  intros H1 H2 H3 H4 H5 H6 H7. cbn [expands]. exists None, b, b, q. split; [exact H1|]. split; [reflexivity|]. split; [|auto 10]. unfold joined. destruct sv; [|exact H2].
  destruct (replace_substring_total b [bt; bt] [] ltac:(discriminate)) as (u & E & R & _). rewrite E in H2. cbn [bind] in H2.
  destruct (replace_substring_total u [bt; bs; bt] [bs] ltac:(discriminate)) as (v & E2 & R2 & _). rewrite E2 in H2. injection H2 as <-. eauto.
Qed.
Lemma trims l : Forall2 (trimmed [sp; tab; nl; cr]) l (map (trim [sp; tab; nl; cr]) l).
Proof. induction l as [|x l IH]; constructor; [apply trim_spec|exact IH]. Qed.
Lemma takes_all ps : forall given, forallb (fun p => match snd p with None => true | _ => false end) ps = true -> length given = length ps -> takes ps given given.
Proof. induction ps as [|[n [d|]] ps IH]; intros [|g given] H L; try discriminate; [exact Logic.I|]. cbn [takes]. split; [reflexivity|apply IH; [exact H|injection L as ->; reflexivity]]. Qed.
Lemma expands_args (sv : bool) d e n ps args t b r q : body_of e n = Some (Some ps, b) -> forallb (fun p => match snd p with None => true | _ => false end) ps && (length args =? length ps) = true ->
  let f := lookup (map fst ps) (map (trim [sp; tab; nl; cr]) args) in
  subst_std f b = Some r -> subst_no_bracket f b = Some r ->
  (if sv then (u <- replace_substring r [bt; bt] [] ;; replace_substring u [bt; bs; bt] [bs]) = Ok (render q) else render q = r) ->
  wf q [] -> texts_and_calls q -> scanned (expands sv d e) 1 1 q t -> handy (render q) -> handy t -> expands sv (S d) e n (Some args) t.
Proof.
  intros H1 HL f S1 S2 H2 H3 H4 H5 H6 H7. apply andb_true_iff in HL as [HD HL]. apply Nat.eqb_eq in HL. cbn [expands]. exists (Some ps), b, r, q. split; [exact H1|].
  split; [exists (map (trim [sp; tab; nl; cr]) args), (map (trim [sp; tab; nl; cr]) args); split; [apply trims|split; [apply takes_all; [exact HD|rewrite map_length; exact HL]|auto]]|].
  split; [|auto 10]. unfold joined. destruct sv; [|exact H2].
  destruct (replace_substring_total r [bt; bt] [] ltac:(discriminate)) as (u & E & R & _). rewrite E in H2. cbn [bind] in H2.
  destruct (replace_substring_total u [bt; bs; bt] [bs] ltac:(discriminate)) as (v & E2 & R2 & _). rewrite E2 in H2. injection H2 as <-. eauto.
Qed.
(** Arguments without brackets and strings. *)
Definition simple_argb (x : str) : bool := forallb (fun c => negb (existsb (ceqb c) ("/"%char :: $"()[]{}," ++ [dq]))) x.
Lemma simple_arg x : simple_argb x = true -> argument x.
Proof.
  unfold simple_argb, argument. induction x as [|c x IH]; intros H; [constructor|]. cbn [forallb] in H. apply andb_true_iff in H as [H1 H2]. apply negb_true_iff in H1.
  assert (N : ~ In c ("/"%char :: $"()[]{}," ++ [dq])).
  { intros Q. assert (existsb (ceqb c) ("/"%char :: $"()[]{}," ++ [dq]) = true); [|congruence]. apply existsb_exists. exists c. split; [exact Q|apply ceqb_refl]. }
  apply ba_char; [intros Q; apply N; right; exact Q| |apply IH, H2]. intros (t & [E|E]); injection E as -> _; apply N; left; reflexivity.
Qed.
Ltac nope := intros; cbn in *; intuition discriminate.
Ltac name := apply is_macro_name; [apply ident_ok; reflexivity|reflexivity].
Ltac blns := repeat (apply Forall_cons; [first [left; reflexivity|right; reflexivity]|]); apply Forall_nil.
Ltac blnk := split; [discriminate|blns].
Ltac sbod := repeat first [apply sb_nil|apply sb_pair; [discriminate|discriminate|]|apply sb_char; [discriminate|discriminate|discriminate|discriminate|]].
Ltac nfbs := let t := fresh in let E := fresh in intros t E; apply (f_equal (@rev ascii)) in E; rewrite rev_app_distr in E; discriminate E.
Ltac strg := lazymatch goal with |- piece_ok (PStr _) => split; [sbod|nfbs] end.
Ltac piec := split; [discriminate|split; [repeat (constructor; [nope|]); try constructor|]].
Ltac dire := right; eexists _, _; split; [reflexivity|cbn; tauto].
Ltac endw := let c := fresh in let t := fresh in let E := fresh in intros c t E; injection E as <- _; nope.
(** [wf_source] proves that a concrete source is well formed, up to a few cases about strings. *)
Ltac params := split; [discriminate|split;
  [repeat (constructor; [split; [blns|split; [apply ident_ok; reflexivity|blns]]|]); constructor
  |repeat (constructor; [cbn; intuition discriminate|]); constructor]].
Ltac wf_source :=
  repeat match goal with |- _ /\ _ => split end;
  lazymatch goal with
       | |- True => exact I
       | |- blanks _ => blnk
       | |- macro_name _ => name
       | |- ends_word [] => intros ? ? E; discriminate E
       | |- ends_word _ => first [endw | (let E := fresh in intros ? ? E; discriminate E)]
       | |- no_arguments _ => apply no_args_ok; reflexivity
       | |- directive_or_end [] => left; reflexivity
       | |- directive_or_end _ => first [dire | left; reflexivity]
       | |- Forall blank _ => blns
       | |- Forall piece_ok _ => repeat (apply Forall_cons; [try first [solve [nope]|strg]|]); apply Forall_nil
       | |- string_body _ => sbod
       | |- no_final_bs _ => nfbs
       | |- Forall argument _ => repeat (constructor; [try (apply simple_arg; reflexivity)|]); try constructor
       | |- Forall _ _ => repeat (constructor; [nope|]); constructor
       | |- _ <> _ => discriminate
       | |- ~ starts_blank _ => intros (c & t & E & [-> | ->]); discriminate
       | |- ~ ends_blank _ => intros (c & t & E & H); apply (f_equal (@rev ascii)) in E; rewrite rev_app_distr in E; cbn in E; injection E as <- _; destruct H; discriminate
       | |- dbody _ => try (apply body_plain; reflexivity)
       | |- params_ok None => exact I
       | |- params_ok (Some _) => params
       | |- sep_ok (SEol _) _ => exact I
       | |- false = true -> _ => discriminate
       | |- None = None -> _ => discriminate
       | |- Some _ = None -> _ => discriminate
       | |- _ => idtac
       end.
(** [meaning_of] computes the meaning of a concrete source up to the uses of macros. *)
Lemma meaning_is sv p o out : meaning sv p o -> o = out -> meaning sv p out.
Proof. intros H <-. exact H. Qed.
Lemma ev_nil sv e line cur : evals sv e line cur Nil ([], e, cur).
Proof. reflexivity. Qed.
Lemma ev_cons sv e line cur i r o1 e1 cur1 o2 e2 cur2 : evals_item sv e line cur i (o1, e1, cur1) -> evals sv e1 (line + lines (render_item i)) cur1 r (o2, e2, cur2) ->
  evals sv e line cur (Cons i r) (o1 ++ o2, e2, cur2).
Proof. intros H1 H2. exists o1, e1, cur1, o2, e2, cur2. auto. Qed.
Lemma ev_text sv e line cur ps : evals_item sv e line cur (IText ps) (catch_up cur line ++ text_of_pieces ps, e, line + lines (text_of_pieces ps)).
Proof. reflexivity. Qed.
Lemma ev_call sv e line cur n args t : expands sv max_depth e n args t -> evals_item sv e line cur (ICall n args) (catch_up cur line ++ t, e, line + lines t).
Proof. intros H. exists t. auto. Qed.
Lemma ev_def sv e line cur w1 n ps w2 b w3 c el : is_def e n = false -> evals_item sv e line cur (IDef w1 n ps w2 b w3 c el) ([], (n, (option_map (map (fun p => (param_name p, None))) ps, b)) :: e, cur).
Proof. intros H. split; [exact H|reflexivity]. Qed.
Lemma ev_def0 sv e line cur w1 n w2 el : is_def e n = false -> evals_item sv e line cur (IDef0 w1 n w2 el) ([], (n, (None, [])) :: e, cur).
Proof. intros H. split; [exact H|reflexivity]. Qed.
Lemma ev_if sv e line cur neg b els fin r : evals_branches sv e line cur neg b (fun line' => evals_else sv e line' cur els) r -> evals_item sv e line cur (IIf neg b els fin) r.
Proof. exact (fun H => H). Qed.
Lemma ev_one_yes sv e line cur neg w n g els o e' cur' : xorb neg (is_def e n) = true -> evals sv e line line g (o, e', cur') -> evals_branches sv e line cur neg (One w n g) els (catch_up cur line ++ o, e', cur').
Proof. intros H1 H2. cbn [evals_branches]. rewrite H1. exists o, e', cur'. auto. Qed.
Lemma ev_one_no sv e line cur neg w n g (els : nat -> result -> Prop) r : xorb neg (is_def e n) = false -> els (line + lines (render g)) r -> evals_branches sv e line cur neg (One w n g) els r.
Proof. intros H1 H2. cbn [evals_branches]. rewrite H1. exact H2. Qed.
Lemma ev_more_yes sv e line cur neg w n g b els o e' cur' : xorb neg (is_def e n) = true -> evals sv e line line g (o, e', cur') -> evals_branches sv e line cur neg (More w n g b) els (catch_up cur line ++ o, e', cur').
Proof. intros H1 H2. cbn [evals_branches]. rewrite H1. exists o, e', cur'. auto. Qed.
Lemma ev_more_no sv e line cur neg w n g b els r : xorb neg (is_def e n) = false -> evals_branches sv e (line + lines (render g)) cur neg b els r -> evals_branches sv e line cur neg (More w n g b) els r.
Proof. intros H1 H2. cbn [evals_branches]. rewrite H1. exact H2. Qed.
Lemma ev_noelse sv e line cur : evals_else sv e line cur NoElse ([], e, cur).
Proof. reflexivity. Qed.
Lemma ev_else sv e line cur s g o e' cur' : evals sv e (line + lines (sep_text s)) (line + lines (sep_text s)) g (o, e', cur') -> evals_else sv e line cur (Else s g) (catch_up cur (line + lines (sep_text s)) ++ o, e', cur').
Proof. intros H. exists o, e', cur'. auto. Qed.
Ltac evs :=
  lazymatch goal with
  | |- evals _ _ _ _ Nil _ => apply ev_nil
  | |- evals _ _ _ _ (Cons _ _) _ => eapply ev_cons; [evs|evs]
  | |- evals_item _ _ _ _ (IText _) _ => apply ev_text
  | |- evals_item _ _ _ _ (ICall _ _) _ => eapply ev_call
  | |- evals_item _ _ _ _ (IIf _ _ _ _) _ => apply ev_if; evs
  | |- evals_item _ _ _ _ (IDef0 _ _ _ _) _ => apply ev_def0; reflexivity
  | |- evals_item _ _ _ _ _ _ => apply ev_def; reflexivity
  | |- evals_branches _ _ _ _ _ (One _ _ _) _ _ => first [eapply ev_one_yes; [reflexivity|evs] | eapply ev_one_no; [reflexivity|evs]]
  | |- evals_branches _ _ _ _ _ (More _ _ _ _) _ _ => first [eapply ev_more_yes; [reflexivity|evs] | eapply ev_more_no; [reflexivity|evs]]
  | |- evals_else _ _ _ _ NoElse _ => apply ev_noelse
  | |- evals_else _ _ _ _ _ _ => eapply ev_else; evs
  end.
Ltac meaning_of := eapply meaning_is; [eexists _, _; evs|].
(** Uses of macros: [q] is the text that is scanned again, [r] the body with its arguments. *)
Lemma sc_nil call line cur : scanned call line cur Nil [].
Proof. reflexivity. Qed.
Lemma sc_text call line cur ps q u : scanned call (line + lines (text_of_pieces ps)) (line + lines (text_of_pieces ps)) q u -> scanned call line cur (Cons (IText ps) q) (catch_up cur line ++ text_of_pieces ps ++ u).
Proof. intros H. exists u. auto. Qed.
Lemma sc_call (call : str -> option (list str) -> str -> Prop) line cur n args q a u : call n args a -> scanned call (line + lines (render_item (ICall n args))) (line + lines a) q u -> scanned call line cur (Cons (ICall n args) q) (catch_up cur line ++ a ++ u).
Proof. intros H1 H2. exists a, u. auto. Qed.
Ltac scs := lazymatch goal with |- scanned _ _ _ Nil _ => apply sc_nil | |- scanned _ _ _ (Cons (IText _) _) _ => eapply sc_text; scs | |- scanned _ _ _ (Cons (ICall _ _) _) _ => eapply sc_call; [|scs] end.
Ltac no_bt := cbn [texts_and_calls]; repeat (split; [let H := fresh in intros H; vm_compute in H; repeat (destruct H as [H|H]; [discriminate H|]); contradiction|]); exact I.
Ltac use_plain q := eapply (expands_plain _ _ _ _ _ _ q); [vm_compute; reflexivity|vm_compute; reflexivity|cbn [wf wf_item]; wf_source|no_bt|scs| |].
Ltac use_args r q := eapply (expands_args _ _ _ _ _ _ _ _ r q); [vm_compute; reflexivity|reflexivity|vm_compute; reflexivity|vm_compute; reflexivity|vm_compute; reflexivity|cbn [wf wf_item]; wf_source|no_bt|scs| |].
