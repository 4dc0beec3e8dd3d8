(** Every legal statement is parsed into its tree. *)
From Verif Require Import Base AstModel StmModel LitModel SvExprModel VhdlExprModel VhdlStmModel VhdlStmSpec VhdlStmProofs VhdlSyntaxModel VhdlSyntaxSpec VhdlSyntaxProofs VhdlStmSyntaxModel VhdlStmSyntaxSpec.
Local Notation is_name := VhdlSyntaxModel.is_name.

(** ** Expressions in statements *)
Definition calm (r : list hstk) : Prop := match r with X t :: _ => ends [t] | _ => True end.
Definition tidy (r : list hstk) : Prop := match r with X t :: _ => clean0 [t] | _ => True end.
Lemma xsplit_app ts r : xsplit (map X ts ++ r) = (ts ++ fst (xsplit r), snd (xsplit r)).
Proof. induction ts as [|t ts IH]; cbn [map app xsplit]; [destruct (xsplit r); reflexivity|rewrite IH; reflexivity]. Qed.
Lemma xsplit_back r : map X (fst (xsplit r)) ++ snd (xsplit r) = r.
Proof. induction r as [|t r IH]; [reflexivity|]. destruct t; try reflexivity. cbn [xsplit]. destruct (xsplit r). cbn [fst snd map app] in *. rewrite IH. reflexivity. Qed.
Lemma x_with_ok {A : Type} p (x : A) ts r : ok (fun f => p f (ts ++ fst (xsplit r))) (12 * length ts + 12) (x, fst (xsplit r)) -> x_with p (map X ts ++ r) = Ok (x, r).
Proof. intros H. unfold x_with. rewrite xsplit_app. rewrite H by (rewrite app_length; lia). cbn [bind]. rewrite xsplit_back. reflexivity. Qed.
Lemma calm_ends r : calm r -> ends (fst (xsplit r)).
Proof. destruct r as [|[t| | | | | |] r]; intros H; try exact Logic.I. cbn [xsplit]. destruct (xsplit r). destruct t; try contradiction; exact Logic.I. Qed.
Lemma tidy_clean r : tidy r -> clean0 (fst (xsplit r)).
Proof. destruct r as [|[t| | | | | |] r]; intros H; try exact Logic.I. cbn [xsplit]. destruct (xsplit r). destruct t; try contradiction; exact Logic.I. Qed.
Lemma x_expr_ok e r : legal e -> calm r -> x_expr (xs e ++ r) = Ok (e, r).
Proof.
  intros P C. apply x_with_ok. destruct (parse_both (length (vshow e))) as [H _]. apply calm_ends, ends_ok in C as (C1 & C2 & C3).
  eapply ok_more; [|apply (H e (le_n _) P 0 _ (e, _) 1 ltac:(lia)); [lia|exact C2|exact C3|lia|apply eloop_end, C1]]. lia.
Qed.
Lemma x_simple_ok e r : legal_simple e -> calm r -> x_simple (xs e ++ r) = Ok (e, r).
Proof.
  intros [P L] C. apply x_with_ok. destruct (parse_both (length (vshow e))) as [_ H]. apply calm_ends, ends_ok in C as (C1 & C2 & C3).
  eapply ok_more; [|apply (H e (le_n _) P L 0 _ (e, _) 1 ltac:(lia)); [lia|exact C3|lia|apply sloop_end, C2]]. lia.
Qed.
Lemma name_all e : legal_name e -> forall r, clean0 r -> ok (fun f => name_of f (vshow e ++ r)) (12 * length (vshow e) + 12) (e, r).
Proof.
  intros [P N] r C. destruct (parse_both (length (vshow e))) as [H1 H2].
  destruct (name_ok (length (vshow e)) H1 H2 (length (vshow e)) e (le_n _) ltac:(lia) P N) as (l & ts & E & H). rewrite E. cbn [app name_of]. eapply ok_more; [|exact (H r (e, r) 1 (le_n _) (name_end e r C))]. cbn [length]. lia.
Qed.
Lemma x_name_ok e r : legal_name e -> tidy r -> x_name (xs e ++ r) = Ok (e, r).
Proof. intros P T. apply x_with_ok. apply name_all; [exact P|apply tidy_clean, T]. Qed.
Lemma x_target_ok e r : legal_target e -> tidy r -> x_target (xs e ++ r) = Ok (e, r).
Proof.
  intros [P T] C. apply x_with_ok. apply tidy_clean in C. destruct T as [N|[l ->]].
  - assert (H := name_all e (conj P N) (fst (xsplit r)) C). assert (F : exists l q, vshow e = KLit l :: q) by (destruct (vshow_first e P) as (t & q & -> & _ & _ & _ & T); specialize (T N); destruct t; try contradiction; eauto).
    destruct F as (l & q & E). rewrite E in *. exact H.
  - cbn [legal] in P. destruct P as [NE L]. destruct (parse_both (length (vshow (HAgg l)))) as [H1 H2]. assert (H := elems_ok _ H1 H2 l (fst (xsplit r)) NE L). cbn [vshow length app] in *. rewrite app_length in *. cbn [length] in *.
    rewrite <- app_assoc. cbn [app]. intros m Lm. cbn [target_of]. rewrite H by lia. reflexivity.
Qed.
Lemma xs_first e : legal e -> exists t q, xs e = X t :: q /\ starter t /\ (is_name e = true \/ (exists l, e = HAgg l) -> t <> KNull).
Proof.
  intros P. destruct (vshow_first e P) as (t & r & E & S & _ & _ & N). exists t, (map X r). unfold xs. rewrite E. split; [reflexivity|]. split; [exact S|].
  intros [H|[l ->]]; [specialize (N H); destruct t; try contradiction; discriminate|]. cbn [vshow] in E. injection E as <- _. discriminate.
Qed.
Lemma xs_pos e : legal e -> 0 < length (xs e).
Proof. intros P. destruct (xs_first e P) as (t & q & -> & _). cbn. lia. Qed.
Ltac head P := let t := fresh "t" in let q := fresh "q" in let E := fresh "E" in let S := fresh "S" in
  destruct (xs_first _ P) as (t & q & E & S & _); rewrite E; cbn [app]; destruct t; try contradiction.

(** ** Parts *)
Lemma p_sep_ok {A : Type} sep (s : hstk) item (f : A -> list hstk) (R : list hstk -> Prop) (P : A -> Prop) :
  sep s = true -> (forall q, R (s :: q)) -> (forall x r, P x -> R r -> item (f x ++ r) = Ok (x, r)) ->
  forall l r n, l <> [] -> all P l -> R r -> match r with t :: _ => sep t = false | [] => True end -> length (sep_by s f l) < n -> p_sep sep item n (sep_by s f l ++ r) = Ok (l, r).
Proof.
  intros HS HR HI. induction l as [|x l IH]; intros r n NE HL Rr Nr Ln; [destruct (NE eq_refl)|]. destruct n as [|n]; [lia|]. destruct HL as [Px Pl]. destruct l as [|y l].
  - cbn [sep_by p_sep] in *. rewrite (HI x r Px Rr). cbn [bind]. destruct r as [|t r]; [reflexivity|]. rewrite Nr. reflexivity.
  - change (sep_by s f (x :: y :: l)) with (f x ++ s :: sep_by s f (y :: l)) in *. rewrite <- app_assoc. cbn [app p_sep]. rewrite (HI x _ Px (HR _)). cbn [bind]. rewrite HS.
    rewrite app_length in Ln. cbn [length] in Ln. rewrite IH; [reflexivity|discriminate|exact Pl|exact Rr|exact Nr|lia].
Qed.
Lemma p_many_ok {A : Type} sep (s : hstk) item (f : A -> list hstk) (R : list hstk -> Prop) (P : A -> Prop) :
  sep s = true -> (forall q, R (s :: q)) -> (forall x r, P x -> R r -> item (f x ++ r) = Ok (x, r)) ->
  forall l r, l <> [] -> all P l -> R r -> match r with t :: _ => sep t = false | [] => True end -> p_many sep item (sep_by s f l ++ r) = Ok (l, r).
Proof. intros HS HR HI l r NE HL Rr Nr. unfold p_many. apply (p_sep_ok sep s item f R P); auto. rewrite app_length. lia. Qed.
Lemma names_ok l t r : l <> [] -> all legal_name l -> tidy (t :: r) -> comma t = false -> p_many comma x_name (sep_by (X KComma) xs l ++ t :: r) = Ok (l, t :: r).
Proof. intros NE L T N. apply (p_many_ok comma (X KComma) x_name xs tidy legal_name); auto; [intros; exact Logic.I|]. intros x q P Q. exact (x_name_ok x q P Q). Qed.
(** the next token is not the keyword *)
Definition other (k : hkw) (r : list hstk) : Prop := match r with Kw k' :: _ => k' <> k | _ => True end.
Lemma hkw_refl k : hkw_beq k k = true.
Proof. destruct k; reflexivity. Qed.
Lemma hkw_other k k' : k' <> k -> hkw_beq k k' = false.
Proof. intros N. destruct (hkw_beq k k') eqn:E; [|reflexivity]. apply internal_hkw_dec_bl in E. congruence. Qed.
Lemma p_opt_ok k e r : legal_opt e -> calm r -> other k r -> p_opt k (opt_ k e ++ r) = Ok (e, r).
Proof.
  intros P C O. destruct e as [e|]; cbn [opt_ app].
  - cbn [p_opt]. rewrite hkw_refl, (x_expr_ok e r P C). reflexivity.
  - unfold p_opt. destruct r as [|[t| | | | |k'|] r]; try reflexivity. rewrite hkw_other by exact O. reflexivity.
Qed.
Lemma opt_calm k e r : calm r -> calm (opt_ k e ++ r).
Proof. intros C. destruct e; [exact Logic.I|exact C]. Qed.
Lemma opt_other k k' e r : k' <> k -> other k r -> other k (opt_ k' e ++ r).
Proof. intros N C. destruct e; [exact N|exact C]. Qed.
Definition after_elem (r : list hstk) : Prop := match r with X KComma :: _ | Kw k_when :: _ | Semi :: _ => True | _ => False end.
Lemma p_welem_ok p r : legal_welem p -> after_elem r -> p_welem (welem_toks p ++ r) = Ok (p, r).
Proof.
  intros [P D] C. destruct p as [e d]. cbn [fst snd] in *. unfold p_welem, welem_toks. cbn [fst snd]. rewrite <- app_assoc.
  assert (C2 : calm r /\ other k_after r) by (destruct r as [|[[]| | | | |[]|] r]; try contradiction; repeat split; discriminate). rewrite x_expr_ok by (auto; apply opt_calm, C2). cbn [bind]. rewrite p_opt_ok by (auto; apply C2). reflexivity.
Qed.
Definition after_wave (r : list hstk) : Prop := match r with Kw k_when :: _ | Semi :: _ => True | _ => False end.
Lemma p_wave_ok w r : legal_wave w -> after_wave r -> p_wave (wave_toks w ++ r) = Ok (w, r).
Proof.
  destruct w as [x l|]; intros P C; [|reflexivity]. cbn [wave_toks].
  assert (E : p_many comma p_welem (sep_by (X KComma) welem_toks (x :: l) ++ r) = Ok (x :: l, r)).
  { apply (p_many_ok comma (X KComma) p_welem welem_toks after_elem legal_welem); auto; [intros; exact Logic.I|intros; apply p_welem_ok; auto|discriminate| |]; destruct r as [|[[]| | | | |[]|] r]; try contradiction; exact Logic.I || reflexivity. }
  assert (H : exists t q, sep_by (X KComma) welem_toks (x :: l) ++ r = X t :: q).
  { destruct P as [[P _] _]. destruct (xs_first _ P) as (t & q & F & _). exists t. destruct l; [cbn [sep_by]|change (sep_by (X KComma) welem_toks (x :: w :: l)) with (welem_toks x ++ X KComma :: sep_by (X KComma) welem_toks (w :: l))]; unfold welem_toks; rewrite F; eexists; reflexivity. }
  destruct H as (t & q & F). rewrite F in *. cbn [p_wave]. rewrite E. reflexivity.
Qed.
Lemma p_conds_ok {A : Type} item (f : A -> list hstk) (P : A -> Prop) : (forall x r, P x -> after_wave r -> item (f x ++ r) = Ok (x, r)) ->
  forall l c e x r n, P x -> legal c -> all (fun p => P (fst p) /\ legal (snd p)) l -> match e with Some y => P y | None => True end -> length (cond_toks f l e) < n ->
  p_conds item n x (xs c ++ cond_toks f l e ++ Semi :: r) = Ok (((x, c) :: l, e), Semi :: r).
Proof.
  intros HI. induction l as [|[y d] l IH]; intros c e x r n Px Pc L E Ln; (destruct n as [|n]; [lia|]); cbn [p_conds].
  - cbn [cond_toks]. destruct e as [y|]; cbn [app].
    + rewrite x_expr_ok by (auto; exact Logic.I). cbn [bind]. rewrite HI by (assumption || exact Logic.I). reflexivity.
    + rewrite x_expr_ok by (auto; exact Logic.I). reflexivity.
  - destruct L as [[Py Pd] L]. cbn [fst snd] in *. cbn [cond_toks fst snd app]. rewrite x_expr_ok by (auto; exact Logic.I). cbn [bind]. rewrite <- app_assoc. cbn [app]. rewrite HI by (assumption || exact Logic.I). cbn [bind].
    rewrite <- app_assoc. cbn [cond_toks fst snd length] in Ln. rewrite app_length in Ln. cbn [length] in Ln. rewrite app_length in Ln. rewrite IH by (auto; lia). reflexivity.
Qed.
Lemma p_range_ok any x r : (match x with R_name e => legal_simple e /\ (any = true \/ is_name e = true) | R_explicit a _ b => legal_simple a /\ legal_simple b end) ->
  calm r -> (forall d q, r <> X (KDir d) :: q) -> p_range any (range_toks x ++ r) = Ok (x, r).
Proof.
  intros P C N. unfold p_range. destruct x as [e|a d b]; cbn [range_toks].
  - destruct P as [P B]. rewrite x_simple_ok by auto. cbn [bind]. assert (E : any || is_name e = true) by (destruct B as [->| ->]; [reflexivity|apply Bool.orb_true_r]). rewrite E. destruct r as [|[[]| | | | | |] r]; try reflexivity. destruct (N d r eq_refl).
  - destruct P as [Pa Pb]. rewrite <- app_assoc. cbn [app]. rewrite x_simple_ok by (auto; exact Logic.I). cbn [bind]. rewrite x_simple_ok by auto. reflexivity.
Qed.
Definition after_choice (r : list hstk) : Prop := match r with X (KBar | KArrow | KComma) :: _ | Semi :: _ => True | _ => False end.
Lemma p_choice1_ok c r : legal_choice legal c -> after_choice r -> p_choice1 (choice_toks c ++ r) = Ok (c, r).
Proof.
  intros P C. destruct c as [|x]; [reflexivity|]. cbn [choice_toks].
  assert (E : p_range true (range_toks x ++ r) = Ok (x, r)).
  { apply p_range_ok; [destruct x; cbn [legal_choice] in P; [split; [exact P|left; reflexivity]|exact P]| |]; destruct r as [|[[]| | | | | |] r]; try contradiction; try exact Logic.I; discriminate. }
  assert (H : exists t q, range_toks x ++ r = X t :: q /\ t <> KOthers).
  { destruct x as [e|a d b]; cbn [legal_choice range_toks] in *; [destruct P as [P _]|destruct P as [[P _] _]]; destruct (xs_first _ P) as (t & q & F & S & _); rewrite F; exists t; eexists; (split; [reflexivity|]); intros ->; exact S. }
  destruct H as (t & q & F & N). rewrite F in *. unfold p_choice1. destruct t; try (rewrite E; reflexivity). destruct (N eq_refl).
Qed.
Lemma choices_ok l t r : legal_choices l -> after_choice (t :: r) -> t <> X KBar -> p_many bar p_choice1 (choices_toks l ++ t :: r) = Ok (l, t :: r).
Proof.
  intros [NE L] C N. apply (p_many_ok bar (X KBar) p_choice1 choice_toks after_choice (legal_choice legal)); auto; [intros; exact Logic.I|intros; apply p_choice1_ok; auto|].
  destruct t as [[]| | | | | |]; try reflexivity. destruct (N eq_refl).
Qed.
Lemma opt_label_ok l r : match r with X (KLit (NL_id _)) :: _ => False | _ => True end -> opt_label (label_toks l ++ r) = (l, r).
Proof. destruct l as [s|]; intros H; [reflexivity|]. cbn [label_toks app]. destruct r as [|[[[]| | | | | | | | | | | | | | | | | | | | | | | |]| | | | | |] r]; try reflexivity; contradiction. Qed.
Lemma p_close_ok k n r : p_close k (close_toks k n ++ r) = Ok (n, r).
Proof. unfold p_close, close_toks. cbn [app expect hkw_beq bind]. rewrite hkw_refl. cbn [bind]. rewrite <- app_assoc. rewrite opt_label_ok by exact Logic.I. reflexivity. Qed.
Lemma opt_quest_ok q r : match r with Quest :: _ => False | _ => True end -> opt_quest (quest_toks q ++ r) = (q, r).
Proof. destruct q; intros H; [reflexivity|]. cbn [quest_toks app]. destruct r as [|[]]; try reflexivity. contradiction. Qed.
Lemma p_waves_ok w r : legal_wave w -> p_waves (wave_toks w ++ Semi :: r) = Ok (inl w, r).
Proof. intros P. unfold p_waves. rewrite p_wave_ok by (auto; exact Logic.I). reflexivity. Qed.
Lemma p_waves_cond w r : legal_condwave w -> p_waves (condwave_toks w ++ Semi :: r) = Ok (inr w, r).
Proof.
  destruct w as [[w c] l e]. intros (_ & [[Pw Pc] L] & E). cbn [fst snd] in *. unfold p_waves. cbn [condwave_toks conds_toks fst snd]. rewrite <- app_assoc. cbn [app]. rewrite p_wave_ok by (auto; exact Logic.I). cbn [bind].
  rewrite <- app_assoc. rewrite (p_conds_ok p_wave wave_toks legal_wave p_wave_ok) by (try assumption; rewrite !app_length; lia). reflexivity.
Qed.
Lemma expect_ok k r : expect k (Kw k :: r) = Ok r.
Proof. unfold expect. rewrite hkw_refl. reflexivity. Qed.

Ltac side := first [assumption | exact Logic.I | apply opt_calm; side | apply opt_other; [discriminate|side]].

(** ** Statements *)
Section Statements.
Context (strict : bool).
Notation legal_stm := (legal_stm strict).
Definition read (s : hstm) : Prop := legal_stm s -> forall r f, 4 * length (stm_toks s) + 2 <= f -> p_stm f (stm_toks s ++ r) = Ok (s, r).
Definition starts_stm (ts : list hstk) : Prop := match ts with X _ :: _ | Kw (k_wait | k_assert | k_report | k_next | k_exit | k_return | k_if | k_case | k_loop | k_while | k_for) :: _ => True | _ => False end.
Lemma item_first l i r : legal_item strict legal_stm l i -> starts_stm (item_toks stm_toks i ++ r).
Proof.
  destruct i; intros P; try exact Logic.I; try contradiction; cbn [item_toks legal_item] in *;
    try (destruct delay; [contradiction|]); try destruct P as [[P _] _]; try destruct P as [P _]; destruct (xs_first _ P) as (t0 & q & F & _); rewrite F; exact Logic.I.
Qed.
Lemma stm_first s r : legal_stm s -> starts_stm (stm_toks s ++ r).
Proof. destruct s as [[l|] i]; [intros; exact Logic.I|]. cbn [stm_toks app]. intros P. apply (item_first None). exact P. Qed.
Lemma stm_pos s : legal_stm s -> 0 < length (stm_toks s).
Proof. intros P. pose proof (stm_first s [] P) as H. rewrite app_nil_r in H. destruct (stm_toks s); [contradiction|cbn; lia]. Qed.
Lemma seqs_ok l : Forall read l -> all legal_stm l -> forall r f, ends_seq r = true -> 4 * length (seq_toks stm_toks l) + 3 <= f -> p_stms f (seq_toks stm_toks l ++ r) = Ok (l, r).
Proof.
  induction l as [|s l IH]; intros H L r f E Lf; (destruct f as [|f]; [lia|]).
  - cbn [seq_toks flat_map app p_stms]. rewrite E. reflexivity.
  - inversion H as [|? ? Hs Hl]. subst. destruct L as [Ls Ll]. cbn [seq_toks flat_map] in *. rewrite <- app_assoc. cbn [p_stms].
    rewrite app_length in Lf. pose proof (stm_pos s Ls). pose proof (stm_first s (flat_map stm_toks l ++ r) Ls) as F.
    assert (N : ends_seq (stm_toks s ++ flat_map stm_toks l ++ r) = false) by (destruct (stm_toks s ++ flat_map stm_toks l ++ r) as [|[| | | | |[]|] ?]; try contradiction; reflexivity).
    rewrite N. rewrite Hs by (auto; lia). cbn [bind]. unfold seq_toks in IH. rewrite IH by (auto; lia). reflexivity.
Qed.
Definition elsif_toks (p : hexpr * list hstm) : list hstk := Kw k_elsif :: xs (fst p) ++ Kw k_then :: seq_toks stm_toks (snd p).
Definition alt_toks (p : list (hchoice hexpr) * list hstm) : list hstk := Kw k_when :: choices_toks (fst p) ++ X KArrow :: seq_toks stm_toks (snd p).
Lemma elsifs_ok l : Forall (fun p => Forall read (snd p)) l -> all (fun p => legal (fst p) /\ all legal_stm (snd p)) l -> forall r f, ends_seq r = true -> other k_elsif r ->
  4 * length (flat_map elsif_toks l) + 3 <= f -> p_elsifs f (flat_map elsif_toks l ++ r) = Ok (l, r).
Proof.
  induction l as [|[c b] l IH]; intros H L r f E O Lf; (destruct f as [|f]; [lia|]).
  - cbn [flat_map app p_elsifs]. destruct r as [|[t| | | | |k|] r]; try reflexivity. destruct k; try reflexivity. destruct (O eq_refl).
  - inversion H as [|? ? Hs Hl]. subst. destruct L as [[Lc Lb] Ll]. cbn [fst snd] in *. cbn [flat_map elsif_toks fst snd app] in *. repeat (cbn [length] in Lf; rewrite app_length in Lf); cbn [length] in Lf. repeat (rewrite <- app_assoc; cbn [app]). cbn [p_elsifs].
    rewrite x_expr_ok by (auto; exact Logic.I). cbn [bind app]. rewrite expect_ok. cbn [bind]. rewrite seqs_ok; [|exact Hs|exact Lb|destruct l; [exact E|reflexivity]|lia]. cbn [bind].
    rewrite IH by (auto; lia). reflexivity.
Qed.
Lemma alts_ok l : Forall (fun p => Forall read (snd p)) l -> all (fun p => legal_choices (fst p) /\ all legal_stm (snd p)) l -> forall r f, ends_seq r = true -> other k_when r ->
  4 * length (flat_map alt_toks l) + 3 <= f -> p_alts f (flat_map alt_toks l ++ r) = Ok (l, r).
Proof.
  induction l as [|[c b] l IH]; intros H L r f E O Lf; (destruct f as [|f]; [lia|]).
  - cbn [flat_map app p_alts]. destruct r as [|[t| | | | |k|] r]; try reflexivity. destruct k; try reflexivity. destruct (O eq_refl).
  - inversion H as [|? ? Hs Hl]. subst. destruct L as [[Lc Lb] Ll]. cbn [fst snd] in *. cbn [flat_map alt_toks fst snd app] in *. repeat (cbn [length] in Lf; rewrite app_length in Lf); cbn [length] in Lf. repeat (rewrite <- app_assoc; cbn [app]). cbn [p_alts].
    rewrite choices_ok by (auto; try exact Logic.I; discriminate). cbn [bind]. rewrite seqs_ok; [|exact Hs|exact Lb|destruct l; [exact E|reflexivity]|lia]. cbn [bind].
    rewrite IH by (auto; lia). reflexivity.
Qed.
Lemma else_ok e : match e with Some b => Forall read b | None => True end -> match e with Some b => all legal_stm b | None => True end -> forall r f, ends_seq r = true -> other k_else r ->
  4 * length (match e with Some b => Kw k_else :: seq_toks stm_toks b | None => [] end) + 3 <= f -> p_else f (match e with Some b => Kw k_else :: seq_toks stm_toks b | None => [] end ++ r) = Ok (e, r).
Proof.
  intros H L r f E O Lf. destruct f as [|f]; [lia|]. destruct e as [b|]; cbn [app p_else].
  - cbn [length] in Lf. rewrite seqs_ok by (auto; lia). reflexivity.
  - destruct r as [|[t| | | | |k|] r]; try reflexivity. destruct k; try reflexivity. destruct (O eq_refl).
Qed.
Lemma assign_x f e r : legal_target e -> p_item (S f) (xs e ++ r) = p_assign (xs e ++ r).
Proof. intros [P T]. destruct (xs_first e P) as (t & q & -> & _ & N). specialize (N T). cbn [app p_item]. destruct t; try reflexivity. destruct (N eq_refl). Qed.
Lemma name_target e : legal_name e -> legal_target e.
Proof. intros [P N]. split; [exact P|left; exact N]. Qed.
Lemma item_ok l i : hk_item read i -> legal_item strict legal_stm l i -> forall r f, 4 * length (item_toks stm_toks i) + 1 <= f -> p_item f (item_toks stm_toks i ++ r) = Ok (i, r).
Proof.
  intros K P r f Lf. destruct f as [|f]; [lia|]. destruct i; cbn [legal_item hk_item] in *; try contradiction; cbn [item_toks] in *.
  - destruct P as (P1 & P2 & P3). cbn [app p_item]. unfold p_wait. repeat (rewrite <- app_assoc; cbn [app]).
    assert (T : forall z, p_opt k_until (opt_ k_until until ++ opt_ k_for for_ ++ Semi :: z) = Ok (until, opt_ k_for for_ ++ Semi :: z) /\ p_opt k_for (opt_ k_for for_ ++ Semi :: z) = Ok (for_, Semi :: z)).
    { intros z. split; apply p_opt_ok; side. }
    destruct (T r) as [T1 T2]. destruct on as [|x on].
    + cbn [app]. assert (E : match opt_ k_until until ++ opt_ k_for for_ ++ Semi :: r with Kw k_on :: r0 => p_many comma x_name r0 | _ => Ok ([], opt_ k_until until ++ opt_ k_for for_ ++ Semi :: r) end = Ok ([], opt_ k_until until ++ opt_ k_for for_ ++ Semi :: r)) by (destruct until, for_; reflexivity).
      rewrite E. cbn [bind]. rewrite T1. cbn [bind]. rewrite T2. reflexivity.
    + cbn [app]. assert (E : p_many comma x_name (sep_by (X KComma) xs (x :: on) ++ opt_ k_until until ++ opt_ k_for for_ ++ Semi :: r) = Ok (x :: on, opt_ k_until until ++ opt_ k_for for_ ++ Semi :: r)).
      { destruct until, for_; apply names_ok; try discriminate; try exact P1; try exact Logic.I; reflexivity. }
      rewrite E. cbn [bind]. rewrite T1. cbn [bind]. rewrite T2. reflexivity.
  - destruct P as (P1 & P2 & P3). cbn [app p_item]. unfold p_assert. repeat (rewrite <- app_assoc; cbn [app]).
    rewrite x_expr_ok by side. cbn [bind]. rewrite p_opt_ok by side. cbn [bind]. rewrite p_opt_ok by (auto; exact Logic.I). reflexivity.
  - destruct P as (P1 & P2). cbn [app p_item]. unfold p_report. repeat (rewrite <- app_assoc; cbn [app]).
    rewrite x_expr_ok by side. cbn [bind]. rewrite p_opt_ok by (auto; exact Logic.I). reflexivity.
  - destruct delay; [contradiction|]. destruct P as (P1 & P2). repeat (rewrite <- app_assoc; cbn [app]). rewrite assign_x by exact P1. unfold p_assign. rewrite x_target_ok by (auto; exact Logic.I). cbn [bind]. rewrite p_waves_ok by auto. reflexivity.
  - destruct delay; [contradiction|]. destruct P as (P1 & P2). repeat (rewrite <- app_assoc; cbn [app]). rewrite assign_x by exact P1. unfold p_assign. rewrite x_target_ok by (auto; exact Logic.I). cbn [bind]. rewrite p_waves_cond by auto. reflexivity.
  - destruct P as (P1 & P2). repeat (rewrite <- app_assoc; cbn [app]). rewrite assign_x by exact P1. unfold p_assign. rewrite x_target_ok by (auto; exact Logic.I). cbn [bind]. unfold p_value. rewrite x_expr_ok by (auto; exact Logic.I). reflexivity.
  - destruct P as (P1 & NE & P2 & P3). repeat (rewrite <- app_assoc; cbn [app]). rewrite assign_x by exact P1. unfold p_assign. rewrite x_target_ok by (auto; exact Logic.I). cbn [bind]. unfold p_value.
    destruct l0 as [|[x c] l0]; [destruct (NE eq_refl)|]. destruct P2 as [[Px Pc] P2]. cbn [fst snd] in *. cbn [conds_toks fst snd]. repeat (rewrite <- app_assoc; cbn [app]). rewrite x_expr_ok by (auto; exact Logic.I). cbn [bind].
    assert (HX : forall y q, legal y -> after_wave q -> x_expr (xs y ++ q) = Ok (y, q)) by (intros y q Py Q; apply x_expr_ok; [exact Py|destruct q as [|[]]; try contradiction; exact Logic.I]).
    rewrite (p_conds_ok x_expr xs legal HX) by (try assumption; rewrite !app_length; lia). reflexivity.
  - repeat (rewrite <- app_assoc; cbn [app]). rewrite assign_x by (apply name_target, P). unfold p_assign. rewrite x_target_ok by (auto using name_target; exact Logic.I). cbn [bind]. rewrite (proj2 P). reflexivity.
  - destruct P as (P1 & P2 & P3 & P4 & _). destruct K as (K1 & K2 & K3). change (flat_map _ elifs) with (flat_map elsif_toks elifs) in *. cbn [app p_item length] in *. repeat (rewrite app_length in Lf; cbn [length] in Lf). repeat (rewrite <- app_assoc; cbn [app]).
    rewrite x_expr_ok by (auto; exact Logic.I). cbn [bind]. rewrite expect_ok. cbn [bind].
    rewrite seqs_ok; [|exact K1|exact P2|destruct elifs; [destruct else_; reflexivity|reflexivity]|lia]. cbn [bind].
    rewrite elsifs_ok; [|exact K2|exact P3|destruct else_; reflexivity|destruct else_; cbn; discriminate|lia]. cbn [bind].
    rewrite else_ok; [|destruct else_; [exact K3|exact Logic.I]|exact P4|reflexivity|cbn; discriminate|lia]. cbn [bind]. rewrite p_close_ok. reflexivity.
  - destruct P as (P1 & NE & P2 & _). change (flat_map _ l0) with (flat_map alt_toks l0) in *. cbn [app p_item length] in *. repeat (rewrite app_length in Lf; cbn [length] in Lf). repeat (rewrite <- app_assoc; cbn [app]).
    rewrite opt_quest_ok by (destruct (xs_first _ P1) as (t & q & -> & _); exact Logic.I). rewrite x_expr_ok by (auto; exact Logic.I). cbn [bind]. rewrite expect_ok. cbn [bind].
    rewrite alts_ok; [|exact K|exact P2|reflexivity|cbn; discriminate|lia]. cbn [bind]. unfold p_close_case. cbn [expect hkw_beq bind]. rewrite opt_quest_ok by (destruct end_; exact Logic.I). rewrite opt_label_ok by exact Logic.I. cbn [p_semi bind].
    destruct l0; [destruct (NE eq_refl)|reflexivity].
  - destruct P as (P1 & P2 & _). cbn [app p_item length] in *. repeat (rewrite app_length in Lf; cbn [length] in Lf). repeat (rewrite <- app_assoc; cbn [app]). rewrite x_expr_ok by (auto; exact Logic.I). cbn [bind]. rewrite expect_ok. cbn [bind].
    rewrite seqs_ok; [|exact K|exact P2|reflexivity|lia]. cbn [bind]. rewrite p_close_ok. reflexivity.
  - destruct P as (P1 & P2 & _). cbn [app p_item length] in *. repeat (rewrite app_length in Lf; cbn [length] in Lf). repeat (rewrite <- app_assoc; cbn [app]). unfold p_param. cbn [name_].
    rewrite p_range_ok; [|destruct r0; [split; [split; [apply P1|rewrite (name_category _ (proj2 P1)); unfold c_simple; lia]|right; apply P1]|exact P1]|exact Logic.I|discriminate]. cbn [bind fst snd]. rewrite expect_ok. cbn [bind].
    rewrite seqs_ok; [|exact K|exact P2|reflexivity|lia]. cbn [bind]. rewrite p_close_ok. reflexivity.
  - destruct P as (P2 & _). cbn [app p_item length] in *. repeat (rewrite app_length in Lf; cbn [length] in Lf). repeat (rewrite <- app_assoc; cbn [app]). rewrite seqs_ok; [|exact K|exact P2|reflexivity|lia]. cbn [bind]. rewrite p_close_ok. reflexivity.
  - cbn [app p_item]. unfold p_jump. repeat (rewrite <- app_assoc; cbn [app]). rewrite opt_label_ok by (destruct c; exact Logic.I). rewrite p_opt_ok by (auto; exact Logic.I). reflexivity.
  - cbn [app p_item]. unfold p_jump. repeat (rewrite <- app_assoc; cbn [app]). rewrite opt_label_ok by (destruct c; exact Logic.I). rewrite p_opt_ok by (auto; exact Logic.I). reflexivity.
  - cbn [app p_item]. destruct e as [e|]; [|reflexivity]. cbn [legal_opt] in P. rewrite <- app_assoc. cbn [app]. unfold p_return. pose proof (x_expr_ok e (Semi :: r) P Logic.I) as E. destruct (xs_first e P) as (t & q & F & _). rewrite F in *. cbn [app] in *. rewrite E. reflexivity.
  - reflexivity.
Qed.
(** Nothing that begins like an item is a label. *)
Lemma unlabelled l i r : legal_item strict legal_stm l i -> p_label (item_toks stm_toks i ++ r) = (None, item_toks stm_toks i ++ r).
Proof.
  intros P.
  assert (G : forall e q, legal_target e -> match q with Colon :: _ => False | _ => True end -> tidy q -> p_label (xs e ++ q) = (None, xs e ++ q)).
  { intros e q T N C. pose proof (x_target_ok e q T C) as E. destruct (xs_first e (proj1 T)) as (t & z & F & _). rewrite F in *. cbn [app] in *. destruct t as [[s| |]| | | | | | | | | | | | | | | | | | | | | | | | ]; try reflexivity.
    destruct z as [|[] z]; cbn [app] in *; try reflexivity; [|destruct (map_eq_cons _ _ F) as (? & w & Z & _ & Z2); destruct w; discriminate Z2].
    destruct q as [|[] q]; try reflexivity; contradiction. }
  destruct i; cbn [legal_item] in P; try contradiction; try reflexivity; cbn [item_toks]; try (destruct delay; [contradiction|]); rewrite <- app_assoc; apply G; try (apply P); try exact Logic.I. apply name_target, P.
Qed.
Theorem stm_ok s : read s.
Proof.
  apply hstm_ind'. clear s. intros l i K P r f Lf. cbn [stm_toks] in *. destruct f as [|f]; [lia|]. rewrite app_length in Lf. cbn [VhdlStmSyntaxSpec.legal_stm] in P.
  pose proof (item_ok l i K P r f ltac:(lia)) as E. cbn [p_stm]. destruct l as [n|]; cbn [app].
  - cbn [p_label name_]. rewrite E. reflexivity.
  - rewrite (unlabelled None i r P), E. reflexivity.
Qed.
Theorem parse_stm_ok s : legal_stm s -> parse_vstatement (stm_toks s) = Ok (norm_stm s).
Proof. intros P. unfold parse_vstatement. pose proof (stm_ok s P [] (4 * length (stm_toks s) + 4) ltac:(lia)) as E. rewrite app_nil_r in E. rewrite E. reflexivity. Qed.
Theorem parse_process_ok b n s l : legal_sens s -> all legal_stm l -> parse_vprocess (process_toks b n s l) = Ok (norm_sens s, map norm_stm l).
Proof.
  intros P L. unfold parse_vprocess, p_process, process_toks. cbn [expect hkw_beq bind].
  set (tail := (if b then [Kw k_is] else []) ++ Kw k_begin :: seq_toks stm_toks l ++ close_toks k_process n).
  assert (E : p_sens (sens_toks s ++ tail) = Ok (s, tail)).
  { destruct s as [| |sl]; cbn [sens_toks app]; [destruct b; reflexivity|reflexivity|]. destruct P as [NE P]. rewrite <- app_assoc. cbn [app].
    pose proof (names_ok sl (X KRp) tail NE P Logic.I eq_refl) as E. destruct sl as [|x sl]; [destruct (NE eq_refl)|].
    assert (F : exists t q, sep_by (X KComma) xs (x :: sl) ++ X KRp :: tail = X t :: q /\ t <> KAll).
    { destruct P as [[P _] _]. destruct (xs_first _ P) as (t & q & F & S & _). exists t. destruct sl; [cbn [sep_by]|change (sep_by (X KComma) xs (x :: h :: sl)) with (xs x ++ X KComma :: sep_by (X KComma) xs (h :: sl))]; rewrite F; eexists; (split; [reflexivity|]); intros ->; exact S. }
    destruct F as (t & q & F & N). rewrite F in *. unfold p_sens. destruct t; try (rewrite E; reflexivity). destruct (N eq_refl). }
  rewrite E. cbn [bind]. unfold tail. destruct b; cbn [app expect hkw_beq bind]; (rewrite seqs_ok; [|apply Forall_forall; intros; apply stm_ok|exact L|reflexivity|rewrite app_length; lia]); cbn [bind]; rewrite <- (app_nil_r (close_toks _ _)), p_close_ok; reflexivity.
Qed.
End Statements.
Theorem parse_conc_ok c : legal_conc c -> parse_conc (conc_toks c) = Ok (norm_conc c).
Proof.
  assert (G : forall t z, legal_target t -> p_conc (xs t ++ X (KRel O_LE) :: z) = '(w, r2) <- p_waves z ;; Ok (match w with inl w => CC_wave t w | inr w => CC_cond t w end, r2)).
  { intros t z P. pose proof (x_target_ok t (X (KRel O_LE) :: z) P Logic.I) as E. destruct (xs_first t (proj1 P)) as (k & q & F & _). rewrite F in *. cbn [app p_conc] in *. rewrite E. reflexivity. }
  destruct c as [t w|t w|q e t l]; intros P; unfold parse_conc; cbn [conc_toks legal_conc] in *.
  - destruct P as [P1 P2]. rewrite G, p_waves_ok by auto. reflexivity.
  - destruct P as [P1 P2]. rewrite G, p_waves_cond by auto. reflexivity.
  - destruct P as (P1 & P2 & NE & P3). cbn [p_conc]. rewrite x_expr_ok by (auto; exact Logic.I). cbn [bind]. rewrite expect_ok. cbn [bind]. rewrite opt_quest_ok by (destruct (xs_first _ (proj1 P2)) as (k & z & -> & _); exact Logic.I).
    rewrite x_target_ok by (auto; exact Logic.I). cbn [bind].
    rewrite (p_many_ok comma (X KComma) p_selwave selwave_toks (fun r => match r with X KComma :: _ | Semi :: _ => True | _ => False end) (fun p => legal_wave (fst p) /\ legal_choices (snd p))); auto; try reflexivity; try exact Logic.I.
    intros [w cs] r [Pw Pc] R. cbn [fst snd] in *. unfold p_selwave, selwave_toks. cbn [fst snd]. rewrite <- app_assoc. cbn [app]. rewrite p_wave_ok by (auto; exact Logic.I). cbn [bind]. rewrite expect_ok. cbn [bind].
    destruct r as [|t0 r]; [contradiction|]. rewrite choices_ok; [reflexivity|exact Pc|destruct t0 as [[]| | | | | |]; try contradiction; exact Logic.I|intros ->; contradiction].
Qed.
