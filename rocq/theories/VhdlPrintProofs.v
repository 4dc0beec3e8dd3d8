(** The tokens of VHDL sources are texts that Python can store. *)
From Verif Require Import Base BaseFacts StrSpec AstModel StmModel LitModel SvExprModel VhdlExprModel VhdlExprProofs VhdlStmModel VhdlStmProofs VhdlDeclModel VhdlElabProofs VhdlHierProofs.
From Verif Require Import EncodingSpec PyModel PySpec Utf8Proofs VhdlTextSpec VhdlSyntaxModel VhdlSyntaxSpec VhdlLexModel VhdlLexSpec VhdlSpellSpec VhdlStmSyntaxModel VhdlStmSyntaxSpec VhdlStmSpellSpec VhdlUnitSyntaxModel VhdlUnitSyntaxSpec VhdlUnitSyntaxProofs ConvertVhdlSpec.

(** ** Lexical elements have graphic characters only *)
Definition every {T} (P : T -> bool) (s : list T) : bool := forallb P s.
Lemma every_app {T} (P : T -> bool) a b : every P (a ++ b) = every P a && every P b. Proof. apply forallb_app. Qed.
Lemma of_code lo n c : (lo <=? code c) && (code c <=? n) = true -> 32 <= lo -> n <= 126 -> graphic c = true.
Proof. intros H L R. unfold graphic, between. apply andb_prop in H as [H1 H2]. apply Nat.leb_le in H1, H2. apply andb_true_intro. split; apply Nat.leb_le; lia. Qed.
Lemma graphic_id c : graphic c = true -> graphic c = true. Proof. trivial. Qed.
Lemma alnum_graphic c : alnum c = true -> graphic c = true.
Proof. unfold alnum, letter, small_letter, capital, digit, between. intros H. repeat match type of H with _ || _ = true => apply orb_prop in H as [H|H] end; [apply (of_code 97 122 c H)|apply (of_code 65 90 c H)|apply (of_code 48 57 c H)]; lia. Qed.
Lemma digit_graphic c : digit c = true -> graphic c = true.
Proof. intros H. apply alnum_graphic. unfold alnum. rewrite H. apply orb_true_r. Qed.
Lemma run_graphic P s : (forall c, P c = true -> graphic c = true) -> run P s -> every graphic s = true.
Proof. intros HP. induction 1 as [c H|c s H _ IH|c s H _ IH]; cbn [every forallb]; rewrite (HP c H); [reflexivity|exact IH|]. cbn [andb]. exact IH. Qed.
Lemma in_graphic c s : In c s -> every graphic s = true -> graphic c = true. Proof. intros I H. exact (proj1 (forallb_forall graphic s) H c I). Qed.
Lemma exp_graphic e : optional exponent e -> every graphic e = true.
Proof. intros [->|H]; [reflexivity|]. destruct H as [e i I R|e g i I G R]; cbn [every forallb]; rewrite (in_graphic e $"eE" I eq_refl); [|rewrite (in_graphic g $"+-" G eq_refl)]; exact (run_graphic digit i digit_graphic R). Qed.
Lemma frac_graphic (P : str -> Prop) f : (forall s, P s -> every graphic s = true) -> optional (fraction P) f -> every graphic f = true.
Proof. intros HP [->|(i & -> & H)]; [reflexivity|]. cbn [every forallb]. exact (HP i H). Qed.
Lemma small_graphic c : graphic (small c) = graphic c. Proof. destruct c as [[] [] [] [] [] [] [] []]; reflexivity. Qed.
Lemma smalls_graphic s : every graphic (map small s) = every graphic s. Proof. induction s as [|c s IH]; [reflexivity|]. cbn [map every forallb]. rewrite small_graphic. unfold every in IH. rewrite IH. reflexivity. Qed.
Lemma doubled_graphic q s : every graphic s = true -> every graphic (doubled q s) = true.
Proof. induction s as [|c s IH]; [reflexivity|]. cbn [every forallb]. intros H. apply andb_prop in H as [H1 H2]. unfold doubled. cbn [flat_map]. rewrite every_app. fold (doubled q s). rewrite (IH H2). destruct (ceqb c q); cbn [every forallb]; rewrite H1; reflexivity. Qed.
Lemma graphics_graphic s : Forall (fun c => graphic c = true) s -> every graphic s = true.
Proof. induction 1 as [|c s H _ IH]; [reflexivity|]. cbn [every forallb]. rewrite (graphic_id c H). exact IH. Qed.
Lemma listed_graphic l w : forallb (every graphic) l = true -> In w l -> every graphic w = true. Proof. intros H I. exact (proj1 (forallb_forall _ l) H w I). Qed.
Lemma lexeme_graphic l : lexeme_ok l -> every graphic (lexeme_text l) = true.
Proof.
  destruct l as [s|s|s|s|c|s|p s|s]; cbn [lexeme_ok lexeme_text].
  - intros [H _]. exact (run_graphic alnum s alnum_graphic H).
  - intros [_ H]. cbn [every forallb]. fold (every graphic (doubled bs s ++ [bs])). rewrite every_app, (doubled_graphic bs s (graphics_graphic s H)). reflexivity.
  - intros (i & f & e & -> & HI & HF & HE). rewrite !every_app, (run_graphic digit i digit_graphic HI), (exp_graphic e HE), (frac_graphic integer f (fun s => run_graphic digit s digit_graphic) HF). reflexivity.
  - intros (i & d & f & e & -> & HI & HD & HF & HE). rewrite every_app. cbn [every forallb]. fold (every graphic (d ++ f ++ "#"%char :: e)). rewrite !every_app. cbn [every forallb]. fold (every graphic e). rewrite (run_graphic digit i digit_graphic HI), (run_graphic alnum d alnum_graphic HD), (frac_graphic (run alnum) f (fun s => run_graphic alnum s alnum_graphic) HF), (exp_graphic e HE). reflexivity.
  - intros H. cbn [every forallb]. rewrite (graphic_id c H). reflexivity.
  - intros H. cbn [every forallb]. fold (every graphic (doubled dq s ++ [dq])). rewrite every_app, (doubled_graphic dq s (graphics_graphic s H)). reflexivity.
  - intros [(i & b & -> & HI & HB) HS]. rewrite !every_app. cbn [every forallb]. fold (every graphic (s ++ [dq])). rewrite every_app.
    assert (EI : every graphic i = true) by (destruct HI as [->|HI]; [reflexivity|exact (run_graphic digit i digit_graphic HI)]).
    assert (EB : every graphic b = true) by (rewrite <- smalls_graphic; exact (listed_graphic bases _ eq_refl HB)).
    assert (ES : every graphic s = true) by (apply graphics_graphic; revert HS; apply Forall_impl; intros c HC; exact (proj1 HC)).
    rewrite EI, EB, ES. reflexivity.
  - intros H. exact (listed_graphic delimiters s eq_refl H).
Qed.

(** ** Tokens *)
Lemma graphic_ascii c : graphic c = true -> (N_of_ascii c <? 128)%N && negb (ceqb c c0) = true.
Proof. destruct c as [[] [] [] [] [] [] [] []]; (discriminate || reflexivity). Qed.
Lemma graphic_plain s : every graphic s = true -> plain_text s = true.
Proof. unfold every, plain_text. rewrite !forallb_forall. intros H c I. exact (graphic_ascii c (H c I)). Qed.
Lemma plain_sendable s : plain_text s = true -> sendable_text s = true.
Proof.
  unfold plain_text, sendable_text. intros H. rewrite forallb_forall in H. apply andb_true_intro. split.
  - apply utf8_ascii, Forall_forall. intros c I. specialize (H c I). apply andb_prop in H as [H _]. apply N.ltb_lt in H. exact H.
  - apply forallb_forall. intros c I. specialize (H c I). apply andb_prop in H as [_ H]. exact H.
Qed.
Definition tok_ok (t : vtok) : Prop :=
  match t with KLit l => Forall printable (nlit_words l) | KDec s | KBasedLit s | KBits s => printable (W_number s) | _ => True end.
Definition htok_ok (t : hstk) : Prop := match t with X t => tok_ok t | _ => True end.
Lemma spells_ok tick t l : spells tick t l -> lexeme_ok l -> tok_ok t.
Proof.
  intros S L. pose proof (graphic_plain _ (lexeme_graphic l L)) as G. pose proof (plain_sendable _ G) as U.
  destruct l as [w|s|s|s|c|s|p s|d]; cbn [spells lexeme_text] in *; try subst t; cbn [tok_ok nlit_words]; try (repeat constructor; assumption).
  - destruct t as [[n|n|n]| | | | | | | | | | | | | | | | | | | | | | | |]; cbn [tok_ok nlit_words] in *; try exact Logic.I; try (destruct S as [_ S]; discriminate S).
    destruct S as [-> _]. repeat constructor; [|exact U]. intros ->. destruct L as [L _]. inversion L.
  - repeat constructor; [discriminate|exact U].
  - repeat constructor; [|exact U]. exists (doubled dq s). reflexivity.
  - destruct t as [[n|n|n]| | | | | | | | | | | | | | | | | | | | | | | |]; cbn [tok_ok]; try exact Logic.I; discriminate S.
Qed.
Lemma spelled_ok tick ts ls : spelled_hstm tick ts ls -> Forall lexeme_ok ls -> Forall htok_ok ts.
Proof.
  induction 1 as [|tick t l ts ls S _ IH]; intros F; [constructor|]. inversion F; subst. constructor; [|auto]. destruct t as [t| | | | |k|]; cbn [htok_ok]; try exact Logic.I. exact (spells_ok tick t l S H1).
Qed.
Lemma reads_ok Q prev ps s : reads Q prev ps s -> Forall lexeme_ok (lexemes ps).
Proof. induction 1 as [|prev p ps s O _ _ _ _ IH]; [constructor|]. destruct p; cbn [lexemes]; [constructor; [exact O|exact IH]|exact IH ..]. Qed.

(** ** Expressions *)
Ltac brk := repeat match goal with
  | H : Forall _ (_ ++ _) |- _ => apply Forall_app in H; destruct H
  | H : Forall _ (_ :: _) |- _ => apply Forall_cons_iff in H; destruct H
  | H : Forall _ [] |- _ => clear H
  | H : True |- _ => clear H
  | H : _ /\ _ |- _ => destruct H
  end.
Ltac gol := repeat match goal with
  | |- Forall _ (_ ++ _) => apply Forall_app; split
  | |- Forall _ (_ :: _) => apply Forall_cons
  | |- Forall _ [] => constructor
  end; try assumption; auto.
Lemma all_Forall {X : Type} (Q : X -> Prop) l : all Q l -> Forall Q l.
Proof. induction l as [|x l IH]; intros H; [constructor|]. destruct H. constructor; auto. Qed.
Lemma commas_ok {X : Type} (P : vtok -> Prop) (f : X -> list vtok) l : Forall P (commas f l) -> Forall (fun x => Forall P (f x)) l.
Proof. induction l as [|x [|y l] IH]; intros H; [constructor|repeat constructor; exact H|]. cbn [commas] in H. brk. constructor; [assumption|]. apply IH. assumption. Qed.
Lemma bars_ok {X : Type} (P : vtok -> Prop) (f : X -> list vtok) l : Forall P (bars f l) -> Forall (fun x => Forall P (f x)) l.
Proof. induction l as [|x [|y l] IH]; intros H; [constructor|repeat constructor; exact H|]. cbn [bars] in H. brk. constructor; [assumption|]. apply IH. assumption. Qed.
Lemma flat_ok {X Y : Type} (P : Y -> Prop) (f : X -> list Y) l : Forall P (flat_map f l) <-> Forall (fun x => Forall P (f x)) l.
Proof.
  induction l as [|x l IH]; cbn [flat_map]; [split; constructor|]. split; intros H; brk; [constructor; [assumption|apply IH; assumption]|]. apply Forall_app. split; [assumption|apply IH; assumption].
Qed.
Lemma Forall_both {X : Type} (P Q R : X -> Prop) l : (forall x, P x -> Q x -> R x) -> Forall P l -> Forall Q l -> Forall R l.
Proof. intros H A B. rewrite Forall_forall in *. auto. Qed.
Lemma Forall_three {X : Type} (P Q R S : X -> Prop) l : (forall x, P x -> Q x -> R x -> S x) -> Forall P l -> Forall Q l -> Forall R l -> Forall S l.
Proof. intros H A B C. rewrite Forall_forall in *. auto. Qed.
Notation Pr := (Forall printable).
Definition eok (e : hexpr) : Prop := legal e -> Forall tok_ok (vshow e) -> Pr (words e).
Lemma desig_pr d : h_ds eok d -> legal_desig legal d -> Forall tok_ok (show_desig vshow d) -> Pr (desig_words words d).
Proof. destruct d as [[] e|]; cbn [h_ds legal_desig show_desig desig_words]; intros K L H; [destruct L|auto|constructor]. Qed.
Lemma assoc_pr a : h_as eok a -> legal_assoc legal a -> Forall tok_ok (show_assoc vshow a) -> Pr (assoc_words words a).
Proof.
  destruct a as [[[n [m|]]|] [d|c d]]; intros [K1 K2] L H; cbn [legal_assoc show_assoc assoc_words h_fp h_ac] in *; try (destruct L; fail); brk; cbn [opt_words formal_words fst snd actual_words app]; unfold formal_words; cbn [fst snd opt_words]; gol.
  - apply desig_pr; assumption.
  - apply desig_pr; assumption.
Qed.
Lemma choice_pr c : h_ch eok c -> legal_choice legal c -> Forall tok_ok (show_choice vshow c) -> Pr (choice_words words c).
Proof. destruct c as [|[e|a d b]]; cbn [h_ch h_rng legal_choice show_choice choice_words range_words]; intros K L H; brk; gol. Qed.
Lemma elem_pr p : h_el eok p -> legal_elem legal p -> Forall tok_ok (show_elem vshow p) -> Pr (element_words words p).
Proof.
  destruct p as [cs e]. intros [K1 K2] [L1 L2] H. unfold element_words. cbn [fst snd] in *. apply all_Forall in L1.
  assert (Forall (fun c => Forall tok_ok (show_choice vshow c)) cs /\ Forall tok_ok (vshow e)) as [C E].
  { unfold show_elem in H. cbn [fst snd] in H. destruct cs as [|c cs]; [split; [constructor|exact H]|]. apply Forall_app in H as [H1 H2]. apply Forall_cons_iff in H2 as [_ H2]. split; [exact (bars_ok _ _ _ H1)|exact H2]. }
  apply Forall_app. split; [|exact (K2 L2 E)]. apply flat_ok. revert K1 L1 C. apply Forall_three. exact choice_pr.
Qed.
Ltac lst P := apply flat_ok; match goal with H1 : Forall (_ (fun e => eok e)) ?l, H2 : all _ ?l, H3 : Forall tok_ok (commas _ ?l) |- _ => apply all_Forall in H2; apply commas_ok in H3; revert H1 H2 H3 end; apply Forall_three; exact P.
Theorem expr_pr e : eok e.
Proof.
  induction e as [e K] using hexpr_ind'. intros L H. destruct e; cbn [hkids] in K; cbn [legal] in L; cbn [vshow] in H; cbn [words]; try (destruct L; fail); brk; gol.
  all: try (match goal with K : eok ?e |- Pr (words ?e) => apply K; assumption end).
  - match goal with H : tok_ok (KLit (NL_id a)) |- _ => exact (Forall_inv H) end.
  - lst assoc_pr.
  - destruct based; assumption.
  - destruct unit_ as [u|]; [|constructor]. cbn [opt_words o_kid] in *. destruct L. auto.
  - lst elem_pr.
  - lst elem_pr.
  - destruct o as [| | |]; destruct L; apply K; assumption.
Qed.
Lemma xs_ok e : Forall htok_ok (xs e) -> Forall tok_ok (vshow e).
Proof. unfold xs. intros H. exact (proj1 (Forall_map X htok_ok (vshow e)) H). Qed.
Lemma xs_pr e : legal e -> Forall htok_ok (xs e) -> Pr (words e). Proof. intros L H. exact (expr_pr e L (xs_ok e H)). Qed.

(** ** Statements *)
Lemma sep_ok {X : Type} (P : hstk -> Prop) s (f : X -> list hstk) l : Forall P (sep_by s f l) -> Forall (fun x => Forall P (f x)) l.
Proof. induction l as [|x [|y l] IH]; intros H; [constructor|repeat constructor; exact H|]. cbn [sep_by] in H. brk. constructor; [assumption|]. apply IH. assumption. Qed.
Lemma opt_pr k e : legal_opt e -> Forall htok_ok (opt_ k e) -> Pr (opt_words words e).
Proof. destruct e as [e|]; cbn [opt_ legal_opt opt_words]; intros L H; [|constructor]. brk. apply xs_pr; assumption. Qed.
Lemma name_pr s : htok_ok (name_ s) -> printable (W_name s). Proof. intros H. exact (Forall_inv H). Qed.
Lemma label_pr l : Forall htok_ok (label_toks l) -> Pr (label_words l).
Proof. destruct l as [s|]; cbn [label_toks label_words opt_words]; intros H; [|constructor]. brk. repeat constructor; apply name_pr; assumption. Qed.
Lemma welem_pr p : legal_welem p -> Forall htok_ok (welem_toks p) -> Pr (words (fst p)).
Proof. intros [L _] H. unfold welem_toks in H. brk. apply xs_pr; assumption. Qed.
Lemma wave_pr w : legal_wave w -> Forall htok_ok (wave_toks w) -> Pr (wave_words w).
Proof.
  destruct w as [x l|]; cbn [legal_wave wave_toks wave_words]; intros L H; [|constructor]. apply flat_ok. apply sep_ok in H. destruct L as [L1 L2]. apply all_Forall in L2. assert (F : Forall legal_welem (x :: l)) by (constructor; assumption). revert F H. apply Forall_both. exact welem_pr.
Qed.
Lemma cond_ok {X : Type} (f : X -> list hstk) l e : Forall htok_ok (cond_toks f l e) -> Forall (fun p => Forall htok_ok (f (fst p)) /\ Forall htok_ok (xs (snd p))) l /\ match e with Some x => Forall htok_ok (f x) | None => True end.
Proof. induction l as [|p l IH]; cbn [cond_toks]; intros H. - split; [constructor|]. destruct e; brk; auto. - brk. destruct IH as [A B]; [assumption|]. split; [constructor; auto|exact B]. Qed.
Lemma conds_ok {X : Type} (f : X -> list hstk) l e : l <> [] -> Forall htok_ok (conds_toks f l e) -> Forall (fun p => Forall htok_ok (f (fst p)) /\ Forall htok_ok (xs (snd p))) l /\ match e with Some x => Forall htok_ok (f x) | None => True end.
Proof. destruct l as [|p l]; [congruence|]. intros _ H. cbn [conds_toks] in H. brk. destruct (cond_ok f l e) as [A B]; [assumption|]. split; [constructor; auto|exact B]. Qed.
Lemma condwave_pr w : legal_condwave w -> Forall htok_ok (condwave_toks w) -> Pr (condwave_words w).
Proof.
  destruct w as [p l e]. cbn [legal_condwave condwave_toks condwave_words]. intros (N & L & LE) H. apply (conds_ok wave_toks (p :: l) e N) in H as [H HE]. apply all_Forall in L. apply Forall_app. split.
  - apply flat_ok. revert L H. apply Forall_both. intros q [A B] [C D]. apply Forall_app. split; [apply wave_pr|apply xs_pr]; assumption.
  - destruct e as [e|]; [|constructor]. apply wave_pr; assumption.
Qed.
Lemma range_pr r : match r with R_name e => legal e | R_explicit a _ b => legal a /\ legal b end -> Forall htok_ok (range_toks r) -> Pr (range_words words r).
Proof. destruct r as [e|a d b]; cbn [range_toks range_words]; intros L H; brk; gol; apply xs_pr; assumption. Qed.
Lemma lrange_pr r : legal_range r -> Forall htok_ok (range_toks r) -> Pr (range_words words r).
Proof. intros L. apply range_pr. destruct r as [e|a d b]; cbn [legal_range] in L; [exact (proj1 L)|]. destruct L as [[A _] [B _]]. auto. Qed.
Lemma choices_pr l : legal_choices l -> Forall htok_ok (choices_toks l) -> Pr (flat_map (choice_words words) l).
Proof.
  intros [_ L] H. apply sep_ok in H. apply all_Forall in L. apply flat_ok. revert L H. apply Forall_both. intros [|r] L H; [constructor|]. cbn [choice_toks choice_words legal_choice] in *. apply range_pr; [|exact H]. destruct r as [e|a d b]; [exact (proj1 L)|]. destruct L as [[A _] [B _]]. auto.
Qed.
Section Stm.
Context (strict : bool).
Definition sok (s : hstm) : Prop := legal_stm strict s -> Forall htok_ok (stm_toks s) -> Pr (stm_words s).
Lemma seq_pr l : Forall sok l -> all (legal_stm strict) l -> Forall htok_ok (seq_toks stm_toks l) -> Pr (flat_map stm_words l).
Proof. intros K L H. apply all_Forall in L. unfold seq_toks in H. apply flat_ok in H. apply flat_ok. revert K L H. apply Forall_three. intros x A B C. exact (A B C). Qed.
Lemma close_pr k n : Forall htok_ok (close_toks k n) -> Pr (label_words n). Proof. unfold close_toks. intros H. brk. apply label_pr; assumption. Qed.
Lemma opts_pr e : legal_opt e -> Forall htok_ok (match e with Some e => xs e | None => [] end) -> Pr (opt_words words e).
Proof. destruct e as [e|]; intros L H; [exact (xs_pr e L H)|constructor]. Qed.
Theorem stm_pr s : sok s.
Proof.
  revert s. apply hstm_ind'. intros lb i K L H. cbn [legal_stm stm_toks stm_words] in *. apply Forall_app in H as [HL H]. apply Forall_app. split.
  { destruct lb as [n|]; [|constructor]. brk. cbn [label_words opt_words]. repeat constructor; apply name_pr; assumption. }
  destruct i; cbn [hk_item legal_item item_toks item_words] in *; try (destruct L; fail); brk;
    try (match goal with d : option str |- _ => destruct d; [destruct L; fail|] end; brk); gol;
    try (eapply opt_pr; eassumption); try (apply opts_pr; assumption); try (apply wave_pr; assumption); try (apply condwave_pr; assumption); try (apply label_pr; assumption); try (eapply close_pr; eassumption); try (apply name_pr; assumption);
    try (apply lrange_pr; assumption); try (apply seq_pr; assumption); try (apply xs_pr; [first [assumption|apply (proj1 ltac:(eassumption))]|assumption]).
  - destruct on as [|n on]; [constructor|]. brk. match goal with H : Forall htok_ok (sep_by _ _ _) |- _ => apply sep_ok in H; revert H end. match goal with H : all legal_name _ |- _ => apply all_Forall in H; revert H end. intros A B. apply flat_ok. revert A B. apply Forall_both. intros x [A _] B. exact (xs_pr x A B).
  - match goal with H : legal_target t |- _ => exact (xs_pr t (proj1 H) ltac:(assumption)) end.
  - match goal with H : all _ elifs |- _ => apply all_Forall in H; rename H into HA end. match goal with H : Forall htok_ok (flat_map _ elifs) |- _ => apply flat_ok in H; rename H into HB end. match goal with H : Forall _ elifs |- _ => lazymatch type of H with Forall (fun p => Forall _ (snd p)) _ => rename H into HC end end.
    apply flat_ok. revert HC HA HB. apply Forall_three. intros q A [B C] D. brk. gol; [apply xs_pr; assumption|apply seq_pr; assumption].
  - destruct else_ as [e|]; [|constructor]. brk. cbn [opt_words hk_else] in *. apply seq_pr; assumption.
  - match goal with H : all _ l |- _ => apply all_Forall in H; rename H into HA end. match goal with H : Forall htok_ok (flat_map _ l) |- _ => apply flat_ok in H; rename H into HB end.
    apply flat_ok. revert K HA HB. apply Forall_three. intros q A [B C] D. brk. gol; [apply choices_pr; assumption|apply seq_pr; assumption].
Qed.
Lemma stms_pr l : all (legal_stm strict) l -> Forall htok_ok (seq_toks stm_toks l) -> Pr (flat_map stm_words l).
Proof. apply seq_pr, Forall_forall. intros s _. apply stm_pr. Qed.
End Stm.
Lemma xlist_pr l : all legal_name l -> Forall htok_ok (sep_by (X KComma) xs l) -> Pr (flat_map words l).
Proof. intros L H. apply all_Forall in L. apply sep_ok in H. apply flat_ok. revert L H. apply Forall_both. intros x [A _] B. exact (xs_pr x A B). Qed.
Lemma sens_pr s : legal_sens s -> Forall htok_ok (sens_toks s) -> Pr (sens_words s).
Proof. destruct s as [| |l]; cbn [legal_sens sens_toks sens_words]; intros L H; [constructor|constructor|]. brk. apply xlist_pr; assumption. Qed.
Lemma target_pr t : legal_target t -> Forall htok_ok (xs t) -> Pr (words t). Proof. intros [L _]. exact (xs_pr t L). Qed.
Lemma lname_pr t : legal_name t -> Forall htok_ok (xs t) -> Pr (words t). Proof. intros [L _]. exact (xs_pr t L). Qed.
Lemma conc_pr c : legal_conc c -> Forall htok_ok (conc_toks c) -> Pr (conc_words c).
Proof.
  destruct c as [t w|t w|q e t l]; cbn [legal_conc conc_toks conc_words]; intros L H; brk; gol; try (apply target_pr; assumption); try (apply wave_pr; assumption); try (apply condwave_pr; assumption); try (apply xs_pr; assumption).
  match goal with H : all _ l |- _ => apply all_Forall in H; rename H into HA end. match goal with H : Forall htok_ok (sep_by _ _ l) |- _ => apply sep_ok in H; rename H into HB end. apply flat_ok. revert HA HB. apply Forall_both. intros q' [A B] C. unfold selwave_toks, selwave_words in *. brk. gol; [apply wave_pr|apply choices_pr]; assumption.
Qed.

(** ** Declarations and units *)
Lemma ids_pr ns : Forall htok_ok (ids_toks ns) -> Pr (map W_name ns).
Proof. intros H. apply sep_ok in H. apply Forall_map. revert H. apply Forall_impl. intros n A. apply name_pr. exact (Forall_inv A). Qed.
Lemma init_pr v : legal_opt v -> Forall htok_ok (init_toks v) -> Pr (opt_words words v).
Proof. destruct v as [e|]; cbn [init_toks opt_words]; intros L H; [|constructor]. brk. exact (xs_pr e L ltac:(assumption)). Qed.
Lemma rrange_pr r : legal_rrange r -> Forall htok_ok (range_toks r) -> Pr (range_words words r).
Proof. intros L. apply range_pr. destruct r as [e|a d b]; cbn [legal_rrange] in L; [exact (proj1 (proj1 L))|]. destruct L as [[A _] [B _]]. auto. Qed.
Lemma constr_pr c : legal_constr c -> Forall htok_ok (constr_toks c) -> Pr (opt_words (constr_words words) c).
Proof. destruct c as [[r|l b]|]; cbn [legal_constr constr_toks opt_words constr_words]; intros L H; [brk; apply rrange_pr; assumption|destruct L|constructor]. Qed.
Lemma sub_pr t : legal_sub t -> Forall htok_ok (sub_toks t) -> Pr (words t).
Proof.
  destruct t; cbn [legal_sub]; intros L H; try (destruct L; fail). cbn [sub_toks words] in *. brk. gol; [|apply lname_pr; assumption|apply constr_pr; assumption].
  destruct ri as [[f|]|]; cbn [opt_words VhdlTextSpec.res_words legal_res res_toks] in *; try constructor. apply lname_pr; assumption.
Qed.
Lemma drange_pr r : legal_drange r -> Forall htok_ok (drange_toks r) -> Pr (range_words words r).
Proof.
  destruct r as [e|a d b]; [|apply lrange_pr]. destruct e; try apply lrange_pr. cbn [legal_drange drange_toks range_words words]. intros (-> & L & x & -> & LX) H. brk. cbn [opt_words app]. gol; [apply lname_pr; assumption|]. apply (constr_pr (Some (Con_range x))); assumption.
Qed.
Lemma selected_pr e : selected e -> Forall tok_ok (vshow e) -> Pr (words e).
Proof.
  induction e; cbn [selected]; intros L H; try (destruct L; fail); cbn [vshow words] in *; brk; gol.
  all: try (apply IHe; assumption); try (match goal with H : tok_ok (KLit _) |- _ => exact H end).
Qed.
Lemma use_pr l : legal_use l -> Forall htok_ok (use_toks l) -> Pr (flat_map words l).
Proof. intros [_ L] H. unfold use_toks in H. brk. match goal with H : Forall htok_ok (sep_by _ _ l) |- _ => apply sep_ok in H; revert H end. apply all_Forall in L. intros HS. apply flat_ok. revert L HS. apply Forall_both. intros x A B. exact (selected_pr x A (xs_ok x B)). Qed.
Ltac parts := gol; first [apply ids_pr; assumption|apply sub_pr; assumption|apply init_pr; assumption|apply name_pr; assumption|apply lname_pr; assumption|apply xs_pr; assumption|apply drange_pr; assumption|apply rrange_pr; assumption|apply use_pr; assumption|idtac].
Lemma iface_pr i ts : w_iface i ts -> Forall htok_ok ts -> Pr (iface_words i).
Proof. destruct 1; intros H'; brk; cbn [iface_words]; parts. Qed.
Lemma wsep_pr {X : Type} (w : X -> list hstk -> Prop) (f : X -> list VhdlTextSpec.word) s : (forall x ts, w x ts -> Forall htok_ok ts -> Pr (f x)) -> forall l ts, w_sep s w l ts -> Forall htok_ok ts -> Pr (flat_map f l).
Proof. intros W. induction 1; intros H'; cbn [flat_map]; brk; gol; eauto. Qed.
Lemma ifaces_pr l ts : w_ifaces l ts -> Forall htok_ok ts -> Pr (flat_map iface_words l).
Proof. destruct 1; intros H'; brk. eapply (wsep_pr w_iface iface_words); [exact iface_pr|eassumption|assumption]. Qed.
Lemma clause_pr k c ts : w_clause k c ts -> Forall htok_ok ts -> Pr (params_words c).
Proof. destruct 1; intros H'; brk; cbn [params_words opt_words]; [constructor|]. eapply ifaces_pr; eassumption. Qed.
Lemma params_pr c ts : w_params c ts -> Forall htok_ok ts -> Pr (params_words c).
Proof. destruct 1; intros H'; brk; cbn [params_words opt_words]; [constructor|]. eapply ifaces_pr; eassumption. Qed.
Lemma tdef_pr strict n t ts : w_tdef strict n t ts -> Forall htok_ok ts -> Pr (tdef_words t).
Proof.
  destruct 1; intros H'; brk; cbn [tdef_words]; parts.
  - match goal with H : Forall htok_ok (sep_by _ _ l) |- _ => apply sep_ok in H; rename H into HB end. apply flat_ok. revert HB. apply Forall_impl. intros [s|t]; cbn [elit_toks elit_words]; intros A; brk; (apply Forall_cons; [|constructor]); [apply name_pr; assumption|]. match goal with H : htok_ok (X (KLit (NL_char t))) |- _ => exact (Forall_inv H) end.
  - match goal with H : all _ l |- _ => apply all_Forall in H; rename H into HA end. match goal with H : Forall htok_ok (sep_by _ _ l) |- _ => apply sep_ok in H; rename H into HB end. apply flat_ok. revert HA HB. apply Forall_both. intros x A B. brk. apply lname_pr; assumption.
  - match goal with H : all _ l |- _ => apply all_Forall in H; rename H into HA end. match goal with H : Forall htok_ok (sep_by _ _ l) |- _ => apply sep_ok in H; rename H into HB end. apply flat_ok. revert HA HB. apply Forall_both. exact drange_pr.
  - match goal with H : all _ l |- _ => apply all_Forall in H; rename H into HA end. match goal with H : Forall htok_ok (flat_map _ l) |- _ => apply flat_ok in H; rename H into HB end. apply flat_ok. revert HA HB. apply Forall_both. intros x A B. unfold elem_toks in B. brk. parts.
Qed.
Lemma desig_name_pr d : htok_ok (desig_tok d) -> printable (W_name (desig_text d)).
Proof. destruct d as [s|s]; intros H; [exact (name_pr s H)|]. destruct (Forall_inv H) as [(b & E) U]. cbn [desig_text]. split; [rewrite E; discriminate|exact U]. Qed.
Lemma spec_pr s ts : w_spec s ts -> Forall htok_ok ts -> Pr (subprog_words s).
Proof. destruct 1; intros H'; brk; cbn [subprog_words]; parts; try (apply desig_name_pr; assumption); eapply params_pr; eassumption. Qed.
Lemma component_pr strict c ts : w_component strict c ts -> Forall htok_ok ts -> Pr (decl_words (DC_component c)).
Proof. destruct 1; intros H'; brk; cbn [decl_words cp_name cp_generics cp_ports]; parts; eapply clause_pr; eassumption. Qed.
Section Units.
Context (strict : bool).
Theorem decl_pr : (forall p d ts, w_decl strict p d ts -> Forall htok_ok ts -> Pr (decl_words d)) /\ (forall p l ts, w_decls strict p l ts -> Forall htok_ok ts -> Pr (flat_map decl_words l)).
Proof.
  apply w_decl_both; intros; brk; cbn [decl_words flat_map]; parts.
  - constructor.
  - cbn [opt_words]. eapply tdef_pr; eassumption.
  - destruct t as [t|]; [|constructor]. brk. cbn [opt_words]. apply sub_pr; assumption.
  - eapply spec_pr; eassumption.
  - eapply spec_pr; eassumption.
  - eapply stms_pr; eassumption.
  - match goal with H : w_component _ _ _ |- _ => apply component_pr in H; [|assumption]; cbn [decl_words] in H; exact (Forall_inv H) end.
  - match goal with H : w_component _ _ _ |- _ => apply component_pr in H; [|assumption]; cbn [decl_words] in H; brk; assumption end.
  - match goal with H : w_component _ _ _ |- _ => apply component_pr in H; [|assumption]; cbn [decl_words] in H; brk; assumption end.
Qed.
Lemma decls_pr p l ts : w_decls strict p l ts -> Forall htok_ok ts -> Pr (flat_map decl_words l). Proof. apply decl_pr. Qed.
Lemma map_pr k m : legal_map m -> Forall htok_ok (map_toks k m) -> Pr (map_words m).
Proof.
  destruct m as [l|]; cbn [legal_map map_toks map_words opt_words]; intros L H; [|constructor]. brk. unfold assocs_toks in *. match goal with H : Forall htok_ok (map _ _) |- _ => apply (proj1 (Forall_map X htok_ok _)) in H; change (fun x => htok_ok (X x)) with tok_ok in H end. brk.
  match goal with H : Forall tok_ok (commas _ l) |- _ => apply commas_ok in H; rename H into HB end. match goal with H : all _ l |- _ => apply all_Forall in H; rename H into HA end. unfold map_words. cbn [opt_words]. apply flat_ok. revert HA HB. apply Forall_both. intros [fp ac] A B. apply assoc_pr; [|exact A|exact B]. split; [apply b_fp, expr_pr|apply b_ac, expr_pr].
Qed.
Lemma unit_pr u : legal_unit u -> Forall htok_ok (unit_toks u) -> Pr (iunit_words u).
Proof. destruct u; cbn [legal_unit unit_toks iunit_words]; intros L H; brk; apply lname_pr; assumption. Qed.
Context (full : bool).
Lemma csimple_pr l s ts : w_csimple strict full l s ts -> Forall htok_ok ts -> Pr (csimple_words s).
Proof.
  destruct 1; intros H'; brk; cbn [csimple_words]; parts; try (eapply opt_pr; eassumption); try (apply sens_pr; assumption); try (eapply decls_pr; eassumption); try (eapply stms_pr; eassumption). apply conc_pr; assumption.
Qed.
Lemma colon_pr l : Forall htok_ok (colon_toks l) -> Pr (label_words l).
Proof. destruct l as [s|]; cbn [colon_toks label_words opt_words]; intros H; [|constructor]. brk. apply Forall_cons; [apply name_pr; assumption|constructor]. Qed.
Theorem cstm_pr :
  (forall s ts, w_cstm strict full s ts -> Forall htok_ok ts -> Pr (cstm_words s)) /\ (forall l ts, w_cstms strict full l ts -> Forall htok_ok ts -> Pr (flat_map cstm_words l)) /\
  (forall b ts, w_gbody strict full b ts -> Forall htok_ok ts -> Pr (gbody_words cstm_words b)) /\
  (forall l ts, w_gelifs strict full l ts -> Forall htok_ok ts -> Pr (flat_map (fun p : option str * hexpr * gbody cstm => label_words (fst (fst p)) ++ words (snd (fst p)) ++ gbody_words cstm_words (snd p)) l)) /\
  (forall e ts, w_gelse strict full e ts -> Forall htok_ok ts -> Pr (opt_words (fun p : option str * gbody cstm => label_words (fst p) ++ gbody_words cstm_words (snd p)) e)) /\
  (forall l ts, w_galts strict full l ts -> Forall htok_ok ts -> Pr (flat_map (fun p : option str * list (hchoice hexpr) * gbody cstm => flat_map (choice_words words) (snd (fst p)) ++ gbody_words cstm_words (snd p)) l)).
Proof.
  apply w_cstm_all; intros; brk; cbn [cstm_words gbody_words flat_map opt_words fst snd app]; parts; try (eapply decls_pr; eassumption); try (apply colon_pr; assumption); try (eapply close_pr; eassumption); try (eapply map_pr; eassumption); try (apply unit_pr; assumption); try (apply choices_pr; assumption); try (eapply csimple_pr; eassumption).
Qed.
Lemma lunit_pr u ts : w_lunit strict full u ts -> Forall htok_ok ts -> Pr (lunit_words u).
Proof.
  destruct 1; intros H'; cbn [lunit_words]; try (match goal with H : w_decl _ _ _ _ |- _ => exact (proj1 decl_pr _ _ _ H H') end); brk; parts; try (eapply decls_pr; eassumption); try (eapply clause_pr; eassumption).
  eapply cstm_pr; eassumption.
Qed.
Lemma citem_pr c ts : w_citem c ts -> Forall htok_ok ts -> Pr (citem_words c).
Proof. destruct 1; intros H'; cbn [citem_words]; [brk; parts|apply use_pr; assumption]. Qed.
Lemma dunit_pr u ts : w_dunit strict full u ts -> Forall htok_ok ts -> Pr (dunit_words u).
Proof.
  induction 1; intros H'; unfold dunit_words in *; cbn [fst snd flat_map] in *.
  - eapply lunit_pr; eassumption.
  - brk. match goal with H : w_citem _ _ |- _ => apply citem_pr in H; [|assumption] end. match goal with IH : Forall htok_ok _ -> _ |- _ => specialize (IH ltac:(assumption)) end. brk. gol.
Qed.
Theorem file_pr l ts : w_file strict full l ts -> Forall htok_ok ts -> Pr (file_words l).
Proof. induction 1; intros H'; unfold file_words in *; cbn [flat_map]; [constructor|]. brk. gol. eapply dunit_pr; eassumption. Qed.
End Units.
Theorem source_printable text l : vhdl_source text l -> Forall printable (file_words l).
Proof. intros [text' ps ts l' P S W]. exact (file_pr true false l' ts W (spelled_ok _ _ _ S (reads_ok _ _ _ _ P))). Qed.
