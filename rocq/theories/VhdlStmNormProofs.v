(** The choice of ANTLR between two trees does not change what a statement does. *)
From Verif Require Import Base AstModel StmModel LitModel LitSpec SvExprModel SvExprSpec VhdlExprModel VhdlExprSpec VhdlExprProofs VhdlStmModel VhdlStmSpec VhdlStmProofs VhdlSyntaxModel VhdlNormProofs VhdlStmSyntaxModel.

Section Norm.
Context (A : halgebra) (M : hmachine A) (n : nat).
Notation hv := (hvmeaning A).
Lemma hv_norm e : hv (norm e) = hv e.
Proof. exact (norm_meaning A e). Qed.
Lemma range_kept r : hv_range A hv (norm_range r) = hv_range A hv r.
Proof. apply (range_norm A r). destruct r; cbn; auto using norm_good. Qed.
Lemma name_kept e : VhdlStmSpec.is_name (norm e) = VhdlStmSpec.is_name e.
Proof. destruct e; reflexivity. Qed.
Lemma unit_kept e : has_unit (norm e) = has_unit e.
Proof. destruct e as [| | | | | | |b t u| | | | | | | | | | | | | |]; try reflexivity. destruct u; reflexivity. Qed.
Lemma id_kept bad e : id_ok bad (norm e) = id_ok bad e.
Proof.
  pose proof (proj1 (norm_good A e)) as (_ & _ & H). destruct e; try reflexivity; unfold id_ok; rewrite ?norm_apply, ?norm_agg, ?norm_qual in *; cbn [norm] in *; try reflexivity; rewrite H; reflexivity.
Qed.
Lemma ov_kept e : ov A (option_map norm e) = ov A e.
Proof. destruct e; [|reflexivity]. cbn [option_map ov]. rewrite hv_norm. reflexivity. Qed.
Lemma pcall_kept e : hv_pcall A (norm e) = hv_pcall A e.
Proof.
  pose proof (hv_norm e) as H. pose proof (id_kept reserved e) as K. destruct e; try reflexivity; unfold hv_pcall.
  - cbn [norm] in *. rewrite H, K. reflexivity.
  - rewrite norm_apply in *. rewrite H, id_kept. reflexivity.
Qed.
Lemma wave_kept w : hv_wave A (norm_wave w) = hv_wave A w.
Proof. destruct w as [[e [d|]] [|]|]; try reflexivity. apply hv_norm. Qed.
Lemma conds_kept d l e : hv_condwaves A M d (map norm_cw l) (option_map norm_wave e) = hv_condwaves A M d l e.
Proof. induction l as [|[w c] l IH]; cbn [map hv_condwaves norm_cw fst snd]; [destruct e; cbn [option_map]; rewrite ?wave_kept; reflexivity|]. rewrite wave_kept, hv_norm, IH. reflexivity. Qed.
Lemma condwave_kept d w : hv_condwave A M d (norm_condwave w) = hv_condwave A M d w.
Proof. destruct w as [p l e]. exact (conds_kept d (p :: l) e). Qed.
Lemma alts_kept {B : Type} (f : B -> hbeh A M) l : hv_alts A M (map (fun p => (norm_choice (fst p), f (snd p))) l) = hv_alts A M (map (fun p => (fst p, f (snd p))) l).
Proof.
  induction l as [|[c b] l IH]; [reflexivity|]. cbn [map fst snd]. destruct c as [|r]; cbn [norm_choice hv_alts].
  - destruct l; reflexivity.
  - rewrite range_kept, IH. reflexivity.
Qed.
Lemma omap_ext {X Y Z : Type} (f : Y -> option Z) (g : X -> option Z) (h : X -> Y) l : (forall x, In x l -> f (h x) = g x) -> omapM f (map h l) = omapM g l.
Proof. induction l as [|x l IH]; intros H; [reflexivity|]. cbn [map omapM]. rewrite H by (left; reflexivity). rewrite IH by (intros; apply H; right; assumption). reflexivity. Qed.
Lemma omapM_ext' {X Y : Type} (f g : X -> option Y) l : (forall x, f x = g x) -> omapM f l = omapM g l.
Proof. intros H. induction l as [|x l IH]; [reflexivity|]. cbn [omapM]. rewrite H, IH. reflexivity. Qed.
Lemma names_kept l : omapM hv (map norm l) = omapM hv l.
Proof. apply omap_ext. intros. apply hv_norm. Qed.
Lemma names_are l : forallb VhdlStmSpec.is_name (map norm l) = forallb VhdlStmSpec.is_name l.
Proof. induction l as [|e l IH]; [reflexivity|]. cbn [map forallb]. rewrite name_kept, IH. reflexivity. Qed.
Definition many {B : Type} (f : B -> option (hbeh A M)) (g : B -> list (hchoice hexpr)) (x : B) := b <~ f x ;; Some (map (fun c => (c, b)) (g x)).
Lemma branches {B C : Type} (f : B -> option (hbeh A M)) (g : B -> list (hchoice hexpr)) (f' : C -> option (hbeh A M)) (g' : C -> list (hchoice hexpr)) (h : C -> B) l :
  (forall x, In x l -> f (h x) = f' x /\ g (h x) = map norm_choice (g' x)) ->
  (r <~ omapM (many f g) (map h l) ;; hv_alts A M (List.concat r)) = (r <~ omapM (many f' g') l ;; hv_alts A M (List.concat r)).
Proof.
  intros H. assert (G : omapM (many f g) (map h l) = r <~ omapM (many f' g') l ;; Some (map (map (fun q => (norm_choice (fst q), snd q))) r)).
  { induction l as [|x l IH]; [reflexivity|]. cbn [map omapM]. unfold many at 1 3. destruct (H x (or_introl eq_refl)) as (-> & ->). destruct (f' x) as [b|]; [|reflexivity]. cbn [obind].
    rewrite IH by (intros y Y; apply H; right; exact Y). destruct (omapM _ l); cbn [obind map]; [|reflexivity]. rewrite !map_map. reflexivity. }
  rewrite G. destruct (omapM _ l) as [r|]; [|reflexivity]. cbn [obind]. rewrite <- concat_map. pose proof (alts_kept (fun b => b) (List.concat r)) as K. cbn beta in K. rewrite K. f_equal.
  rewrite map_ext with (g := fun x => x) by (intros []; reflexivity). apply map_id.
Qed.
Lemma obind_assoc {X Y Z : Type} (o : option X) (f : X -> option Y) (g : Y -> option Z) : obind o (fun x => obind (f x) g) = obind (obind o f) g.
Proof. destruct o; reflexivity. Qed.
Notation hv_stm := (hv_stm A M n).
Definition kept (s : hstm) : Prop := hv_stm (norm_stm s) = hv_stm s.
Lemma seq_kept l : Forall kept l -> hv_seq A M hv_stm (map norm_stm l) = hv_seq A M hv_stm l.
Proof. intros H. unfold hv_seq. rewrite (omap_ext hv_stm hv_stm norm_stm); [reflexivity|]. intros x I. exact (proj1 (Forall_forall _ _) H x I). Qed.
Lemma elifs_kept l d : Forall (fun p : hexpr * list hstm => Forall kept (snd p)) l ->
  hv_elifs A M hv_stm (map (fun p => (norm (fst p), map norm_stm (snd p))) l) d = hv_elifs A M hv_stm l d.
Proof.
  unfold hv_elifs. intros H. induction H as [|[c b] l Hb Hl IH]; [reflexivity|]. cbn [map fold_right fst snd]. rewrite IH, hv_norm, seq_kept by exact Hb. reflexivity.
Qed.
Theorem stm_kept s : kept s.
Proof.
  apply hstm_ind'. clear s. intros lb i K. unfold kept. cbn [norm_stm VhdlStmSpec.hv_stm]. destruct i; cbn [norm_item hk_item] in *; try reflexivity; cbn [hv_item].
  - rewrite names_are, names_kept, !ov_kept. destruct until as [u|], for_ as [t|]; cbn [option_map]; rewrite ?unit_kept; reflexivity.
  - destruct report as [r|], severity as [s|]; try reflexivity; cbn [option_map]; rewrite hv_norm; try (rewrite (ov_kept (Some r) : ov A (Some (norm r)) = _)); try (rewrite (ov_kept (Some s) : ov A (Some (norm s)) = _)); reflexivity.
  - rewrite hv_norm, ov_kept. reflexivity.
  - destruct delay; [reflexivity|]. rewrite hv_norm, wave_kept. reflexivity.
  - destruct delay; [reflexivity|]. rewrite hv_norm. destruct (hv t); [|reflexivity]. apply condwave_kept.
  - rewrite !hv_norm. reflexivity.
  - rewrite pcall_kept. reflexivity.
  - destruct K as (Kb & Kl & Ke). rewrite hv_norm, seq_kept by exact Kb. destruct (hv c); [|reflexivity]. destruct (hv_seq A M hv_stm b); [|reflexivity]. cbn [obind].
    destruct else_ as [e|]; cbn [option_map hk_else] in *; rewrite ?seq_kept by exact Ke; [destruct (hv_seq A M hv_stm e); [|reflexivity]|]; cbn [obind]; rewrite elifs_kept by exact Kl; reflexivity.
  - destruct matching; [reflexivity|]. rewrite hv_norm. destruct (hv sel) as [v|]; [|reflexivity]. cbn [obind]. rewrite !obind_assoc. f_equal.
    apply (branches (fun p : list (hchoice hexpr) * list hstm => hv_seq A M hv_stm (snd p)) fst (fun p : list (hchoice hexpr) * list hstm => hv_seq A M hv_stm (snd p)) fst).
    intros x I. split; [|reflexivity]. apply seq_kept. exact (proj1 (Forall_forall _ _) K x I).
  - rewrite id_kept, hv_norm, seq_kept by exact K. reflexivity.
  - rewrite range_kept, seq_kept by exact K. reflexivity.
  - rewrite seq_kept by exact K. reflexivity.
  - rewrite ov_kept. reflexivity.
  - rewrite ov_kept. reflexivity.
  - destruct e; [|reflexivity]. cbn [option_map]. rewrite hv_norm. reflexivity.
Qed.
Theorem conc_kept c : hv_conc A M (norm_conc c) = hv_conc A M c.
Proof.
  destruct c as [t w|t w|q e t l]; cbn [norm_conc hv_conc].
  - rewrite hv_norm, wave_kept. reflexivity.
  - rewrite hv_norm. destruct (hv t); [|reflexivity]. apply condwave_kept.
  - destruct q; [reflexivity|]. rewrite !hv_norm. destruct (hv e) as [v|]; [|reflexivity]. destruct (hv t) as [d|]; [|reflexivity]. cbn [obind]. unfold hv_select. rewrite !obind_assoc. f_equal.
    transitivity (r <~ omapM (many (fun p : selwave => v <~ hv_wave A (fst p) ;; Some (hact_ A M (hp_assign M false d v))) snd) (map norm_selwave l) ;; hv_alts A M (List.concat r)).
    { rewrite (omapM_ext' (many _ snd) (fun p : selwave => v <~ hv_wave A (fst p) ;; Some (map (fun c => (c, hact_ A M (hp_assign M false d v))) (snd p)))) by (intros x; unfold many; destruct (hv_wave A (fst x)); reflexivity). reflexivity. }
    rewrite (branches _ _ (fun p : selwave => v <~ hv_wave A (fst p) ;; Some (hact_ A M (hp_assign M false d v))) snd) by (intros [w cs] _; split; [cbn [norm_selwave fst]; rewrite wave_kept; reflexivity|reflexivity]).
    rewrite (omapM_ext' (many _ snd) (fun p : selwave => v <~ hv_wave A (fst p) ;; Some (map (fun c => (c, hact_ A M (hp_assign M false d v))) (snd p)))) by (intros x; unfold many; destruct (hv_wave A (fst x)); reflexivity). reflexivity.
Qed.
Theorem process_kept se l : hv_process A M n (norm_sens se) [] (map norm_stm l) = hv_process A M n se [] l.
Proof.
  unfold hv_process. rewrite (omap_ext hv_stm hv_stm norm_stm) by (intros; apply stm_kept). destruct se as [| |ns]; cbn [norm_sens hv_sens]; rewrite ?names_kept; reflexivity.
Qed.
End Norm.
