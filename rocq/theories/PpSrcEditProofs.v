(** Comments behind definitions and the kind of line ends do not change the meaning of a source. *)
From Verif Require Import Base BaseFacts RegexModel StrSpec StrUtilsModel PpLexerModel PpParserModel MacroSpec PpArgSpec PpArgProofs PpSrcSpec PpSrcEditSpec PpSrcLexProofs PpSrcDirProofs PpSrcBodyProofs
  PpSrcParseProofs PpSrcTreeProofs PpSrcRunProofs.

(** ** Comments *)
Lemma strip_lines : (forall p rest, wf p rest -> lines (render (strip p)) = lines (render p)) /\ (forall i rest, wf_item i rest -> lines (render_item (strip_item i)) = lines (render_item i))
  /\ (forall b rest, wf_branches b rest -> lines (render_branches (strip_branches b)) = lines (render_branches b)) /\ (forall e rest, wf_else e rest -> lines (render_else (strip_else e)) = lines (render_else e)).
Proof.
  apply source_mut; try reflexivity.
  - intros i HI r HR rest [Wi Wr]. cbn [strip render]. rewrite !lines_app, (HI _ Wi), (HR _ Wr). reflexivity.
  - intros w1 n ps w2 b w3 cm e rest (_ & _ & _ & _ & _ & _ & _ & _ & _ & _ & Hc). cbn [strip_item render_item]. rewrite !lines_app. assert (lines (comment_text cm) = 0) as ->; [|reflexivity].
    destruct cm as [t|]; [|reflexivity]. cbn [comment_text]. rewrite lines_app. change (lines $"//") with 0. apply no_nl_count. intros HI. destruct Hc as [_ Hc]. rewrite Forall_forall in Hc. apply (Hc _ HI). cbn. tauto.
  - intros neg b HB els HE fin rest (_ & Wb & We & _). cbn [strip_item render_item]. rewrite !lines_app, (HB _ Wb), (HE _ We). reflexivity.
  - intros w n g HG rest (_ & _ & _ & Wg). cbn [strip_branches render_branches]. rewrite !lines_app, (HG _ Wg). reflexivity.
  - intros w n g HG b HB rest (_ & _ & _ & Wg & Wb). cbn [strip_branches render_branches]. rewrite !lines_app, (HG _ Wg), (HB _ Wb). reflexivity.
  - intros s g HG rest (_ & _ & Wg). cbn [strip_else render_else]. rewrite !lines_app, (HG _ Wg). reflexivity.
Qed.
Lemma strip_evals sv : (forall p rest, wf p rest -> forall e line cur r, evals sv e line cur (strip p) r <-> evals sv e line cur p r)
  /\ (forall i rest, wf_item i rest -> forall e line cur r, evals_item sv e line cur (strip_item i) r <-> evals_item sv e line cur i r)
  /\ (forall b rest, wf_branches b rest -> forall e line cur neg els els' r, (forall x r, els x r <-> els' x r) -> evals_branches sv e line cur neg (strip_branches b) els r <-> evals_branches sv e line cur neg b els' r)
  /\ (forall el rest, wf_else el rest -> forall e line cur r, evals_else sv e line cur (strip_else el) r <-> evals_else sv e line cur el r).
Proof.
  destruct strip_lines as (SL & SI & SB & SE).
  assert (GR : forall g rest, wf g rest -> (forall e line cur r, evals sv e line cur (strip g) r <-> evals sv e line cur g r) -> forall e line cur r,
    (exists o e' cur', evals sv e line line (strip g) (o, e', cur') /\ r = (catch_up cur line ++ o, e', cur')) <-> (exists o e' cur', evals sv e line line g (o, e', cur') /\ r = (catch_up cur line ++ o, e', cur'))).
  { intros g rest W H e line cur r. split; intros (o & e' & cur' & E & ->); exists o, e', cur'; (split; [apply H, E|reflexivity]). }
  apply source_mut; try reflexivity.
  - intros i HI r HR rest [Wi Wr] e line cur x. cbn [strip evals]. rewrite (SI _ _ Wi).
    split; intros (o1 & e1 & c1 & o2 & e2 & c2 & -> & E1 & E2); exists o1, e1, c1, o2, e2, c2; (split; [reflexivity|split; [apply (HI _ Wi), E1|apply (HR _ Wr), E2]]).
  - intros neg b HB els HE fin rest (_ & Wb & We & _) e line cur r. cbn [strip_item evals_item]. apply (HB _ Wb). intros x y. apply (HE _ We).
  - intros w n g HG rest (_ & _ & _ & Wg) e line cur neg els els' r Hx. cbn [strip_branches evals_branches]. rewrite (SL _ _ Wg). destruct (xorb neg (is_def e n)); [|apply Hx]. apply (GR g _ Wg). intros. apply (HG _ Wg).
  - intros w n g HG b HB rest (_ & _ & _ & Wg & Wb) e line cur neg els els' r Hx. cbn [strip_branches evals_branches]. rewrite (SL _ _ Wg). destruct (xorb neg (is_def e n)); [|apply (HB _ Wb); exact Hx]. apply (GR g _ Wg). intros. apply (HG _ Wg).
  - intros s g HG rest (_ & _ & Wg) e line cur r. cbn [strip_else evals_else]. apply (GR g _ Wg). intros. apply (HG _ Wg).
Qed.
Lemma strip_meaning sv p out : wf p [] -> meaning sv (strip p) out <-> meaning sv p out.
Proof. intros H. unfold meaning. split; intros (e & cur & E); exists e, cur; apply (proj1 (strip_evals sv) p [] H); exact E. Qed.

(** ** Line ends *)
Lemma crlf_app a b : crlf (a ++ b) = crlf a ++ crlf b.
Proof. induction a as [|c a IH]; [reflexivity|]. cbn [app crlf]. destruct (ceqb c nl); cbn [app]; rewrite IH; reflexivity. Qed.
Lemma crlf_id s : ~ In nl s -> crlf s = s.
Proof. induction s as [|c s IH]; intros H; [reflexivity|]. cbn [crlf]. assert (ceqb c nl = false) as -> by (apply ceqb_neq; intros ->; apply H; left; reflexivity). rewrite IH by (intros Q; apply H; right; exact Q). reflexivity. Qed.
Lemma drop_app a b : drop_cr (a ++ b) = drop_cr a ++ drop_cr b.
Proof. apply filter_app. Qed.
Lemma drop_id s : ~ In cr s -> drop_cr s = s.
Proof. induction s as [|c s IH]; intros H; [reflexivity|]. unfold drop_cr. cbn [filter]. assert (ceqb c cr = false) as -> by (apply ceqb_neq; intros ->; apply H; left; reflexivity). cbn [negb]. f_equal. apply IH. intros Q. apply H. right. exact Q. Qed.
Lemma drop_crlf s : ~ In cr s -> drop_cr (crlf s) = s.
Proof.
  induction s as [|c s IH]; intros H; [reflexivity|]. cbn [crlf]. assert (IH' : drop_cr (crlf s) = s) by (apply IH; intros Q; apply H; right; exact Q). destruct (ceqb c nl) eqn:E.
  - apply ceqb_eq in E. subst c. change (drop_cr (cr :: nl :: crlf s)) with (nl :: drop_cr (crlf s)). rewrite IH'. reflexivity.
  - unfold drop_cr. cbn [filter]. assert (ceqb c cr = false) as -> by (apply ceqb_neq; intros ->; apply H; left; reflexivity). cbn [negb]. f_equal. exact IH'.
Qed.
Lemma lines_crlf s : lines (crlf s) = lines s.
Proof.
  induction s as [|c s IH]; [reflexivity|]. cbn [crlf]. change (c :: s) with ([c] ++ s). rewrite lines_app. destruct (ceqb c nl) eqn:E.
  - apply ceqb_eq in E. subst c. change (cr :: nl :: crlf s) with ([cr; nl] ++ crlf s). rewrite lines_app, IH. reflexivity.
  - change (c :: crlf s) with ([c] ++ crlf s). rewrite lines_app, IH. reflexivity.
Qed.
Lemma crlf_cons_inv s c t : crlf s = c :: t -> c <> cr -> exists s', s = c :: s' /\ t = crlf s'.
Proof.
  destruct s as [|x s]; [discriminate|]. cbn [crlf]. destruct (ceqb x nl) eqn:E; intros H N; injection H as H1 H2; [congruence|]. subst. eauto.
Qed.

Definition pieces_crlf (p : piece) : list piece :=
  match p with
  | PChar c => if ceqb c nl then [PChar cr; PChar nl] else [PChar c]
  | PSlash c => if ceqb c nl then [PSlash cr; PChar nl] else [PSlash c]
  | PStr b => [PStr b]
  | PLine t _ => [PLine t CrLf]
  | PBlock t => [PBlock (crlf t)]
  | PEsc t c => if ceqb c nl then [PEsc t cr; PChar nl] else [PEsc t c]
  end.
Definition sep_crlf (s : sep) : sep := match s with SEol _ => SEol CrLf | _ => s end.
Fixpoint src_crlf (p : items) : items := match p with Nil => Nil | Cons i r => Cons (item_crlf i) (src_crlf r) end
with item_crlf (i : item) : item :=
  match i with
  | IText ps => IText (flat_map pieces_crlf ps)
  | ICall n args => ICall n args
  | IDef w1 n ps w2 b w3 c _ => IDef w1 n ps w2 b w3 c CrLf
  | IDef0 w1 n w2 _ => IDef0 w1 n w2 CrLf
  | IIf neg b els fin => IIf neg (branches_crlf b) (else_crlf els) (sep_crlf fin)
  end
with branches_crlf (b : branches) : branches :=
  match b with One w n g => One w n (src_crlf g) | More w n g b' => More w n (src_crlf g) (branches_crlf b') end
with else_crlf (e : else_items) : else_items := match e with NoElse => NoElse | Else s g => Else (sep_crlf s) (src_crlf g) end.

Definition no_cr (s : str) : Prop := ~ In cr s.
Lemma no_cr_app a b : no_cr (a ++ b) <-> no_cr a /\ no_cr b.
Proof. unfold no_cr. split; [intros H; split; intros Q; apply H; apply in_or_app; auto|intros [H1 H2] Q; apply in_app_or in Q; tauto]. Qed.
Lemma no_nl_forall (P : ascii -> Prop) t : Forall P t -> ~ P nl -> ~ In nl t.
Proof. intros F H Q. rewrite Forall_forall in F. auto. Qed.
Lemma text_app a b : text_of_pieces (a ++ b) = text_of_pieces a ++ text_of_pieces b.
Proof. unfold text_of_pieces. rewrite map_app, concat_app. reflexivity. Qed.
Lemma piece_crlf p : piece_ok p -> no_cr (piece_text p) -> text_of_pieces (pieces_crlf p) = crlf (piece_text p) /\ Forall piece_ok (pieces_crlf p).
Proof.
  destruct p as [c|c|b|t e|t|t c]; cbn [piece_ok piece_text pieces_crlf]; intros H N.
  - destruct (ceqb c nl) eqn:E; cbn [crlf]; rewrite E; split; try reflexivity; repeat constructor; auto; cbn; intuition discriminate.
  - destruct (ceqb c nl) eqn:E; cbn [crlf]; rewrite E; (split; [reflexivity|]); repeat constructor; auto; cbn; intuition discriminate.
  - split; [|auto]. unfold text_of_pieces. cbn [map List.concat piece_text]. rewrite app_nil_r, crlf_id; [reflexivity|]. intros [Q|Q]; [discriminate|]. apply in_app_or in Q as [Q|[Q|[]]]; [exact (string_body_nl b (proj1 H) Q)|discriminate].
  - destruct e; [|exfalso; apply N; apply in_or_app; right; apply in_or_app; right; left; reflexivity]. split; [|auto]. unfold text_of_pieces. cbn [map List.concat piece_text eol_text]. rewrite app_nil_r, !crlf_app.
    rewrite (crlf_id t); [reflexivity|]. eapply no_nl_forall; [exact H|tauto].
  - apply no_cr_app in N as [_ N]. apply no_cr_app in N as [N _]. split.
    + unfold text_of_pieces. cbn [map List.concat piece_text]. rewrite app_nil_r, !crlf_app. reflexivity.
    + constructor; [|constructor]. cbn [piece_ok]. intros (a & b & E). apply H. exists (drop_cr a), (drop_cr b). rewrite <- (drop_crlf t N), E, !drop_app. reflexivity.
  - destruct H as [H1 H2]. assert (NT : ~ In nl t) by (eapply no_nl_forall; [exact H1|cbn; tauto]). destruct (ceqb c nl) eqn:E.
    + apply ceqb_eq in E. subst c. split.
      * unfold text_of_pieces. cbn [map List.concat piece_text app]. change (bs :: t ++ [nl]) with ((bs :: t) ++ [nl]). rewrite crlf_app, (crlf_id (bs :: t)); [|intros [Q|Q]; [discriminate|auto]]. change (crlf [nl]) with [cr; nl]. cbn [app]. rewrite <- ?app_assoc. cbn [app]. rewrite <- ?app_assoc. reflexivity.
      * repeat constructor; auto; cbn; intuition discriminate.
    + split; [|constructor; [split; assumption|constructor]]. unfold text_of_pieces. cbn [map List.concat piece_text]. rewrite app_nil_r, crlf_id; [reflexivity|]. intros [Q|Q]; [discriminate|]. apply in_app_or in Q as [Q|[Q|[]]]; [auto|]. apply ceqb_neq in E. auto.
Qed.
Lemma text_crlf ps : Forall piece_ok ps -> no_cr (text_of_pieces ps) -> text_of_pieces (flat_map pieces_crlf ps) = crlf (text_of_pieces ps) /\ Forall piece_ok (flat_map pieces_crlf ps).
Proof.
  induction 1 as [|p ps Hp _ IH]; intros N; [split; [reflexivity|constructor]|]. change (text_of_pieces (p :: ps)) with (piece_text p ++ text_of_pieces ps) in *. apply no_cr_app in N as [N1 N2].
  destruct (piece_crlf p Hp N1) as [E1 F1]. destruct (IH N2) as [E2 F2]. cbn [flat_map]. rewrite text_app, crlf_app, E1, E2. split; [reflexivity|]. apply Forall_app. auto.
Qed.
Lemma blanks_crlf w : Forall blank w -> crlf w = w.
Proof. intros H. apply crlf_id. exact (blank_nl w H). Qed.
Lemma name_crlf n : macro_name n -> crlf n = n.
Proof. intros [H _]. apply crlf_id. intros Q. pose proof (ident_nl n H) as E. apply (count_occ_In ascii_dec) in Q. unfold count_nl in E. lia. Qed.
Lemma no_lines_crlf s : lines s = 0 -> crlf s = s.
Proof. intros H. apply crlf_id. intros Q. apply (count_occ_In ascii_dec) in Q. unfold lines, count_nl in H. lia. Qed.
Lemma params_crlf ps : params_ok ps -> crlf (params_text ps) = params_text ps.
Proof.
  intros H. destruct ps as [l|]; [|reflexivity]. apply no_lines_crlf. unfold params_text. cbn [option_map args_text]. change ("("%char :: join (map param_text l) ++ $")") with ($"(" ++ join (map param_text l) ++ $")"). rewrite !lines_app, (params_nl l) by apply H. reflexivity.
Qed.
Lemma eol_crlf e : no_cr (eol_text e) -> crlf (eol_text e) = eol_text CrLf.
Proof. destruct e; [reflexivity|]. intros H. exfalso. apply H. left. reflexivity. Qed.
Lemma sep_text_crlf s rest : sep_ok s rest -> no_cr (sep_text s) -> sep_text (sep_crlf s) = crlf (sep_text s).
Proof. destruct s as [e|w|]; cbn; intros H N; [symmetry; apply eol_crlf, N|symmetry; apply blanks_crlf, H|reflexivity]. Qed.
Ltac nc := repeat match goal with H : no_cr (_ ++ _) |- _ => apply no_cr_app in H; destruct H end.
Lemma render_crlf : (forall p rest, wf p rest -> short_uses p -> no_cr (render p) -> render (src_crlf p) = crlf (render p)) /\ (forall i rest, wf_item i rest -> short_uses_item i -> no_cr (render_item i) -> render_item (item_crlf i) = crlf (render_item i))
  /\ (forall b rest, wf_branches b rest -> short_uses_branches b -> no_cr (render_branches b) -> render_branches (branches_crlf b) = crlf (render_branches b)) /\ (forall e rest, wf_else e rest -> short_uses_else e -> no_cr (render_else e) -> render_else (else_crlf e) = crlf (render_else e)).
Proof.
  apply source_mut; try reflexivity.
  - intros i HI r HR rest [Wi Wr] [Si Sr] N. cbn [render] in N. nc. cbn [src_crlf render]. rewrite crlf_app, (HI _ Wi), (HR _ Wr) by assumption. reflexivity.
  - intros ps rest (_ & H & _) _ N. exact (proj1 (text_crlf ps H N)).
  - intros n args rest Wi Si N. cbn [item_crlf render_item short_uses_item] in *. assert (Hn : macro_name n) by (cbn [wf_item] in Wi; destruct args; apply Wi).
    change (bt :: n ++ args_text args) with ([bt] ++ n ++ args_text args). rewrite !crlf_app, (name_crlf n Hn), (crlf_id (args_text args) Si). reflexivity.
  - intros w1 n ps w2 b w3 cm e rest (Hw1 & Hn & Hps & Hw2 & _ & Db & _ & _ & _ & Hw3 & Hc) _ N. cbn [render_item item_crlf] in *. nc. rewrite !crlf_app, (blanks_crlf w1 (proj2 Hw1)), (blanks_crlf w2 Hw2), (blanks_crlf w3 Hw3), (name_crlf n Hn), (params_crlf ps Hps), (crlf_id b (dbody_nl b Db)), (eol_crlf e) by assumption.
    assert (crlf (comment_text cm) = comment_text cm) as ->; [|reflexivity]. destruct cm as [t|]; [|reflexivity]. cbn [comment_text]. rewrite crlf_app, (crlf_id t); [reflexivity|]. eapply no_nl_forall; [exact (proj2 Hc)|cbn; tauto].
  - intros w1 n w2 e rest (Hw1 & Hn & Hw2) _ N. cbn [render_item item_crlf] in *. nc. rewrite !crlf_app, (blanks_crlf w1 (proj2 Hw1)), (blanks_crlf w2 Hw2), (name_crlf n Hn), (eol_crlf e) by assumption. reflexivity.
  - intros neg b HB els HE fin rest (_ & Wb & We & Ws) [Sb Se] N. cbn [render_item item_crlf] in *. nc. rewrite !crlf_app, (HB _ Wb), (HE _ We), (sep_text_crlf fin rest) by assumption. destruct neg; reflexivity.
  - intros w n g HG rest (Hw & Hn & _ & Wg) Sg N. cbn [render_branches branches_crlf] in *. nc. rewrite !crlf_app, (HG _ Wg), (blanks_crlf w (proj2 Hw)), (name_crlf n Hn) by assumption. reflexivity.
  - intros w n g HG b HB rest (Hw & Hn & _ & Wg & Wb) [Sg Sb] N. cbn [render_branches branches_crlf] in *. nc. rewrite !crlf_app, (HG _ Wg), (HB _ Wb), (blanks_crlf w (proj2 Hw)), (name_crlf n Hn) by assumption. reflexivity.
  - intros s g HG rest (Hs & _ & Wg) Sg N. cbn [render_else else_crlf] in *. nc. rewrite !crlf_app, (HG _ Wg), (sep_text_crlf s _ Hs) by assumption. reflexivity.
Qed.
Lemma directive_crlf s : directive_or_end s -> directive_or_end (crlf s).
Proof.
  intros [->|(c & t & -> & L)]; [left; reflexivity|]. right. exists c, (crlf t). split; [|exact L]. cbn [crlf]. assert (ceqb bt nl = false) as -> by reflexivity.
  assert (ceqb c nl = false) as ->; [|reflexivity]. apply ceqb_neq. intros ->. unfold letter in L. cbn in L. intuition discriminate.
Qed.
Lemma word_crlf s : ends_word s -> ends_word (crlf s).
Proof.
  intros H c t E L. assert (N : c <> cr) by (intros ->; destruct L as [L|L]; unfold letter in L; cbn in L; intuition discriminate). destruct (crlf_cons_inv s c t E N) as (s' & -> & _). exact (H c s' eq_refl L).
Qed.
Lemma args_crlf s : no_arguments s -> no_arguments (crlf s).
Proof.
  intros H w t Hw E. assert (X : exists t', s = w ++ "("%char :: t').
  { clear H. revert s E. induction Hw as [|c w Hc _ IH]; intros s E; cbn [app] in E.
    - destruct (crlf_cons_inv s _ _ E ltac:(discriminate)) as (s' & -> & _). exists s'. reflexivity.
    - destruct (crlf_cons_inv s _ _ E ltac:(destruct Hc as [-> | ->]; discriminate)) as (s' & -> & E'). destruct (IH s' (eq_sym E')) as (t' & ->). exists t'. reflexivity. }
  destruct X as (t' & ->). exact (H w t' Hw eq_refl).
Qed.
Lemma sep_ok_crlf s rest : sep_ok s rest -> sep_ok (sep_crlf s) (crlf rest).
Proof.
  destruct s as [e|w|]; cbn; [auto| |intros ->; reflexivity]. intros [H1 H2]. split; [exact H1|]. intros c t E. destruct (ascii_dec c cr) as [->|N]; [split; [discriminate|intros [Q|Q]; discriminate]|].
  destruct (crlf_cons_inv rest c t E N) as (s' & -> & _). exact (H2 c s' eq_refl).
Qed.
Lemma flat_nonempty ps : ps <> [] -> flat_map pieces_crlf ps <> [].
Proof. destruct ps as [|p ps]; [congruence|]. intros _. cbn [flat_map]. destruct p as [c|c|b|t e|t|t c]; cbn [pieces_crlf]; try destruct (ceqb c nl); discriminate. Qed.
Lemma wf_crlf : (forall p rest, wf p rest -> short_uses p -> no_cr (render p) -> wf (src_crlf p) (crlf rest)) /\ (forall i rest, wf_item i rest -> short_uses_item i -> no_cr (render_item i) -> wf_item (item_crlf i) (crlf rest))
  /\ (forall b rest, wf_branches b rest -> short_uses_branches b -> no_cr (render_branches b) -> wf_branches (branches_crlf b) (crlf rest)) /\ (forall e rest, wf_else e rest -> short_uses_else e -> no_cr (render_else e) -> wf_else (else_crlf e) (crlf rest)).
Proof.
  destruct render_crlf as (RP & RI & RB & RE). apply source_mut.
  - intros rest _ _ _. exact I.
  - intros i HI r HR rest [Wi Wr] [Si Sr] N. cbn [render] in N. nc. cbn [src_crlf wf]. rewrite (RP r rest) by assumption. rewrite <- crlf_app. split; [apply HI|apply HR]; assumption.
  - intros ps rest (H1 & H2 & H3) _ N. cbn [item_crlf wf_item]. split; [apply flat_nonempty, H1|]. split; [exact (proj2 (text_crlf ps H2 N))|apply directive_crlf, H3].
  - intros n [args|] rest; cbn [item_crlf wf_item]; [intros H _ _; exact H|]. intros (H1 & H2 & H3) _ N. split; [exact H1|]. split; [apply word_crlf, H2|apply args_crlf, H3].
  - intros w1 n ps w2 b w3 cm e rest H _ _. exact H.
  - intros w1 n w2 e rest H _ _. exact H.
  - intros neg b HB els HE fin rest (H1 & H2 & H3 & H4) [Sb Se] N. cbn [render_item] in N. nc. cbn [item_crlf wf_item]. rewrite (RE els _ H3) by assumption. rewrite (sep_text_crlf fin rest H4) by assumption.
    change $"`endif" with (crlf $"`endif"). rewrite <- !crlf_app. split; [|split; [apply HB; assumption|split; [apply HE; assumption|apply sep_ok_crlf; assumption]]].
    intros E. destruct (H1 E) as (w & n & g & ->). exists w, n, (src_crlf g). reflexivity.
  - intros w n g HG rest (H1 & H2 & H3 & H4) Sg N. cbn [render_branches] in N. nc. cbn [branches_crlf wf_branches]. rewrite (RP g rest H4) by assumption. rewrite <- crlf_app. split; [exact H1|]. split; [exact H2|]. split; [apply word_crlf, H3|apply HG; assumption].
  - intros w n g HG b HB rest (H1 & H2 & H3 & H4 & H5) [Sg Sb] N. cbn [render_branches] in N. nc. cbn [branches_crlf wf_branches]. rewrite (RP g _ H4), (RB b _ H5) by assumption.
    change $"`elsif" with (crlf $"`elsif"). rewrite <- !crlf_app. split; [exact H1|]. split; [exact H2|]. split; [apply word_crlf, H3|]. split; [apply HG; assumption|apply HB; assumption].
  - intros rest _ _ _. exact I.
  - intros s g HG rest (H1 & H2 & H3) Sg N. cbn [render_else] in N. nc. cbn [else_crlf wf_else]. rewrite (RP g rest H3) by assumption. rewrite <- crlf_app. split; [apply sep_ok_crlf, H1|]. split; [destruct s; cbn; congruence|apply HG; assumption].
Qed.

(** Expansions contain no CR. *)
Lemma subst_word_cr stop f w nx : (forall x v, f x = Some v -> no_cr v) -> no_cr w -> no_cr (subst_word stop f w nx).
Proof. intros Hf Hw. unfold subst_word. destruct (f w) as [v|] eqn:E; [|exact Hw]. destruct (match nx with Some c => stop c | None => false end); [exact Hw|exact (Hf _ _ E)]. Qed.
Lemma subst_cr stop f : (forall x v, f x = Some v -> no_cr v) -> forall s w inside prev r, no_cr w -> no_cr s -> subst_body stop f w inside prev s = Some r -> no_cr r.
Proof.
  intros Hf. induction s as [|c s IH]; intros w inside prev r Hw Hs E; cbn [subst_body] in E.
  - destruct inside; [discriminate|]. injection E as <-. apply subst_word_cr; assumption.
  - assert (Hc : no_cr [c] /\ no_cr s) by (apply no_cr_app; exact Hs). destruct Hc as [Hc Hs']. destruct inside; [|destruct (word_char c)].
    + destruct (subst_body stop f [] _ (Some c) s) as [u|] eqn:U; [|discriminate]. injection E as <-. change (c :: u) with ([c] ++ u). apply no_cr_app. split; [exact Hc|]. refine (IH _ _ _ u _ Hs' U). intros [].
    + refine (IH _ _ _ r _ Hs' E). apply no_cr_app. auto.
    + destruct (subst_body stop f [] _ (Some c) s) as [u|] eqn:U; [|discriminate]. injection E as <-. apply no_cr_app. split; [apply subst_word_cr; assumption|]. change (c :: u) with ([c] ++ u). apply no_cr_app. split; [exact Hc|]. refine (IH _ _ _ u _ Hs' U). intros [].
Qed.
Lemma replaced_cr pat repl s t : replaced pat repl s t -> no_cr repl -> no_cr s -> no_cr t.
Proof. induction 1 as [s H|a s t H _ IH]; intros Hr Hs; [exact Hs|]. nc. apply no_cr_app. split; [assumption|]. apply no_cr_app. auto. Qed.
Lemma join_cr l : no_cr (join l) -> Forall no_cr l.
Proof.
  induction l as [|x l IH]; intros H; [constructor|]. destruct l as [|y l]; [constructor; [exact H|constructor]|]. change (join (x :: y :: l)) with (x ++ [","%char] ++ join (y :: l)) in H. nc. constructor; auto.
Qed.
Definition args_cr (args : option (list str)) : Prop := match args with Some l => Forall no_cr l | None => True end.
Lemma args_text_cr args : no_cr (args_text args) -> args_cr args.
Proof. destruct args as [l|]; [|intros _; exact I]. cbn [args_text args_cr]. change ("("%char :: join l ++ $")") with ($"(" ++ join l ++ $")"). intros H. nc. apply join_cr. assumption. Qed.
Lemma trimmed_cr w l vals : Forall2 (trimmed w) l vals -> Forall no_cr l -> Forall no_cr vals.
Proof. induction 1 as [|x y l vals (a & b & -> & _) _ IH]; intros H; [constructor|]. inversion_clear H. nc. constructor; auto. Qed.
Lemma lookup_cr names vals : Forall no_cr vals -> forall x v, lookup names vals x = Some v -> no_cr v.
Proof.
  intros H. revert names. induction H as [|v0 vals Hv _ IH]; intros [|n names] x v E; cbn [lookup] in E; try discriminate. destruct (seqb n x); [injection E as <-; exact Hv|eapply IH; exact E].
Qed.
Definition defaults_cr (ps : option (list (str * option str))) : Prop := match ps with Some l => Forall (fun q => match snd q with Some d => no_cr d | None => True end) l | None => True end.
Definition cr_free (e : macros) : Prop := Forall (fun p => no_cr (snd (snd p)) /\ defaults_cr (fst (snd p))) e.
Lemma body_cr e n ps b : cr_free e -> body_of e n = Some (ps, b) -> no_cr b /\ defaults_cr ps.
Proof. induction 1 as [|[k d] e H _ IH]; [discriminate|]. cbn [body_of]. destruct (seqb k n); [|exact IH]. intros E. injection E as ->. exact H. Qed.
Lemma catch_no_cr a b : no_cr (catch_up a b).
Proof. unfold catch_up. destruct ((a <=? b) && (b - a <=? 3)); [|intros []]. intros H. apply repeat_spec in H. discriminate. Qed.
Lemma scanned_cr (call : str -> option (list str) -> str -> Prop) : (forall n a t, call n a t -> args_cr a -> no_cr t) ->
  forall q line cur t, no_cr (render q) -> scanned call line cur q t -> no_cr t.
Proof.
  intros HC q. induction q as [|i q IH] using items_list_ind; intros line cur t N H; cbn [scanned] in H; [subst t; intros []|]. cbn [render] in N. nc. destruct i as [ps|n args|w1 k pl w2 bb w3 cm el|w1 k w2 el|ng br els fin]; try contradiction.
  - destruct H as (u & -> & H). cbn [render_item] in *. apply no_cr_app. split; [apply catch_no_cr|]. apply no_cr_app. split; [assumption|]. eapply IH; eassumption.
  - destruct H as (a & u & -> & Ha & H). apply no_cr_app. split; [apply catch_no_cr|]. apply no_cr_app. split; [|eapply IH; eassumption]. apply (HC n args a Ha). apply args_text_cr.
    cbn [render_item] in *. match goal with N : no_cr (bt :: n ++ args_text args) |- _ => change (bt :: n ++ args_text args) with ([bt] ++ n ++ args_text args) in N end. nc. assumption.
Qed.
Lemma takes_cr ps : forall given vals, defaults_cr (Some ps) -> Forall no_cr given -> takes ps given vals -> Forall no_cr vals.
Proof.
  induction ps as [|[n [d|]] ps IH]; intros [|g given] [|v vals] D G T; cbn [takes] in T; try contradiction; try constructor; inversion D as [|? ? D1 D2]; subst; cbn [snd] in *.
  - destruct T as [-> _]. exact D1.
  - apply (IH [] vals D2 (Forall_nil _)). exact (proj2 T).
  - inversion G; subst. destruct T as [-> _]. destruct g; assumption.
  - inversion G; subst. apply (IH given vals D2); [assumption|]. exact (proj2 T).
  - inversion G; subst. destruct T as [-> _]. assumption.
  - inversion G; subst. apply (IH given vals D2); [assumption|]. exact (proj2 T).
Qed.
Lemma expands_cr sv e : cr_free e -> forall d n args t, expands sv d e n args t -> args_cr args -> no_cr t.
Proof.
  intros He. induction d as [|d IH]; intros n args t H Ha; [contradiction|]. cbn [expands] in H. destruct H as (ps & b & r & q & EB & HR & HJ & _ & _ & HS & _).
  destruct (body_cr e n ps b He EB) as [Hb HD]. eapply scanned_cr; [exact IH| |exact HS].
  assert (Hr : no_cr r).
  { destruct ps as [names|], args as [l|]; cbn [replacement args_cr] in *; try contradiction; [|subst r; exact Hb]. destruct HR as (given & vals & V1 & V3 & V2 & _). refine (subst_cr (fun _ => false) (lookup (map fst names) vals) _ b [] false None r _ Hb V2); [|intros []]. apply lookup_cr. apply (takes_cr names given); [exact HD| |exact V3]. eapply trimmed_cr; eassumption. }
  unfold joined in HJ. destruct sv; [|rewrite HJ; exact Hr]. destruct HJ as (u & J1 & J2). eapply replaced_cr; [exact J2|intros [Q|[]]; discriminate|]. eapply replaced_cr; [exact J1|intros []|exact Hr].
Qed.
Lemma catch_cr a b : drop_cr (catch_up a b) = catch_up a b.
Proof. apply drop_id. apply catch_no_cr. Qed.

Definition agrees (r : result) (P : result -> Prop) : Prop := cr_free (snd (fst r)) /\ exists o', P (o', snd (fst r), snd r) /\ drop_cr o' = fst (fst r).
Lemma evals_crlf sv : (forall p rest, wf p rest -> short_uses p -> no_cr (render p) -> forall e line cur r, cr_free e -> evals sv e line cur p r -> agrees r (evals sv e line cur (src_crlf p)))
  /\ (forall i rest, wf_item i rest -> short_uses_item i -> no_cr (render_item i) -> forall e line cur r, cr_free e -> evals_item sv e line cur i r -> agrees r (evals_item sv e line cur (item_crlf i)))
  /\ (forall b rest, wf_branches b rest -> short_uses_branches b -> no_cr (render_branches b) -> forall e line cur neg (els els' : nat -> result -> Prop) r, cr_free e -> (forall x r, els x r -> agrees r (els' x)) ->
       evals_branches sv e line cur neg b els r -> agrees r (evals_branches sv e line cur neg (branches_crlf b) els'))
  /\ (forall el rest, wf_else el rest -> short_uses_else el -> no_cr (render_else el) -> forall e line cur r, cr_free e -> evals_else sv e line cur el r -> agrees r (evals_else sv e line cur (else_crlf el))).
Proof.
  destruct render_crlf as (RP & RI & RB & RE).
  assert (GR : forall g line cur e o1 e1 c1, agrees (o1, e1, c1) (evals sv e line line (src_crlf g)) ->
    agrees (catch_up cur line ++ o1, e1, c1) (fun r => exists o e' cur', evals sv e line line (src_crlf g) (o, e', cur') /\ r = (catch_up cur line ++ o, e', cur'))).
  { intros g line cur e o1 e1 c1 (H1 & o' & E & D). cbn [fst snd] in *. split; [exact H1|]. exists (catch_up cur line ++ o'). split; [exists o', e1, c1; auto|]. cbn [fst]. rewrite drop_app, catch_cr, D. reflexivity. }
  apply source_mut.
  - intros rest _ _ _ e line cur r He E. cbn in E. subst r. split; [exact He|]. exists []. split; reflexivity.
  - intros i HI p HP rest [Wi Wp] [Si Sp] N e line cur r He E. cbn [render] in N. nc. cbn [evals] in E. destruct E as (o1 & e1 & c1 & o2 & e2 & c2 & -> & E1 & E2).
    destruct (HI _ Wi Si ltac:(assumption) e line cur _ He E1) as (V1 & o1' & X1 & D1). cbn [fst snd] in *.
    destruct (HP _ Wp Sp ltac:(assumption) e1 _ c1 _ V1 E2) as (V2 & o2' & X2 & D2). cbn [fst snd] in *. split; [exact V2|]. exists (o1' ++ o2'). cbn [fst snd]. split; [|rewrite drop_app, D1, D2; reflexivity].
    cbn [evals src_crlf]. rewrite (RI i _ Wi), lines_crlf by assumption. exists o1', e1, c1, o2', e2, c2. auto.
  - intros ps rest (_ & H & _) _ N e line cur r He E. cbn [evals_item] in E. subst r. destruct (text_crlf ps H N) as [T _]. split; [exact He|]. exists (catch_up cur line ++ crlf (text_of_pieces ps)). cbn [evals_item item_crlf fst snd]. rewrite T, lines_crlf. split; [reflexivity|].
    rewrite drop_app, catch_cr, drop_crlf by exact N. reflexivity.
  - intros n args rest _ Si N e line cur r He E. cbn [evals_item] in E. destruct E as (t & X & ->). split; [exact He|]. exists (catch_up cur line ++ t). cbn [evals_item item_crlf fst snd]. split; [eauto|].
    rewrite drop_app, catch_cr, drop_id; [reflexivity|]. apply (expands_cr sv e He _ n args t X). apply args_text_cr. cbn [render_item] in N. change (bt :: n ++ args_text args) with ([bt] ++ n ++ args_text args) in N. nc. assumption.
  - intros w1 n ps w2 b w3 cm el rest (_ & Hn & _ & _ & _ & Db & _) _ N e line cur r He E. cbn [evals_item] in E. destruct E as [E ->]. split; [constructor; [split; [exact (dbody_cr b Db)|destruct ps as [l|]; [|exact I]; cbn; apply Forall_forall; intros q J; apply in_map_iff in J as (q' & <- & _); exact I]|exact He]|]. exists []. cbn [evals_item item_crlf fst snd]. auto.
  - intros w1 n w2 el rest (_ & Hn & _) _ N e line cur r He E. cbn [evals_item] in E. destruct E as [E ->]. split; [constructor; [split; [intros []|exact I]|exact He]|]. exists []. cbn [evals_item item_crlf fst snd]. auto.
  - intros neg b HB els HE fin rest (_ & Wb & We & _) [Sb Se] N e line cur r He E. cbn [render_item] in N. nc. cbn [evals_item item_crlf] in *. eapply (HB _ Wb Sb); [assumption|exact He| |exact E].
    intros x r' E'. apply (HE _ We); assumption.
  - intros w n g HG rest (_ & _ & _ & Wg) Sg N e line cur neg els els' r He HX E. cbn [render_branches] in N. nc. cbn [evals_branches branches_crlf] in *. rewrite (RP g _ Wg), lines_crlf by assumption.
    destruct (xorb neg (is_def e n)); [|apply HX, E]. destruct E as (o1 & e1 & c1 & E & ->). apply GR. apply (HG _ Wg); assumption.
  - intros w n g HG b HB rest (_ & _ & _ & Wg & Wb) [Sg Sb] N e line cur neg els els' r He HX E. cbn [render_branches] in N. nc. cbn [evals_branches branches_crlf] in *. rewrite (RP g _ Wg), lines_crlf by assumption.
    destruct (xorb neg (is_def e n)); [|eapply (HB _ Wb); eassumption]. destruct E as (o1 & e1 & c1 & E & ->). apply GR. apply (HG _ Wg); assumption.
  - intros rest _ _ _ e line cur r He E. cbn in E. subst r. split; [exact He|]. exists []. split; reflexivity.
  - intros s g HG rest (Hs & _ & Wg) Sg N e line cur r He E. cbn [render_else] in N. nc. cbn [evals_else else_crlf] in *. rewrite (sep_text_crlf s _ Hs), lines_crlf by assumption.
    destruct E as (o1 & e1 & c1 & E & ->). apply GR. apply (HG _ Wg); assumption.
Qed.
Lemma meaning_crlf sv p out : wf p [] -> short_uses p -> no_cr (render p) -> meaning sv p out ->
  wf (src_crlf p) [] /\ render (src_crlf p) = crlf (render p) /\ exists out', meaning sv (src_crlf p) out' /\ drop_cr out' = out.
Proof.
  intros HW HS N (e & c & E). split; [exact (proj1 wf_crlf p [] HW HS N)|]. split; [exact (proj1 render_crlf p [] HW HS N)|].
  destruct (proj1 (evals_crlf sv) p [] HW HS N [] 1 1 _ (Forall_nil _) E) as (_ & o' & X & D). exists o'. split; [exists e, c; exact X|exact D].
Qed.
