(** How the lexer reads ordinary text (PpSrcSpec). *)
From Verif Require Import Base BaseFacts RegexModel RegexProofs StrSpec StrUtilsModel PpLexerModel PpLexProofs PpParserModel
  MacroDefModel PpModel PpArgSpec PpArgProofs PpPlainProofs PpSrcSpec.

Definition code_piece (p : piece) : bool := match p with PChar _ | PSlash _ | PEsc _ _ => true | _ => false end.
(** Texts at which no code can start. *)
Definition no_code (s : str) : Prop :=
  s = [] \/ (exists t, s = dq :: t) \/ (exists t, s = $"//" ++ t) \/ (exists t, s = $"/*" ++ t) \/ (exists c t, s = bt :: c :: t /\ letter c).
Lemma letter_id c : letter c -> id_char c.
Proof. unfold letter, id_char. cbn. tauto. Qed.
Lemma directive_no_code s : directive_or_end s -> no_code s.
Proof. unfold no_code. intros [->|H]; auto. Qed.

Lemma ws_split (a b : str) (c d : ascii) (x y : str) (P : ascii -> Prop) :
  Forall P a -> Forall P b -> ~ P c -> ~ P d -> a ++ c :: x = b ++ d :: y -> a = b /\ c = d /\ x = y.
Proof.
  intros Fa Fb Nc Nd. revert b Fb. induction Fa as [|u a Hu Fa IH]; intros b Fb E; destruct b as [|v b]; cbn [app] in E.
  - injection E as -> ->. auto.
  - injection E as -> _. inversion Fb; contradiction.
  - injection E as -> _. contradiction.
  - injection E as -> E. inversion Fb; subst. destruct (IH b ltac:(assumption) E) as (-> & -> & ->). auto.
Qed.
Lemma item_text p rest : code_piece p = true -> piece_ok p -> M CODE_item (piece_text p) rest.
Proof.
  intros Hc H. unfold CODE_item. cbn [Alts]. destruct p; try discriminate; cbn [piece_ok piece_text] in *.
  - apply M_AltL. apply M_not1. eexists. split; [reflexivity|]. exact H.
  - apply M_AltR, M_AltL. apply M_Seq_iff. exists $"/", [c]. repeat split; [apply M_one; eexists; split; [reflexivity|cbn; tauto]|].
    apply M_not1. eexists. split; [reflexivity|]. cbn in H |- *. tauto.
  - destruct H as [F H]. apply M_AltR, M_AltR, M_AltR, M_AltR, M_AltR. apply M_Seq_iff. exists [bs], (t ++ [c]).
    repeat split; [apply M_one; eexists; split; [reflexivity|cbn; tauto]|]. apply M_Seq_iff. exists t, [c].
    repeat split; [apply M_Star_not1; exact F|]. apply M_AltL. apply M_one. eauto.
Qed.
Ltac alts H := unfold CODE_item in H; cbn [Alts] in H; rewrite !M_Alt_iff in H; destruct H as [H|[H|[H|[H|[H|H]]]]].
(** The items of CODE by their first character. *)
Lemma item_cases y z : M CODE_item y z ->
  (exists c, y = [c] /\ ~ In c [bt; "/"%char; dq; bs]) \/ (exists c, y = ["/"%char; c] /\ ~ In c ["/"%char; "*"%char; bt]) \/
  (exists c u, y = bt :: c :: u /\ In c [bt; bs; dq]) \/
  (exists t, Forall (fun c => ~ In c [sp; tab; cr; nl]) t /\ ((exists c, y = bs :: t ++ [c] /\ In c [sp; tab; cr; nl]) \/ y = bs :: t /\ z = [])).
Proof.
  intros H. alts H.
  - apply M_not1 in H as (c & -> & H). left. eauto.
  - apply M_Seq_iff in H as (a & b & -> & H & H2). apply M_one in H as (d & -> & [<-|[]]). apply M_not1 in H2 as (c & -> & H2). right. left. eexists. split; [reflexivity|exact H2].
  - right. right. left. unfold MACRO_ESC_QUOTE, Plus in H. apply M_Seq_iff in H as (a & b & -> & H & _). apply M_Seq_iff in H as (a1 & b1 & -> & H & _). apply M_lit in H as ->.
    eexists bs, _. split; [reflexivity|]. cbn. tauto.
  - apply M_lit in H as ->. right. right. left. eexists dq, _. split; [reflexivity|]. cbn. tauto.
  - apply M_lit in H as ->. right. right. left. eexists bt, _. split; [reflexivity|]. cbn. tauto.
  - cbn [Seqs] in H. apply M_Seq_iff in H as (a & b & -> & H & H2). apply M_one in H as (d & -> & [<-|[]]). apply M_Seq_iff in H2 as (t & e & -> & H2 & H3).
    apply M_Star_not1 in H2. right. right. right. exists t. split; [exact H2|]. apply M_Alt_iff in H3 as [H3|H3].
    + apply M_one in H3 as (c & -> & Hc). left. exists c. auto.
    + apply M_Eof_iff in H3 as [-> ->]. right. rewrite app_nil_r. auto.
Qed.
Lemma item_det p y z s : code_piece p = true -> piece_ok p -> M CODE_item y z -> y ++ z = piece_text p ++ s -> y = piece_text p.
Proof.
  intros Hc Hp HM E. apply item_cases in HM as [(d & -> & Hd)|[(d & -> & Hd)|[(d & u & -> & Hd)|(t & F & HM)]]]; destruct p as [c|c| | | |t' c]; try discriminate; cbn [piece_text piece_ok app] in *.
  - injection E as -> _. reflexivity.
  - injection E as -> _. exfalso. apply Hd. cbn. tauto.
  - injection E as -> _. exfalso. apply Hd. cbn. tauto.
  - injection E as <- _. exfalso. apply Hp. cbn. tauto.
  - injection E as -> _. reflexivity.
  - injection E as <- _. exfalso. apply Hp. cbn. tauto.
  - destruct HM as [(e & -> & _)|[-> ->]]; cbn [app] in E; injection E as <- _; exfalso; apply Hp; cbn; tauto.
  - destruct HM as [(e & -> & _)|[-> ->]]; discriminate.
  - destruct Hp as [F' Hc']. destruct HM as [(e & -> & He)|[-> ->]]; cbn [app] in E; injection E as E; rewrite <- ?app_assoc in E; cbn [app] in E.
    + destruct (ws_split t t' e c z s (fun c => ~ In c [sp; tab; cr; nl]) F F' ltac:(tauto) ltac:(tauto) E) as (-> & -> & _). reflexivity.
    + exfalso. rewrite app_nil_r in E. rewrite E in F. apply Forall_app in F as [_ F]. inversion F; subst. contradiction.
Qed.
Lemma item_none y z : M CODE_item y z -> no_code (y ++ z) -> False.
Proof.
  intros HM [E|[(t & E)|[(t & E)|[(t & E)|(c & t & E & L)]]]];
    apply item_cases in HM as [(d & -> & Hd)|[(d & -> & Hd)|[(d & u & -> & Hd)|(t0 & F & HM)]]]; try (destruct HM as [(e & -> & _)|[-> ->]]);
    cbn in E; try discriminate; try (injection E as -> _; apply Hd; cbn; tauto); try (injection E as <- _; apply Hd; cbn; tauto).
  injection E as -> _. unfold letter in L. cbn in Hd, L. repeat (destruct Hd as [<-|Hd]; [intuition discriminate|]). exact Hd.
Qed.
Lemma text_app a b : text_of_pieces (a ++ b) = text_of_pieces a ++ text_of_pieces b.
Proof. unfold text_of_pieces. rewrite map_app. apply concat_app. Qed.
Lemma item_nonempty y z : M CODE_item y z -> y <> [].
Proof. intros HM ->. apply item_cases in HM as [(d & E & Hd)|[(d & E & Hd)|[(d & u & E & Hd)|(t & F & [(e & E & _)|[E _]])]]]; discriminate. Qed.
Definition good_code (ps : list piece) : Prop := Forall (fun p => code_piece p = true /\ piece_ok p) ps.
Lemma code_star ps rest : good_code ps -> M (Star CODE_item) (text_of_pieces ps) rest.
Proof.
  induction 1 as [|p ps [H1 H2] _ IH]; [constructor|]. change (text_of_pieces (p :: ps)) with (piece_text p ++ text_of_pieces ps).
  apply M_StarS; [destruct p; discriminate|apply item_text; assumption|exact IH].
Qed.
Lemma star_bound y z : M (Star CODE_item) y z -> forall ps s, good_code ps -> no_code s -> y ++ z = text_of_pieces ps ++ s ->
  exists p1 p2, ps = p1 ++ p2 /\ y = text_of_pieces p1.
Proof.
  revert y z. apply (M_Star_ind CODE_item (fun y z => forall ps s, good_code ps -> no_code s -> y ++ z = text_of_pieces ps ++ s -> exists p1 p2, ps = p1 ++ p2 /\ y = text_of_pieces p1)).
  - intros z ps s _ _ _. exists [], ps. split; reflexivity.
  - intros x y z Hx HM _ IH ps s G N E. rewrite <- app_assoc in E. destruct ps as [|p ps].
    + exfalso. cbn [app text_of_pieces map concat] in E. apply (item_none _ _ HM). rewrite E. exact N.
    + inversion G as [|? ? [G1 G2] G']; subst. change (text_of_pieces (p :: ps)) with (piece_text p ++ text_of_pieces ps) in E. rewrite <- app_assoc in E.
      assert (x = piece_text p) as -> by (eapply item_det; eassumption). apply app_inv_head in E.
      destruct (IH ps s G' N E) as (p1 & p2 & -> & ->). exists (p :: p1), p2. split; reflexivity.
Qed.
Lemma code_bound y z ps s : M CODE_re y z -> good_code ps -> no_code s -> y ++ z = text_of_pieces ps ++ s ->
  exists p1 p2, ps = p1 ++ p2 /\ y = text_of_pieces p1.
Proof.
  intros HM. apply star_bound. unfold CODE_re, Plus in HM. apply M_Seq_iff in HM as (a & b & -> & H1 & H2). apply M_StarS; [exact (item_nonempty _ _ H1)|exact H1|exact H2].
Qed.
Lemma code_head y z : M CODE_re y z -> exists a b, y = a ++ b /\ M CODE_item a (b ++ z).
Proof. intros HM. unfold CODE_re, Plus in HM. apply M_Seq_iff in HM as (a & b & -> & H1 & H2). eauto. Qed.
Lemma code_no y z : M CODE_re y z -> no_code (y ++ z) -> False.
Proof. intros HM N. apply code_head in HM as (a & b & -> & HM). rewrite <- app_assoc in N. exact (item_none _ _ HM N). Qed.

(** Which rule can match at the start of a text. *)
Lemma text_no y z ps s : y ++ z = text_of_pieces ps ++ s -> ps <> [] -> good_code ps ->
  (forall t, y <> dq :: t) /\ (forall t, y <> "/"%char :: "/"%char :: t) /\ (forall t, y <> "/"%char :: "*"%char :: t) /\ y <> [bt].
Proof.
  intros E Hps G. destruct ps as [|p ps]; [congruence|]. inversion G as [|? ? [G1 G2] _]; subst. change (text_of_pieces (p :: ps)) with (piece_text p ++ text_of_pieces ps) in E. rewrite <- app_assoc in E.
  destruct p; try discriminate; cbn [piece_text piece_ok app] in *; (split; [|split; [|split]]);
    intros; intros EY; rewrite EY in E; cbn [app] in E; try discriminate E; injection E; intros; subst;
    try (apply G2; cbn; tauto); try discriminate.
Qed.
Lemma rule_code ps s : ps <> [] -> good_code ps -> no_code s ->
  best_rule (mode_rules DEFAULT_MODE) (text_of_pieces ps ++ s) None = Some (R_CODE, length (text_of_pieces ps)).
Proof.
  intros Hps G N. assert (Hx : text_of_pieces ps <> []) by (destruct ps as [|p ps]; [congruence|destruct p; inversion G as [|? ? [? ?] _]; try discriminate]).
  apply best_is; [cbn; tauto|exact Hx| |].
  - cbn [rule_re]. unfold CODE_re, Plus. destruct ps as [|p ps]; [congruence|]. inversion G as [|? ? [G1 G2] G']; subst. apply M_Seq_iff. exists (piece_text p), (text_of_pieces ps).
    repeat split; [apply item_text; assumption|apply code_star; exact G'].
  - intros r y z Hr Hy E HM. destruct (text_no _ _ _ _ E Hps G) as (T1 & T2 & T3 & T4).
    cbn [mode_rules In] in Hr. repeat (destruct Hr as [<-|Hr]); [..|contradiction]; cbn [rule_re] in HM.
    + apply M_STR in HM as (b & -> & _). exfalso. eapply T1. reflexivity.
    + apply M_line in HM as (b & ->). exfalso. eapply T2. reflexivity.
    + apply M_block in HM as (b & ->). exfalso. eapply T3. reflexivity.
    + left. split; [reflexivity|]. destruct (code_bound _ _ _ _ HM G N E) as (p1 & p2 & -> & ->). rewrite text_app, app_length. lia.
    + exfalso. unfold CODE_SLASH_re in HM. apply M_Seq_iff in HM as (a & b & -> & HM & Hb). apply M_lit in Hb as ->. rewrite <- app_assoc in E.
      destruct (code_bound _ _ _ _ HM G N E) as (p1 & p2 & -> & ->). rewrite text_app, <- app_assoc in E. apply app_inv_head in E. apply Forall_app in G as [_ G]. destruct p2 as [|p p2].
      * cbn in E. destruct N as [->|[(t & ->)|[(t & ->)|[(t & ->)|(c & t & -> & _)]]]]; discriminate.
      * inversion G as [|? ? [G1 G2] _]; subst. change (text_of_pieces (p :: p2)) with (piece_text p ++ text_of_pieces p2) in E. destruct p; try discriminate; cbn in E; injection E as <-; try (apply G2; cbn; tauto).
    + apply M_one in HM as (d & -> & [<-|[]]). exfalso. apply T4. reflexivity.
Qed.
Ltac no_code_head := match goal with HM : M CODE_re ?y ?z, E : ?y ++ ?z = _ |- _ => exfalso; apply (code_no _ _ HM); rewrite E; unfold no_code; cbn [app]; eauto 8 end.
Ltac slash_head HM E := unfold CODE_SLASH_re in HM; apply M_Seq_iff in HM as (?a & ?b & -> & HM & _); rewrite <- app_assoc in E; no_code_head.
Lemma rule_str b s : string_body b -> no_final_bs b -> best_rule (mode_rules DEFAULT_MODE) (piece_text (PStr b) ++ s) None = Some (R_STR, length (piece_text (PStr b))).
Proof.
  intros Hb Hn. cbn [piece_text]. apply best_is; [cbn; tauto|discriminate| |].
  - apply M_Seq_iff. exists [dq], (b ++ [dq]). repeat split; [apply M_one; eexists; split; [reflexivity|left; reflexivity]|]. apply M_Seq_iff. exists b, [dq].
    repeat split; [apply PpArgProofs.body_items; exact Hb|apply M_one; eexists; split; [reflexivity|left; reflexivity]].
  - intros r y z Hr Hy E HM. cbn [mode_rules In] in Hr. repeat (destruct Hr as [<-|Hr]); [..|contradiction]; cbn [rule_re] in HM.
    + left. split; [reflexivity|]. apply M_STR in HM as (t & -> & HT). cbn [length]. rewrite !app_length. cbn [length]. cbn [app] in E. injection E as E.
      rewrite <- !app_assoc in E. cbn [app] in E. destruct (app_eq_app _ _ _ _ E) as (w & [[E1 E2]|[E1 E2]]).
      * destruct w as [|c w]; [rewrite app_nil_r in E1; subst; lia|]. exfalso. cbn [app] in E2. injection E2 as <- _.
        destruct (quotes_escaped _ _ HT b w E1) as (u' & H'). exact (Hn u' H').
      * subst b. rewrite app_length. lia.
    + apply M_line in HM as (t & ->). discriminate.
    + apply M_block in HM as (t & ->). discriminate.
    + no_code_head.
    + slash_head HM E.
    + apply M_one in HM as (d & -> & [<-|[]]). discriminate.
Qed.
Lemma CRLF_cases y z : M CRLF y z -> y = [nl] \/ y = [cr; nl].
Proof.
  intros H. apply M_Seq_iff in H as (a & b & -> & H1 & H2). apply M_one in H2 as (d & -> & [<-|[]]).
  apply M_Alt_iff in H1 as [H1|H1]; [apply M_one in H1 as (d & -> & [<-|[]]); right|apply M_Eps_iff in H1 as ->; left]; reflexivity.
Qed.
Lemma M_eol e z : M CRLF (eol_text e) z.
Proof.
  apply M_Seq_iff. destruct e; [exists [], [nl]|exists [cr], [nl]]; repeat split.
  - apply M_AltR. constructor.
  - apply M_one. eexists. split; [reflexivity|cbn; tauto].
  - apply M_AltL. apply M_one. eexists. split; [reflexivity|cbn; tauto].
  - apply M_one. eexists. split; [reflexivity|cbn; tauto].
Qed.
Lemma line_exact t e y z s : Forall (fun c => c <> cr /\ c <> nl) t -> M LINE_COMMENT_re y z -> y ++ z = piece_text (PLine t e) ++ s -> y = piece_text (PLine t e).
Proof.
  intros F HM E. unfold LINE_COMMENT_re in HM. cbn [Seqs] in HM. apply M_Seq_iff in HM as (a & b & -> & H1 & H2). apply M_lit in H1 as ->.
  apply M_Seq_iff in H2 as (u & v & -> & H2 & H3). apply M_Star_not1 in H2. cbn [piece_text] in *. rewrite <- !app_assoc in E. apply app_inv_head in E. f_equal.
  assert (F2 : Forall (fun c => ~ In c [cr; nl]) t) by (eapply Forall_impl; [|exact F]; intros c [? ?]; cbn; intuition congruence).
  set (Q := fun c => ~ In c [cr; nl]) in *.
  assert (NQ : forall c, In c [cr; nl] -> ~ Q c) by (unfold Q; tauto).
  apply M_Alt_iff in H3 as [H3|H3].
  - apply CRLF_cases in H3 as [->| ->]; destruct e; cbn [eol_text app] in E.
    + destruct (ws_split u t nl nl z s Q H2 F2) as (-> & _ & _); [apply NQ; cbn; tauto|apply NQ; cbn; tauto|exact E|reflexivity].
    + destruct (ws_split u t nl cr z (nl :: s) Q H2 F2) as (_ & HH & _); [apply NQ; cbn; tauto|apply NQ; cbn; tauto|exact E|discriminate].
    + destruct (ws_split u t cr nl (nl :: z) s Q H2 F2) as (_ & HH & _); [apply NQ; cbn; tauto|apply NQ; cbn; tauto|exact E|discriminate].
    + destruct (ws_split u t cr cr (nl :: z) (nl :: s) Q H2 F2) as (-> & _ & _); [apply NQ; cbn; tauto|apply NQ; cbn; tauto|exact E|reflexivity].
  - apply M_Eof_iff in H3 as [-> ->]. exfalso. cbn [app] in E. rewrite app_nil_r in E. rewrite E in H2. apply Forall_app in H2 as [_ H2]. destruct e; inversion H2 as [|? ? HH _]; apply HH; cbn; tauto.
Qed.
Lemma rule_line t e s : Forall (fun c => c <> cr /\ c <> nl) t ->
  best_rule (mode_rules DEFAULT_MODE) (piece_text (PLine t e) ++ s) None = Some (R_LINE_COMMENT, length (piece_text (PLine t e))).
Proof.
  intros F. apply best_is; [cbn; tauto|discriminate| |].
  - cbn [rule_re]. unfold LINE_COMMENT_re. cbn [Seqs piece_text]. apply M_Seq_iff. exists $"//", (t ++ eol_text e). repeat split; [apply M_lit; reflexivity|].
    apply M_Seq_iff. exists t, (eol_text e). repeat split; [|apply M_AltL, M_eol]. apply M_Star_not1. eapply Forall_impl; [|exact F]. intros c [? ?]. cbn. intuition congruence.
  - intros r y z Hr Hy E HM. cbn [mode_rules In] in Hr. repeat (destruct Hr as [<-|Hr]); [..|contradiction]; cbn [rule_re] in HM.
    + apply M_STR in HM as (b & -> & _). discriminate.
    + left. split; [reflexivity|]. rewrite (line_exact _ _ _ _ _ F HM E). lia.
    + apply M_block in HM as (b & ->). discriminate.
    + exfalso. apply (code_no _ _ HM). rewrite E. right. right. left. eexists. cbn [piece_text]. rewrite <- app_assoc. reflexivity.
    + exfalso. unfold CODE_SLASH_re in HM. apply M_Seq_iff in HM as (a & b & -> & HM & _). rewrite <- app_assoc in E. apply (code_no _ _ HM). rewrite E. right. right. left. eexists. cbn [piece_text]. rewrite <- app_assoc. reflexivity.
    + apply M_one in HM as (d & -> & [<-|[]]). discriminate.
Qed.

(** Block comments *)
Definition star_part : re := Star (Alt (not1 $"*") (Seq (Plus (one $"*")) (not1 $"*/"))).
Lemma plus_stars y z : M (Plus (one $"*")) y z <-> exists n, y = repeat "*"%char (S n).
Proof.
  unfold Plus. rewrite M_Seq_iff. split.
  - intros (a & b & -> & H1 & H2). apply M_one in H1 as (d & -> & [<-|[]]). apply M_Star_one in H2. exists (length b). cbn. f_equal.
    clear - H2. induction H2 as [|x l [<-|[]] _ IH]; [reflexivity|]. cbn. rewrite <- IH. reflexivity.
  - intros (n & ->). exists $"*", (repeat "*"%char n). repeat split; [apply M_one; eexists; split; [reflexivity|cbn; tauto]|]. apply M_Star_one.
    apply Forall_forall. intros x Hx. apply repeat_spec in Hx as ->. left. reflexivity.
Qed.
(** No end of comment inside the repeated part, even if a slash follows. *)
Lemma star_part_no y z : M star_part y z -> forall u v, y ++ $"/" <> u ++ $"*/" ++ v.
Proof.
  unfold star_part. revert y z. apply (M_Star_ind _ (fun y _ => forall u v, y ++ $"/" <> u ++ $"*/" ++ v)).
  - intros _ u v E. destruct u as [|a [|b u]]; cbn in E; discriminate.
  - intros x y z Hx HM _ IH u v E. apply M_Alt_iff in HM as [HM|HM].
    + apply M_not1 in HM as (d & -> & Hd). cbn in E. destruct u as [|a u]; cbn in E; injection E; intros E1 E2.
      * subst. apply Hd. cbn. tauto.
      * exact (IH u v E1).
    + apply M_Seq_iff in HM as (a & b & -> & H1 & H2). apply plus_stars in H1 as (n & ->). apply M_not1 in H2 as (d & -> & Hd).
      rewrite <- !app_assoc in E. cbn [app] in E. clear Hx. revert u E. generalize (S n). clear n. intros k. induction k as [|k IHk]; intros u E.
      * cbn in E. destruct u as [|a u]; cbn in E; injection E; intros E1 E2; [subst; apply Hd; cbn; tauto|]. exact (IH u v E1).
      * cbn in E. destruct u as [|a u]; cbn in E; injection E; intros E1; [|intros _; exact (IHk u E1)].
        destruct k as [|k]; cbn in E1; [injection E1; intros; subst; apply Hd; cbn; tauto|discriminate E1].
Qed.
Lemma block_inner y z : M COMMENT_re y z -> exists t, y = $"/*" ++ t ++ $"*/" /\ ~ occurs $"*/" t.
Proof.
  intros HM. unfold COMMENT_re in HM. cbn [Seqs] in HM. apply M_Seq_iff in HM as (a & b & -> & H1 & H2). apply M_lit in H1 as ->.
  apply M_Seq_iff in H2 as (u & v & -> & H2 & H3). apply M_Seq_iff in H3 as (p & q & -> & H3 & H4). apply M_one in H4 as (d & -> & [<-|[]]). apply plus_stars in H3 as (n & ->).
  pose proof (star_part_no _ _ H2) as N. clear H2. exists (u ++ repeat "*"%char n). split.
  - rewrite <- !app_assoc. do 2 f_equal. change ($"*/") with ($"*" ++ $"/"). rewrite app_assoc. f_equal. apply (repeat_cons n "*"%char).
  - intros (x & w & E). assert (K : forall k x w, u ++ repeat "*"%char k = x ++ $"*/" ++ w -> False).
    { clear E x w n. induction k as [|k IH]; intros x w E.
      - cbn in E. rewrite app_nil_r in E. subst u. apply (N x (w ++ $"/")). rewrite <- !app_assoc. reflexivity.
      - destruct w as [|c0 w] using rev_ind.
        + change (repeat "*"%char (S k)) with ("*"%char :: repeat "*"%char k) in E; rewrite repeat_cons, app_assoc in E. change (x ++ $"*/" ++ []) with (x ++ [("*"%char)] ++ ["/"%char]) in E. rewrite app_assoc in E. apply app_inj_tail in E as [_ E]. discriminate.
        + change (repeat "*"%char (S k)) with ("*"%char :: repeat "*"%char k) in E; rewrite repeat_cons, app_assoc in E. rewrite !app_assoc in E. apply app_inj_tail in E as [E _]. rewrite <- app_assoc in E. exact (IH _ _ E). }
    exact (K n x w E).
Qed.
Lemma block_star t : ~ occurs $"*/" t -> exists u k, t = u ++ repeat "*"%char k /\ forall z, M star_part u z.
Proof.
  induction t as [|c t IH]; intros N; [exists [], 0; split; [reflexivity|intros z; constructor]|].
  assert (N' : ~ occurs $"*/" t) by (intros (a & b & ->); apply N; exists (c :: a), b; reflexivity).
  destruct (IH N') as (u & k & -> & HM). destruct (ceqb c "*") eqn:Ec.
  - apply ceqb_eq in Ec as ->. destruct u as [|d0 u0] eqn:Eu.
    + exists [], (S k). split; [reflexivity|intros z; constructor].
    + rewrite <- Eu in *. exists ("*"%char :: u), k. split; [reflexivity|]. intros z. specialize (HM z). unfold star_part in *. apply M_Star_iff in HM as [HM|(x & y & Exy & Hx & H1 & H2)]; [congruence|].
      rewrite Exy. change ("*"%char :: x ++ y) with (("*"%char :: x) ++ y). apply M_StarS; [discriminate| |exact H2]. apply M_AltR. apply M_Alt_iff in H1 as [H1|H1].
      * apply M_not1 in H1 as (d & -> & Hd). apply M_Seq_iff. exists $"*", [d]. repeat split; [apply plus_stars; exists 0; reflexivity|]. apply M_not1. exists d. split; [reflexivity|].
        intros [<-|[<-|[]]]; [apply Hd; cbn; tauto|]. apply N. exists [], (y ++ repeat "*"%char k). rewrite Exy. cbn. reflexivity.
      * apply M_Seq_iff in H1 as (a & b & -> & H1 & H3). apply plus_stars in H1 as (m & ->). apply M_Seq_iff. exists ("*"%char :: repeat "*"%char (S m)), b. repeat split; [apply plus_stars; exists (S m); reflexivity|exact H3].
  - apply ceqb_neq in Ec. exists (c :: u), k. split; [reflexivity|]. intros z. unfold star_part in *. change (c :: u) with ([c] ++ u). apply M_StarS; [discriminate| |apply HM]. apply M_AltL. apply M_not1. exists c. split; [reflexivity|]. cbn. intuition congruence.
Qed.
Lemma rule_block t s : ~ occurs $"*/" t -> best_rule (mode_rules DEFAULT_MODE) (piece_text (PBlock t) ++ s) None = Some (R_COMMENT, length (piece_text (PBlock t))).
Proof.
  intros N. apply best_is; [cbn; tauto|discriminate| |].
  - cbn [rule_re piece_text]. destruct (block_star t N) as (u & k & -> & HM). unfold COMMENT_re. cbn [Seqs]. apply M_Seq_iff. eexists $"/*", _. split; [reflexivity|]. split; [apply M_lit; reflexivity|].
    apply M_Seq_iff. exists u, (repeat "*"%char (S k) ++ $"/"). split; [|split; [apply HM|]].
    + rewrite <- app_assoc. f_equal. change ($"*/") with ($"*" ++ $"/"). rewrite app_assoc. f_equal. symmetry. apply (repeat_cons k "*"%char).
    + apply M_Seq_iff. eexists _, _. split; [reflexivity|]. split; [apply plus_stars; exists k; reflexivity|apply M_one; eexists; split; [reflexivity|cbn; tauto]].
  - intros r y z Hr Hy E HM. cbn [mode_rules In] in Hr. repeat (destruct Hr as [<-|Hr]); [..|contradiction]; cbn [rule_re] in HM.
    + apply M_STR in HM as (b & -> & _). discriminate.
    + apply M_line in HM as (b & ->). discriminate.
    + left. split; [reflexivity|]. apply block_inner in HM as (b & -> & Nb). cbn [piece_text] in *. rewrite <- !app_assoc in E. apply app_inv_head in E. rewrite !app_length. cbn [length].
      destruct (app_eq_app _ _ _ _ E) as (w & [[E1 E2]|[E1 E2]]); [|subst; rewrite app_length; lia]. destruct w as [|c [|d w]].
      * rewrite app_nil_r in E1. subst. lia.
      * cbn in E2. injection E2 as _ E2. discriminate.
      * cbn in E2. injection E2 as <- <- _. exfalso. apply Nb. exists t, w. exact E1.
    + exfalso. apply (code_no _ _ HM). rewrite E. right. right. right. left. eexists. cbn [piece_text]. rewrite <- app_assoc. reflexivity.
    + exfalso. unfold CODE_SLASH_re in HM. apply M_Seq_iff in HM as (a & b & -> & HM & _). rewrite <- app_assoc in E. apply (code_no _ _ HM). rewrite E. right. right. right. left. eexists. cbn [piece_text]. rewrite <- app_assoc. reflexivity.
    + apply M_one in HM as (d & -> & [<-|[]]). discriminate.
Qed.

(** ** A whole text *)
Lemma take_code ps : exists a b, ps = a ++ b /\ Forall (fun p => code_piece p = true) a /\ (b = [] \/ exists p r, b = p :: r /\ code_piece p = false).
Proof.
  induction ps as [|p ps (a & b & -> & F & H)]; [exists [], []; repeat split; auto|]. destruct (code_piece p) eqn:E.
  - exists (p :: a), b. repeat split; auto.
  - exists [], (p :: a ++ b). repeat split; auto. right. eauto.
Qed.
Lemma piece_no_code p s : code_piece p = false -> no_code (piece_text p ++ s).
Proof.
  destruct p; try discriminate; intros _; unfold no_code; cbn [piece_text].
  - right. left. eexists. reflexivity.
  - right. right. left. eexists. rewrite <- app_assoc. reflexivity.
  - right. right. right. left. eexists. rewrite <- app_assoc. reflexivity.
Qed.
Definition piece_rule (p : piece) : rule := match p with PStr _ => R_STR | PLine _ _ => R_LINE_COMMENT | PBlock _ => R_COMMENT | _ => R_CODE end.
Lemma rule_piece p s : code_piece p = false -> piece_ok p -> best_rule (mode_rules DEFAULT_MODE) (piece_text p ++ s) None = Some (piece_rule p, length (piece_text p)).
Proof.
  destruct p; try discriminate; intros _ H; cbn [piece_ok piece_rule] in *.
  - apply rule_str; tauto.
  - apply rule_line; exact H.
  - apply rule_block; exact H.
Qed.
(** The tokens of a text cover it. *)
Definition reads (st : lexst) (t rest : str) : Prop := forall l c, exists toks c1, run st (t ++ rest) l c toks st rest (l + count_nl t) c1 /\ covers l t toks.
Lemma reads_step st x s rest r : lx_mode st = DEFAULT_MODE -> x <> [] -> plain_rule r = true -> best_rule (mode_rules DEFAULT_MODE) (x ++ s ++ rest) None = Some (r, length x) ->
  reads st s rest -> reads st (x ++ s) rest.
Proof.
  intros Hm Hx Hp Hr IH l c. destruct (plain_act r st x Hp) as (ty & Hty & Ha). pose proof (advance_line x l c) as HA. destruct (advance x l c) as [l1 c1] eqn:D. cbn [fst] in HA. subst l1.
  destruct (IH (l + count_nl x) c1) as (toks & c2 & R & C). exists (mkTok ty CH_DEFAULT x x l c :: toks), c2. split.
  - rewrite <- app_assoc, count_nl_app, Nat.add_assoc. change (mkTok ty CH_DEFAULT x x l c :: toks) with (emitted (Emit ty CH_DEFAULT x) x l c ++ toks).
    eapply run_step; [exact Hx|rewrite Hm; exact Hr|exact Ha|exact D|exact R].
  - constructor; auto.
Qed.
Lemma text_reads st ps rest : lx_mode st = DEFAULT_MODE -> Forall piece_ok ps -> directive_or_end rest -> reads st (text_of_pieces ps) rest.
Proof.
  intros Hm F D. apply directive_no_code in D. remember (length ps) as n eqn:En. assert (Hn : length ps <= n) by lia. clear En. revert ps F Hn.
  induction n as [|n IH]; intros ps F Hn.
  - destruct ps; [|cbn in Hn; lia]. intros l c. exists [], c. cbn. rewrite Nat.add_0_r. split; constructor.
  - destruct (take_code ps) as (a & b & -> & Fa & Hb). apply Forall_app in F as [F1 F2].
    assert (G : good_code a) by (apply Forall_forall; intros p Hp; rewrite Forall_forall in Fa, F1; auto).
    destruct a as [|p0 a0] eqn:Ea.
    + destruct Hb as [->|(p & r & -> & Hp)]; [apply IH; [constructor|cbn; lia]|]. inversion F2; subst. change (text_of_pieces ([] ++ p :: r)) with (piece_text p ++ text_of_pieces r).
      apply reads_step with (r := piece_rule p); [exact Hm|destruct p; discriminate|destruct p; reflexivity|apply rule_piece; assumption|]. apply IH; [assumption|cbn in Hn; lia].
    + rewrite <- Ea in *. rewrite text_app. apply reads_step with (r := R_CODE); [exact Hm| |reflexivity| |].
      * rewrite Ea. destruct p0; inversion Fa; subst; try discriminate.
      * apply rule_code; [rewrite Ea; discriminate|exact G|]. destruct Hb as [->|(p & r & -> & Hp)]; [exact D|]. change (text_of_pieces (p :: r)) with (piece_text p ++ text_of_pieces r). rewrite <- app_assoc. apply piece_no_code, Hp.
      * apply IH; [exact F2|]. rewrite app_length, Ea in Hn. cbn in Hn. lia.
Qed.
