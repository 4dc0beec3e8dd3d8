(** Signs, literals between quotes, white space and comments of Verilog. *)
From Verif Require Import Base BaseFacts AstModel LitModel SvExprModel RegexModel RegexProofs RegexPairProofs PpLexProofs StrSpec PpLexerModel PpSrcLexProofs VhdlLexModel VhdlLexSpec VhdlLexProofs VhdlTokenProofs VhdlPickProofs VhdlQuoteProofs SvLexModel SvLexSpec SvLexProofs SvWordProofs.

Lemma no_kw v c u s : word_start c || digit c || ceqb c "$" = false -> forall w z, In w (keywords v) -> w ++ z = (c :: u) ++ s -> length w <= length (c :: u).
Proof.
  intros N w z I E. apply orb_false_iff in N as [N N3]. apply orb_false_iff in N as [N1 N2]. exfalso. destruct (kw_first v w c u z s I E) as [->|[H| ->]]; [|congruence|discriminate N3]. injection E as <- _. discriminate N2.
Qed.
Lemma not_keyword v c u : word_start c || digit c || ceqb c "$" = false -> ~ In (c :: u) (keywords v).
Proof.
  intros N I. apply orb_false_iff in N as [N N3]. apply orb_false_iff in N as [N1 N2]. destruct (kw_first v _ c u [] [] I eq_refl) as [E|[H| ->]]; [|congruence|discriminate N3]. injection E as -> _. discriminate N2.
Qed.
(** Choosing among the last rules *)
Lemma choose_sign ks b c d rest : In d b -> within_text (map kw_rule ks ++ class_rules ++ map sign_rule b ++ c) d rest -> ~ In d ks -> (forall k r, In (k, r) class_rules -> ~ M r d rest) ->
  s_best (map kw_rule ks ++ class_rules ++ map sign_rule b ++ c) (d ++ rest) None = Some (S_SIGN d, length d).
Proof.
  intros I W NK NC. rewrite app_assoc in *. apply choose; [exact W| | |].
  - intros k r J. apply in_app_iff in J as [J|J]; [|exact (NC k r J)]. apply in_map_iff in J as (w & E & J). injection E as <- <-. intros H. apply M_lit in H as ->. exact (NK J).
  - intros k r J HM. apply in_map_iff in J as (x & E & _). injection E as <- <-. apply M_lit in HM. congruence.
  - exists (lit d). split; [apply in_map_iff; exists d; split; [reflexivity|exact I]|apply lit_M].
Qed.
Lemma choose_layout ks b k r t rest : In (k, r) layout_rules -> within_text (map kw_rule ks ++ class_rules ++ map sign_rule b ++ layout_rules) t rest -> ~ In t ks -> ~ In t b -> (forall k r, In (k, r) class_rules -> ~ M r t rest) ->
  M r t rest -> (forall k' r', In (k', r') layout_rules -> M r' t rest -> k' = k) -> s_best (map kw_rule ks ++ class_rules ++ map sign_rule b ++ layout_rules) (t ++ rest) None = Some (k, length t).
Proof.
  intros I W NK NS NC HM U. rewrite <- (app_nil_r (map kw_rule ks ++ class_rules ++ map sign_rule b ++ layout_rules)) in *. rewrite <- !app_assoc in *. rewrite (app_assoc (map kw_rule ks)), (app_assoc (map kw_rule ks ++ class_rules)) in *. apply choose; [exact W| | |].
  - intros k' r' J. rewrite !in_app_iff, !in_map_iff in J. destruct J as [[(w & E & J)|J]|(w & E & J)]; [injection E as <- <-; intros H; apply M_lit in H as ->; exact (NK J)|exact (NC k' r' J)|injection E as <- <-; intros H; apply M_lit in H as ->; exact (NS J)].
  - exact U.
  - exists r. split; [exact I|exact HM].
Qed.
Lemma pick_sign_of v d rest : In d s_signs -> within_text (s_rules v) d rest -> ~ In d (keywords v) -> (forall k r, In (k, r) class_rules -> ~ M r d rest) -> s_best (s_rules v) (d ++ rest) None = Some (S_SIGN d, length d).
Proof. exact (choose_sign (keywords v) s_signs layout_rules d rest). Qed.
Lemma pick_layout_of v k r t rest : In (k, r) layout_rules -> within_text (s_rules v) t rest -> ~ In t (keywords v) -> ~ In t s_signs -> (forall k r, In (k, r) class_rules -> ~ M r t rest) ->
  M r t rest -> (forall k' r', In (k', r') layout_rules -> M r' t rest -> k' = k) -> s_best (s_rules v) (t ++ rest) None = Some (k, length t).
Proof. exact (choose_layout (keywords v) s_signs k r t rest). Qed.

(** ** Signs *)
Definition spec_signs : list str := verilog_signs ++ system_verilog_signs.
Lemma signs_known : forallb (fun d => listed d s_signs) spec_signs = true.
Proof. vm_compute. reflexivity. Qed.
Lemma signs_only : forallb (fun d => listed d spec_signs || seqb d [bs]) s_signs = true.
Proof. vm_compute. reflexivity. Qed.
Lemma signs_in v d : In d (signs v) -> In d spec_signs.
Proof. unfold signs, spec_signs. rewrite !in_app_iff. destruct (lang_ge v SV2005); [tauto|intros [H|[]]; tauto]. Qed.
Lemma spec_sign_in d : In d spec_signs -> In d s_signs.
Proof. intros I. apply listed_In. exact (proj1 (forallb_forall _ _) signs_known d I). Qed.
Lemma sign_spec d : In d s_signs -> In d spec_signs \/ d = [bs].
Proof. intros I. pose proof (proj1 (forallb_forall _ _) signs_only d I) as H. apply orb_true_iff in H as [H|H]; [left; apply listed_In; exact H|right; apply seqb_eq; exact H]. Qed.
Definition sign_head (c : ascii) : bool := existsb (fun d => match d with x :: _ => ceqb c x | [] => false end) spec_signs.
Lemma sign_head_of c u : In (c :: u) spec_signs -> sign_head c = true.
Proof. intros I. apply existsb_exists. exists (c :: u). split; [exact I|]. unfold ceqb. apply Ascii.eqb_refl. Qed.
Lemma sign_heads : forallb (fun c => if sign_head c then negb (word_start c || digit c) else true) chars = true.
Proof. vm_compute. reflexivity. Qed.
Lemma sign_head_no c : sign_head c = true -> word_start c || digit c = false.
Proof. intros H. pose proof (by_chars _ sign_heads c) as G. cbn beta in G. rewrite H in G. apply negb_true_iff. exact G. Qed.
Lemma spec_sign_nonempty : forallb (fun d => negb (is_nil d)) spec_signs = true.
Proof. vm_compute. reflexivity. Qed.
Lemma alive_sign : alive_for sign_head = [(S_ANY_BASED_NUMBER, ANY_BASED_NUMBER); (S_UNBASED_UNSIZED_LITERAL, UNBASED_UNSIZED_LITERAL); (S_SYSTEM_TF_IDENTIFIER, SYSTEM_TF_IDENTIFIER); (S_ONE_LINE_COMMENT, ONE_LINE_COMMENT); (S_BLOCK_COMMENT, BLOCK_COMMENT)].
Proof. vm_compute. reflexivity. Qed.
Lemma system_shape y z : M SYSTEM_TF_IDENTIFIER y z -> exists c w, y = "$"%char :: c :: w.
Proof. unfold SYSTEM_TF_IDENTIFIER. intros H. apply M_Seq_iff in H as (a & b & -> & Ha & Hb). apply M_one in Ha as (c & -> & [<-|[]]). apply M_Seq_iff in Hb as (x & w & -> & Hx & Hw). apply M_one in Hx as (c & -> & _). exists c, w. reflexivity. Qed.
Lemma line_starts y z : M ONE_LINE_COMMENT y z -> exists w, y = $"//" ++ w.
Proof. unfold ONE_LINE_COMMENT. cbn [Seqs]. intros H. apply M_Seq_iff in H as (a & b & -> & Ha & _). apply M_lit in Ha as ->. eauto. Qed.
Lemma sblock_starts y z : M BLOCK_COMMENT y z -> exists w, y = $"/*" ++ w.
Proof. exact (block_starts y z). Qed.
Lemma starts_tick r : begins (fun c => negb (ceqb c "'")) r = false -> nullb r = false -> forall y z, M r y z -> exists w, y = "'"%char :: w.
Proof.
  intros B N y z H. destruct y as [|c w]; [rewrite (sh_null _ _ (M_shape _ _ _ H) eq_refl) in N; discriminate N|]. exists w. f_equal. destruct (ceqb c "'") eqn:E; [apply ceqb_eq; exact E|].
  exfalso. apply (begins_no _ r c B); [rewrite E; reflexivity|exact (first_char r _ z c w H eq_refl)].
Qed.
Lemma based_starts : begins (fun c => negb (ceqb c "'")) ANY_BASED_NUMBER = false /\ begins (fun c => negb (ceqb c "'")) UNBASED_UNSIZED_LITERAL = false.
Proof. split; vm_compute; reflexivity. Qed.
Definition tick_signs : list str := [ $"'"; $"'{" ].
Lemma tick_sign_list : forallb (fun d => negb (is_prefix $"'" d) || listed d tick_signs) spec_signs = true.
Proof. vm_compute. reflexivity. Qed.
Lemma tick_sign u : In ("'"%char :: u) spec_signs -> u = [] \/ u = $"{".
Proof.
  intros I. pose proof (proj1 (forallb_forall _ _) tick_sign_list _ I) as H. apply orb_true_iff in H as [H|H]; [discriminate H|]. apply listed_In in H. destruct H as [H|[H|[]]]; injection H as <-; auto.
Qed.
Lemma slash_sign_list : forallb (fun d => negb (is_prefix $"/" d) || listed d [ $"/"; $"/=" ]) spec_signs = true.
Proof. vm_compute. reflexivity. Qed.
Lemma slash_sign u : In ("/"%char :: u) spec_signs -> u = [] \/ u = $"=".
Proof.
  intros I. pose proof (proj1 (forallb_forall _ _) slash_sign_list _ I) as H. apply orb_true_iff in H as [H|H]; [discriminate H|]. apply listed_In in H. destruct H as [H|[H|[]]]; injection H as <-; auto.
Qed.
Lemma tick_pairs : pairb ANY_BASED_NUMBER "'" "(" || pairb ANY_BASED_NUMBER "'" "{" || pairb UNBASED_UNSIZED_LITERAL "'" "(" || pairb UNBASED_UNSIZED_LITERAL "'" "{" = false.
Proof. vm_compute. reflexivity. Qed.
Lemma tick_within r y z u rest : pairb r "'" "(" = false -> pairb r "'" "{" = false -> M r y z -> u = [] \/ u = $"{" -> (u = [] -> hd_error rest = Some "("%char) -> y ++ z = ("'"%char :: u) ++ rest -> length y <= 1.
Proof.
  intros P1 P2 HM [->| ->] Hr E.
  - destruct rest as [|p rest]; [discriminate (Hr eq_refl)|]. pose proof (Hr eq_refl) as X. injection X as ->. exact (pair_within r y z [] "'" "(" rest HM E P1).
  - exact (pair_within r y z [] "'" "{" rest HM E P2).
Qed.
Lemma sign_within v d rest : In d (signs v) -> stops_at v (G_elem (T_sign d)) rest -> settled v (G_elem (T_sign d)) rest -> within_text (s_rules v) d rest.
Proof.
  cbn [stops_at settled]. intros Id (_ & ND & NT) L. apply signs_in in Id. destruct d as [|c u]; [pose proof (proj1 (forallb_forall _ _) spec_sign_nonempty _ Id) as H; discriminate H|]. pose proof (sign_head_of c u Id) as Hc. apply bound.
  - destruct (ceqb c "$") eqn:D.
    + apply ceqb_eq in D. subst c. pose proof (dollar_sign _ u (spec_sign_in _ Id) eq_refl) as ->. apply kw_within. apply ND. reflexivity.
    + apply no_kw. rewrite D, (sign_head_no c Hc). reflexivity.
  - intros d' z I E. destruct (sign_spec d' I) as [I'| ->]; [|cbn; lia]. apply L; [apply in_app_iff; left; exact I'|]. apply is_prefix_spec. exists z. symmetry. exact E.
  - intros k r y z I F HM E. pose proof tick_pairs as TP. do 3 (apply orb_false_iff in TP as [TP ?]). apply (alive_in sign_head k r c Hc) in F; [|exact I]. rewrite alive_sign in F. destruct F as [F|[F|[F|[F|[F|[]]]]]]; injection F as _ <-.
    + destruct (starts_tick _ (proj1 based_starts) eq_refl y z HM) as (w & Ey). assert (c = "'"%char) by (rewrite Ey in E; injection E as -> _; reflexivity). subst c.
      pose proof (tick_within ANY_BASED_NUMBER y z u rest) as G. cbn [length]. apply Nat.le_trans with 1; [apply G; [exact TP|assumption|exact HM|exact (tick_sign u Id)|intros ->; apply NT; reflexivity|exact E]|lia].
    + destruct (starts_tick _ (proj2 based_starts) eq_refl y z HM) as (w & Ey). assert (c = "'"%char) by (rewrite Ey in E; injection E as -> _; reflexivity). subst c.
      pose proof (tick_within UNBASED_UNSIZED_LITERAL y z u rest) as G. cbn [length]. apply Nat.le_trans with 1; [apply G; [assumption|assumption|exact HM|exact (tick_sign u Id)|intros ->; apply NT; reflexivity|exact E]|lia].
    + destruct (system_shape y z HM) as (x & w & Ey). assert (c = "$"%char) by (rewrite Ey in E; injection E as -> _; reflexivity). subst c. pose proof (dollar_sign _ u (spec_sign_in _ Id) eq_refl) as ->.
      apply (within word_char y z _ rest); [apply (system_all y z HM)|exact E|apply ND; reflexivity].
    + exfalso. destruct (line_starts y z HM) as (w & ->). assert (X : length $"//" <= length (c :: u)). { apply L; [rewrite !in_app_iff; right; left; reflexivity|]. apply is_prefix_spec. exists (w ++ z). rewrite <- E, <- app_assoc. reflexivity. }
      injection E as <- E. destruct (slash_sign u Id) as [->| ->]; [cbn in X; lia|discriminate E].
    + exfalso. destruct (sblock_starts y z HM) as (w & ->). assert (X : length $"/*" <= length (c :: u)). { apply L; [rewrite !in_app_iff; right; right; left; reflexivity|]. apply is_prefix_spec. exists (w ++ z). rewrite <- E, <- app_assoc. reflexivity. }
      injection E as <- E. destruct (slash_sign u Id) as [->| ->]; [cbn in X; lia|discriminate E].
Qed.
Lemma sign_not_kw : forallb (fun w => negb (listed w spec_signs)) (map snd s_keywords) = true.
Proof. vm_compute. reflexivity. Qed.
Lemma tick_last : lastb ANY_BASED_NUMBER "'" || lastb ANY_BASED_NUMBER "{" || lastb UNBASED_UNSIZED_LITERAL "'" || lastb UNBASED_UNSIZED_LITERAL "{" = false.
Proof. vm_compute. reflexivity. Qed.
Lemma tick_exact r u rest : lastb r "'" = false -> lastb r "{" = false -> u = [] \/ u = $"{" -> ~ M r ("'"%char :: u) rest.
Proof.
  intros L1 L2 [->| ->] H.
  - pose proof (sh_last _ _ (M_shape _ _ _ H) "'" [] eq_refl). congruence.
  - pose proof (sh_last _ _ (M_shape _ _ _ H) "{" ["'"%char] eq_refl). congruence.
Qed.
Lemma sign_exact d rest : In d spec_signs -> forall k r, In (k, r) class_rules -> ~ M r d rest.
Proof.
  intros Id k r I HM. destruct d as [|c u]; [pose proof (proj1 (forallb_forall _ _) spec_sign_nonempty _ Id) as H; discriminate H|]. pose proof (sign_head_of c u Id) as Hc. pose proof tick_last as TL. do 3 (apply orb_false_iff in TL as [TL ?]).
  assert (I' : In (k, r) (class_rules ++ layout_rules)) by (apply in_app_iff; left; exact I). pose proof (alive_in sign_head k r c Hc I' (first_char r _ rest c u HM eq_refl)) as F. rewrite alive_sign in F. destruct F as [F|[F|[F|[F|[F|[]]]]]]; injection F as _ E; rewrite <- E in HM.
  - destruct (starts_tick _ (proj1 based_starts) eq_refl _ rest HM) as (w & Ey). injection Ey as -> ->. refine (tick_exact _ w rest _ _ (tick_sign w Id) HM); assumption.
  - destruct (starts_tick _ (proj2 based_starts) eq_refl _ rest HM) as (w & Ey). injection Ey as -> ->. refine (tick_exact _ w rest _ _ (tick_sign w Id) HM); assumption.
  - destruct (system_shape _ rest HM) as (x & w & Ey). injection Ey as -> ->. pose proof (dollar_sign _ _ (spec_sign_in _ Id) eq_refl) as X. discriminate X.
  - destruct (line_starts _ rest HM) as (w & Ey). injection Ey as -> ->. destruct (slash_sign _ Id) as [X|X]; discriminate X.
  - destruct (sblock_starts _ rest HM) as (w & Ey). injection Ey as -> ->. destruct (slash_sign _ Id) as [X|X]; discriminate X.
Qed.
Lemma pick_sign v d rest : elem_ok v (T_sign d) -> stops_at v (G_elem (T_sign d)) rest -> settled v (G_elem (T_sign d)) rest -> s_best (s_rules v) (d ++ rest) None = Some (S_SIGN d, length d).
Proof.
  cbn [elem_ok]. intros Id S L. pose proof (sign_within v d rest Id S L) as W. apply signs_in in Id. apply pick_sign_of; [exact (spec_sign_in d Id)|exact W| |exact (sign_exact d rest Id)].
  intros I. apply in_keywords in I. pose proof (proj1 (forallb_forall _ _) sign_not_kw d I) as H. apply negb_true_iff in H. apply listed_In in Id. congruence.
Qed.
