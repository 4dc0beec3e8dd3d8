(** Literals with quotes, escaped identifiers, white space and comments of Verilog. *)
From Verif Require Import Base BaseFacts AstModel LitModel SvExprModel RegexModel RegexProofs RegexPairProofs PpLexProofs StrSpec PpLexerModel PpSrcLexProofs VhdlLexModel VhdlLexSpec VhdlLexProofs VhdlTokenProofs VhdlPickProofs VhdlQuoteProofs SvLexModel SvLexSpec SvLexProofs SvWordProofs SvSignProofs.

(** ** '0 '1 'x 'z *)
Lemma alive_quote : alive_for (ceqb "'") = [(S_ANY_BASED_NUMBER, ANY_BASED_NUMBER); (S_UNBASED_UNSIZED_LITERAL, UNBASED_UNSIZED_LITERAL)].
Proof. vm_compute. reflexivity. Qed.
Lemma unbased_shape y z : M UNBASED_UNSIZED_LITERAL y z -> length y = 2.
Proof.
  unfold UNBASED_UNSIZED_LITERAL. cbn [Alts]. rewrite !M_Alt_iff. intros [H|[H|H]]; [|apply M_lit in H as ->; reflexivity|apply M_lit in H as ->; reflexivity].
  apply M_Seq_iff in H as (a & b & -> & Ha & Hb). apply M_one in Ha as (c & -> & _). apply M_one in Hb as (d & -> & _). reflexivity.
Qed.
Lemma unbased_M c rest : In c $"01xXzZ" -> M UNBASED_UNSIZED_LITERAL ["'"%char; c] rest.
Proof.
  intros H. unfold UNBASED_UNSIZED_LITERAL. cbn [Alts]. rewrite !M_Alt_iff. destruct H as [<-|[<-|H]]; [right; left; apply lit_M|right; right; apply lit_M|]. left. apply (M_Seq _ _ ["'"%char]); [apply M_one; eexists; split; [reflexivity|left; reflexivity]|].
  apply M_one. exists c. split; [reflexivity|exact H].
Qed.
Lemma tick_signs_short : forallb (fun d => negb (is_prefix $"'" d) || (length d <=? 2)) s_signs = true.
Proof. vm_compute. reflexivity. Qed.
Lemma tick_sign_short u d z : In d s_signs -> d ++ z = "'"%char :: u -> length d <= 2.
Proof.
  intros I E. pose proof (proj1 (forallb_forall _ _) tick_signs_short d I) as H. apply orb_true_iff in H as [H|H]; [|apply Nat.leb_le; exact H]. destruct d as [|c d]; [cbn; lia|]. injection E as -> _. discriminate H.
Qed.
Lemma unbased_pairs : forallb (fun c => negb (pairb ANY_BASED_NUMBER "'" c)) $"01xXzZ" = true.
Proof. vm_compute. reflexivity. Qed.
Lemma unbased_pair c : In c $"01xXzZ" -> pairb ANY_BASED_NUMBER "'" c = false.
Proof. intros H. apply negb_true_iff. exact (proj1 (forallb_forall _ _) unbased_pairs c H). Qed.
Lemma pick_unbased v c rest : elem_ok v (T_unbased c) -> s_best (s_rules v) (["'"%char; c] ++ rest) None = Some (S_UNBASED_UNSIZED_LITERAL, 2).
Proof.
  cbn [elem_ok]. intros H. apply (pick_class v 7 S_UNBASED_UNSIZED_LITERAL UNBASED_UNSIZED_LITERAL); [reflexivity| |apply unbased_M; exact H|apply not_keyword; reflexivity|].
  - apply bound; [apply no_kw; reflexivity|intros d z I E; apply (tick_sign_short ([c] ++ rest) d z I E)|]. intros k r y z I F HM E. apply (alive_in (ceqb "'") k r "'" eq_refl) in F; [|exact I]. rewrite alive_quote in F. destruct F as [F|[F|[]]]; injection F as _ <-.
    + pose proof (pair_within ANY_BASED_NUMBER y z [] "'" c rest HM E (unbased_pair c H)) as G. cbn in *. lia.
    + rewrite (unbased_shape y z HM). cbn. lia.
  - intros k r I HM. pose proof (alive_in (ceqb "'") k r "'" eq_refl (class_in 7 k r I) (first_char r _ rest "'" [c] HM eq_refl)) as F. rewrite alive_quote in F. destruct F as [F|[F|[]]]; injection F as <- <-.
    + pose proof (pair_within ANY_BASED_NUMBER ["'"%char; c] rest [] "'" c rest HM eq_refl (unbased_pair c H)) as G. cbn in G. lia.
    + cbn in I. repeat (destruct I as [I|I]; [discriminate I|]). exact I.
Qed.

(** ** Strings *)
(** a text in which every quote is behind a backslash *)
Inductive escaped : str -> Prop :=
| e_nil : escaped []
| e_one c s : c <> dq -> c <> bs -> escaped s -> escaped (c :: s)
| e_two c s : escaped s -> escaped (bs :: c :: s).
Lemma escaped_app a b : escaped a -> escaped b -> escaped (a ++ b).
Proof. intros Ha Hb. induction Ha; cbn [app]; [exact Hb|apply e_one; auto|apply e_two; auto]. Qed.
Lemma escaped_end t : escaped t -> forall y r1 r2, escaped y -> y ++ dq :: r1 = t ++ dq :: r2 -> length y <= length t.
Proof.
  induction 1 as [|c t N1 N2 _ IH|c t _ IH]; intros y r1 r2 Hy E.
  - destruct Hy as [|c y N1 N2 Hy|c y Hy]; [cbn; lia|cbn in E; injection E as E _; congruence|cbn in E; discriminate E].
  - destruct Hy as [|c' y N1' N2' Hy|c' y Hy]; [cbn; lia| |cbn in E; injection E as E _; congruence]. cbn in E. injection E as _ E. apply IH in E; [cbn; lia|exact Hy].
  - destruct Hy as [|c' y N1' N2' Hy|c' y Hy]; [cbn; lia|cbn in E; injection E as E _; congruence|]. cbn in E. injection E as _ E. apply IH in E; [cbn; lia|exact Hy].
Qed.
Lemma char_escaped cs : forallb (fun c => negb (ceqb c dq || ceqb c bs)) cs = true -> forall c, In c cs -> escaped [c].
Proof. intros H c I. rewrite forallb_forall in H. specialize (H c I). apply negb_true_iff, orb_false_iff in H as [H1 H2]. apply ceqb_neq in H1. apply ceqb_neq in H2. apply e_one; [exact H1|exact H2|constructor]. Qed.
Lemma opt_escaped cs y z : forallb (fun c => negb (ceqb c dq || ceqb c bs)) cs = true -> M (Opt (one cs)) y z -> escaped y.
Proof. intros H HM. apply M_Alt_iff in HM as [HM|HM]; [apply M_one in HM as (c & -> & I); exact (char_escaped cs H c I)|apply M_Eps_iff in HM as ->; constructor]. Qed.
Lemma string_char_escaped y z : M ANY_ASCII_CHARACTERS y z -> escaped y.
Proof.
  unfold ANY_ASCII_CHARACTERS. cbn [Alts]. rewrite !M_Alt_iff. intros [H|[H|[H|[H|[H|H]]]]].
  - apply M_not1 in H as (c & -> & N). apply e_one; [intros ->; apply N; left; reflexivity|intros ->; apply N; right; left; reflexivity|constructor].
  - apply M_lit in H as ->. apply e_two. constructor.
  - apply M_lit in H as ->. apply e_two. apply e_one; [discriminate|discriminate|constructor].
  - apply M_Seq_iff in H as (a & b & -> & Ha & Hb). apply M_one in Ha as (x & -> & [<-|[]]). apply M_one in Hb as (c & -> & _). apply e_two. constructor.
  - cbn [Seqs] in H. apply M_Seq_iff in H as (a & b & -> & Ha & H). apply M_one in Ha as (x & -> & [<-|[]]). apply M_Seq_iff in H as (c & b' & -> & Hc & H). apply M_one in Hc as (c' & -> & _). apply M_Seq_iff in H as (u & w & -> & Hu & Hw).
    apply e_two. apply escaped_app; [exact (opt_escaped v_digits _ _ eq_refl Hu)|exact (opt_escaped v_digits _ _ eq_refl Hw)].
  - cbn [Seqs] in H. apply M_Seq_iff in H as (a & b & -> & Ha & H). apply M_lit in Ha as ->. apply M_Seq_iff in H as (u & w & -> & Hu & Hw). apply M_one in Hu as (c & -> & I).
    apply e_two. apply (escaped_app [c]); [exact (char_escaped hex_chars eq_refl c I)|exact (opt_escaped hex_chars _ _ eq_refl Hw)].
Qed.
Lemma string_shape_sv y z : M SV_STRING_LITERAL y z -> exists b, y = dq :: b ++ [dq] /\ escaped b.
Proof.
  unfold SV_STRING_LITERAL. cbn [Seqs]. intros H. apply M_Seq_iff in H as (a & b & -> & Ha & H). apply M_one in Ha as (q & -> & [<-|[]]). apply M_Seq_iff in H as (b' & q & -> & Hb & Hq). apply M_one in Hq as (q' & -> & [<-|[]]).
  exists b'. split; [reflexivity|]. refine (M_Star_ind ANY_ASCII_CHARACTERS (fun y _ => escaped y) _ _ _ _ Hb); [intros; constructor|]. intros x y' r' _ Hx _ IH. apply escaped_app; [exact (string_char_escaped _ _ Hx)|exact IH].
Qed.
Lemma body_escaped E s : string_body E s -> escaped s.
Proof.
  induction 1 as [|c s N _ IH|c s N _ _ IH|s _ IH]; [constructor| |apply e_two; exact IH|].
  - apply e_one; [intros ->; apply N; left; reflexivity|intros ->; apply N; right; left; reflexivity|exact IH].
  - apply e_two. apply e_one; [discriminate|discriminate|exact IH].
Qed.
Lemma hex_in c : digit c || mem_c c $"abcdefABCDEF" = true -> In c hex_chars.
Proof. intros H. apply mem_c_In. revert c H. apply by_imp. vm_compute. reflexivity. Qed.
Lemma star_cons r x y rest : x <> [] -> M r x (y ++ rest) -> M (Star r) y rest -> M (Star r) (x ++ y) rest.
Proof. exact (M_StarS r x y rest). Qed.
Lemma hex_plain c : digit c || mem_c c $"abcdefABCDEF" = true -> ~ In c [dq; bs; cr; nl].
Proof. intros H I. assert (G : mem_c c [dq; bs; cr; nl] = false). { apply negb_true_iff. revert c H I. intros c H _. revert c H. apply by_imp. vm_compute. reflexivity. } apply mem_c_In in I. congruence. Qed.
Lemma body_M s rest : string_body known_escape s -> M (Star ANY_ASCII_CHARACTERS) s rest.
Proof.
  intros H. remember (length s) as n eqn:En. revert s En H. induction n as [n IH] using lt_wf_ind. intros s -> H. destruct H as [|c s N H|c s N E H|s H].
  - constructor.
  - apply (star_cons _ [c]); [discriminate| |apply (IH (length s)); [cbn; lia|reflexivity|exact H]]. unfold ANY_ASCII_CHARACTERS. cbn [Alts]. apply M_AltL. apply M_not1. eauto.
  - destruct E as [E|[E|[-> E]]].
    + apply (star_cons _ [bs; c]); [discriminate| |apply (IH (length s)); [cbn; lia|reflexivity|exact H]]. unfold ANY_ASCII_CHARACTERS. cbn [Alts]. rewrite !M_Alt_iff.
      rewrite !in_app_iff in E. destruct (ceqb c nl) eqn:D; [apply ceqb_eq in D as ->; right; left; apply lit_M|]. apply ceqb_neq in D. right; right; right; left.
      apply (M_Seq _ _ [bs]); [apply M_q|]. apply M_one. exists c. split; [reflexivity|]. rewrite in_app_iff. destruct E as [E|[E|[E|[E|[]]]]]; [left; exact E|right; left; exact E|right; right; left; exact E|congruence].
    + apply (star_cons _ [bs; c]); [discriminate| |apply (IH (length s)); [cbn; lia|reflexivity|exact H]]. unfold ANY_ASCII_CHARACTERS. cbn [Alts]. rewrite !M_Alt_iff. right; right; right; right; left. cbn [Seqs].
      apply (M_Seq _ _ [bs]); [apply M_q|]. apply (M_Seq _ _ [c] []); [apply M_one; exists c; split; [reflexivity|apply digit_in; exact E]|]. apply (M_Seq _ _ [] []); apply M_AltR; constructor.
    + destruct s as [|d s]; [destruct E|]. apply (star_cons _ [bs; "x"%char; d]); [discriminate| |apply (IH (length s)); [cbn; lia|reflexivity|]].
      * unfold ANY_ASCII_CHARACTERS. cbn [Alts]. rewrite !M_Alt_iff. right; right; right; right; right. cbn [Seqs]. apply (M_Seq _ _ (bs :: $"x") [d]); [apply lit_M|]. apply (M_Seq _ _ [d] []); [apply M_one; exists d; split; [reflexivity|apply hex_in; exact E]|]. apply M_AltR. constructor.
      * pose proof (hex_plain d E) as N'. inversion H as [|c' s' Nc Hs|c' s' Nc Ec Hs|s' Hs]; [exact Hs|exfalso; apply N'; subst d; right; left; reflexivity|exfalso; apply N'; subst d; right; left; reflexivity].
  - apply (star_cons _ [bs; cr; nl]); [discriminate| |apply (IH (length s)); [cbn; lia|reflexivity|exact H]]. unfold ANY_ASCII_CHARACTERS. cbn [Alts]. rewrite !M_Alt_iff. right; right; left. apply lit_M.
Qed.
Lemma alive_str : alive_for (ceqb dq) = [(S_STRING_LITERAL, SV_STRING_LITERAL)].
Proof. vm_compute. reflexivity. Qed.
Lemma pick_string_sv v s rest : settled v (G_elem (T_string s)) rest -> s_best (s_rules v) ((dq :: s ++ [dq]) ++ rest) None = Some (S_STRING_LITERAL, length (dq :: s ++ [dq])).
Proof.
  cbn [settled]. intros H. apply (pick_class v 8 S_STRING_LITERAL SV_STRING_LITERAL); [reflexivity| | |apply not_keyword; reflexivity|].
  - apply bound; [apply no_kw; reflexivity|apply no_sign; reflexivity|]. intros k r y z I F HM E. apply (alive_in (ceqb dq) k r dq eq_refl) in F; [|exact I]. rewrite alive_str in F. destruct F as [F|[]]; injection F as _ <-.
    destruct (string_shape_sv y z HM) as (b & -> & Hb). cbn [app] in E. injection E as E. rewrite <- !app_assoc in E. cbn [app] in E. pose proof (escaped_end s (body_escaped _ s H) b z rest Hb E). cbn [length]. rewrite !app_length. cbn [length]. lia.
  - unfold SV_STRING_LITERAL. cbn [Seqs]. apply (M_Seq _ _ [dq]); [apply M_q|]. constructor; [apply body_M; exact H|apply M_q].
  - intros k r I HM. pose proof (alive_in (ceqb dq) k r dq eq_refl (class_in 8 k r I) (first_char r _ rest dq (s ++ [dq]) HM eq_refl)) as F. rewrite alive_str in F. destruct F as [F|[]]; injection F as <- <-. cbn in I. repeat (destruct I as [I|I]; [discriminate I|]). exact I.
Qed.

(** ** Escaped identifiers and white space *)
Lemma white_in c : white c = true <-> In c s_space.
Proof. split; [intros H; apply mem_c_In; revert c H; apply by_imp; vm_compute; reflexivity|]. intros H. apply mem_c_In in H. revert c H. apply by_imp. vm_compute. reflexivity. Qed.
Lemma white_M w rest : w <> [] -> all white w -> M WHITE_SPACE w rest.
Proof.
  intros N H. destruct H as [|c w Hc H]; [congruence|]. unfold WHITE_SPACE. apply (M_Seq _ _ [c]); [apply M_one; exists c; split; [reflexivity|apply white_in; exact Hc]|]. apply star_one_M. eapply Forall_impl; [|exact H]. intros d. apply white_in.
Qed.
Lemma last_char {A} (w : list A) : w <> [] -> exists t x, w = t ++ [x].
Proof. intros N. destruct (exists_last N) as (t & x & E). eauto. Qed.
Lemma alive_esc : alive_for (ceqb bs) = [(S_ESCAPED_IDENTIFIER, ESCAPED_IDENTIFIER)].
Proof. vm_compute. reflexivity. Qed.
Lemma alive_white : alive_for white = [(S_WHITE_SPACE, WHITE_SPACE)].
Proof. vm_compute. reflexivity. Qed.
Lemma esc_pairs : forallb (fun x => if white x then forallb (fun d => white d || negb (pairb ESCAPED_IDENTIFIER x d)) chars else true) chars = true.
Proof. vm_compute. reflexivity. Qed.
Lemma esc_pair x d : white x = true -> white d = false -> pairb ESCAPED_IDENTIFIER x d = false.
Proof. intros Hx Hd. pose proof (by_chars _ esc_pairs x) as G. cbn beta in G. rewrite Hx in G. pose proof (by_chars _ G d) as G'. cbn beta in G'. rewrite Hd in G'. apply negb_true_iff. exact G'. Qed.
Lemma bs_signs : forallb (fun d => negb (is_prefix [bs] d) || (length d <=? 1)) s_signs = true.
Proof. vm_compute. reflexivity. Qed.
Lemma bs_sign u d z : In d s_signs -> d ++ z = bs :: u -> length d <= 1.
Proof.
  intros I E. pose proof (proj1 (forallb_forall _ _) bs_signs d I) as H. apply orb_true_iff in H as [H|H]; [|apply Nat.leb_le; exact H]. destruct d as [|c d]; [cbn; lia|]. injection E as -> _. discriminate H.
Qed.
Lemma end_within r y z t x rest : M r y z -> y ++ z = (t ++ [x]) ++ rest -> (forall d, hd_error rest = Some d -> pairb r x d = false) -> length y <= length (t ++ [x]).
Proof. intros HM E P. destruct rest as [|d rest]; [rewrite app_nil_r in E; rewrite <- E, app_length; lia|]. exact (pair_within r y z t x d rest HM E (P d eq_refl)). Qed.
Lemma visible_in c : between 33 126 c = true -> In c visible_chars.
Proof. intros H. apply mem_c_In. revert c H. apply by_imp. vm_compute. reflexivity. Qed.
Lemma pick_escaped v s w rest : elem_ok v (T_escaped s w) -> stops_at v (G_elem (T_escaped s w)) rest -> s_best (s_rules v) ((bs :: s ++ w) ++ rest) None = Some (S_ESCAPED_IDENTIFIER, length (bs :: s ++ w)).
Proof.
  cbn [elem_ok stops_at]. intros (_ & Hs & Nw & Hw) N. apply (pick_class v 10 S_ESCAPED_IDENTIFIER ESCAPED_IDENTIFIER); [reflexivity| | |apply not_keyword; reflexivity|].
  - apply bound; [apply no_kw; reflexivity|intros d z I E; pose proof (bs_sign ((s ++ w) ++ rest) d z I E); cbn [length]; lia|]. intros k r y z I F HM E. apply (alive_in (ceqb bs) k r bs eq_refl) in F; [|exact I]. rewrite alive_esc in F. destruct F as [F|[]]; injection F as _ <-.
    destruct (last_char w Nw) as (t & x & ->). rewrite app_assoc in *. change (bs :: (s ++ t) ++ [x]) with ((bs :: s ++ t) ++ [x]) in *. apply (end_within ESCAPED_IDENTIFIER y z (bs :: s ++ t) x rest HM E).
    intros d Hd. apply esc_pair; [apply Forall_app in Hw as [_ Hw]; exact (Forall_inv Hw)|]. destruct rest as [|d' rest]; [discriminate|]. injection Hd as ->. exact N.
  - unfold ESCAPED_IDENTIFIER. cbn [Seqs]. apply (M_Seq _ _ [bs]); [apply M_q|]. constructor; [apply star_one_M; eapply Forall_impl; [|exact Hs]; intros c; apply visible_in|apply white_M; assumption].
  - intros k r I HM. pose proof (alive_in (ceqb bs) k r bs eq_refl (class_in 10 k r I) (first_char r _ rest bs (s ++ w) HM eq_refl)) as F. rewrite alive_esc in F. destruct F as [F|[]]; injection F as <- <-. cbn in I. repeat (destruct I as [I|I]; [discriminate I|]). exact I.
Qed.
Lemma white_no c : white c = true -> word_start c || digit c || ceqb c "$" = false /\ sign_first c = false.
Proof.
  intros H. split.
  - apply negb_true_iff. revert c H. apply by_imp. vm_compute. reflexivity.
  - apply negb_true_iff. revert c H. apply by_imp. vm_compute. reflexivity.
Qed.
Lemma not_sign c u : sign_first c = false -> ~ In (c :: u) s_signs.
Proof. intros N I. destruct (sign_is _ I) as (x & t & E & H). injection E as -> _. congruence. Qed.
Lemma no_class P l c u rest : alive_for P = l -> (forall k r, In (k, r) l -> ~ In (k, r) class_rules) -> P c = true -> forall k r, In (k, r) class_rules -> ~ M r (c :: u) rest.
Proof.
  intros <- HL HP k r I HM. apply (HL k r); [|exact I]. apply (alive_in P k r c HP); [apply in_app_iff; left; exact I|exact (first_char r _ rest c u HM eq_refl)].
Qed.
Lemma white_all y z : M WHITE_SPACE y z -> all white y.
Proof.
  unfold WHITE_SPACE. intros H. apply M_Seq_iff in H as (a & b & -> & Ha & Hb). apply M_one in Ha as (c & -> & Hc). apply star_one_all in Hb. constructor; [apply white_in; exact Hc|]. eapply Forall_impl; [|exact Hb]. intros d. apply white_in.
Qed.
Ltac not_in := let I := fresh in intros I; cbn in I; repeat (destruct I as [I|I]; [discriminate I|]); exact I.
Lemma layout_kinds k r r' : In (k, r) layout_rules -> In (k, r') layout_rules -> r = r'.
Proof. intros [I|[I|[I|[]]]] [J|[J|[J|[]]]]; injection I as E1 E2; injection J as E3 E4; congruence. Qed.
Lemma pick_white v w rest : part_ok v (G_white w) -> stops_at v (G_white w) rest -> s_best (s_rules v) (w ++ rest) None = Some (S_WHITE_SPACE, length w).
Proof.
  cbn [part_ok stops_at]. intros [Nw Hw] N. destruct w as [|c u] eqn:Ew; [congruence|]. rewrite <- Ew in *. assert (Hc : white c = true) by (rewrite Ew in Hw; exact (Forall_inv Hw)). destruct (white_no c Hc) as [K S].
  apply (pick_layout_of v S_WHITE_SPACE WHITE_SPACE); [right; right; left; reflexivity| |rewrite Ew; apply not_keyword; exact K|rewrite Ew; apply not_sign; exact S| |apply white_M; [rewrite Ew; discriminate|exact Hw]|].
  - rewrite Ew. apply bound; [apply no_kw; exact K|apply no_sign; exact S|]. intros k r y z I F HM E. apply (alive_in white k r c Hc) in F; [|exact I]. rewrite alive_white in F. destruct F as [F|[]]; injection F as _ <-. apply (within white y z _ rest); [exact (white_all y z HM)|exact E|exact N].
  - rewrite Ew. apply (no_class white _ c u rest alive_white); [|exact Hc]. intros k r [I|[]]. injection I as <- <-. not_in.
  - intros k r I HM. rewrite Ew in HM. assert (F := alive_in white k r c Hc (proj2 (in_app_iff _ _ _) (or_intror I)) (first_char r _ rest c u HM eq_refl)). rewrite alive_white in F. destruct F as [F|[]]. injection F as <- _. reflexivity.
Qed.

(** ** Comments *)
Lemma alive_div : alive_for (ceqb "/") = [(S_ONE_LINE_COMMENT, ONE_LINE_COMMENT); (S_BLOCK_COMMENT, BLOCK_COMMENT)].
Proof. vm_compute. reflexivity. Qed.
Lemma slash_signs : forallb (fun d => negb (is_prefix $"/" d) || listed d [ $"/"; $"/=" ]) s_signs = true.
Proof. vm_compute. reflexivity. Qed.
Lemma slash_sign_short u d z : In d s_signs -> d ++ z = "/"%char :: u -> length d <= 2.
Proof.
  intros I E. pose proof (proj1 (forallb_forall _ _) slash_signs d I) as H. apply orb_true_iff in H as [H|H]; [|apply listed_In in H; destruct H as [<-|[<-|[]]]; cbn; lia]. destruct d as [|c d]; [cbn; lia|]. injection E as -> _. discriminate H.
Qed.
Lemma comment_no_sign a u : a = "/"%char \/ a = "*"%char -> ~ In ("/"%char :: a :: u) s_signs.
Proof.
  intros Ha I. pose proof (proj1 (forallb_forall _ _) slash_signs _ I) as H. apply orb_true_iff in H as [H|H]; [discriminate H|]. apply listed_In in H. destruct H as [H|[H|[]]]; [discriminate H|]. injection H as E _. destruct Ha as [->| ->]; discriminate E.
Qed.
Lemma comment_pick v k r a u rest : a = "/"%char \/ a = "*"%char -> In (k, r) layout_rules -> M r ("/"%char :: a :: u) rest ->
  (forall y z, M r y z -> y ++ z = ("/"%char :: a :: u) ++ rest -> length y <= length ("/"%char :: a :: u)) ->
  (forall k' r' y z, In (k', r') layout_rules -> M r' y z -> y ++ z = ("/"%char :: a :: u) ++ rest -> firstb r' "/" = true -> k' = k) ->
  s_best (s_rules v) (("/"%char :: a :: u) ++ rest) None = Some (k, length ("/"%char :: a :: u)).
Proof.
  intros Ha Hr HM B U. apply (pick_layout_of v k r); [exact Hr| |apply not_keyword; reflexivity|exact (comment_no_sign a u Ha)| |exact HM|].
  - apply bound; [apply no_kw; reflexivity|intros d z I E; pose proof (slash_sign_short (a :: u ++ rest) d z I E); cbn [length]; lia|]. intros k' r' y z I F HM' E.
    assert (A := alive_in (ceqb "/") k' r' "/" eq_refl I F). rewrite alive_div in A.
    assert (J : In (k', r') layout_rules) by (destruct A as [A|[A|[]]]; injection A as <- <-; [left; reflexivity|right; left; reflexivity]). pose proof (U k' r' y z J HM' E F) as ->. rewrite <- (layout_kinds k r r' Hr J) in HM'. exact (B y z HM' E).
  - apply (no_class (ceqb "/") _ "/" (a :: u) rest alive_div); [|reflexivity]. intros k' r' [I|[I|[]]]; injection I as <- <-; not_in.
  - intros k' r' J HM'. exact (U k' r' ("/"%char :: a :: u) rest J HM' eq_refl (first_char r' _ rest "/" (a :: u) HM' eq_refl)).
Qed.
Lemma line_pairs : forallb (fun d => negb (pairb ONE_LINE_COMMENT nl d)) chars = true.
Proof. vm_compute. reflexivity. Qed.
Lemma layout_slash k r y z a t : In (k, r) layout_rules -> M r y z -> y ++ z = "/"%char :: a :: t -> firstb r "/" = true -> (a = "/"%char -> k = S_ONE_LINE_COMMENT) /\ (a = "*"%char -> k = S_BLOCK_COMMENT).
Proof.
  intros I HM E F. assert (A := alive_in (ceqb "/") k r "/" eq_refl (proj2 (in_app_iff _ _ _) (or_intror I)) F). rewrite alive_div in A. destruct A as [A|[A|[]]]; injection A as <- <-.
  - split; [reflexivity|]. intros ->. exfalso. destruct (line_starts y z HM) as (w & ->). discriminate E.
  - split; [|reflexivity]. intros ->. exfalso. destruct (sblock_starts y z HM) as (w & ->). discriminate E.
Qed.
Lemma line_M s e rest : ~ In nl s -> In e [[]; [nl]] -> (e = [] -> rest = []) -> M ONE_LINE_COMMENT ($"//" ++ s ++ e) rest.
Proof.
  intros N He Hr. unfold ONE_LINE_COMMENT. cbn [Seqs]. constructor; [apply lit_M|]. constructor; [apply M_Star_not1; apply Forall_forall; intros c I [<-|[]]; exact (N I)|].
  destruct He as [<-|[<-|[]]]; [apply M_AltL; rewrite (Hr eq_refl); constructor|apply M_AltR; apply M_q].
Qed.
Lemma pick_line_sv v s e rest : part_ok v (G_line s e) -> stops_at v (G_line s e) rest -> s_best (s_rules v) (($"//" ++ s ++ e) ++ rest) None = Some (S_ONE_LINE_COMMENT, length ($"//" ++ s ++ e)).
Proof.
  cbn [part_ok stops_at]. intros [N He] Hr. apply (comment_pick v S_ONE_LINE_COMMENT ONE_LINE_COMMENT "/" (s ++ e) rest); [left; reflexivity|left; reflexivity|exact (line_M s e rest N He Hr)| |].
  - intros y z HM E. destruct He as [<-|[<-|[]]].
    + rewrite (Hr eq_refl), !app_nil_r in *. rewrite <- E, app_length. lia.
    + change ("/"%char :: "/"%char :: s ++ [nl]) with (("/"%char :: "/"%char :: s) ++ [nl]) in *. apply (end_within ONE_LINE_COMMENT y z _ nl rest HM E). intros d _. apply negb_true_iff. exact (by_chars _ line_pairs d).
  - intros k' r' y z J HM E F. exact (proj1 (layout_slash k' r' y z "/" ((s ++ e) ++ rest) J HM E F) eq_refl).
Qed.
Lemma pick_block_sv v t rest : part_ok v (G_block t) -> s_best (s_rules v) (($"/*" ++ t ++ $"*/") ++ rest) None = Some (S_BLOCK_COMMENT, length ($"/*" ++ t ++ $"*/")).
Proof.
  cbn [part_ok]. intros N. apply (comment_pick v S_BLOCK_COMMENT BLOCK_COMMENT "*" (t ++ $"*/") rest); [right; reflexivity|right; left; reflexivity|exact (block_M t rest N)| |].
  - intros y z HM E. assert (L : length y <= length (($"/*" ++ t ++ $"*/") ++ rest)) by (change (($"/*" ++ t ++ $"*/") ++ rest) with (("/"%char :: "*"%char :: t ++ $"*/") ++ rest); rewrite <- E, app_length; lia).
    apply (block_stop t rest (length y) N L). change (($"/*" ++ t ++ $"*/") ++ rest) with (("/"%char :: "*"%char :: t ++ $"*/") ++ rest). rewrite <- E, firstn_pre, skipn_pre. exact HM.
  - intros k' r' y z J HM E F. exact (proj2 (layout_slash k' r' y z "*" ((t ++ $"*/") ++ rest) J HM E F) eq_refl).
Qed.
