(** Whole texts of Verilog. *)
From Verif Require Import Base BaseFacts AstModel LitModel SvExprModel RegexModel RegexProofs RegexPairProofs PpLexProofs StrSpec PpLexerModel PpSrcLexProofs VhdlLexModel VhdlLexSpec VhdlLexProofs VhdlTokenProofs VhdlPickProofs VhdlQuoteProofs SvLexModel SvLexSpec SvLexProofs SvWordProofs SvSignProofs SvQuoteProofs SvNumberProofs.

Lemma pick_elem v l rest : elem_ok v l -> stops_at v (G_elem l) rest -> settled v (G_elem l) rest -> s_best (s_rules v) (elem_text l ++ rest) None = Some (fst (token_for v l), length (elem_text l)).
Proof.
  intros K S P. destruct l; cbn [elem_text token_for fst].
  - exact (pick_word v s rest K S (proj1 P)).
  - exact (pick_system v s rest K S).
  - exact (pick_escaped v s w rest K S).
  - exact (pick_unsigned v s rest K S).
  - exact (pick_based v n g b w s rest K S).
  - exact (pick_fixed v s rest K S).
  - exact (pick_exp v a e rest (proj1 K) (proj2 K) S).
  - exact (pick_time v a u rest (proj1 K) (proj2 K) S).
  - exact (pick_unbased v c rest K).
  - exact (pick_string_sv v s rest P).
  - exact (pick_sign v s rest K S P).
Qed.
Lemma sign_nonempty v d : In d (signs v) -> d <> [].
Proof.
  intros H E. subst d. apply signs_in in H. pose proof (proj1 (forallb_forall _ _) spec_sign_nonempty [] H) as G. discriminate G.
Qed.
Lemma elem_nonempty v l : elem_ok v l -> elem_text l <> [].
Proof.
  destruct l; cbn [elem_ok elem_text]; try discriminate.
  - intros (c & t & -> & _). discriminate.
  - intros (c & t & -> & _). discriminate.
  - intros _. destruct n; discriminate.
  - intros (a & b & -> & _) E. destruct a; discriminate E.
  - intros [_ (c & g & n & -> & _)] E. destruct a; discriminate E.
  - intros [_ H] E. destruct a; [|discriminate E]. destruct H as [<-|[<-|[<-|[<-|[<-|[<-|[]]]]]]]; discriminate E.
  - apply sign_nonempty.
Qed.
Lemma mode_word w : w <> $"table" -> s_mode false (S_KW w) = false.
Proof. intros N. cbn [s_mode]. destruct (seqb w $"table") eqn:E; [apply seqb_eq in E; congruence|reflexivity]. Qed.
Lemma elem_mode v l rest : settled v (G_elem l) rest -> s_mode false (fst (token_for v l)) = false /\ s_hidden (fst (token_for v l)) = false.
Proof.
  destruct l; cbn [token_for fst settled]; try (split; reflexivity).
  - intros [_ N]. destruct (listed s (reserved_words v ++ special_words)); [split; [apply mode_word; exact N|reflexivity]|]. destruct (mem_c "$" s); split; reflexivity.
  - intros _. destruct (listed s special_names); [split; [apply mode_word; discriminate|reflexivity]|]. split; reflexivity.
  - intros _. destruct n; split; reflexivity.
Qed.
Lemma sv_skip v t s k : t <> [] -> s_best (s_rules v) (t ++ s) None = Some (k, length t) -> s_mode false k = false -> s_hidden k = true -> sv_lex v (t ++ s) = sv_lex v s.
Proof. intros N H Mk Hk. rewrite (sv_lex_step v t s k N H Mk), Hk. destruct (sv_lex v s); reflexivity. Qed.
Theorem lex_cut v ps s : plain_verilog v ps s -> sv_lex v s = Ok (map (token_for v) (elems ps)).
Proof.
  induction 1 as [|p ps s K S P _ IH]; [reflexivity|]. destruct p as [l|w|t e|t]; cbn [elems map part_text].
  - destruct (elem_mode v l s P) as [Mk Hk]. rewrite (sv_lex_step v _ s _ (elem_nonempty v l K) (pick_elem v l s K S P) Mk), Hk, IH. reflexivity.
  - rewrite (sv_skip v w s S_WHITE_SPACE); [exact IH|exact (proj1 K)|exact (pick_white v w s K S)|reflexivity|reflexivity].
  - rewrite (sv_skip v _ s S_ONE_LINE_COMMENT); [exact IH|discriminate|exact (pick_line_sv v t e s K S)|reflexivity|reflexivity].
  - rewrite (sv_skip v _ s S_BLOCK_COMMENT); [exact IH|discriminate|exact (pick_block_sv v t s K)|reflexivity|reflexivity].
Qed.

(** ** Different elements are different tokens *)
Lemma span_eq P (a b s s' : str) : all P a -> all P b -> (exists x t, s = x :: t /\ P x = false) -> (exists x t, s' = x :: t /\ P x = false) -> a ++ s = b ++ s' -> a = b /\ s = s'.
Proof.
  intros Ha Hb (x & t & -> & Hx) (y & t' & -> & Hy) E. destruct (same_span P a b x y t t' Ha Hb Hx Hy E) as [-> ->]. apply app_inv_head in E. auto.
Qed.
Definition no_e (c : ascii) : bool := negb (mem_c c $"eE").
Definition mantissa (c : ascii) : bool := num_char c || ceqb c ".".
Lemma mantissa_all a : unsigned a \/ fixed_point a -> all mantissa a.
Proof.
  intros [H|(x & y & -> & Hx & Hy)].
  - eapply Forall_impl; [|exact (unsigned_all a H)]. intros c Hc. unfold mantissa. rewrite Hc. reflexivity.
  - apply Forall_app. split; [|constructor; [reflexivity|]]; (eapply Forall_impl; [|apply unsigned_all; eassumption]); intros c Hc; unfold mantissa; rewrite Hc; reflexivity.
Qed.
Lemma exp_first e : exponent_part e -> exists x t, e = x :: t /\ mantissa x = false.
Proof. intros (c & g & n & -> & Hc & _). exists c. eexists. split; [reflexivity|]. destruct Hc as [<-|[<-|[]]]; reflexivity. Qed.
Lemma unit_first u : In u time_units -> exists x t, u = x :: t /\ mantissa x = false.
Proof. intros [<-|[<-|[<-|[<-|[<-|[<-|[]]]]]]]; eexists _, _; (split; [reflexivity|reflexivity]). Qed.
Lemma value_first b s : value_of b s -> exists x t, s = x :: t /\ white x = false.
Proof.
  intros H. destruct (value_ok b s H) as (_ & N & A). destruct s as [|x t]; [congruence|]. exists x, t. split; [reflexivity|]. apply Forall_inv in A. apply negb_true_iff. clear H N. revert x A. apply by_imp. vm_compute. reflexivity.
Qed.
Lemma visible_all s : all (between 33 126) s -> all (fun c => negb (white c)) s.
Proof. intros H. eapply Forall_impl; [|exact H]. apply by_imp. vm_compute. reflexivity. Qed.
Lemma white_first w : w <> [] -> all white w -> exists x t, w = x :: t /\ negb (white x) = false.
Proof. intros N H. destruct H as [|x t Hx _]; [congruence|]. exists x, t. rewrite Hx. auto. Qed.
Lemma optional_all n : optional unsigned n -> all num_char n.
Proof. intros [->|H]; [constructor|apply unsigned_all; exact H]. Qed.
Lemma sign_base g b g' b' u u' : In g [ []; $"s"; $"S" ] -> In g' [ []; $"s"; $"S" ] -> In b bases -> In b' bases -> g ++ b :: u = g' ++ b' :: u' -> g = g' /\ b = b' /\ u = u'.
Proof.
  intros Hg Hg' Hb Hb' E.
  assert (N : ~ In "s"%char bases /\ ~ In "S"%char bases) by (split; intros I; repeat (destruct I as [I|I]; [discriminate I|]); exact I).
  destruct Hg as [<-|[<-|[<-|[]]]], Hg' as [<-|[<-|[<-|[]]]]; cbn [app] in E; injection E as E; subst; try (exfalso; tauto); try discriminate; try (injection E as E; subst); auto.
Qed.
Lemma based_inj v n g b w s n' g' b' w' s' : elem_ok v (T_based n g b w s) -> elem_ok v (T_based n' g' b' w' s') -> elem_text (T_based n g b w s) = elem_text (T_based n' g' b' w' s') -> T_based n g b w s = T_based n' g' b' w' s'.
Proof.
  cbn [elem_ok elem_text]. intros (Hn & Hg & Hw & Hv) (Hn' & Hg' & Hw' & Hv') E.
  assert (T : forall u, exists x t, "'"%char :: u = x :: t /\ num_char x = false) by (intros u; exists "'"%char, u; split; reflexivity).
  destruct (span_eq num_char n n' _ _ (optional_all n Hn) (optional_all n' Hn') (T _) (T _) E) as [-> E1]. injection E1 as E1.
  destruct (sign_base _ _ _ _ _ _ Hg Hg' (proj1 (value_ok _ _ Hv)) (proj1 (value_ok _ _ Hv')) E1) as (-> & -> & E2).
  destruct (span_eq white w w' _ _ Hw Hw' (value_first _ _ Hv) (value_first _ _ Hv') E2) as [-> ->]. reflexivity.
Qed.
Definition elem_sort (l : elem) : nat :=
  match l with T_word _ => 0 | T_system _ => 1 | T_escaped _ _ => 2 | T_unsigned _ => 3 | T_based _ _ _ _ _ => 4 | T_fixed _ => 5 | T_exp _ _ => 6 | T_time _ _ => 7 | T_unbased _ => 8 | T_string _ => 9 | T_sign _ => 10 end.
Definition kind_sort (k : skind * str) : nat :=
  match fst k with
  | S_KW _ => match snd k with c :: _ => if ceqb c "$" then 1 else 0 | [] => 0 end
  | S_C_IDENTIFIER | S_SIMPLE_IDENTIFIER => 0 | S_SYSTEM_TF_IDENTIFIER => 1 | S_ESCAPED_IDENTIFIER => 2 | S_UNSIGNED_NUMBER => 3 | S_ANY_BASED_NUMBER | S_BASED_NUMBER_WITH_SIZE => 4
  | S_FIXED_POINT_NUMBER => 5 | S_REAL_NUMBER_WITH_EXP => 6 | S_TIME_LITERAL => 7 | S_UNBASED_UNSIZED_LITERAL => 8 | S_STRING_LITERAL => 9 | _ => 10
  end.
Lemma sort_ok v l : elem_ok v l -> kind_sort (token_for v l) = elem_sort l.
Proof.
  destruct l; cbn [elem_ok token_for elem_sort elem_text]; try reflexivity.
  - intros (c & t & -> & Hc & _). unfold kind_sort, token_for. cbn [fst snd elem_text]. destruct (listed (c :: t) (reserved_words v ++ special_words)); [|destruct (mem_c "$" (c :: t)); reflexivity]. destruct (ceqb c "$") eqn:E; [apply ceqb_eq in E as ->; discriminate Hc|reflexivity].
  - intros _. unfold kind_sort, token_for. cbn [fst snd elem_text]. destruct (listed s special_names); reflexivity.
  - intros _. unfold kind_sort, token_for. cbn [fst snd elem_text]. destruct n; reflexivity.
Qed.
Lemma token_inj v l l' : elem_ok v l -> elem_ok v l' -> token_for v l = token_for v l' -> l = l'.
Proof.
  intros K K' E. assert (Es : elem_sort l = elem_sort l') by (rewrite <- (sort_ok v l K), <- (sort_ok v l' K'), E; reflexivity).
  assert (Et : elem_text l = elem_text l') by (pose proof (f_equal snd E) as Et; destruct l, l'; exact Et). clear E.
  destruct l, l'; try discriminate Es; clear Es.
  - cbn [elem_text] in Et. congruence.
  - cbn [elem_text] in Et. congruence.
  - cbn [elem_text elem_ok] in *. injection Et as Et. destruct K as (_ & K1 & K2 & K3), K' as (_ & K1' & K2' & K3'). destruct (span_eq _ _ _ _ _ (visible_all _ K1) (visible_all _ K1') (white_first _ K2 K3) (white_first _ K2' K3') Et) as [-> ->]. reflexivity.
  - cbn [elem_text] in Et. congruence.
  - exact (based_inj v _ _ _ _ _ _ _ _ _ _ K K' Et).
  - cbn [elem_text] in Et. congruence.
  - cbn [elem_text elem_ok] in *. destruct K as [K1 K2], K' as [K1' K2']. destruct (span_eq _ _ _ _ _ (mantissa_all _ K1) (mantissa_all _ K1') (exp_first _ K2) (exp_first _ K2') Et) as [-> ->]. reflexivity.
  - cbn [elem_text elem_ok] in *. destruct K as [K1 K2], K' as [K1' K2']. destruct (span_eq _ _ _ _ _ (mantissa_all _ K1) (mantissa_all _ K1') (unit_first _ K2) (unit_first _ K2') Et) as [-> ->]. reflexivity.
  - cbn [elem_text] in Et. congruence.
  - cbn [elem_text] in Et. injection Et as Et. apply app_inj_tail in Et as [-> _]. reflexivity.
  - cbn [elem_text] in Et. congruence.
Qed.
Lemma cut_ok Q v ps s : cut Q v ps s -> Forall (elem_ok v) (elems ps).
Proof. induction 1 as [|p ps s K _ _ _ IH]; [constructor|]. destruct p; cbn [elems]; [constructor; [exact K|exact IH]|exact IH|exact IH|exact IH]. Qed.
Lemma tokens_inj v ls : forall ls', Forall (elem_ok v) ls -> Forall (elem_ok v) ls' -> map (token_for v) ls = map (token_for v) ls' -> ls = ls'.
Proof.
  induction ls as [|l ls IH]; intros [|l' ls'] H H' E; try discriminate E; [reflexivity|]. cbn [map] in E. assert (E1 := f_equal (hd (S_KW [], [])) E). assert (E2 := f_equal (@tl _) E). cbn [hd tl] in E1, E2.
  rewrite (token_inj v l l' (Forall_inv H) (Forall_inv H') E1). rewrite (IH ls' (Forall_inv_tail H) (Forall_inv_tail H') E2). reflexivity.
Qed.
