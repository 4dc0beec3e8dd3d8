(** Numbers of Verilog. *)
From Verif Require Import Base BaseFacts AstModel LitModel SvExprModel RegexModel RegexProofs RegexPairProofs PpLexProofs StrSpec PpLexerModel PpSrcLexProofs VhdlLexModel VhdlLexSpec VhdlLexProofs VhdlTokenProofs VhdlPickProofs VhdlQuoteProofs SvLexModel SvLexSpec SvLexProofs SvWordProofs SvSignProofs SvQuoteProofs.

Lemma alive_digit : alive_for digit = [(S_TIME_LITERAL, TIME_LITERAL); (S_BASED_NUMBER_WITH_SIZE, BASED_NUMBER_WITH_SIZE); (S_REAL_NUMBER_WITH_EXP, REAL_NUMBER_WITH_EXP); (S_FIXED_POINT_NUMBER, FIXED_POINT_NUMBER); (S_UNSIGNED_NUMBER, UNSIGNED_NUMBER)].
Proof. vm_compute. reflexivity. Qed.

(** ** What the expressions match *)
Lemma value_star ds s rest : all (fun x => mem_c x ds || ceqb x "_") s <-> M (Star (Alt (one $"_") (one ds))) s rest.
Proof.
  split.
  - induction 1 as [|c s Hc _ IH]; [constructor|]. apply (star_cons _ [c]); [discriminate| |exact IH]. apply orb_true_iff in Hc as [Hc|Hc].
    + apply M_AltR. apply M_one. exists c. split; [reflexivity|apply mem_c_In; exact Hc].
    + apply M_AltL. apply ceqb_eq in Hc as ->. apply M_q.
  - intros H. refine (M_Star_ind _ (fun y _ => all (fun x => mem_c x ds || ceqb x "_") y) _ _ _ _ H); [intros; constructor|]. intros x y r' _ Hx _ IH. apply Forall_app. split; [|exact IH].
    apply M_Alt_iff in Hx as [Hx|Hx]; apply M_one in Hx as (c & -> & I); (constructor; [|constructor]); apply orb_true_iff; [right; destruct I as [<-|[]]; reflexivity|left; apply mem_c_In; exact I].
Qed.
Lemma value_iff ds s rest : M (value_re ds) s rest <-> digits_in (fun c => mem_c c ds) s.
Proof.
  unfold value_re. rewrite M_Seq_iff. split.
  - intros (a & b & -> & Ha & Hb). apply M_one in Ha as (c & -> & I). exists c, b. split; [reflexivity|]. split; [apply mem_c_In; exact I|]. apply (value_star ds b rest). exact Hb.
  - intros (c & t & -> & Hc & Ht). exists [c], t. split; [reflexivity|]. split; [apply M_one; exists c; split; [reflexivity|apply mem_c_In; exact Hc]|]. apply value_star. exact Ht.
Qed.
Lemma digits_in_ext P Q s : (forall c, P c = Q c) -> digits_in P s <-> digits_in Q s.
Proof.
  intros E. split; intros (c & t & -> & Hc & Ht); exists c, t; (split; [reflexivity|]); [rewrite <- E|rewrite E]; (split; [exact Hc|]); eapply Forall_impl; try exact Ht; intros d; cbn beta; [rewrite E|rewrite <- E]; auto.
Qed.
Lemma digit_mem c : mem_c c v_digits = digit c.
Proof. apply Bool.eqb_prop. revert c. apply by_chars. vm_compute. reflexivity. Qed.
Lemma unsigned_iff s rest : M UNSIGNED_NUMBER s rest <-> unsigned s.
Proof. change UNSIGNED_NUMBER with (value_re v_digits). rewrite value_iff. apply digits_in_ext. exact digit_mem. Qed.
Definition num_char (c : ascii) : bool := digit c || ceqb c "_".
Lemma unsigned_all s : unsigned s -> all num_char s.
Proof. intros (c & t & -> & Hc & Ht). constructor; [unfold num_char; rewrite Hc; reflexivity|exact Ht]. Qed.
Lemma unsigned_first s : unsigned s -> exists c t, s = c :: t /\ digit c = true.
Proof. intros (c & t & -> & Hc & _). eauto. Qed.
Lemma unsigned_last s : unsigned s -> exists t x, s = t ++ [x] /\ num_char x = true.
Proof. intros H. destruct (last_char s) as (t & x & ->); [destruct (unsigned_first s H) as (c & t & -> & _); discriminate|]. exists t, x. split; [reflexivity|]. pose proof (unsigned_all _ H) as A. apply Forall_app in A as [_ A]. exact (Forall_inv A). Qed.
Lemma fixed_iff s rest : M FIXED_POINT_NUMBER s rest <-> fixed_point s.
Proof.
  unfold FIXED_POINT_NUMBER, fixed_point. cbn [Seqs]. rewrite M_Seq_iff. split.
  - intros (a & b & -> & Ha & Hb). apply M_Seq_iff in Hb as (d & b' & -> & Hd & Hb). apply M_one in Hd as (x & -> & [<-|[]]). exists a, b'. rewrite unsigned_iff in Ha, Hb. auto.
  - intros (a & b & -> & Ha & Hb). exists a, ("."%char :: b). split; [reflexivity|]. split; [apply unsigned_iff; exact Ha|]. apply (M_Seq _ _ ["."%char] b); [apply M_q|apply unsigned_iff; exact Hb].
Qed.
Lemma real_M a e rest : unsigned a \/ fixed_point a -> exponent_part e -> M REAL_NUMBER_WITH_EXP (a ++ e) rest.
Proof.
  intros Ha (c & g & n & -> & Hc & Hg & Hn). unfold REAL_NUMBER_WITH_EXP. cbn [Seqs].
  assert (T : M (Seq (one $"eE") (Seq (Opt (one $"+-")) UNSIGNED_NUMBER)) (c :: g ++ n) rest).
  { apply (M_Seq _ _ [c]); [apply M_one; eauto|]. constructor; [|apply unsigned_iff; exact Hn]. destruct Hg as [<-|[<-|[<-|[]]]]; [apply M_AltR; constructor|apply M_AltL; apply M_one; eexists; split; [reflexivity|left; reflexivity]|apply M_AltL; apply M_one; eexists; split; [reflexivity|right; left; reflexivity]]. }
  destruct Ha as [Ha|(a' & b & -> & Ha & Hb)].
  - constructor; [apply unsigned_iff; exact Ha|]. apply (M_Seq _ _ [] _); [apply M_AltR; constructor|exact T].
  - change (a' ++ "."%char :: b) with (a' ++ ("."%char :: b)). rewrite <- app_assoc. constructor; [apply unsigned_iff; exact Ha|]. constructor; [|exact T]. apply M_AltL. apply (M_Seq _ _ ["."%char] b); [apply M_q|apply unsigned_iff; exact Hb].
Qed.
Lemma real_has y z : M REAL_NUMBER_WITH_EXP y z -> In "e"%char y \/ In "E"%char y.
Proof.
  unfold REAL_NUMBER_WITH_EXP. cbn [Seqs]. intros H. apply M_Seq_iff in H as (a & y' & -> & _ & H). apply M_Seq_iff in H as (b & y & -> & _ & H). apply M_Seq_iff in H as (e & w & -> & He & _). apply M_one in He as (c & -> & I). rewrite !in_app_iff. destruct I as [<-|[<-|[]]]; [left|right]; right; right; left; left; reflexivity.
Qed.
Lemma fixed_has s : fixed_point s -> In "."%char s.
Proof. intros (a & b & -> & _). apply in_app_iff. right. left. reflexivity. Qed.
Lemma sized_shape y z : M BASED_NUMBER_WITH_SIZE y z -> exists n w, y = n ++ "'"%char :: w /\ unsigned n /\ M ANY_BASED_NUMBER ("'"%char :: w) z.
Proof.
  unfold BASED_NUMBER_WITH_SIZE. intros H. apply M_Seq_iff in H as (n & b & -> & Hn & Hb). destruct (starts_tick _ (proj1 based_starts) eq_refl _ _ Hb) as (w & ->). exists n, w. rewrite unsigned_iff in Hn. auto.
Qed.
Lemma unit_M u rest : In u time_units -> M TIME_UNIT u rest.
Proof. intros H. unfold TIME_UNIT. cbn [Alts]. rewrite !M_Alt_iff. destruct H as [<-|[<-|[<-|[<-|[<-|[<-|[]]]]]]]; repeat (first [apply lit_M|left; apply lit_M|right]). Qed.
Lemma time_M a u rest : unsigned a \/ fixed_point a -> In u time_units -> M TIME_LITERAL (a ++ u) rest.
Proof. intros Ha Hu. unfold TIME_LITERAL. constructor; [|apply unit_M; exact Hu]. destruct Ha as [Ha|Ha]; [apply M_AltL, unsigned_iff|apply M_AltR, fixed_iff]; exact Ha. Qed.

(** ** Numbers without a base *)
Definition apart_char (c : ascii) : bool := word_char c || mem_c c $".'".
Definition end_char (c : ascii) : bool := num_char c || ceqb c "s".
Definition unbased_rules : list re := [TIME_LITERAL; REAL_NUMBER_WITH_EXP; FIXED_POINT_NUMBER; UNSIGNED_NUMBER].
Lemma number_pairs : forallb (fun r => forallb (fun x => if end_char x then forallb (fun d => apart_char d || negb (pairb r x d)) chars else true) chars) unbased_rules = true.
Proof. vm_compute. reflexivity. Qed.
Lemma number_pair r x d : In r unbased_rules -> end_char x = true -> apart_char d = false -> pairb r x d = false.
Proof. intros Hr Hx Hd. pose proof (proj1 (forallb_forall _ _) number_pairs r Hr) as G. cbn beta in G. apply by_chars with (c := x) in G. rewrite Hx in G. apply by_chars with (c := d) in G. rewrite Hd in G. apply negb_true_iff. exact G. Qed.
Lemma no_tick_rules : forallb (fun r => forallb (fun c => negb (pairb r c "'" || firstb r "'")) chars) unbased_rules = true.
Proof. vm_compute. reflexivity. Qed.
Lemma no_tick r y z : In r unbased_rules -> M r y z -> ~ In "'"%char y.
Proof.
  intros Hr HM I. apply in_split in I as (a & b & E). destruct (M_shape r y z HM) as [_ F _ P]. pose proof (proj1 (forallb_forall _ _) no_tick_rules r Hr) as G. cbn beta in G.
  destruct a as [|c0 a0] eqn:Ea; [|destruct (last_char a) as (a' & x & Ex); [rewrite Ea; discriminate|]].
  - apply by_chars with (c := "'"%char) in G. apply negb_true_iff, orb_false_iff in G as [_ G]. cbn in E. rewrite (F _ _ E) in G. discriminate.
  - apply by_chars with (c := x) in G. apply negb_true_iff, orb_false_iff in G as [G _]. rewrite <- Ea, Ex, <- app_assoc in E. cbn in E. rewrite (P _ _ _ _ E) in G. discriminate.
Qed.
Lemma apart_word rest : apart rest -> not_first word_char rest.
Proof. destruct rest as [|c rest]; [auto|]. cbn. intros H. apply orb_false_iff in H as [H _]. exact H. Qed.
Lemma num_word c : num_char c = true -> word_char c = true.
Proof. revert c. apply by_imp. vm_compute. reflexivity. Qed.
Lemma sized_apart y z t rest : ~ In "'"%char t -> apart rest -> M BASED_NUMBER_WITH_SIZE y z -> y ++ z = t ++ rest -> False.
Proof.
  intros N A HM E. destruct (sized_shape y z HM) as (n & w & -> & Hn & _). apply unsigned_all in Hn. rewrite <- app_assoc in E. cbn [app] in E. clear HM. revert n Hn E. induction t as [|c t IH]; intros n Hn E.
  - cbn [app] in E. destruct n as [|x n]; cbn [app] in E; destruct rest as [|d rest]; try discriminate E; injection E as E _; subst d; cbn in A.
    + discriminate A.
    + apply Forall_inv in Hn. rewrite (num_word x Hn) in A. discriminate A.
  - destruct n as [|x n]; cbn [app] in E; injection E as E1 E2; subst c; [apply N; left; reflexivity|]. exact (IH (fun I => N (or_intror I)) n (Forall_inv_tail Hn) E2).
Qed.
(** the text of a number without a base *)
Record plain_number (t : str) : Prop := { pn_first : exists c u, t = c :: u /\ digit c = true; pn_last : exists u x, t = u ++ [x] /\ end_char x = true; pn_tick : ~ In "'"%char t }.
Lemma digit_no c : digit c = true -> sign_first c = false /\ word_start c = false /\ c <> "$"%char.
Proof.
  intros H. repeat split; [apply negb_true_iff; revert c H; apply by_imp; vm_compute; reflexivity|apply negb_true_iff; revert c H; apply by_imp; vm_compute; reflexivity|]. intros ->. discriminate H.
Qed.
Lemma number_within v t rest : plain_number t -> apart rest -> within_text (s_rules v) t rest.
Proof.
  intros [(c & u & Et & Hc) (u' & x & Ex & Hx) N] A. destruct (digit_no c Hc) as (S & W & D). rewrite Et. apply bound; [apply kw_within; apply apart_word; exact A|apply no_sign; exact S|]. intros k r y z I F HM E.
  assert (G := alive_in digit k r c Hc I F). rewrite alive_digit in G. rewrite <- Et in *.
  assert (P : forall r', In r' unbased_rules -> M r' y z -> length y <= length t).
  { intros r' Hr HM'. rewrite Ex in E |- *. apply (end_within r' y z u' x rest HM' E). intros d Hd. apply number_pair; [exact Hr|exact Hx|]. destruct rest as [|d' rest]; [discriminate|]. injection Hd as ->. exact A. }
  destruct G as [G|[G|[G|[G|[G|[]]]]]]; injection G as _ <-; [apply (P _ (or_introl eq_refl) HM)|exfalso; exact (sized_apart y z t rest N A HM E)| | |].
  - exact (P _ (or_intror (or_introl eq_refl)) HM).
  - exact (P _ (or_intror (or_intror (or_introl eq_refl))) HM).
  - exact (P _ (or_intror (or_intror (or_intror (or_introl eq_refl)))) HM).
Qed.
Lemma number_not_kw v t : plain_number t -> ~ In t (keywords v).
Proof.
  intros [(c & u & Et & Hc) (u' & x & Ex & Hx) _] I. destruct (digit_no c Hc) as (_ & W & D). destruct (kw_first v t c u [] [] I) as [E|[E|E]]; [rewrite Et, !app_nil_r; reflexivity| |congruence|congruence].
  rewrite Ex in E. change $"1step" with ($"1ste" ++ [ "p"%char ]) in E. apply app_inj_tail in E as [_ ->]. discriminate Hx.
Qed.
Lemma num_no_tick s : all num_char s -> ~ In "'"%char s.
Proof. intros H I. unfold all in H. rewrite Forall_forall in H. discriminate (H _ I). Qed.
Lemma plain_unsigned s : unsigned s -> plain_number s.
Proof.
  intros H. constructor; [exact (unsigned_first s H)| |exact (num_no_tick s (unsigned_all s H))]. destruct (unsigned_last s H) as (t & x & E & Hx). exists t, x. unfold end_char. rewrite Hx. auto.
Qed.
Lemma plain_fixed s : fixed_point s -> plain_number s.
Proof.
  intros (a & b & -> & Ha & Hb). constructor.
  - destruct (unsigned_first a Ha) as (c & t & -> & Hc). exists c. eexists. split; [reflexivity|exact Hc].
  - destruct (unsigned_last b Hb) as (t & x & -> & Hx). exists (a ++ "."%char :: t), x. rewrite <- app_assoc. unfold end_char. rewrite Hx. auto.
  - rewrite in_app_iff. intros [I|[I|I]]; [exact (num_no_tick a (unsigned_all a Ha) I)|discriminate I|exact (num_no_tick b (unsigned_all b Hb) I)].
Qed.
Lemma plain_more a b : plain_number a -> (exists u x, b = u ++ [x] /\ end_char x = true) -> ~ In "'"%char b -> plain_number (a ++ b).
Proof.
  intros [(c & u & -> & Hc) _ N] (u' & x & -> & Hx) N'. constructor; [exists c; eexists; split; [reflexivity|exact Hc]|exists ((c :: u) ++ u'), x; rewrite app_assoc; auto|]. rewrite in_app_iff. intros [I|I]; auto.
Qed.
Lemma plain_exp a e : unsigned a \/ fixed_point a -> exponent_part e -> plain_number (a ++ e).
Proof.
  intros Ha (c & g & n & -> & Hc & Hg & Hn). apply plain_more; [destruct Ha; [apply plain_unsigned|apply plain_fixed]; assumption| |].
  - destruct (unsigned_last n Hn) as (t & x & -> & Hx). exists (c :: g ++ t), x. cbn [app]. rewrite <- app_assoc. unfold end_char. rewrite Hx. auto.
  - intros [I|I]; [subst c; destruct Hc as [I|[I|[]]]; discriminate I|]. apply in_app_iff in I as [I|I]; [|exact (num_no_tick n (unsigned_all n Hn) I)]. destruct Hg as [<-|[<-|[<-|[]]]]; cbn in I; repeat (destruct I as [I|I]; [discriminate I|]); exact I.
Qed.
Lemma plain_time a u : unsigned a \/ fixed_point a -> In u time_units -> plain_number (a ++ u).
Proof.
  intros Ha Hu. apply plain_more; [destruct Ha; [apply plain_unsigned|apply plain_fixed]; assumption| |].
  - destruct Hu as [<-|[<-|[<-|[<-|[<-|[<-|[]]]]]]]; [exists []|exists $"m"|exists $"u"|exists $"n"|exists $"p"|exists $"f"]; exists "s"%char; split; reflexivity.
  - destruct Hu as [<-|[<-|[<-|[<-|[<-|[<-|[]]]]]]]; intros I; cbn in I; repeat (destruct I as [I|I]; [discriminate I|]); exact I.
Qed.
Lemma time_lasts : forallb (fun x => if num_char x then negb (lastb TIME_LITERAL x) else true) chars = true.
Proof. vm_compute. reflexivity. Qed.
Lemma not_time t x rest : num_char x = true -> ~ M TIME_LITERAL (t ++ [x]) rest.
Proof. intros Hx HM. destruct (M_shape _ _ _ HM) as [_ _ L _]. pose proof (by_chars _ time_lasts x) as G. cbn beta in G. rewrite Hx in G. rewrite (L x t eq_refl) in G. discriminate. Qed.
Lemma not_sized t rest : ~ In "'"%char t -> ~ M BASED_NUMBER_WITH_SIZE t rest.
Proof. intros N HM. destruct (sized_shape t rest HM) as (n & w & -> & _). apply N, in_app_iff. right. left. reflexivity. Qed.
Lemma num_no_e s : all num_char s -> ~ (In "e"%char s \/ In "E"%char s).
Proof. unfold all. rewrite Forall_forall. intros H [I|I]; discriminate (H _ I). Qed.
Lemma alive_class n k r c u rest : digit c = true -> In (k, r) (class_before n) -> M r (c :: u) rest -> In (k, r) (alive_for digit) /\ In (k, r) (class_before n).
Proof. intros Hc I HM. split; [|exact I]. apply (alive_in digit k r c Hc); [exact (class_in n k r I)|exact (first_char r _ rest c u HM eq_refl)]. Qed.
Lemma before_digit n : n <= 6 -> forall k r, In (k, r) (class_before n) -> In (k, r) (alive_for digit) -> (r = TIME_LITERAL /\ 1 < n) \/ (r = BASED_NUMBER_WITH_SIZE /\ 3 < n) \/ (r = REAL_NUMBER_WITH_EXP /\ 4 < n) \/ (r = FIXED_POINT_NUMBER /\ 5 < n).
Proof.
  intros Hn k r I J. rewrite alive_digit in J.
  assert (K : In k (map fst (class_before n))) by (apply in_map_iff; exists (k, r); auto).
  destruct J as [J|[J|[J|[J|[J|[]]]]]]; injection J as <- <-; destruct n as [|[|[|[|[|[|[|n]]]]]]]; try lia; cbn [class_before firstn class_rules map fst] in K; repeat (destruct K as [K|K]; [try discriminate K|]); try destruct K; try (left; split; [reflexivity|lia]); try (right; left; split; [reflexivity|lia]); try (right; right; left; split; [reflexivity|lia]); try (right; right; right; split; [reflexivity|lia]).
Qed.
Lemma pick_number v n k r t rest : nth_error class_rules n = Some (k, r) -> n <= 6 -> plain_number t -> apart rest -> M r t rest -> (1 < n -> ~ M TIME_LITERAL t rest) -> (4 < n -> ~ M REAL_NUMBER_WITH_EXP t rest) -> (5 < n -> ~ M FIXED_POINT_NUMBER t rest) -> s_best (s_rules v) (t ++ rest) None = Some (k, length t).
Proof.
  intros Hn Ln P A HM HT HR HF. apply (pick_class v n k r t rest Hn); [apply number_within; assumption|exact HM|apply number_not_kw; exact P|]. intros k' r' I HM'. destruct P as [(c & u & E & Hc) _ N].
  pose proof HM' as HM2. rewrite E in HM2. destruct (alive_class n k' r' c u rest Hc I HM2) as [J _]. destruct (before_digit n Ln k' r' I J) as [[-> L]|[[-> L]|[[-> L]|[-> L]]]]; [exact (HT L HM')|exact (not_sized t rest N HM')|exact (HR L HM')|exact (HF L HM')].
Qed.
Lemma pick_unsigned v s rest : unsigned s -> apart rest -> s_best (s_rules v) (s ++ rest) None = Some (S_UNSIGNED_NUMBER, length s).
Proof.
  intros H A. pose proof (unsigned_all s H) as Al. apply (pick_number v 6 S_UNSIGNED_NUMBER UNSIGNED_NUMBER); [reflexivity|lia|apply plain_unsigned; exact H|exact A|apply unsigned_iff; exact H|intros _|intros _ HM|intros _ HM].
  - destruct (unsigned_last s H) as (t & x & -> & Hx). apply not_time. exact Hx.
  - exact (num_no_e s Al (real_has _ _ HM)).
  - apply fixed_iff in HM. apply fixed_has in HM. unfold all in Al. rewrite Forall_forall in Al. discriminate (Al _ HM).
Qed.
Lemma pick_fixed v s rest : fixed_point s -> apart rest -> s_best (s_rules v) (s ++ rest) None = Some (S_FIXED_POINT_NUMBER, length s).
Proof.
  intros H A. apply (pick_number v 5 S_FIXED_POINT_NUMBER FIXED_POINT_NUMBER); [reflexivity|lia|apply plain_fixed; exact H|exact A|apply fixed_iff; exact H|intros _|intros _ HM|lia]; destruct H as (a & b & -> & Ha & Hb).
  - destruct (unsigned_last b Hb) as (t & x & -> & Hx). change (a ++ "."%char :: t ++ [x]) with (a ++ ("."%char :: t) ++ [x]). rewrite app_assoc. apply not_time. exact Hx.
  - apply real_has in HM. rewrite !in_app_iff in HM. pose proof (num_no_e a (unsigned_all a Ha)). pose proof (num_no_e b (unsigned_all b Hb)). destruct HM as [[I|[I|I]]|[I|[I|I]]]; try discriminate I; tauto.
Qed.
Lemma pick_exp v a e rest : unsigned a \/ fixed_point a -> exponent_part e -> apart rest -> s_best (s_rules v) ((a ++ e) ++ rest) None = Some (S_REAL_NUMBER_WITH_EXP, length (a ++ e)).
Proof.
  intros Ha He A. apply (pick_number v 4 S_REAL_NUMBER_WITH_EXP REAL_NUMBER_WITH_EXP); [reflexivity|lia|apply plain_exp; assumption|exact A|apply real_M; assumption|intros _|lia|lia].
  destruct He as (c & g & n & -> & _ & _ & Hn). destruct (unsigned_last n Hn) as (t & x & -> & Hx). replace (a ++ c :: g ++ t ++ [x]) with ((a ++ c :: g ++ t) ++ [x]) by (rewrite <- !app_assoc; cbn [app]; rewrite <- app_assoc; reflexivity). apply not_time. exact Hx.
Qed.
Lemma pick_time v a u rest : unsigned a \/ fixed_point a -> In u time_units -> apart rest -> s_best (s_rules v) ((a ++ u) ++ rest) None = Some (S_TIME_LITERAL, length (a ++ u)).
Proof. intros Ha Hu A. apply (pick_number v 1 S_TIME_LITERAL TIME_LITERAL); [reflexivity|lia|apply plain_time; assumption|exact A|apply time_M; assumption|lia|lia|lia]. Qed.

(** ** Numbers with a base *)
Definition bases : str := $"dDbBoOhH".
Definition after (r : re) (p : str) : re := fold_left (fun r c => deriv c r) p r.
Lemma after_spec p : forall r y z, M r (p ++ y) z <-> M (after r p) y z.
Proof. induction p as [|c p IH]; intros r y z; cbn [app after fold_left]; [reflexivity|]. rewrite <- deriv_spec. apply IH. Qed.
Definition prefix_of (gb : str * ascii) : str := "'"%char :: fst gb ++ [snd gb].
Definition decimal (b : ascii) : bool := mem_c b $"dD".
Definition value_char (c : ascii) : bool := digit c || mem_c c ($"abcdefABCDEF" ++ x_or_z) || ceqb c "_".
Definition base_of (b : ascii) : ascii := if mem_c b $"dD" then "d" else if mem_c b $"bB" then "b" else if mem_c b $"oO" then "o" else "h".
Lemma same_after g b : In g [ []; $"s"; $"S" ] -> In b bases -> after ANY_BASED_NUMBER (prefix_of (g, b)) = after ANY_BASED_NUMBER (prefix_of ([], base_of b)) /\ decimal b = decimal (base_of b) /\ In (base_of b) $"dboh".
Proof.
  intros Hg Hb. destruct Hg as [<-|[<-|[<-|[]]]]; repeat (destruct Hb as [<-|Hb]; [vm_compute; split; [reflexivity|split; [reflexivity|tauto]]|]); destruct Hb.
Qed.
Lemma based_pairs : forallb (fun b => let r := after ANY_BASED_NUMBER (prefix_of ([], b)) in forallb (fun x => if value_char x then forallb (fun d => if word_char d then true else if negb (decimal b) && ceqb d "?" then true else negb (pairb r x d)) chars else true) chars) $"dboh" = true.
Proof. vm_compute. reflexivity. Qed.
Lemma based_pair g b x d : In g [ []; $"s"; $"S" ] -> In b bases -> value_char x = true -> word_char d = false -> decimal b = true \/ ceqb d "?" = false -> pairb (after ANY_BASED_NUMBER (prefix_of (g, b))) x d = false.
Proof.
  intros Hg Hb Hx Hd Q. destruct (same_after g b Hg Hb) as (-> & D & Hb'). rewrite D in Q. pose proof (proj1 (forallb_forall _ _) based_pairs (base_of b) Hb') as G. cbn beta zeta in G. apply by_chars with (c := x) in G. rewrite Hx in G. apply by_chars with (c := d) in G. rewrite Hd in G. apply negb_true_iff.
  destruct Q as [Q|Q]; rewrite Q in G; [exact G|rewrite andb_false_r in G; exact G].
Qed.
Lemma value_chars P s : (forall c, P c = true -> value_char c = true) -> digits_in P s -> s <> [] /\ all value_char s.
Proof.
  intros H (c & t & -> & Hc & Ht). split; [discriminate|]. constructor; [apply H; exact Hc|]. eapply Forall_impl; [|exact Ht]. cbn beta. intros d Hd. apply orb_true_iff in Hd as [Hd|Hd]; [apply H; exact Hd|unfold value_char; rewrite Hd; apply orb_true_r].
Qed.
Lemma value_ok b s : value_of b s -> In b bases /\ s <> [] /\ all value_char s.
Proof.
  intros [[Hb [H|(c & t & -> & Hc & Ht)]]|[[Hb H]|[[Hb H]|[Hb H]]]].
  - split; [cbn in Hb |- *; tauto|]. apply (value_chars _ s) in H; [exact H|]. apply by_imp. vm_compute. reflexivity.
  - split; [cbn in Hb |- *; tauto|]. split; [discriminate|]. constructor.
    + apply mem_c_In in Hc. revert c Hc. apply by_imp. vm_compute. reflexivity.
    + eapply Forall_impl; [|exact Ht]. cbn beta. intros d Hd. unfold value_char. apply ceqb_eq in Hd as <-. reflexivity.
  - split; [cbn in Hb |- *; tauto|]. apply (value_chars _ s) in H; [exact H|]. apply by_imp. vm_compute. reflexivity.
  - split; [cbn in Hb |- *; tauto|]. apply (value_chars _ s) in H; [exact H|]. apply by_imp. vm_compute. reflexivity.
  - split; [cbn in Hb |- *; tauto|]. apply (value_chars _ s) in H; [exact H|]. apply by_imp. vm_compute. reflexivity.
Qed.
Definition based_tail (g : str) (b : ascii) (w s : str) : str := "'"%char :: g ++ b :: w ++ s.
Lemma tail_prefix g b w s : based_tail g b w s = prefix_of (g, b) ++ w ++ s.
Proof. unfold based_tail, prefix_of. cbn [fst snd app]. rewrite <- app_assoc. reflexivity. Qed.
Lemma decimal_In b : In b $"dD" -> decimal b = true.
Proof. intros H. apply mem_c_In. exact H. Qed.
Lemma split_prefix (p y z a : str) : length p <= length y -> y ++ z = p ++ a -> exists y', y = p ++ y' /\ y' ++ z = a.
Proof.
  revert y. induction p as [|c p IH]; intros y L E; [exists y; auto|]. destruct y as [|d y]; [cbn in L; lia|]. cbn [app] in E. injection E as -> E. destruct (IH y) as (y' & -> & E'); [cbn in L; lia|exact E|]. exists y'. auto.
Qed.
Lemma based_within y z g b w s rest : In g [ []; $"s"; $"S" ] -> value_of b s -> not_first word_char rest -> In b $"dD" \/ not_first (ceqb "?") rest -> M ANY_BASED_NUMBER y z -> y ++ z = based_tail g b w s ++ rest -> length y <= length (based_tail g b w s).
Proof.
  intros Hg Hv N Q HM E. destruct (value_ok b s Hv) as (Hb & Ns & As). rewrite tail_prefix in *. rewrite <- app_assoc in E. destruct (Nat.le_gt_cases (length (prefix_of (g, b))) (length y)) as [L|L]; [|rewrite (app_length (prefix_of (g, b))); lia].
  destruct (split_prefix _ _ _ _ L E) as (y' & -> & E'). apply after_spec in HM. rewrite !(app_length (prefix_of (g, b))). apply Nat.add_le_mono_l. destruct (last_char s Ns) as (t & x & ->). rewrite (app_assoc w) in *.
  apply (end_within _ y' z (w ++ t) x rest HM E'). intros d Hd. destruct rest as [|d' rest]; [discriminate|]. injection Hd as ->. apply based_pair; [exact Hg|exact Hb|apply Forall_app in As as [_ As]; exact (Forall_inv As)|exact N|].
  destruct Q as [Q|Q]; [left; apply decimal_In; exact Q|right]. cbn in Q. apply ceqb_neq. intros ->. discriminate Q.
Qed.
Lemma base_M B g b w rest : In b B -> In g [ []; $"s"; $"S" ] -> all white w -> M (base_re B) ("'"%char :: g ++ b :: w) rest.
Proof.
  intros Hb Hg Hw. unfold base_re. cbn [Seqs]. apply (M_Seq _ _ ["'"%char]); [apply M_q|]. apply (M_Seq _ _ []); [apply M_AltR; constructor|]. apply (M_Seq _ _ g (b :: w)).
  - destruct Hg as [<-|[<-|[<-|[]]]]; [apply M_AltR; constructor|apply M_AltL; apply M_one; eexists; split; [reflexivity|left; reflexivity]|apply M_AltL; apply M_one; eexists; split; [reflexivity|right; left; reflexivity]].
  - apply (M_Seq _ _ []); [apply M_AltR; constructor|]. apply (M_Seq _ _ [b] w); [apply M_one; eauto|]. destruct w as [|c w]; [apply M_AltR; constructor|]. apply M_AltL. apply white_M; [discriminate|exact Hw].
Qed.
Lemma tail_split g b w s : based_tail g b w s = ("'"%char :: g ++ b :: w) ++ s.
Proof. unfold based_tail. cbn [app]. rewrite <- app_assoc. reflexivity. Qed.
Lemma based_M g b w s rest : In g [ []; $"s"; $"S" ] -> all white w -> value_of b s -> M ANY_BASED_NUMBER (based_tail g b w s) rest.
Proof.
  intros Hg Hw Hv. rewrite tail_split. unfold ANY_BASED_NUMBER. cbn [Alts]. rewrite !M_Alt_iff. destruct Hv as [[Hb [H|(c & t & -> & Hc & Ht)]]|[[Hb H]|[[Hb H]|[Hb H]]]].
  - right; left. constructor; [apply base_M; assumption|apply unsigned_iff; exact H].
  - assert (T : M (Star (one $"_")) t rest) by (apply star_one_M; eapply Forall_impl; [|exact Ht]; cbn beta; intros d Hd; apply ceqb_eq in Hd as <-; left; reflexivity).
    assert (C : In c x_digits \/ In c z_digits) by (cbn in Hc |- *; tauto). destruct C as [C|C].
    + right; right; right; left. unfold DECIMAL_INVALID_NUMBER_WITH_BASE. cbn [Seqs]. constructor; [apply base_M; assumption|]. apply (M_Seq _ _ [c] t); [apply M_one; eauto|exact T].
    + right; right; right; right; left. unfold DECIMAL_TRISTATE_NUMBER_WITH_BASE. cbn [Seqs]. constructor; [apply base_M; assumption|]. apply (M_Seq _ _ [c] t); [apply M_one; eauto|exact T].
  - right; right; left. constructor; [apply base_M; assumption|]. apply value_iff. revert H. apply digits_in_ext. intros c. apply Bool.eqb_prop. revert c. apply by_chars. vm_compute. reflexivity.
  - left. constructor; [apply base_M; assumption|]. apply value_iff. revert H. apply digits_in_ext. intros c. apply Bool.eqb_prop. revert c. apply by_chars. vm_compute. reflexivity.
  - right; right; right; right; right. constructor; [apply base_M; assumption|]. apply value_iff. revert H. apply digits_in_ext. intros c. apply Bool.eqb_prop. revert c. apply by_chars. vm_compute. reflexivity.
Qed.
Lemma tail_long g b w s : 2 <= length (based_tail g b w s).
Proof. unfold based_tail. cbn [length]. rewrite app_length. cbn [length]. lia. Qed.
Lemma pick_based v n g b w s rest : elem_ok v (T_based n g b w s) -> stops_at v (G_elem (T_based n g b w s)) rest ->
  s_best (s_rules v) ((n ++ based_tail g b w s) ++ rest) None = Some (match n with [] => S_ANY_BASED_NUMBER | _ => S_BASED_NUMBER_WITH_SIZE end, length (n ++ based_tail g b w s)).
Proof.
  cbn [elem_ok stops_at]. intros (Hn & Hg & Hw & Hv) (N & Q). destruct n as [|c n0] eqn:En.
  - cbn [app]. apply (pick_class v 2 S_ANY_BASED_NUMBER ANY_BASED_NUMBER); [reflexivity| |apply based_M; assumption|apply not_keyword; reflexivity|].
    + apply bound; [apply no_kw; reflexivity|intros d z I E; apply Nat.le_trans with 2; [exact (tick_sign_short _ d z I E)|exact (tail_long g b w s)]|]. intros k r y z I F HM E.
      assert (G := alive_in (ceqb "'") k r "'" eq_refl I F). rewrite alive_quote in G. destruct G as [G|[G|[]]]; injection G as _ <-; [exact (based_within y z g b w s rest Hg Hv N Q HM E)|rewrite (unbased_shape y z HM); exact (tail_long g b w s)].
    + intros k r I HM. pose proof (alive_in (ceqb "'") k r "'" eq_refl (class_in 2 k r I) (first_char r _ rest "'" _ HM eq_refl)) as F. rewrite alive_quote in F. destruct F as [F|[F|[]]]; injection F as <- <-; cbn in I; repeat (destruct I as [I|I]; [discriminate I|]); exact I.
  - rewrite <- En in *. assert (Un : unsigned n) by (destruct Hn as [Hn|Hn]; [congruence|exact Hn]). clear Hn. destruct (unsigned_first n Un) as (c' & u & Eu & Hc). assert (En' : n = c :: u /\ digit c = true) by (split; congruence). destruct En' as [E1 Hc1]. clear c' Eu Hc En. destruct (digit_no c Hc1) as (Sg & W & D).
    replace (match n with [] => S_ANY_BASED_NUMBER | _ => S_BASED_NUMBER_WITH_SIZE end) with S_BASED_NUMBER_WITH_SIZE by (rewrite E1; reflexivity).
    assert (Nt : forall y z, ~ In "'"%char y -> y ++ z = n ++ based_tail g b w s ++ rest -> length y <= length n).
    { intros y z I E. apply (within (fun x => negb (ceqb x "'")) y z n (based_tail g b w s ++ rest)); [|exact E|reflexivity]. apply Forall_forall. intros x J. apply negb_true_iff, ceqb_neq. intros ->. exact (I J). }
    apply (pick_class v 3 S_BASED_NUMBER_WITH_SIZE BASED_NUMBER_WITH_SIZE); [reflexivity| |constructor; [apply unsigned_iff; exact Un|apply based_M; assumption]| |].
    + rewrite E1. cbn [app]. apply bound.
      * intros k z I E. apply kw_word in I. change (c :: u ++ based_tail g b w s) with ((c :: u) ++ based_tail g b w s) in *. rewrite <- E1 in *. rewrite <- app_assoc in E. rewrite app_length. apply Nat.le_trans with (length n); [|lia]. apply (Nt k z); [|exact E]. intros J. unfold all in I. rewrite Forall_forall in I. discriminate (I _ J).
      * apply no_sign. exact Sg.
      * intros k r y z I F HM E. assert (G := alive_in digit k r c Hc1 I F). rewrite alive_digit in G. change (c :: u ++ based_tail g b w s) with ((c :: u) ++ based_tail g b w s) in *. rewrite <- E1 in *. rewrite <- app_assoc in E. rewrite app_length.
        assert (P : forall r', In r' unbased_rules -> M r' y z -> length y <= length n + length (based_tail g b w s)) by (intros r' Hr HM'; pose proof (Nt y z (no_tick r' y z Hr HM') E); lia).
        destruct G as [G|[G|[G|[G|[G|[]]]]]]; injection G as _ <-; [apply (P _ (or_introl eq_refl) HM)| | | |].
        -- destruct (sized_shape y z HM) as (n' & w' & -> & Un' & HB). rewrite <- app_assoc in E. cbn [app] in E. unfold based_tail in E. cbn [app] in E.
           destruct (same_span num_char n' n "'" "'" _ _ (unsigned_all _ Un') (unsigned_all _ Un) eq_refl eq_refl E) as [-> _]. apply app_inv_head in E. rewrite app_length. apply Nat.add_le_mono_l. exact (based_within _ z g b w s rest Hg Hv N Q HB E).
        -- exact (P _ (or_intror (or_introl eq_refl)) HM).
        -- exact (P _ (or_intror (or_intror (or_introl eq_refl))) HM).
        -- exact (P _ (or_intror (or_intror (or_intror (or_introl eq_refl)))) HM).
    + intros I. apply kw_word in I. unfold all in I. rewrite Forall_forall in I. assert (J : In "'"%char (n ++ based_tail g b w s)) by (apply in_app_iff; right; left; reflexivity). discriminate (I _ J).
    + intros k r I HM. pose proof HM as HM'. rewrite E1 in HM'. destruct (alive_class 3 k r c _ rest Hc1 I HM') as [J _]. destruct (before_digit 3 ltac:(lia) k r I J) as [[-> L]|[[_ L]|[[_ L]|[_ L]]]]; try lia.
      apply (no_tick _ _ _ (or_introl eq_refl) HM). apply in_app_iff. right. left. reflexivity.
Qed.
