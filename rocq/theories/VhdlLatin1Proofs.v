(** A VHDL text in ISO 8859-1 keeps its lexical elements when it is converted to UTF-8 (EncodingModel.v): only comments
    have characters outside of ASCII. *)
From Verif Require Import Base BaseFacts StrSpec EncodingModel EncodingSpec EncodingProofs VhdlLexModel VhdlLexSpec.
Notation iso := iso_8859_1_to_utf8.
Definition low_ (c : ascii) : bool := code c <? 128.
Definition every {T} (P : T -> bool) (l : list T) : bool := forallb P l.
Lemma every_app {T} (P : T -> bool) a b : every P (a ++ b) = every P a && every P b. Proof. apply forallb_app. Qed.
Lemma iso_app a b : iso (a ++ b) = iso a ++ iso b. Proof. induction a as [|c a IH]; [reflexivity|]. cbn [app iso_8859_1_to_utf8]. rewrite IH. apply app_assoc. Qed.
Definition char_check (c : ascii) : bool := match iso_char c with [x] => low_ c && ceqb x c | [x; y] => negb (low_ c) && negb (low_ x) && negb (low_ y) | _ => false end.
Lemma char_checked c : char_check c = true.
Proof. destruct c as [[] [] [] [] [] [] [] []]; reflexivity. Qed.
Lemma iso_char_ok c : if low_ c then iso_char c = [c] else exists x y, iso_char c = [x; y] /\ low_ x = false /\ low_ y = false.
Proof.
  pose proof (char_checked c) as H. unfold char_check in H. destruct (iso_char c) as [|x [|y [|]]]; try discriminate H.
  - apply andb_prop in H as [H1 H2]. rewrite H1. apply ceqb_eq in H2. subst x. reflexivity.
  - apply andb_prop in H as [H H3]. apply andb_prop in H as [H1 H2]. apply negb_true_iff in H1. rewrite H1. exists x, y. split; [reflexivity|]. split; apply negb_true_iff; assumption.
Qed.
Lemma iso_low s : every low_ s = true -> iso s = s.
Proof. induction s as [|c s IH]; [reflexivity|]. cbn [every forallb]. intros H. apply andb_prop in H as [H1 H2]. cbn [iso_8859_1_to_utf8]. pose proof (iso_char_ok c) as E. rewrite H1 in E. rewrite E, (IH H2). reflexivity. Qed.
(** ASCII characters stay where they are *)
Lemma iso_find c : low_ c = true -> forall s a b, iso s = a ++ c :: b -> exists a' b', s = a' ++ c :: b' /\ iso a' = a /\ iso b' = b.
Proof.
  intros L. induction s as [|x s IH]; intros a b E; [destruct a; discriminate E|]. cbn [iso_8859_1_to_utf8] in E. pose proof (iso_char_ok x) as K. destruct (low_ x) eqn:LX.
  - rewrite K in E. destruct a as [|y a]; injection E as -> E.
    + exists [], s. split; [reflexivity|split; [reflexivity|exact E]].
    + destruct (IH _ _ E) as (a' & b' & -> & <- & <-). exists (y :: a'), b'. split; [reflexivity|split; [|reflexivity]]. cbn [iso_8859_1_to_utf8]. rewrite K. reflexivity.
  - destruct K as (u & v & K & LU & LV). rewrite K in E. destruct a as [|y [|z a]]; cbn [app] in E; [injection E as -> _; congruence|injection E as _ -> _; congruence|injection E as -> -> E].
    destruct (IH _ _ E) as (a' & b' & -> & <- & <-). exists (x :: a'), b'. split; [reflexivity|split; [|reflexivity]]. cbn [iso_8859_1_to_utf8]. rewrite K. reflexivity.
Qed.
Lemma iso_first c b s : low_ c = true -> iso s = c :: b -> exists b', s = c :: b' /\ iso b' = b.
Proof. intros L E. destruct (iso_find c L s [] b E) as (a' & b' & -> & N & <-). exists b'. split; [|reflexivity]. destruct a' as [|x a']; [reflexivity|]. cbn [iso_8859_1_to_utf8] in N. apply app_eq_nil in N as [N _]. pose proof (iso_char_ok x) as K. destruct (low_ x); [rewrite N in K; discriminate K|]. destruct K as (u & v & K & _). congruence. Qed.
Lemma iso_cons c s : low_ c = true -> iso (c :: s) = c :: iso s.
Proof. intros L. cbn [iso_8859_1_to_utf8]. pose proof (iso_char_ok c) as K. rewrite L in K. rewrite K. reflexivity. Qed.

(** ** Lexical elements are ASCII *)
Lemma of_code n c : (code c <=? n) = true -> n < 128 -> low_ c = true.
Proof. intros H L. unfold low_. apply Nat.leb_le in H. apply Nat.ltb_lt. lia. Qed.
Lemma graphic_low c : graphic c = true -> low_ c = true.
Proof. unfold graphic, between. intros H. apply andb_prop in H as [_ H]. apply (of_code 126 c H). lia. Qed.
Lemma alnum_low c : alnum c = true -> low_ c = true.
Proof. unfold alnum, letter, small_letter, capital, digit, between. intros H. repeat match type of H with _ || _ = true => apply orb_prop in H as [H|H] end; apply andb_prop in H as [_ H]; [apply (of_code 122 c H)|apply (of_code 90 c H)|apply (of_code 57 c H)]; lia. Qed.
Lemma digit_low c : digit c = true -> low_ c = true.
Proof. intros H. apply alnum_low. unfold alnum. rewrite H. apply orb_true_r. Qed.
Lemma run_low P s : (forall c, P c = true -> low_ c = true) -> run P s -> every low_ s = true.
Proof. intros HP. induction 1 as [c H|c s H _ IH|c s H _ IH]; cbn [every forallb]; rewrite (HP c H); [reflexivity|exact IH|]. cbn [andb]. exact IH. Qed.
Lemma in_low c s : In c s -> every low_ s = true -> low_ c = true. Proof. intros I H. exact (proj1 (forallb_forall low_ s) H c I). Qed.
Lemma exp_low e : optional exponent e -> every low_ e = true.
Proof. intros [->|H]; [reflexivity|]. destruct H as [e i I R|e g i I G R]; cbn [every forallb]; rewrite (in_low e $"eE" I eq_refl); [|rewrite (in_low g $"+-" G eq_refl)]; exact (run_low digit i digit_low R). Qed.
Lemma frac_low (P : str -> Prop) f : (forall s, P s -> every low_ s = true) -> optional (fraction P) f -> every low_ f = true.
Proof. intros HP [->|(i & -> & H)]; [reflexivity|]. cbn [every forallb]. exact (HP i H). Qed.
Lemma small_low c : low_ (small c) = low_ c. Proof. destruct c as [[] [] [] [] [] [] [] []]; reflexivity. Qed.
Lemma smalls_low s : every low_ (map small s) = every low_ s. Proof. induction s as [|c s IH]; [reflexivity|]. cbn [map every forallb]. rewrite small_low. unfold every in IH. rewrite IH. reflexivity. Qed.
Lemma doubled_low q s : every low_ s = true -> every low_ (doubled q s) = true.
Proof. induction s as [|c s IH]; [reflexivity|]. cbn [every forallb]. intros H. apply andb_prop in H as [H1 H2]. unfold doubled. cbn [flat_map]. rewrite every_app. fold (doubled q s). rewrite (IH H2). destruct (ceqb c q); cbn [every forallb]; rewrite H1; reflexivity. Qed.
Lemma graphics_low s : Forall (fun c => graphic c = true) s -> every low_ s = true.
Proof. induction 1 as [|c s H _ IH]; [reflexivity|]. cbn [every forallb]. rewrite (graphic_low c H). exact IH. Qed.
Lemma listed_low l w : forallb (every low_) l = true -> In w l -> every low_ w = true. Proof. intros H I. exact (proj1 (forallb_forall _ l) H w I). Qed.
Lemma lexeme_low l : lexeme_ok l -> every low_ (lexeme_text l) = true.
Proof.
  destruct l as [s|s|s|s|c|s|p s|s]; cbn [lexeme_ok lexeme_text].
  - intros [H _]. exact (run_low alnum s alnum_low H).
  - intros [_ H]. cbn [every forallb]. fold (every low_ (doubled bs s ++ [bs])). rewrite every_app, (doubled_low bs s (graphics_low s H)). reflexivity.
  - intros (i & f & e & -> & HI & HF & HE). rewrite !every_app, (run_low digit i digit_low HI), (exp_low e HE), (frac_low integer f (fun s => run_low digit s digit_low) HF). reflexivity.
  - intros (i & d & f & e & -> & HI & HD & HF & HE). rewrite every_app. cbn [every forallb]. fold (every low_ (d ++ f ++ "#"%char :: e)). rewrite !every_app. cbn [every forallb]. fold (every low_ e). rewrite (run_low digit i digit_low HI), (run_low alnum d alnum_low HD), (frac_low (run alnum) f (fun s => run_low alnum s alnum_low) HF), (exp_low e HE). reflexivity.
  - intros H. cbn [every forallb]. rewrite (graphic_low c H). reflexivity.
  - intros H. cbn [every forallb]. fold (every low_ (doubled dq s ++ [dq])). rewrite every_app, (doubled_low dq s (graphics_low s H)). reflexivity.
  - intros [(i & b & -> & HI & HB) HS]. rewrite !every_app. cbn [every forallb]. fold (every low_ (s ++ [dq])). rewrite every_app.
    assert (EI : every low_ i = true) by (destruct HI as [->|HI]; [reflexivity|exact (run_low digit i digit_low HI)]).
    assert (EB : every low_ b = true) by (rewrite <- smalls_low; exact (listed_low bases _ eq_refl HB)).
    assert (ES : every low_ s = true) by (apply graphics_low; revert HS; apply Forall_impl; intros c HC; exact (proj1 HC)).
    rewrite EI, EB, ES. reflexivity.
  - intros H. exact (listed_low delimiters s eq_refl H).
Qed.
Lemma blank_low c : blank c = true -> low_ c = true.
Proof. unfold blank, between. intros H. apply orb_prop in H as [H|H]; [apply Nat.eqb_eq in H; unfold low_; rewrite H; reflexivity|apply andb_prop in H as [_ H]; apply (of_code 13 c H); lia]. Qed.

(** ** Texts *)
Definition recode (p : piece) : piece := match p with P_line s => P_line (iso s) | P_block s => P_block (iso s) | _ => p end.
Lemma recode_text p : piece_ok p -> piece_text (recode p) = iso (piece_text p).
Proof.
  destruct p as [l|c|s|s]; cbn [piece_ok recode piece_text]; intros H.
  - symmetry. apply iso_low, lexeme_low, H.
  - symmetry. apply iso_low. cbn [every forallb]. rewrite (blank_low c H). reflexivity.
  - rewrite iso_app. reflexivity.
  - rewrite !iso_app. reflexivity.
Qed.
Lemma recode_ok p : piece_ok p -> piece_ok (recode p).
Proof.
  destruct p as [l|c|s|s]; cbn [piece_ok recode]; intros H; try exact H.
  - intros I. apply in_split in I as (a & b & E). destruct (iso_find nl eq_refl s a b E) as (a' & b' & -> & _). apply H. apply in_or_app. right. left. reflexivity.
  - intros (a & b & E). cbn [s2l list_ascii_of_string app] in E. destruct (iso_find "*"%char eq_refl s a _ E) as (a' & b' & -> & _ & E2). destruct (iso_first "/"%char _ b' eq_refl E2) as (b2 & -> & _). apply H. exists a', b2. reflexivity.
Qed.
Lemma text_not_empty p : piece_ok p -> piece_text p <> [].
Proof.
  destruct p as [l|c|s|s]; cbn [piece_ok piece_text]; try discriminate. destruct l as [s|s|s|s|c|s|p s|s]; cbn [lexeme_ok lexeme_text]; try discriminate.
  - intros [_ H] ->. discriminate H.
  - intros (i & f & e & -> & HI & _) E. destruct HI; discriminate E.
  - intros (i & d & f & e & -> & HI & _) E. destruct HI; discriminate E.
  - intros _ E. destruct p; discriminate E.
  - intros H ->. repeat (destruct H as [H|H]; [discriminate H|]). exact H.
Qed.
Lemma first_low p c r s : piece_ok p -> piece_text p ++ s = c :: r -> low_ c = true.
Proof.
  intros H E. pose proof (text_not_empty p H) as N. destruct p as [l|b|t|t]; cbn [piece_ok piece_text] in *.
  - pose proof (lexeme_low l H) as L. destruct (lexeme_text l) as [|x y]; [congruence|]. injection E as -> _. apply andb_prop in L. exact (proj1 L).
  - injection E as -> _. exact (blank_low c H).
  - injection E as <- _. reflexivity.
  - injection E as <- _. reflexivity.
Qed.
Lemma reads_low Q pr ps s : reads Q pr ps s -> forall c r, s = c :: r -> low_ c = true.
Proof. intros [p|pr' p ps' s' K _ _ _ _] c r E; [discriminate E|exact (first_low p c r s' K E)]. Qed.
(** behind ( and ' there is an ASCII character *)
Lemma reads_second Q pr ps r : reads Q pr ps ("'"%char :: r) -> forall c r', r = c :: r' -> low_ c = true.
Proof.
  intros R c r' ->. remember ("'"%char :: c :: r') as s eqn:E. destruct R as [p|pr' p ps' s' K _ _ _ R]; [discriminate E|].
  assert (A : every low_ (piece_text p) = true).
  { destruct p as [l|b|t|t]; cbn [piece_ok piece_text] in *; [exact (lexeme_low l K)|cbn [every forallb]; rewrite (blank_low b K); reflexivity|discriminate E|discriminate E]. }
  pose proof (text_not_empty p K) as N. destruct (piece_text p) as [|x [|y t]]; [congruence| |].
  - injection E as -> E. exact (reads_low _ _ _ _ R c r' E).
  - cbn [app] in E. injection E as -> -> _. cbn [every forallb] in A. apply andb_prop in A as [_ A]. apply andb_prop in A. exact (proj1 A).
Qed.
Lemma reads_third Q pr ps r : reads Q pr ps ("("%char :: "'"%char :: r) -> forall c r', r = c :: r' -> low_ c = true.
Proof.
  intros R c r' ->. remember ("("%char :: "'"%char :: c :: r') as s eqn:E. destruct R as [p|pr' p ps' s' K _ _ _ R]; [discriminate E|].
  assert (A : every low_ (piece_text p) = true).
  { destruct p as [l|b|t|t]; cbn [piece_ok piece_text] in *; [exact (lexeme_low l K)|cbn [every forallb]; rewrite (blank_low b K); reflexivity|discriminate E|discriminate E]. }
  pose proof (text_not_empty p K) as N. destruct (piece_text p) as [|x [|y [|z t]]]; [congruence| | |]; cbn [app] in E.
  - injection E as -> E. subst s'. exact (reads_second _ _ _ _ R c r' eq_refl).
  - injection E as -> -> E. exact (reads_low _ _ _ _ R c r' E).
  - injection E as -> -> -> _. cbn [every forallb] in A. apply andb_prop in A as [_ A]. apply andb_prop in A as [_ A]. apply andb_prop in A. exact (proj1 A).
Qed.
Lemma not_first_iso P s : (forall c r, s = c :: r -> low_ c = true) -> not_first P s -> not_first P (iso s).
Proof. destruct s as [|c s]; intros L H; [exact Logic.I|]. rewrite (iso_cons c s (L c s eq_refl)). exact H. Qed.
Lemma ends_iso p s : (forall c r, s = c :: r -> low_ c = true) -> ends p s -> ends (recode p) (iso s).
Proof.
  intros L. destruct p as [l|c|t|t]; cbn [recode ends]; try (intros _; exact Logic.I).
  - destruct l; cbn [ends]; try (intros _; exact Logic.I); try (apply not_first_iso, L). intros [H1 H2]. split; [apply not_first_iso; assumption|intros I; apply not_first_iso; [exact L|exact (H2 I)]].
  - destruct s as [|c s]; intros H; [exact Logic.I|]. rewrite (iso_cons c s (L c s eq_refl)). exact H.
Qed.
Lemma apostrophe_iso pr p : apostrophe_ok pr p -> apostrophe_ok pr (recode p). Proof. destruct p; exact (fun H => H). Qed.
Lemma iso_quote s r : iso s = "'"%char :: r -> exists s', s = "'"%char :: s' /\ iso s' = r. Proof. apply iso_first. reflexivity. Qed.
Lemma plain_iso pr ps p s : reads plain pr ps s -> plain p s -> plain (recode p) (iso s).
Proof.
  intros R. pose proof (reads_low _ _ _ _ R) as L. destruct p as [l|c|t|t]; cbn [recode plain]; try exact (fun H => H). destruct l as [w|w|w|w|x|w|w v|d]; cbn [plain]; try exact (fun H => H).
  - intros H E. specialize (H E). destruct s as [|c s]; [exact Logic.I|]. rewrite (iso_cons c s (L c s eq_refl)). destruct (iso s) as [|q z] eqn:EI; [exact Logic.I|]. intros ->. destruct (iso_quote _ _ EI) as (s' & -> & _). exact (H eq_refl).
  - intros H E. specialize (H E). destruct s as [|c s]; [exact Logic.I|]. rewrite (iso_cons c s (L c s eq_refl)). destruct (iso s) as [|q z] eqn:EI; [exact Logic.I|]. intros ->. destruct (iso_quote _ _ EI) as (s' & -> & <-).
    destruct (H eq_refl) as [-> N]. split; [reflexivity|]. destruct s' as [|x [|y s']]; try discriminate N. injection N as ->. rewrite (iso_cons x _ (reads_third _ _ _ _ R x _ eq_refl)), (iso_cons _ _ (eq_refl : low_ "'"%char = true)). reflexivity.
Qed.
Lemma recode_prev p pr : match recode p with P_lex l => Some l | _ => pr end = match p with P_lex l => Some l | _ => pr end. Proof. destruct p; reflexivity. Qed.
Lemma reads_iso pr ps s : reads plain pr ps s -> reads plain pr (map recode ps) (iso s).
Proof.
  induction 1 as [pr|pr p ps s K E A P R IH]; [constructor|]. rewrite iso_app, <- (recode_text p K). cbn [map]. apply reads_cons.
  - apply recode_ok, K.
  - apply ends_iso; [exact (reads_low _ _ _ _ R)|exact E].
  - apply apostrophe_iso, A.
  - exact (plain_iso _ _ p s R P).
  - rewrite recode_prev. exact IH.
Qed.
Lemma recode_lexemes ps : lexemes (map recode ps) = lexemes ps.
Proof. induction ps as [|p ps IH]; [reflexivity|]. destruct p; cbn [map recode lexemes]; rewrite IH; reflexivity. Qed.
Lemma plain_latin1 ps s : plain_vhdl ps s -> plain_vhdl (map recode ps) (iso s) /\ lexemes (map recode ps) = lexemes ps.
Proof. intros H. split; [exact (reads_iso None ps s H)|apply recode_lexemes]. Qed.
