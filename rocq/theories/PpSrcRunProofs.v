(** The visitor turns the tree of a source of PpSrcSpec into the text of the source. *)
From Verif Require Import Base BaseFacts RegexModel RegexProofs StrSpec StrUtilsModel StrUtilsProofs PpLexerModel PpLexProofs PpParserModel
  OutBufferModel OutBufferProofs MacroDefModel MacroSpec MacroSubstProofs PpModel PpFacts PpSpec PpDbProofs PpCondProofs PpCallProofs
  PpArgSpec PpArgProofs PpPlainProofs PpSrcSpec PpSrcLexProofs PpSrcDirProofs PpSrcBodyProofs PpSrcParseProofs PpSrcTreeProofs.

(** ** Definitions *)
Lemma inside_run x : ~ In dq x -> forall i pc r, final_inside i pc (x ++ r) = final_inside i (lastof pc x) r.
Proof.
  induction x as [|c x IH]; intros H i pc r; [reflexivity|]. cbn [app final_inside lastof]. rewrite IH by (intros Q; apply H; right; exact Q). f_equal.
  unfold string_quote. assert (ceqb c dq = false) as -> by (apply ceqb_neq; intros ->; apply H; left; reflexivity). destruct i; reflexivity.
Qed.
Lemma inside_string b : string_body b -> forall pc r, (b = [] -> pc <> Some bt /\ pc <> Some bs) -> no_final_bs b -> ~ In bt b ->
  final_inside true pc (b ++ dq :: r) = final_inside false (Some dq) r.
Proof.
  assert (Q : forall pc c, c <> dq -> string_quote pc c = false) by (intros pc c H; unfold string_quote; apply ceqb_neq in H; rewrite H; reflexivity).
  assert (T : forall (c : ascii) s, no_final_bs (c :: s) -> no_final_bs s) by (intros c s H t ->; exact (H (c :: t) eq_refl)).
  induction 1 as [|c s H1 H2 H3 H4 Hs IH|c s H1 H2 Hs IH]; intros pc r Hp Hn Hb.
  - cbn [app final_inside]. destruct (Hp eq_refl) as [P1 P2]. assert (string_quote pc dq = true) as ->; [|reflexivity]. unfold string_quote. rewrite ceqb_refl. destruct pc as [p|]; [|reflexivity].
    assert (ceqb p bt = false) as -> by (apply ceqb_neq; congruence). assert (ceqb p bs = false) as -> by (apply ceqb_neq; congruence). reflexivity.
  - cbn [app final_inside]. rewrite Q by exact H1. cbn [xorb]. apply IH.
    + intros _. split; [intros E; injection E as ->; apply Hb; left; reflexivity|congruence].
    + exact (T _ _ Hn).
    + intros HI; apply Hb; right; exact HI.
  - cbn [app final_inside]. rewrite Q by discriminate. cbn [xorb]. assert (string_quote (Some bs) c = false) as -> by (unfold string_quote; rewrite ceqb_refl, orb_true_r; apply andb_false_r).
    cbn [xorb]. apply IH.
    + intros ->. split; intros E; injection E as ->; [apply Hb; right; left; reflexivity|exact (Hn [bs] eq_refl)].
    + exact (T _ _ (T _ _ Hn)).
    + intros HI; apply Hb; right; right; exact HI.
Qed.
Lemma dbody_inside s : dbody s -> forall pc, pc <> Some bt -> pc <> Some bs -> final_inside false pc s = false.
Proof.
  induction 1 as [x (Hx & _)|x b s (Hx & _ & Hg) Hb Hn Hbt _ IH]; intros pc P1 P2.
  - assert (N : ~ In dq x) by (intros HI; unfold run_chars in Hx; rewrite Forall_forall in Hx; apply (Hx _ HI); cbn; tauto). rewrite <- (app_nil_r x), inside_run by exact N. reflexivity.
  - assert (N : ~ In dq x) by (intros HI; unfold run_chars in Hx; rewrite Forall_forall in Hx; apply (Hx _ HI); cbn; tauto). rewrite inside_run by exact N. cbn [app final_inside].
    assert (SQ : string_quote (lastof pc x) dq = true).
    { unfold string_quote. rewrite ceqb_refl. destruct x as [|c x _] using rev_ind.
      - cbn [lastof]. destruct pc as [p|]; [|reflexivity]. assert (ceqb p bt = false) as -> by (apply ceqb_neq; congruence). assert (ceqb p bs = false) as -> by (apply ceqb_neq; congruence). reflexivity.
      - rewrite lastof_snoc. assert (ceqb c bt = false) as -> by (apply ceqb_neq; intros ->; exact (proj2 (Hg x) eq_refl)).
        assert (ceqb c bs = false) as ->; [|reflexivity]. apply ceqb_neq. intros ->. unfold run_chars in Hx. rewrite Forall_forall in Hx. apply (Hx bs); [apply in_or_app; right; left; reflexivity|cbn; tauto]. }
    rewrite SQ. cbn [xorb]. rewrite <- app_assoc. cbn [app]. rewrite inside_string; [|exact Hb|intros _; split; discriminate|exact Hn|exact Hbt]. apply IH; discriminate.
Qed.
Lemma no_comment ts s : Forall code ts -> remove_comment ts s = Ok s.
Proof. induction 1 as [|t ts (_ & H & _) _ IH]; [reflexivity|]. cbn [remove_comment]. rewrite H. cbn [bind]. exact IH. Qed.
Lemma rtrim_tail s t : (forall c r, s = r ++ [c] -> ~ In c ws_chars) -> Forall (fun c => In c ws_chars) t -> rtrim ws_chars (s ++ t) = s.
Proof.
  intros Hs Ht. destruct (rtrim_spec ws_chars (s ++ t)) as (b & E & Fb & Hb). set (u := rtrim ws_chars (s ++ t)) in *. clearbody u.
  destruct (app_eq_app _ _ _ _ E) as (k & [[E1 E2]|[E1 E2]]).
  - destruct k as [|c k _] using rev_ind; [rewrite app_nil_r in E1; auto|]. exfalso. apply (Hs c (u ++ k)); [rewrite E1, app_assoc; reflexivity|].
    rewrite Forall_forall in Fb. apply Fb. rewrite E2. apply in_or_app. left. apply in_or_app. right. left. reflexivity.
  - destruct k as [|c k _] using rev_ind; [rewrite app_nil_r in E1; auto|]. exfalso. apply (Hb c (s ++ k)); [rewrite E1, app_assoc; reflexivity|].
    rewrite Forall_forall in Ht. apply Ht. rewrite E2. apply in_or_app. left. apply in_or_app. right. left. reflexivity.
Qed.
Definition plain_macro (s : str) (m : macro_def) : Prop := m_has_params m = false /\ macro_replace m [] false = Ok s.
Lemma new_plain n s : final_inside false None s = false -> exists m, new_macro n false [] s = Ok m /\ plain_macro s m.
Proof.
  intros H. destruct (proj2 (new_macro_defined n false [] s (Forall_nil _) (NoDup_nil _)) H) as (m & E). exists m. split; [exact E|].
  unfold new_macro, parse_body in E. destruct (collect_string_intervals n s) as [ivs| | |]; cbn [bind] in E; try discriminate. destruct s as [|c s]; cbn [bind] in E; injection E as <-; split; try reflexivity.
  unfold macro_replace. cbn. rewrite app_nil_r. reflexivity.
Qed.
Definition pinfo (p : str * option str) : param_info := match snd p with Some d => mkParam (fst p) true d | None => mkParam (fst p) false [] end.
(** [m] is what the definition with parameters [fst d] and body [snd d] makes. *)
Definition stands (n : str) (d : option (list (str * option str)) * str) (m : macro_def) : Prop :=
  match fst d with
  | None => plain_macro (snd d) m
  | Some ps => Forall identifier (map fst ps) /\ NoDup (map fst ps) /\ exists k, new_macro k true (map pinfo ps) (snd d) = Ok m
  end.
Lemma ident_identifier n : ident n -> identifier n.
Proof.
  intros (c & t & -> & Hc & Ht). exists c, t. split; [reflexivity|].
  assert (L : forall x, letter x -> is_alpha x || ceqb x "_" = true) by (intros x Hx; unfold letter in Hx; cbn in Hx; repeat (destruct Hx as [<-|Hx]; [reflexivity|]); contradiction).
  split; [apply L, Hc|]. eapply Forall_impl; [|exact Ht]. intros x [Hx|Hx]; unfold word_char.
  - apply L in Hx. apply orb_true_iff in Hx as [-> | ->]; rewrite ?orb_true_r; reflexivity.
  - cbn in Hx. repeat (destruct Hx as [<-|Hx]; [reflexivity|]). contradiction.
Qed.
Lemma pinfo_names ps : map p_name (map pinfo ps) = map fst ps.
Proof. rewrite map_map. apply map_ext. intros [n [d|]]; reflexivity. Qed.
Lemma pinfo_ids ps : Forall identifier (map fst ps) -> Forall (fun p => identifier (p_name p)) (map pinfo ps).
Proof. induction ps as [|[n [d|]] ps IH]; cbn [map fst]; intros H; inversion H; subst; constructor; auto. Qed.
Lemma takes_bound ps : forall given vals, takes ps given vals -> bound (map pinfo ps) given vals /\ length given <= length ps.
Proof.
  induction ps as [|[n d] ps IH]; intros given vals T.
  - destruct given, vals; cbn [takes] in T; try (destruct T; fail); try contradiction. split; [split; [reflexivity|]|apply le_n]. intros [|i] p v Hp; discriminate Hp.
  - destruct given as [|g given].
    + destruct d as [d|]; [|destruct vals; destruct T]. destruct vals as [|v0 vals]; [destruct T|]. cbn [takes] in T. destruct T as [-> T]. destruct (IH [] vals T) as [[L B] _]. split; [|cbn; lia]. split; [cbn; rewrite L; reflexivity|].
      intros [|i] p v Hp Hv; cbn in Hp, Hv; [injection Hp as <-; injection Hv as <-; left; split; reflexivity|]. specialize (B i p v Hp Hv). unfold binds in *. destruct i; cbn in B |- *; [destruct B as [B|(B1 & B2 & B3 & B4)]; [left; exact B|]|].
      * exfalso. destruct ps as [|[n' [d'|]] ps]; cbn in Hp; try discriminate Hp; injection Hp as <-; cbn in B1; try discriminate B1. destruct vals; destruct T.
      * destruct B as [B|(_ & _ & B & _)]; [left; exact B|discriminate B].
    + destruct vals as [|v0 vals]; [destruct d; destruct T|]. assert (T' : v0 = (match d, g with Some x, [] => x | _, _ => g end) /\ takes ps given vals) by (destruct d; exact T). destruct T' as [-> T']. destruct (IH given vals T') as [[L B] LG]. split; [|cbn; lia]. split; [cbn; rewrite L; reflexivity|].
      intros [|i] p v Hp Hv; cbn in Hp, Hv; [injection Hp as <-; injection Hv as <-; unfold binds; cbn; destruct d, g; reflexivity|]. specialize (B i p v Hp Hv). unfold binds in *. cbn [nth_error]. destruct (nth_error given i) as [x|] eqn:E; [exact B|]. destruct B as [B|(B1 & -> & -> & B4)]; [left; exact B|].
      exfalso. destruct ps as [|[n' [d'|]] ps]; cbn in Hp; try discriminate Hp; injection Hp as <-; cbn in B1; try discriminate B1. destruct vals; destruct T'.
Qed.
Lemma define_run src tok n dps ps s codes t st : Forall code codes -> toks_text codes = s ++ t -> Forall (fun c => In c ws_chars) t ->
  (forall c r, s = r ++ [c] -> ~ In c ws_chars) -> final_inside false None s = false ->
  option_map (map conv_param) dps = option_map (map pinfo) ps -> match ps with Some names => Forall identifier (map fst names) /\ NoDup (map fst names) | None => True end ->
  exists m, visit_define src (mkDef tok n dps (Some codes)) st = (Ok tt, set_db st (db_insert (ps_db st) n (mkEntry false (MUser m)))) /\ stands n (ps, s) m.
Proof.
  intros F E Ft Hs HI EP HP. unfold visit_define, define_body. cbn [dd_args dd_repl dd_name dd_tok]. rewrite no_comment by exact F. cbn [bind]. rewrite E, rtrim_tail by assumption.
  destruct ps as [names|], dps as [dl|]; try discriminate EP; cbn [option_map] in EP.
  - injection EP as EP. rewrite EP. destruct HP as [HP1 HP2].
    destruct (proj2 (new_macro_defined n true (map pinfo names) s (pinfo_ids names HP1) ltac:(rewrite pinfo_names; exact HP2)) HI) as (m & Em). exists m. rewrite Em. split; [reflexivity|]. unfold stands. cbn [fst snd]. eauto.
  - destruct (new_plain n s HI) as (m & Em & Pm). exists m. rewrite Em. split; [reflexivity|exact Pm].
Qed.
Lemma define_run0 src tok n st : exists m, visit_define src (mkDef tok n None None) st = (Ok tt, set_db st (db_insert (ps_db st) n (mkEntry false (MUser m)))) /\ plain_macro [] m.
Proof. destruct (new_plain n [] eq_refl) as (m & Em & Pm). exists m. split; [|exact Pm]. unfold visit_define, define_body. cbn [dd_args dd_repl dd_name dd_tok bind]. rewrite Em. reflexivity. Qed.

Lemma dbody_cr s : dbody s -> ~ In cr s.
Proof.
  assert (SC : forall b, string_body b -> ~ In cr b) by (induction 1 as [|c u H1 H2 H3 H4 Hs IH|c u H1 H2 Hs IH]; [intros []|intros [H|H]; [congruence|auto]|intros [H|[H|H]]; [discriminate|congruence|auto]]).
  assert (RC : forall x, run_chars x -> ~ In cr x) by (intros x Hx HI; unfold run_chars in Hx; rewrite Forall_forall in Hx; apply (Hx _ HI); cbn; tauto).
  induction 1 as [x Hx|x b s Hx Hb _ _ _ IH]; [apply RC, Hx|]. intros HI. apply in_app_or in HI as [HI|HI]; [exact (RC x (proj1 Hx) HI)|]. apply in_app_or in HI as [HI|HI]; [|auto].
  destruct HI as [HI|HI]; [discriminate|]. apply in_app_or in HI as [HI|[HI|[]]]; [exact (SC b Hb HI)|discriminate].
Qed.

(** ** Macros *)
Definition agree (e : macros) (d : db) : Prop := forall n, macro_name n ->
  match body_of e n with
  | Some b => exists p m, db_find d n = Some (mkEntry p (MUser m)) /\ stands n b m
  | None => db_find d n = None
  end.
Lemma agree_defined e d n : agree e d -> macro_name n -> match db_find d n with Some _ => true | None => false end = is_def e n.
Proof. intros H Hn. specialize (H n Hn). unfold is_def. destruct (body_of e n); [destruct H as (pe & m & -> & _)|rewrite H]; reflexivity. Qed.
Lemma agree_insert e d n b m : agree e d -> macro_name n -> is_def e n = false -> stands n b m ->
  agree ((n, b) :: e) (db_insert d n (mkEntry false (MUser m))).
Proof.
  intros H Hn Hd Hm k Hk. cbn [body_of]. rewrite db_find_insert. destruct (seqb n k) eqn:E.
  - apply seqb_eq in E. subst k. specialize (H n Hn). unfold is_def in Hd. destruct (body_of e n); [discriminate|]. rewrite H. eauto.
  - specialize (H k Hk). destruct (body_of e k) as [b'|]; [destruct H as (pe & m' & -> & P); eauto|rewrite H; reflexivity].
Qed.

(** ** Texts of macros *)
Lemma catch_up_bt a b : ~ In bt (catch_up a b).
Proof. unfold catch_up. destruct (_ && _); [|intros []]. intros H. apply repeat_spec in H. discriminate. Qed.
Lemma reads_bt (call : str -> option (list str) -> str -> Prop) : (forall n a t, call n a t -> ~ In bt t) ->
  forall q line cur t, texts_and_calls q -> scanned call line cur q t -> ~ In bt t.
Proof.
  intros HC. fix IH 1. intros [|[ps|n args|w1 k pl w2 bb w3 cm el|w1 k w2 el|ng br els fin] q] line cur t HT HR; cbn [texts_and_calls scanned] in *; try contradiction.
  - subst t. intros [].
  - destruct HT as [HT1 HT2], HR as (u & -> & HR). intros HI. apply in_app_or in HI as [HI|HI]; [exact (catch_up_bt _ _ HI)|]. apply in_app_or in HI as [HI|HI]; [exact (HT1 HI)|]. exact (IH q _ _ u HT2 HR HI).
  - destruct HR as (a & u & -> & Ha & HR). intros HI. apply in_app_or in HI as [HI|HI]; [exact (catch_up_bt _ _ HI)|]. apply in_app_or in HI as [HI|HI]; [exact (HC _ _ _ Ha HI)|]. exact (IH q _ _ u HT HR HI).
Qed.
Lemma expands_bt sv e : forall d n args t, expands sv d e n args t -> ~ In bt t.
Proof.
  induction d as [|d IH]; intros n args t H; [contradiction|]. cbn [expands] in H. destruct H as (ps & b & r & q & _ & _ & _ & _ & HT & HR & _). exact (reads_bt _ IH q 1 1 t HT HR).
Qed.
Lemma expands_handy sv e d n args t : expands sv d e n args t -> handy t.
Proof. destruct d as [|d]; intros H; [contradiction|]. cbn [expands] in H. destruct H as (ps & b & r & q & _ & _ & _ & _ & _ & _ & _ & H). exact H. Qed.
Fixpoint no_calls (b : items) : Prop := match b with Cons (ICall _ _) _ => False | Cons _ r => no_calls r | Nil => True end.
Lemma calls_dec b : no_calls b \/ ~ no_calls b.
Proof. revert b. fix IH 1. intros [|[ps|n args|w1 k pl w2 bb w3 cm el|w1 k w2 el|ng br els fin] b]; cbn; auto. Qed.
Lemma catch_up_same n : catch_up n n = [].
Proof. unfold catch_up. rewrite Nat.leb_refl, Nat.sub_diag. reflexivity. Qed.
Lemma no_calls_text call : forall q line t, no_calls q -> texts_and_calls q -> scanned call line line q t -> t = PpSrcSpec.render q /\ ~ In bt (PpSrcSpec.render q).
Proof.
  fix IH 1. intros [|[ps|n args|w1 k pl w2 bb w3 cm el|w1 k w2 el|ng br els fin] q] line t HN HB HR; cbn [no_calls texts_and_calls scanned PpSrcSpec.render render_item] in *; try contradiction; [split; [exact HR|intros []]|].
  destruct HR as (u & -> & HR), HB as [HB1 HB2]. destruct (IH q _ u HN HB2 HR) as [-> HB3]. rewrite catch_up_same. split; [reflexivity|]. intros HI. apply in_app_or in HI as [HI|HI]; contradiction.
Qed.
Lemma calls_bt : forall q, ~ no_calls q -> texts_and_calls q -> In bt (PpSrcSpec.render q).
Proof. fix IH 1. intros [|[ps|n args|w1 k pl w2 bb w3 cm el|w1 k w2 el|ng br els fin] b] HN HB; cbn in *; try contradiction; try tauto. apply in_or_app. right. apply IH; tauto. Qed.
Lemma calls_depth (call : str -> option (list str) -> str -> Prop) : forall q line cur t, ~ no_calls q -> scanned call line cur q t -> exists n a u, call n a u.
Proof.
  fix IH 1. intros [|[ps|n args|w1 k pl w2 bb w3 cm el|w1 k w2 el|ng br els fin] q] line cur t HN HR; cbn [no_calls scanned] in *; try contradiction; try tauto.
  - destruct HR as (u & _ & HR). exact (IH q _ _ u HN HR).
  - destruct HR as (a & u & _ & Ha & _). eauto.
Qed.

(** ** The buffer *)
Definition at_line0 (b : outbuf) (line : nat) (begin : Z) : Prop := ob_map b <> [] /\ ob_begin b = begin /\ cong (cur_line b) (line0 line).
Definition moves (b : outbuf) (line : nat) (w : str) : Prop := exists b1, set_line b (line0 line) = Ok b1 /\ ob_text b1 = ob_text b ++ w /\ at_line0 b1 line (ob_begin b).
Lemma moves_same b line begin : at_line0 b line begin -> moves b line [].
Proof. intros (H1 & H2 & H3). destruct (set_line_same b (line0 line) H1 H3) as (b1 & E & T & M & C & B). exists b1. rewrite app_nil_r. repeat split; try assumption. Qed.
Lemma moves_top b cur line k : at_line0 b cur k -> (1 <= cur)%nat -> (1 <= line)%nat -> (Z.of_nat cur < 2 ^ 62)%Z -> (Z.of_nat line < 2 ^ 62)%Z -> moves b line (catch_up cur line).
Proof.
  intros (H1 & H2 & H3) C1 L1 C2 L2. change (2 ^ 62)%Z with 4611686018427387904%Z in *.
  assert (EL : lines_to_add b (line0 line) = ((Z.of_nat line - Z.of_nat cur) mod two64)%Z).
  { unfold lines_to_add, to_size. unfold cong, cur_line, line0 in *. rewrite two64_val in *. lia. }
  unfold catch_up. destruct (Nat.leb_spec cur line); cbn [andb]; [destruct (Nat.leb_spec (line - cur) 3)|].
  - assert (E : lines_to_add b (line0 line) = Z.of_nat (line - cur)) by (rewrite EL, two64_val, Z.mod_small; lia).
    destruct (Nat.eq_dec cur line) as [->|N].
    + rewrite Nat.sub_diag. cbn [repeat]. eapply moves_same. split; [exact H1|]. split; [exact H2|exact H3].
    + unfold moves, set_line. rewrite E. unfold NEWLINE_TRESHOLD. destruct (Z.ltb_spec 0 (Z.of_nat (line - cur))); [|lia]. destruct (Z.leb_spec (Z.of_nat (line - cur)) 3); [|lia]. cbn [andb].
      rewrite Nat2Z.id. eexists. split; [reflexivity|]. rewrite buf_endls_eq. cbn [ob_text ob_map ob_begin ob_line ob_off]. split; [reflexivity|]. split; [exact H1|]. split; [reflexivity|].
      unfold cur_line in *. cbn [ob_text ob_map ob_begin ob_line ob_off]. pose proof (buf_endls_line (line - cur) b) as HL. unfold cong, line0 in *. rewrite two64_val in *. lia.
  - destruct (set_line_resync b (line0 line) H1) as (b1 & E & T & M & C & B); [rewrite EL, two64_val, Z.mod_small; unfold NEWLINE_TRESHOLD; lia|]. exists b1. rewrite app_nil_r. repeat split; assumption.
  - destruct (set_line_resync b (line0 line) H1) as (b1 & E & T & M & C & B); [rewrite EL, two64_val; unfold NEWLINE_TRESHOLD; lia|].
    exists b1. rewrite app_nil_r. repeat split; assumption.
Qed.
Lemma put_at b line begin s : at_line0 b line begin -> at_line0 (buf_put b s) (line + lines s) begin.
Proof.
  intros (H1 & H2 & H3). split; [exact H1|]. split; [exact H2|]. eapply cong_trans; [apply buf_put_cur|].
  replace (line0 (line + lines s)) with (line0 line + Z.of_nat (count_nl s))%Z by (unfold line0, lines; lia). apply cong_add; [exact H3|apply cong_refl].
Qed.

(** ** The visitor *)
Lemma items_list_ind (P : items -> Prop) : P Nil -> (forall i r, P r -> P (Cons i r)) -> forall p, P p.
Proof. intros H0 H1. fix IH 1. intros [|i r]; [exact H0|]. apply H1. apply IH. Qed.
Section Visit.
  Context (l : lang) (fs : fsys) (rs rf : str -> outbuf -> MM outbuf) (src : str) (added : bool).
  Local Notation vt := (visit_texts l fs rs rf src added).
  Local Notation v1 := (visit_text l fs rs rf src added).
  Lemma visit_cons t r out st : vt (TCons t r) out st = mbind (v1 t out) (vt r) st.
  Proof. reflexivity. Qed.
  Lemma visit_tapp : forall a r out st, vt (tapp a r) out st = mbind (vt (tree a) out) (vt r) st.
  Proof.
    induction a as [|t a IH]; intros r out st; [reflexivity|]. unfold tree. cbn [tapp]. unfold mbind at 1. rewrite !visit_cons. unfold mbind. destruct (v1 t out st) as [[o| | |] st1]; try reflexivity.
    exact (IH r o st1).
  Qed.
  Lemma visit_app a b out st : vt (tree (a ++ b)) out st = mbind (vt (tree a) out) (vt (tree b)) st.
  Proof. unfold tree. rewrite tapp_app, visit_tapp. reflexivity. Qed.
  Lemma visit_one t out st : vt (tree [t]) out st = v1 t out st.
  Proof. unfold tree. cbn [tapp]. rewrite visit_cons. unfold mbind. destruct (v1 t out st) as [[o| | |] st1]; reflexivity. Qed.
  Lemma visit_toks line s toks : covers line s toks -> toks <> [] -> forall b w st, moves b line w ->
    exists b', vt (tree (map TTok toks)) b st = (Ok b', st) /\ ob_text b' = ob_text b ++ w ++ s /\ at_line0 b' (line + lines s) (ob_begin b).
  Proof.
    induction 1 as [line|line x s t ts Ht Hc Hx Hl H IH]; intros Hs b w st Hm; [congruence|]. destruct Hm as (b1 & E1 & T1 & A1). unfold tree. cbn [map tapp]. rewrite visit_cons. cbn [visit_text]. unfold mbind, lift, ret. rewrite Hl, E1, Hx.
    pose proof (put_at b1 line _ x A1) as A2. destruct ts as [|t' ts'].
    - inversion H; subst. cbn [map tapp visit_texts]. exists (buf_put b1 (tk_text t)). split; [reflexivity|]. rewrite app_nil_r. cbn [buf_put ob_text]. rewrite T1, <- app_assoc. split; [reflexivity|exact A2].
    - destruct (IH ltac:(discriminate) (buf_put b1 x) [] st (moves_same _ _ _ A2)) as (b' & E & T & A). exists b'. split; [exact E|]. rewrite T. cbn [buf_put ob_text app]. rewrite T1, <- !app_assoc. split; [reflexivity|].
      destruct A2 as (_ & B2 & _). rewrite B2 in A. rewrite lines_app, Nat.add_assoc. exact A.
  Qed.
  Lemma visit_call_ok m b w t st : call_text l rs src m b st = (Ok t, st) -> moves b (tk_line (mc_tok m)) w ->
    exists b', v1 (TCall m) b st = (Ok b', st) /\ ob_text b' = ob_text b ++ w ++ t /\ at_line0 b' (tk_line (mc_tok m) + lines t) (ob_begin b).
  Proof.
    intros E (b1 & E1 & T1 & A1). cbn [visit_text]. unfold visit_call, mbind, lift, ret. rewrite E, E1. exists (buf_put b1 t). split; [reflexivity|]. split; [cbn [buf_put ob_text]; rewrite T1, <- app_assoc; reflexivity|].
    exact (put_at b1 _ _ t A1).
  Qed.
  (** [m] is the parsed use of [n] with the arguments [args]. *)
  Definition use_of (m : mcall) (n : str) (args : option (list str)) : Prop :=
    call_name (mc_tok m) = n /\
    match args with None => call_has_args (mc_tok m) = false | Some a => call_has_args (mc_tok m) = true /\ values a (parse_macro_args (mc_children m) true false) end.
  Lemma body_visit (call : str -> option (list str) -> str -> Prop) k st : (forall n args a, call n args a -> handy a) ->
    (forall n args a m out, call n args a -> macro_name n -> use_of m n args -> 1 <= tk_line (mc_tok m) -> (Z.of_nat (tk_line (mc_tok m)) <= 2 ^ 53)%Z -> ob_begin out = k ->
      call_text l rs src m out st = (Ok a, st)) ->
    forall q rest line cur tr out t, wf q rest -> texts_and_calls q -> means line q tr -> scanned call line cur q t -> ob_begin out = k -> moves out line (catch_up cur line) ->
    1 <= line -> (Z.of_nat (line + lines (PpSrcSpec.render q)) <= 2 ^ 53)%Z ->
    exists out', vt (tree tr) out st = (Ok out', st) /\ ob_text out' = ob_text out ++ t.
  Proof.
    intros HH HC q. induction q as [|i q IH] using items_list_ind; intros rest line cur tr out t HW HB HM HT HK HMv L1 L2.
    - cbn in HM, HT. subst tr t. exists out. split; [reflexivity|]. rewrite app_nil_r. reflexivity.
    - cbn [means] in HM. destruct HM as (a1 & a2 & -> & M1 & M2). cbn [wf] in HW. destruct HW as [Wi Wq]. cbn [PpSrcSpec.render] in L2. rewrite lines_app in L2.
      rewrite visit_app. unfold mbind. destruct i as [ps|n args|w1 kk pl w2 bb w3 cm el|w1 kk w2 el|ng br els fin]; cbn [texts_and_calls scanned means_item] in *; try contradiction.
      + destruct HB as [HB1 HB2], HT as (u & -> & HT), M1 as (toks & Cv & ->). cbn [render_item wf_item] in *.
        assert (NT : toks <> []).
        { intros ->. inversion Cv as [? E|]; subst. destruct Wi as (Hne & _). destruct ps as [|p ps]; [congruence|]. unfold text_of_pieces in *. cbn [map List.concat] in *. destruct p; discriminate. }
        destruct (visit_toks line _ toks Cv NT out _ st HMv) as (o1 & E1 & T1 & A1). rewrite E1. rewrite HK in A1.
        destruct (IH rest _ _ a2 o1 u Wq HB2 M2 HT (proj1 (proj2 A1))) as (o2 & E3 & T3).
        * rewrite catch_up_same. eapply moves_same. exact A1.
        * lia.
        * lia.
        * exists o2. split; [exact E3|]. rewrite T3, T1, <- !app_assoc. reflexivity.
      + destruct HT as (a & u & -> & Ha & HT), M1 as (m & -> & K1 & K2 & K3).
        assert (Hn : macro_name n) by (cbn [wf_item] in Wi; destruct args; apply Wi). assert (UM : use_of m n args) by (split; [exact K1|destruct args; exact K3]).
        rewrite visit_one. destruct (visit_call_ok m out (catch_up cur line) a st) as (o1 & E1 & T1 & A1).
        * apply (HC n args a m out Ha Hn UM); [lia|lia|exact HK].
        * rewrite K2. exact HMv.
        * rewrite E1. rewrite K2, HK in A1. pose proof (HH _ _ _ Ha) as Hh. unfold handy in Hh. change (2 ^ 53)%Z with 9007199254740992%Z in *.
          destruct (IH rest (line + lines (render_item (ICall n args))) (line + lines a) a2 o1 u Wq HB M2 HT (proj1 (proj2 A1))) as (o2 & E3 & T3).
          -- eapply moves_top; [exact A1| | | |]; change (2 ^ 62)%Z with 4611686018427387904%Z; unfold lines in *; lia.
          -- lia.
          -- lia.
          -- exists o2. split; [exact E3|]. rewrite T3, T1, <- !app_assoc. reflexivity.
  Qed.
End Visit.

(** ** Macro uses *)
Lemma values_given a args vals : values a args -> Forall2 (trimmed [sp; tab; nl; cr]) a vals -> args = vals \/ (args = [] /\ vals = [[]]).
Proof.
  assert (U : forall a args vals, Forall2 (trimmed [sp; tab; nl; cr]) a args -> Forall2 (trimmed [sp; tab; nl; cr]) a vals -> args = vals).
  { clear. intros a args vals H. revert vals. induction H as [|x y a args Hx _ IH]; intros vals HV; inversion HV as [|? v ? vals' Hv HV']; subst; [reflexivity|]. f_equal; [eapply trimmed_unique; eassumption|auto]. }
  intros HV HF. destruct a as [|[|x a] [|b r]]; cbn [values] in HV; try (left; eapply U; eassumption).
  right. split; [exact HV|]. inversion HF as [|? v ? ? Hv HF']; subst. inversion HF'; subst. destruct Hv as (p & q & E & _). destruct p; [|discriminate]. destruct v; [reflexivity|discriminate].
Qed.
Lemma expand_ok l src m n args ps b d pe mac out r r' : use_of m n args -> db_find d n = Some (mkEntry pe (MUser mac)) -> stands n (ps, b) mac -> replacement ps b args r -> joined (lang_ge l SV2005) r r' ->
  expand_call l src m out d = Ok r'.
Proof.
  intros [UN UA] HD HS HR HJ. rewrite expand_call_raw. assert (RE : raw_expansion src m out d = Ok r).
  { unfold raw_expansion. rewrite UN, HD. cbn [e_def requires_args def_replace]. unfold stands in HS. cbn [fst snd] in HS. destruct ps as [names|], args as [a|]; cbn [replacement] in HR; try contradiction.
    - destruct HS as (H1 & H2 & nm & H3), HR as (given & vals & V1 & V2 & _ & V3), UA as [UA1 UA2]. assert (HP : m_has_params mac = true) by (unfold new_macro in H3; destruct (parse_body _ _ _); try discriminate; injection H3 as <-; reflexivity).
      rewrite HP, UA1. set (av := parse_macro_args (mc_children m) true false) in *. clearbody av.
      assert (BD : bound (map pinfo names) av vals /\ length av <= length (map pinfo names)).
      { rewrite map_length. destruct (takes_bound _ _ _ V2) as [BD LB]. destruct (values_given a av given UA2 V1) as [-> | [-> ->]]; [split; assumption|]. split; [|cbn; lia]. destruct BD as [BL BD]. split; [exact BL|]. intros i p v Hp Hv. specialize (BD i p v Hp Hv). unfold binds in *. destruct i as [|i]; cbn [nth_error] in *.
        - destruct (p_has_def p); cbn in BD; [left|right]; auto.
        - destruct i; destruct BD as [BD|(_ & BD & _)]; (left; exact BD) || discriminate BD. }
      assert (MR : macro_replace mac av true = Ok r).
      { apply (replace_subst nm true (map pinfo names) b mac av vals r (pinfo_ids names H1)); [rewrite pinfo_names; exact H2|exact H3|apply BD|apply BD|]. rewrite pinfo_names. exact V3. }
      rewrite MR. reflexivity.
    - destruct HS as [P1 P2]. subst r. rewrite P1, UA, P2. reflexivity. }
  rewrite RE. cbn [bind]. unfold joined in HJ. destruct (lang_ge l SV2005); [|congruence]. destruct HJ as (u & J1 & J2).
  destruct (replace_substring_total r [bt; bt] [] ltac:(discriminate)) as (x & -> & _ & X). rewrite <- (X _ J1). cbn [bind].
  destruct (replace_substring_total u [bt; bs; bt] [bs] ltac:(discriminate)) as (y & -> & _ & Y). rewrite <- (Y _ J2). reflexivity.
Qed.
Lemma ready_start name k : (0 <= k < 2 ^ 62)%Z -> moves (mkBuf [] [mkItem 0 name 0] 0 (to_ssize k) k) 1 [].
Proof.
  intros Hk. set (b := mkBuf _ _ _ _ _). destruct (set_line_resync b (line0 1)) as (b1 & E & T & M & C & B).
  - discriminate.
  - pose proof (start_line k Hk) as S0. apply andb_false_iff in S0. unfold lines_to_add, b. cbn [ob_line ob_off ob_begin]. change (line0 1) with 0%Z. intros [Q1 Q2]. destruct S0 as [S0|S0]; lia.
  - exists b1. rewrite app_nil_r. repeat split; assumption.
Qed.
Lemma call_ok l fs e : is_verilog l = true -> forall d n args t, expands (lang_ge l SV2005) d e n args t -> macro_name n ->
  forall st fuel src m out, agree e (ps_db st) -> length (ps_mstack st) + d <= 129 -> d <= S fuel ->
  use_of m n args -> 1 <= tk_line (mc_tok m) -> (0 <= ob_begin out)%Z -> (ob_begin out + Z.of_nat (tk_line (mc_tok m)) + Z.of_nat d * 2 ^ 53 < 2 ^ 62)%Z ->
  call_text l (run_str fuel l fs) src m out st = (Ok t, st).
Proof.
  intros Hv. induction d as [|d IH]; intros n args t HX Hn st fuel src m out HA Hm Hf UM L1 B1 B2; [contradiction|]. cbn [expands] in HX. destruct HX as (ps & b & r & q & EB & HRp & HJ & HW & HT & HR & H1 & H2).
  pose proof (HA n Hn) as Ha. rewrite EB in Ha. destruct Ha as (pe & mac & HD & HP). pose proof (expand_ok l src m n args ps b (ps_db st) pe mac out r _ UM HD HP HRp HJ) as EX.
  change (2 ^ 53)%Z with 9007199254740992%Z in *. change (2 ^ 62)%Z with 4611686018427387904%Z in *.
  destruct (calls_dec q) as [NC|NC].
  - destruct (no_calls_text _ q 1 t NC HT HR) as [-> NB]. apply plain_expansion; assumption.
  - destruct (calls_depth _ q _ _ t NC HR) as (n' & a' & u' & EN). assert (D1 : 1 <= d) by (destruct d; [contradiction|lia]). destruct fuel as [|fuel]; [lia|].
    assert (HI : In bt (PpSrcSpec.render q)) by (apply calls_bt; assumption). unfold call_text, mbind, get, modify, lift, ret. rewrite EX.
    destruct (find [bt] (PpSrcSpec.render q)) as [i|] eqn:F.
    2:{ exfalso. apply in_split in HI as (u & v & E). apply (proj1 (find_None [bt] (PpSrcSpec.render q)) F u v). exact E. }
    unfold max_macro_call_stack_size. destruct (Nat.leb_spec 128 (length (ps_mstack st))); [lia|]. set (k := (ob_begin out + Z.of_nat (tk_line (mc_tok m)) - 1)%Z). unfold new_buf. destruct (Z.ltb_spec k 0); [lia|].
    set (st1 := set_mstack st (ps_mstack st ++ [call_name (mc_tok m)])). rewrite run_str_S. unfold mbind, lift, set_file_line. cbn [ob_map rev ob_text ob_line ob_begin app]. replace (k + 0 - 0)%Z with k by lia.
    rewrite run_preproc_eq, Hv. destruct (source_tree l q HW) as (tr & -> & MT).
    destruct (body_visit l fs (run_str fuel l fs) (run_file fuel l fs) (src_name st1) false (expands (lang_ge l SV2005) d e) k st1) with (q := q) (rest := @nil ascii) (line := 1) (cur := 1) (tr := tr) (out := mkBuf [] [mkItem 0 (src_name st1) 0] 0 (to_ssize k) k) (t := t) as (o & EV & TV).
    + intros n0 a0 t0 E0. exact (expands_handy _ e d n0 a0 t0 E0).
    + intros n0 a0 t0 m0 out0 E0 Hn0 K1 K2 K3 K4. change (2 ^ 53)%Z with 9007199254740992%Z in K3. apply (IH n0 a0 t0 E0 Hn0); try assumption; try lia.
      unfold st1, set_mstack. cbn [ps_mstack]. rewrite app_length. cbn [length]. lia.
    + exact HW.
    + exact HT.
    + exact MT.
    + exact HR.
    + reflexivity.
    + rewrite catch_up_same. apply ready_start. change (2 ^ 62)%Z with 4611686018427387904%Z. lia.
    + lia.
    + unfold handy in H1. change (2 ^ 53)%Z with 9007199254740992%Z in *. unfold lines. lia.
    + rewrite EV. assert (ST : set_mstack st1 (removelast (ps_mstack st1)) = st).
      { destruct st as [dd inc ist ms]. unfold st1, set_mstack. cbn [ps_db ps_incdirs ps_mstack]. rewrite removelast_last. reflexivity. }
      rewrite ST, TV. cbn [ob_text app]. destruct (lang_ge l SV2005); [|reflexivity]. rewrite unescape_spec, no_bt_unquote; [reflexivity|].
      exact (reads_bt _ (expands_bt _ e d) q 1 1 t HT HR).
Qed.

(** ** Whole sources *)
Definition small (n : nat) : Prop := (Z.of_nat n < 2 ^ 61)%Z.
Definition good_state (e : macros) (st : pst) : Prop := agree e (ps_db st) /\ ps_mstack st = [].
Definition good_buf (b : outbuf) (cur : nat) : Prop := at_line0 b cur 0 /\ 1 <= cur /\ (Z.of_nat cur < 2 ^ 62)%Z.
Section Whole.
  Context (l : lang) (fs : fsys) (fuel : nat) (rf : str -> outbuf -> MM outbuf) (src : str) (added : bool).
  Context (Hv : is_verilog l = true) (Hfuel : 129 <= S fuel).
  Local Notation vt := (visit_texts l fs (run_str fuel l fs) rf src added).
  Local Notation v1 := (visit_text l fs (run_str fuel l fs) rf src added).
  Local Notation vb := (visit_branches l fs (run_str fuel l fs) rf src added).
  Local Notation ve := (visit_else l fs (run_str fuel l fs) rf src added).
  Local Notation sv := (lang_ge l SV2005).
  Definition gives (m : MM outbuf) (b : outbuf) (st : pst) (r : str * macros * nat) : Prop :=
    exists b' st', m st = (Ok b', st') /\ ob_text b' = ob_text b ++ fst (fst r) /\ good_buf b' (snd r) /\ good_state (snd (fst r)) st'.
  Definition V_items (p : items) : Prop := forall e line cur r rest tr b st, wf p rest -> means line p tr -> evals sv e line cur p r ->
    good_state e st -> good_buf b cur -> 1 <= line -> small (line + lines (PpSrcSpec.render p)) -> gives (vt (tree tr) b) b st r.
  Definition V_item (i : item) : Prop := forall e line cur r rest tr b st, wf_item i rest -> means_item line i tr -> evals_item sv e line cur i r ->
    good_state e st -> good_buf b cur -> 1 <= line -> small (line + lines (render_item i)) -> gives (vt (tree tr) b) b st r.
  Definition V_branches (br : branches) : Prop := forall e line cur neg els r rest bs K b st, wf_branches br rest -> means_branches line br bs -> evals_branches sv e line cur neg br els r ->
    good_state e st -> good_buf b cur -> 1 <= line -> small (line + lines (render_branches br)) ->
    (forall r', els (line + lines (render_branches br)) r' -> gives (K b) b st r') -> gives (vb neg bs K b) b st r.
  Definition V_else (el : else_items) : Prop := forall e line cur r rest ep b st, wf_else el rest -> means_else line el ep -> evals_else sv e line cur el r ->
    good_state e st -> good_buf b cur -> 1 <= line -> small (line + lines (render_else el)) -> gives (ve ep b) b st r.
  Lemma top_moves b cur line : good_buf b cur -> 1 <= line -> small line -> moves b line (catch_up cur line).
  Proof. intros (H1 & H2 & H3) L1 L2. unfold small in L2. change (2 ^ 61)%Z with 2305843009213693952%Z in L2. eapply moves_top; try eassumption. change (2 ^ 62)%Z with 4611686018427387904%Z. lia. Qed.
  Lemma small_62 n : small n -> (Z.of_nat n < 2 ^ 62)%Z.
  Proof. unfold small. change (2 ^ 61)%Z with 2305843009213693952%Z. change (2 ^ 62)%Z with 4611686018427387904%Z. lia. Qed.
  Lemma small_le a b : small b -> a <= b -> small a.
  Proof. unfold small. lia. Qed.
  Lemma group_ok g : V_items g -> forall e line cur o e' cur' rest tr b st, wf g rest -> means line g tr -> evals sv e line line g (o, e', cur') ->
    good_state e st -> good_buf b cur -> 1 <= line -> small (line + lines (PpSrcSpec.render g)) ->
    gives (mbind (lift (set_line b (line0 line))) (fun b' => vt (tree tr) b')) b st (catch_up cur line ++ o, e', cur').
  Proof.
    intros HG e line cur o e' cur' rest tr b st HW HM HE HS HB L1 L2. assert (L3 : small line) by (eapply small_le; [exact L2|lia]).
    destruct (top_moves b cur line HB L1 L3) as (b1 & E1 & T1 & A1). assert (B0 : ob_begin b = 0%Z) by apply HB. rewrite B0 in A1.
    destruct (HG e line line (o, e', cur') rest tr b1 st HW HM HE HS (conj A1 (conj L1 (small_62 _ L3))) L1 L2) as (b2 & st2 & E2 & T2 & G2 & S2). exists b2, st2. unfold mbind, lift. rewrite E1, E2. split; [reflexivity|]. cbn [fst snd] in *.
    rewrite T2, T1, <- app_assoc. auto.
  Qed.
  Lemma cond_step neg n line tr bs K b st e : agree e (ps_db st) -> macro_name n ->
    vb neg (BCons n line tr bs) K b st = (if xorb neg (is_def e n) then mbind (lift (set_line b (line0 line))) (fun b' => vt tr b') else vb neg bs K b) st.
  Proof.
    intros HA Hn. cbn [visit_branches]. unfold mbind at 1, get. rewrite (agree_defined e (ps_db st) n HA Hn). destruct neg, (is_def e n); reflexivity.
  Qed.
  Lemma gives_eq m m' b st r : m st = m' st -> gives m' b st r -> gives m b st r.
  Proof. intros E (b' & st' & H). exists b', st'. rewrite E. exact H. Qed.
  Theorem source_runs : (forall p, V_items p) /\ (forall i, V_item i) /\ (forall b, V_branches b) /\ (forall e, V_else e).
  Proof.
    apply source_mut.
    - intros e line cur r rest tr b st _ -> HE HS HB _ _. cbn in HE. subst r. exists b, st. split; [reflexivity|]. cbn [fst snd]. rewrite app_nil_r. auto.
    - intros i HI p HP e line cur r rest tr b st [Wi Wp] (a1 & a2 & -> & M1 & M2) HE HS HB L1 L2. cbn [evals] in HE. destruct HE as (o1 & e1 & cur1 & o2 & e2 & cur2 & -> & E1 & E2). cbn [PpSrcSpec.render] in L2. rewrite lines_app, Nat.add_assoc in L2.
      destruct (HI e line cur _ _ a1 b st Wi M1 E1 HS HB L1 ltac:(eapply small_le; [exact L2|lia])) as (b1 & st1 & X1 & T1 & G1 & S1). cbn [fst snd] in *.
      destruct (HP e1 _ cur1 _ _ a2 b1 st1 Wp M2 E2 S1 G1 ltac:(lia) L2) as (b2 & st2 & X2 & T2 & G2 & S2). cbn [fst snd] in *.
      exists b2, st2. rewrite visit_app. unfold mbind. rewrite X1, X2. split; [reflexivity|]. cbn [fst snd]. rewrite T2, T1, app_assoc. auto.
    - intros ps e line cur r rest tr b st (Hne & _ & _) (toks & Cv & ->) HE HS HB L1 L2. cbn [evals_item render_item] in *. subst r.
      assert (NT : toks <> []).
      { intros ->. inversion Cv as [? E|]; subst. destruct ps as [|p ps]; [congruence|]. unfold text_of_pieces in *. cbn [map List.concat] in *. destruct p; discriminate. }
      destruct (visit_toks l fs (run_str fuel l fs) rf src added line _ toks Cv NT b _ st (top_moves b cur line HB L1 ltac:(eapply small_le; [exact L2|lia]))) as (b1 & E1 & T1 & A1).
      exists b1, st. split; [exact E1|]. cbn [fst snd]. split; [exact T1|]. split; [|exact HS]. assert (B0 : ob_begin b = 0%Z) by apply HB. rewrite B0 in A1. split; [exact A1|]. split; [lia|apply small_62; exact L2].
    - intros n args e line cur r rest tr b st Wi (m & -> & K1 & K2 & K3) HE HS HB L1 L2. cbn [evals_item] in HE. destruct HE as (t & EX & ->).
      assert (Hn : macro_name n) by (cbn [wf_item] in Wi; destruct args; apply Wi). assert (UM : use_of m n args) by (split; [exact K1|destruct args; exact K3]).
      assert (L3 : small line) by (eapply small_le; [exact L2|lia]). assert (B0 : ob_begin b = 0%Z) by apply HB. destruct HS as (S2 & S3).
      assert (L4 : (Z.of_nat line < 2305843009213693952)%Z) by exact L3.
      assert (C : call_text l (run_str fuel l fs) src m b st = (Ok t, st)).
      { apply (call_ok l fs e Hv max_depth n args t EX Hn); try assumption; rewrite ?S3, ?B0, ?K2; unfold max_depth; change (2 ^ 53)%Z with 9007199254740992%Z; change (2 ^ 62)%Z with 4611686018427387904%Z; cbn [length]; lia. }
      destruct (visit_call_ok l fs (run_str fuel l fs) rf src added m b (catch_up cur line) t st C) as (b1 & E1 & T1 & A1).
      + rewrite K2. apply top_moves; assumption.
      + exists b1, st. rewrite visit_one. split; [exact E1|]. cbn [fst snd]. split; [exact T1|]. rewrite K2, B0 in A1. split; [split; [exact A1|]|split; auto].
        pose proof (expands_handy _ _ _ _ _ _ EX) as Hh. unfold handy in Hh. change (2 ^ 53)%Z with 9007199254740992%Z in Hh. change (2 ^ 62)%Z with 4611686018427387904%Z. unfold lines. lia.
    - intros w1 n pl w2 bd w3 cm el e line cur r rest tr b st (Hw1 & Hn & Hpl & Hw2 & _ & DB & Hbn & Hsb & Heb & Hw3 & Hc) (tok & dps & codes & t & -> & FC & ET & FT & EP) HE (S2 & S3) HB L1 L2. cbn [evals_item] in HE.
      destruct HE as [ED ->].
      destruct (define_run src tok n dps (option_map (map (fun p => (param_name p, None))) pl) bd codes t st FC ET FT) as (m & E1 & PM).
      + intros c u Ec HI. destruct HI as [<-|[<-|[<-|[<-|[]]]]]; [apply Heb; exists sp, u; split; [exact Ec|left; reflexivity]|apply Heb; exists tab, u; split; [exact Ec|right; reflexivity]| |].
        * apply (dbody_nl _ DB). rewrite Ec. apply in_or_app. right. left. reflexivity.
        * apply (dbody_cr _ DB). rewrite Ec. apply in_or_app. right. left. reflexivity.
      + apply dbody_inside; [exact DB|discriminate|discriminate].
      + rewrite EP. destruct pl as [pl|]; [|reflexivity]. cbn [option_map]. rewrite map_map. reflexivity.
      + destruct pl as [pl|]; [|exact I]. cbn [option_map]. destruct Hpl as (_ & FP & ND). rewrite map_map. cbn [fst]. split; [|exact ND]. clear -FP. induction FP as [|[[a x] c] pl (_ & Hx & _) _ IH]; constructor; [apply ident_identifier; exact Hx|assumption].
      + exists b. eexists. rewrite visit_one. cbn [visit_text]. unfold mbind. rewrite E1. split; [reflexivity|]. cbn [fst snd]. rewrite app_nil_r. split; [reflexivity|]. split; [exact HB|]. split; [|exact S3].
        cbn [ps_db set_db]. apply agree_insert; assumption.
    - intros w1 n w2 el e line cur r rest tr b st (Hw1 & Hn & Hw2) (tok & ->) HE (S2 & S3) HB L1 L2. cbn [evals_item] in HE. destruct HE as [ED ->].
      destruct (define_run0 src tok n st) as (m & E1 & PM). exists b. eexists. rewrite visit_one. cbn [visit_text]. unfold mbind. rewrite E1. split; [reflexivity|]. cbn [fst snd]. rewrite app_nil_r. split; [reflexivity|]. split; [exact HB|].
      split; [|exact S3]. cbn [ps_db set_db]. apply agree_insert; assumption.
    - intros neg br HBr els HEl fin e line cur r rest tr b st (_ & Wb & We & _) (bs & ep & -> & MB & ME) HE HS HB L1 L2. cbn [evals_item render_item] in *.
      assert (L3 : small (line + lines (render_branches br) + lines (render_else els))) by (rewrite !lines_app in L2; eapply small_le; [exact L2|lia]).
      eapply gives_eq; [apply visit_one|]. cbn [visit_text]. apply (HBr e line cur neg _ r _ bs (ve ep) b st Wb MB HE HS HB L1); [eapply small_le; [exact L3|lia]|].
      intros r' Er. eapply HEl; try eassumption. lia.
    - intros w n g HG e line cur neg els r rest bs K b st (Hw & Hn & He & Wg) (tg & -> & MG) HE HS HB L1 L2 HK. cbn [evals_branches render_branches] in *. eapply gives_eq; [apply (cond_step neg n line (tree tg) BNil K b st e (proj1 HS) Hn)|].
      assert (LG : lines (w ++ n ++ PpSrcSpec.render g) = lines (PpSrcSpec.render g)) by (rewrite !lines_app; unfold lines; rewrite (blanks_nl w (proj2 Hw)), (ident_nl n (proj1 Hn)); reflexivity). rewrite LG in *.
      destruct (xorb neg (is_def e n)).
      + destruct HE as (o & e' & cur' & EG & ->). eapply group_ok; eassumption.
      + cbn [visit_branches]. apply HK. exact HE.
    - intros w n g HG br HBr e line cur neg els r rest bs K b st (Hw & Hn & He & Wg & Wb) (tg & bs' & -> & MG & MB) HE HS HB L1 L2 HK. cbn [evals_branches render_branches] in *.
      eapply gives_eq; [apply (cond_step neg n line (tree tg) bs' K b st e (proj1 HS) Hn)|].
      assert (LG : lines (w ++ n ++ PpSrcSpec.render g ++ $"`elsif" ++ render_branches br) = lines (PpSrcSpec.render g) + lines (render_branches br)) by (rewrite !lines_app; unfold lines; rewrite (blanks_nl w (proj2 Hw)), (ident_nl n (proj1 Hn)); reflexivity). rewrite LG, Nat.add_assoc in *.
      destruct (xorb neg (is_def e n)).
      + destruct HE as (o & e' & cur' & EG & ->). eapply group_ok; try eassumption. eapply small_le; [exact L2|lia].
      + eapply (HBr e (line + lines (PpSrcSpec.render g)) cur neg els r rest bs' K b st); try eassumption. lia.
    - intros e line cur r rest ep b st _ -> HE HS HB L1 L2. cbn [evals_else] in HE. subst r. exists b, st. split; [reflexivity|]. cbn [fst snd]. rewrite app_nil_r. auto.
    - intros s g HG e line cur r rest ep b st (_ & _ & Wg) (tg & -> & MG) HE HS HB L1 L2. cbn [evals_else render_else] in *. destruct HE as (o & e' & cur' & EG & ->).
      eapply gives_eq; [cbn [visit_else]; reflexivity|]. eapply group_ok; try eassumption; [lia|]. rewrite !lines_app in L2. eapply small_le; [exact L2|lia].
  Qed.
End Whole.

(** The macros that the user has given are [e]. *)
Definition given_by (e : macros) (d : db) : Prop := agree e (delete_non_persistent d).
Lemma given_start e d l dirs : given_by e d -> good_state e (pp_init l d dirs).
Proof.
  intros H. split; [|reflexivity]. intros n Hn. specialize (H n Hn). destruct Hn as [_ Hn]. cbn [pp_init ps_db].
  assert (F : db_find (add_default_defs (delete_non_persistent d) l) n = db_find (delete_non_persistent d) n).
  { unfold add_default_defs. destruct (lang_ge l SV2009); [|reflexivity]. rewrite !db_find_insert.
    destruct (seqb $"__LINE__" n) eqn:E1; [apply seqb_eq in E1; subst n; exfalso; apply Hn; unfold reserved; cbn; tauto|].
    destruct (seqb $"__FILE__" n) eqn:E2; [apply seqb_eq in E2; subst n; exfalso; apply Hn; unfold reserved; cbn; tauto|]. destruct (db_find _ n); reflexivity. }
  rewrite F. exact H.
Qed.
Lemma no_persistent d : Forall (fun p => e_persistent (snd p) = false) d -> given_by [] d.
Proof.
  intros H n _. cbn [body_of]. assert (delete_non_persistent d = []) as ->; [|reflexivity].
  unfold delete_non_persistent. induction H as [|x d Hx _ IH]; [reflexivity|]. cbn [filter]. rewrite Hx. exact IH.
Qed.
Theorem source_meaning_with l fs d dirs e0 p out : is_verilog l = true -> given_by e0 d ->
  wf p [] -> meaning_with (lang_ge l SV2005) e0 p out -> small (1 + lines (PpSrcSpec.render p)) ->
  exists b st, verilog_pp_str l fs d dirs (PpSrcSpec.render p) = (Ok b, st) /\ ob_text b = out.
Proof.
  intros Hv Hd HW HM HL. destruct HM as (e & cur & E). destruct (source_tree l p HW) as (tr & PT & MT).
  assert (HF : 129 <= S (pred enough_fuel)) by (unfold enough_fuel, max_macro_call_stack_size, include_depth_limit; cbn [pred]; lia).
  destruct (proj1 (source_runs l fs (pred enough_fuel) (run_file (pred enough_fuel) l fs) STRING_FILENAME false Hv HF) p e0 1 1 _ [] tr (start_buf STRING_FILENAME) (pp_init l d dirs) HW MT E (given_start e0 d l dirs Hd)) as (b & st & R & T & _); [| |exact HL|].
  - split; [split; [discriminate|split; [reflexivity|apply cong_refl]]|]. split; [lia|reflexivity].
  - lia.
  - exists b, st. rewrite verilog_pp_str_eq, run_preproc_eq, PT, Hv. split; [exact R|exact T].
Qed.
(** The same for a source in a file. *)
Theorem source_meaning_file_with l fs d dirs file e0 p out : is_verilog l = true -> given_by e0 d ->
  fs file = Some (PpSrcSpec.render p) -> wf p [] -> meaning_with (lang_ge l SV2005) e0 p out -> small (1 + lines (PpSrcSpec.render p)) ->
  exists b st, verilog_pp_file l fs d dirs file = (Ok b, st) /\ ob_text b = out.
Proof.
  intros Hv Hd Hfs HW HM HL. destruct HM as (e & cur & E). destruct (source_tree l p HW) as (tr & PT & MT).
  rewrite verilog_pp_file_eq. unfold enough_fuel. set (fuel := S (max_macro_call_stack_size + include_depth_limit + 2)).
  assert (HF : 129 <= S fuel) by (unfold fuel, max_macro_call_stack_size, include_depth_limit; lia). clearbody fuel. rewrite run_file_S, Hfs.
  change (set_file_line (mkBuf [] [] 0 0 0) file 0) with (Ok (start_buf file)). set (st := pp_init l d dirs). set (add := add_dir file st).
  assert (G : good_state e0 (enter_file file st)) by exact (given_start e0 d l dirs Hd).
  destruct (proj1 (source_runs l fs fuel (run_file fuel l fs) file add Hv HF) p e0 1 1 _ [] tr (start_buf file) (enter_file file st) HW MT E G) as (b & st1 & R & T & _); [| |exact HL|].
  - split; [split; [discriminate|split; [reflexivity|apply cong_refl]]|]. split; [lia|reflexivity].
  - lia.
  - exists b. eexists. unfold mbind at 1 2, lift. cbv beta iota. rewrite run_preproc_eq, PT, Hv, R. split; [reflexivity|exact T].
Qed.
(** Without macros of the user *)
Theorem source_meaning l fs d dirs p out : is_verilog l = true -> Forall (fun p => e_persistent (snd p) = false) d ->
  wf p [] -> meaning (lang_ge l SV2005) p out -> small (1 + lines (PpSrcSpec.render p)) ->
  exists b st, verilog_pp_str l fs d dirs (PpSrcSpec.render p) = (Ok b, st) /\ ob_text b = out.
Proof. intros Hv Hd. exact (source_meaning_with l fs d dirs [] p out Hv (no_persistent d Hd)). Qed.
Theorem source_meaning_file l fs d dirs file p out : is_verilog l = true -> Forall (fun p => e_persistent (snd p) = false) d ->
  fs file = Some (PpSrcSpec.render p) -> wf p [] -> meaning (lang_ge l SV2005) p out -> small (1 + lines (PpSrcSpec.render p)) ->
  exists b st, verilog_pp_file l fs d dirs file = (Ok b, st) /\ ob_text b = out.
Proof. intros Hv Hd. exact (source_meaning_file_with l fs d dirs file [] p out Hv (no_persistent d Hd)). Qed.
