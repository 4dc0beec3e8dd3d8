(** Invariants of a whole preprocessor run: it never runs out of nesting levels, restores the
    include list, the include stack and the macro stack, keeps the line accounting, and the only
    undefined behaviour it can run into is listed in [known_ub]. *)
From Verif Require Import Base BaseFacts StrUtilsModel StrSpec StrUtilsProofs MacroDefModel MacroDefProofs
  OutBufferModel OutBufferProofs RegexModel PpLexerModel PpLexProofs LexSafeProofs PpParserModel PpParseProofs PpModel PpFacts PpSpec.

Lemma db_find_In d k e : db_find d k = Some e -> exists k', seqb k' k = true /\ In (k', e) d.
Proof.
  induction d as [|[k' e'] d IH]; cbn [db_find]; [discriminate|].
  destruct (seqb k' k) eqn:E; intros H.
  - inversion H; subst. exists k'. split; [exact E|left; reflexivity].
  - destruct (IH H) as (k2 & E2 & Hin). exists k2. split; [exact E2|right; exact Hin].
Qed.
Lemma db_ok_find d k e : db_ok d -> db_find d k = Some e -> mdef_ok (e_def e).
Proof.
  intros H E. apply db_find_In in E as (k' & _ & Hin). unfold db_ok in H. rewrite Forall_forall in H.
  exact (H _ Hin).
Qed.
Lemma db_ok_insert d k e : db_ok d -> mdef_ok (e_def e) -> db_ok (db_insert d k e).
Proof.
  intros H He. unfold db_insert. destruct (db_find d k); [exact H|].
  apply Forall_app. split; [exact H|]. repeat constructor. exact He.
Qed.
Lemma Forall_filter {A} (P : A -> Prop) f (l : list A) : Forall P l -> Forall P (filter f l).
Proof.
  intros H. rewrite Forall_forall in *. intros x Hx. apply filter_In in Hx as [Hx _]. auto.
Qed.
Lemma db_ok_erase d k : db_ok d -> db_ok (db_erase d k).
Proof. apply Forall_filter. Qed.
Lemma db_ok_np d : db_ok d -> db_ok (delete_non_persistent d).
Proof. apply Forall_filter. Qed.
Lemma db_ok_default d l : db_ok d -> db_ok (add_default_defs d l).
Proof. intros H. unfold add_default_defs. destruct (lang_ge l SV2009); [|exact H]. repeat apply db_ok_insert; try exact I. exact H. Qed.

(** ** Line accounting of a buffer *)
Lemma sorted_nil : items_sorted [].
Proof. intros [|i] j a b _ H; discriminate. Qed.
Lemma sorted_snoc m x : items_sorted m -> Forall (fun i => (lm_line i <= lm_line x)%Z) m -> items_sorted (m ++ [x]).
Proof.
  intros H F i j a b Hij Ha Hb.
  assert (forall k y, nth_error (m ++ [x]) k = Some y -> (k < length m /\ nth_error m k = Some y) \/ (k = length m /\ y = x)) as Q.
  { intros k y Hk. destruct (Nat.lt_ge_cases k (length m)) as [L|L].
    - rewrite nth_error_app1 in Hk by exact L. auto.
    - rewrite nth_error_app2 in Hk by exact L. destruct (k - length m) as [|n] eqn:En; cbn in Hk.
      + inversion Hk; subst. right. split; [lia|reflexivity].
      + destruct n; discriminate. }
  apply Q in Ha as [(La & Ha)|(La & ->)]; apply Q in Hb as [(Lb & Hb)|(Lb & ->)]; try lia.
  - exact (H i j a b Hij Ha Hb).
  - rewrite Forall_forall in F. apply F. eapply nth_error_In; eassumption.
Qed.
Lemma sorted_app m m' : items_sorted m -> items_sorted m' ->
  (forall x y, In x m -> In y m' -> (lm_line x <= lm_line y)%Z) -> items_sorted (m ++ m').
Proof.
  intros H H' HC i j a b Hij Ha Hb.
  destruct (Nat.lt_ge_cases i (length m)) as [La|La], (Nat.lt_ge_cases j (length m)) as [Lb|Lb];
    rewrite ?nth_error_app1 in Ha by exact La; rewrite ?nth_error_app2 in Ha by exact La;
    rewrite ?nth_error_app1 in Hb by exact Lb; rewrite ?nth_error_app2 in Hb by exact Lb.
  - exact (H i j a b Hij Ha Hb).
  - apply HC; eapply nth_error_In; eassumption.
  - lia.
  - eapply (H' (i - length m) (j - length m)); [lia|eassumption|eassumption].
Qed.
Lemma sorted_map m f : (forall i, lm_line (f i) = lm_line i) -> items_sorted m -> items_sorted (map f m).
Proof.
  intros Hf H i j a b Hij Ha Hb. rewrite nth_error_map in Ha, Hb.
  destruct (nth_error m i) eqn:Ei; [|discriminate]. destruct (nth_error m j) eqn:Ej; [|discriminate].
  cbn in Ha, Hb. inversion Ha; inversion Hb; subst. rewrite !Hf. eapply H; eassumption.
Qed.

Lemma to_size_range z : (0 <= to_size z < two64)%Z.
Proof. unfold to_size. rewrite two64_val. apply Z.mod_pos_bound. lia. Qed.
Lemma to_size_small z : (0 <= z < two64)%Z -> to_size z = z.
Proof. apply Z.mod_small. Qed.
Lemma to_size_add a b : to_size (to_size a + b) = to_size (a + b).
Proof. unfold to_size. rewrite two64_val. apply Zplus_mod_idemp_l. Qed.
Lemma to_size_add2 a b : to_size (to_size a + to_size b) = to_size (a + b).
Proof. unfold to_size. rewrite two64_val. symmetry. apply Zplus_mod. Qed.

Lemma accounted_put b s : accounted b -> accounted (buf_put b s).
Proof.
  intros (HC & HS). unfold counted in *. split.
  - unfold counted, buf_put. cbn [ob_line ob_text]. rewrite HC, to_size_add, count_nl_app. f_equal. lia.
  - unfold buf_put. cbn [ob_line ob_text ob_map]. rewrite count_nl_app. intros L.
    destruct HS as (S & F); [lia|]. split; [exact S|]. eapply Forall_impl; [|exact F]. cbn. intros i Hi.
    rewrite HC in *. rewrite to_size_small in Hi by lia.
    rewrite to_size_add. rewrite to_size_small by lia. lia.
Qed.
Lemma buf_endl_put b : buf_endl b = buf_put b [nl].
Proof. unfold buf_endl, buf_put. f_equal. Qed.
Lemma accounted_endls n : forall b, accounted b -> accounted (buf_endls n b).
Proof.
  induction n as [|n IH]; intros b H; [exact H|]. cbn [buf_endls]. apply IH. rewrite buf_endl_put.
  apply accounted_put. exact H.
Qed.
Lemma accounted_item b file line off : accounted b ->
  accounted (mkBuf (ob_text b) (ob_map b ++ [mkItem (ob_line b) file line]) (ob_line b) off (ob_begin b)).
Proof.
  intros (HC & HS). split; [exact HC|]. cbn [ob_line ob_text ob_map]. intros L. destruct (HS L) as (S & F).
  split.
  - apply sorted_snoc; [exact S|]. eapply Forall_impl; [|exact F]. cbn. intros; lia.
  - apply Forall_app. split; [exact F|]. repeat constructor; cbn; [|lia]. rewrite HC. apply to_size_range.
Qed.
Lemma accounted_set_line b line b' : accounted b -> set_line b line = Ok b' -> accounted b'.
Proof.
  intros H. unfold set_line. destruct (_ && _).
  - intros E; inversion E; subst. apply accounted_endls. exact H.
  - destruct (rev (ob_map b)) as [|last r]; [discriminate|]. intros E; inversion E; subst.
    apply accounted_item. exact H.
Qed.
Lemma accounted_set_file b file line b' : accounted b -> set_file_line b file line = Ok b' -> accounted b'.
Proof.
  intros H. unfold set_file_line. destruct (rev (ob_map b)) as [|last r].
  - intros E; inversion E; subst. apply accounted_item. exact H.
  - destruct (seqb (lm_file last) file).
    + apply accounted_set_line. exact H.
    + intros E; inversion E; subst. apply accounted_item. exact H.
Qed.
Lemma accounted_new k b : new_buf k = Ok b -> accounted b.
Proof.
  unfold new_buf. destruct (k <? 0)%Z; [discriminate|]. intros E; inversion E; subst. split; [reflexivity|].
  intros _. split; [apply sorted_nil|constructor].
Qed.
Lemma accounted_append b o : accounted b -> accounted o -> accounted (buf_append b o).
Proof.
  intros (HC & HS) (HC' & HS'). unfold counted in *. split.
  - unfold counted, buf_append. cbn [ob_line ob_text]. rewrite HC, HC', to_size_add2, count_nl_app. f_equal. lia.
  - unfold buf_append. cbn [ob_line ob_text ob_map]. rewrite count_nl_app. intros L.
    destruct HS as (S & F); [lia|]. destruct HS' as (S' & F'); [lia|].
    rewrite (to_size_small (Z.of_nat (count_nl (ob_text b)))) in HC by lia.
    rewrite (to_size_small (Z.of_nat (count_nl (ob_text o)))) in HC' by lia.
    rewrite (to_size_small (ob_line b + ob_line o)) by lia.
    assert (forall i, In i (ob_map o) -> to_size (lm_line i + ob_line b) = lm_line i + ob_line b)%Z as Q.
    { intros i Hi. rewrite Forall_forall in F'. specialize (F' i Hi). cbn in F'. apply to_size_small. lia. }
    split.
    + apply sorted_app; [exact S| |].
      * intros i j x y Hij Hx Hy. rewrite nth_error_map in Hx, Hy.
        destruct (nth_error (ob_map o) i) as [x0|] eqn:Ei; [|discriminate].
        destruct (nth_error (ob_map o) j) as [y0|] eqn:Ej; [|discriminate]. cbn in Hx, Hy.
        inversion Hx; inversion Hy; subst. cbn [lm_line].
        rewrite !Q by (eapply nth_error_In; eassumption). specialize (S' i j x0 y0 Hij Ei Ej). lia.
      * intros x y Hx Hy. apply in_map_iff in Hy as (y0 & <- & Hy). cbn [lm_line]. rewrite Q by exact Hy.
        rewrite Forall_forall in F, F'. specialize (F x Hx). specialize (F' y0 Hy). cbn in *. lia.
    + apply Forall_app. split.
      * eapply Forall_impl; [|exact F]. cbn. intros; lia.
      * rewrite Forall_forall in *. intros y Hy. apply in_map_iff in Hy as (y0 & <- & Hy). cbn [lm_line].
        rewrite Q by exact Hy. specialize (F' y0 Hy). cbn in F'. lia.
Qed.

(** ** Buffers and states of a run *)
Definition binv0 (b : outbuf) : Prop := (0 <= ob_begin b)%Z /\ accounted b.
Definition binv (b : outbuf) : Prop := ob_map b <> [] /\ binv0 b.
Definition ext (b b' : outbuf) : Prop := (exists x, ob_text b' = ob_text b ++ x) /\ ob_begin b' = ob_begin b.
Lemma ext_refl b : ext b b. Proof. split; [exists []; symmetry; apply app_nil_r|reflexivity]. Qed.
Lemma ext_trans a b c : ext a b -> ext b c -> ext a c.
Proof.
  intros ((x & E) & H) ((y & E') & H'). split; [|congruence]. exists (x ++ y). rewrite E', E. symmetry. apply app_assoc.
Qed.

Lemma buf_endls_ext n : forall b, ext b (buf_endls n b) /\ ob_map (buf_endls n b) = ob_map b.
Proof.
  induction n as [|n IH]; intros b; [split; [apply ext_refl|reflexivity]|]. cbn [buf_endls].
  destruct (IH (buf_endl b)) as (E & M). split; [|exact M]. eapply ext_trans; [|exact E].
  split; [eexists; reflexivity|reflexivity].
Qed.
Lemma set_line_inv b line : binv b -> exists b', set_line b line = Ok b' /\ binv b' /\ ext b b'.
Proof.
  intros (Hm & Hb & Ha). assert (exists b', set_line b line = Ok b' /\ ob_map b' <> [] /\ ext b b') as (b' & E & M & X).
  { unfold set_line. destruct (_ && _).
    - eexists. split; [reflexivity|]. destruct (buf_endls_ext (Z.to_nat (lines_to_add b line)) b) as (X & M).
      rewrite M. auto.
    - destruct (rev (ob_map b)) as [|last r] eqn:Er.
      + apply (f_equal (@rev _)) in Er. rewrite rev_involutive in Er. contradiction.
      + eexists. split; [reflexivity|]. cbn [ob_map]. split; [destruct (ob_map b); discriminate|].
        split; [exists []; symmetry; apply app_nil_r|reflexivity]. }
  exists b'. split; [exact E|]. split; [|exact X]. split; [exact M|]. split.
  - destruct X as (_ & ->). exact Hb.
  - eapply accounted_set_line; eassumption.
Qed.
Lemma set_file_line_inv b file line : binv0 b -> exists b', set_file_line b file line = Ok b' /\ binv b' /\ ext b b'.
Proof.
  intros H0. unfold set_file_line.
  assert (forall off, let b' := mkBuf (ob_text b) (ob_map b ++ [mkItem (ob_line b) file line]) (ob_line b) off (ob_begin b) in
    binv b' /\ ext b b') as Q.
  { intros off. split.
    - split; [cbn; destruct (ob_map b); discriminate|]. destruct H0. split; [assumption|]. apply accounted_item. assumption.
    - split; [exists []; symmetry; apply app_nil_r|reflexivity]. }
  destruct (rev (ob_map b)) as [|last r] eqn:Er.
  - eexists. split; [reflexivity|]. apply Q.
  - destruct (seqb (lm_file last) file).
    + apply set_line_inv. split; [|exact H0]. intros E. rewrite E in Er. discriminate.
    + eexists. split; [reflexivity|]. apply Q.
Qed.
Lemma buf_put_inv b s : binv b -> binv (buf_put b s) /\ ext b (buf_put b s).
Proof.
  intros (Hm & Hb & Ha). split; [|split; [eexists; reflexivity|reflexivity]].
  split; [exact Hm|]. split; [exact Hb|]. apply accounted_put. exact Ha.
Qed.
Lemma buf_append_inv b o : binv b -> accounted o -> binv (buf_append b o) /\ ext b (buf_append b o).
Proof.
  intros (Hm & Hb & Ha) Ho. split; [|split; [eexists; reflexivity|reflexivity]].
  split; [cbn; destruct (ob_map b); [congruence|discriminate]|]. split; [exact Hb|]. apply accounted_append; assumption.
Qed.

Lemma ctx_eq_refl s : ctx_eq s s. Proof. repeat split. Qed.
Lemma ctx_eq_trans a b c : ctx_eq a b -> ctx_eq b c -> ctx_eq a c.
Proof. unfold ctx_eq. intuition congruence. Qed.

Definition good (s : pst) : Prop := db_ok (ps_db s).

Definition spec {A} (m : outcome A * pst) (Q : A -> pst -> Prop) : Prop :=
  match m with
  | (Ok a, st') => Q a st'
  | (Throw e, _) => known_exn e
  | (UB w, _) => known_ub w
  | (OutOfFuel, _) => False
  end.
Lemma spec_bind {A B} (m : MM A) (f : A -> MM B) st (Q : A -> pst -> Prop) (R : B -> pst -> Prop) :
  spec (m st) Q -> (forall a st', Q a st' -> spec (f a st') R) -> spec (mbind m f st) R.
Proof. unfold mbind, spec. destruct (m st) as [[a|e|w|] st']; intros H1 H2; try exact H1. apply H2. exact H1. Qed.
Lemma spec_imp {A} (m : outcome A * pst) (Q R : A -> pst -> Prop) :
  (forall a s, Q a s -> R a s) -> spec m Q -> spec m R.
Proof. unfold spec. destruct m as [[a|e|w|] st']; auto. Qed.
(** pure computations *)
Definition ospec {A} (m : outcome A) (Q : A -> Prop) : Prop :=
  match m with Ok a => Q a | Throw e => known_exn e | UB w => known_ub w | OutOfFuel => False end.
Lemma spec_lift {A} (m : outcome A) st Q : ospec m Q -> spec (lift m st) (fun a s => Q a /\ s = st).
Proof. unfold ospec, spec, lift. destruct m; auto. Qed.
Lemma ospec_bind {A B} (m : outcome A) (f : A -> outcome B) Q R :
  ospec m Q -> (forall a, Q a -> ospec (f a) R) -> ospec (bind m f) R.
Proof. unfold ospec. destruct m; cbn; intros H1 H2; try exact H1. exact (H2 a H1). Qed.

(** nesting levels that the state still allows *)
Definition need (s : pst) : nat :=
  (max_macro_call_stack_size - length (ps_mstack s)) + (S include_depth_limit - length (ps_incstack s)).
Lemma need_ctx s s' : ctx_eq s s' -> need s' = need s.
Proof. intros (_ & E1 & E2). unfold need. rewrite E1, E2. reflexivity. Qed.

Definition post (st : pst) (out : outbuf) (b : outbuf) (st' : pst) : Prop :=
  ctx_eq st st' /\ good st' /\ binv b /\ ext out b.

(** ** Pure parts *)
Lemma replace_ospec s pat repl : pat <> [] -> ospec (replace_substring s pat repl) (fun _ => True).
Proof. intros H. destruct (replace_substring_spec s pat repl H) as (t & -> & _). exact I. Qed.
Lemma unescape_ospec s : ospec (unescape_string_dblquotes s) (fun _ => True).
Proof. rewrite unescape_spec. destruct (unquote None false s); exact I. Qed.
Lemma remove_comment_ospec : forall ts s, Forall hidden_nonempty ts -> ospec (remove_comment ts s) (fun _ => True).
Proof.
  induction ts as [|t ts IH]; intros s HF; [exact I|]. inversion HF as [|x l Ht HF']; subst.
  cbn [remove_comment]. eapply ospec_bind; [|intros a _; apply IH; exact HF'].
  unfold hidden_nonempty in Ht. destruct (tk_chan t) eqn:E; try exact I;
    apply (replace_ospec s (tk_text t)); apply Ht; discriminate.
Qed.
Lemma define_body_ospec d : def_P hidden_nonempty d -> ospec (define_body d) (fun _ => True).
Proof.
  intros (_ & _ & H). unfold define_body. destruct (dd_repl d) as [ts|]; [|exact I].
  eapply ospec_bind; [apply remove_comment_ospec; exact H|]. intros; exact I.
Qed.
Lemma wrap_ospec {A} src t (m : outcome A) Q : ospec m Q -> ospec (wrap_parse_exn src t m) Q.
Proof. unfold wrap_parse_exn, ospec. destruct m as [a|[]|w|]; auto. Qed.
Lemma def_replace_ospec d args spec out t : mdef_ok d -> ob_map out <> [] ->
  ospec (def_replace d args spec out t) (fun _ => True).
Proof.
  intros Hd Hm. destruct d as [m| |]; cbn [def_replace].
  - destruct Hd as (name & hp & params & body & E).
    destruct (macro_replace_safe name hp params body m args spec E) as [(x & ->)|(x & ->)]; exact I.
  - destruct spec; exact I.
  - destruct spec; [exact I|]. destruct (rev (ob_map out)) as [|it r] eqn:Er; [|exact I].
    apply (f_equal (@rev _)) in Er. rewrite rev_involutive in Er. contradiction.
Qed.
Lemma expand_call_ospec l src m out d : db_ok d -> ob_map out <> [] ->
  ospec (expand_call l src m out d) (fun _ => True).
Proof.
  intros Hd Hm. unfold expand_call. destruct (db_find d (call_name (mc_tok m))) as [e|] eqn:E; [|exact I].
  apply (db_ok_find _ _ _ Hd) in E. cbv zeta.
  eapply ospec_bind; [apply wrap_ospec, def_replace_ospec; assumption|]. intros r _.
  destruct (lang_ge l SV2005); [|exact I].
  eapply ospec_bind; [apply replace_ospec; discriminate|]. intros r2 _. apply replace_ospec; discriminate.
Qed.
Lemma new_buf_ospec k : (0 <= k)%Z -> ospec (new_buf k) (fun b => b = mkBuf [] [] 0 0 k).
Proof. intros H. unfold new_buf. destruct (Z.ltb_spec k 0); [lia|]. reflexivity. Qed.
Lemma binv0_new k : (0 <= k)%Z -> binv0 (mkBuf [] [] 0 0 k).
Proof.
  intros H. split; [exact H|]. split; [reflexivity|]. intros _. split; [apply sorted_nil|constructor].
Qed.
Lemma find_include_ospec fs p : forall dirs, ospec (find_include fs dirs p) (fun _ => True).
Proof.
  induction dirs as [|d dirs IH]; [exact I|]. cbn [find_include].
  eapply (ospec_bind _ _ (fun _ => True)).
  - destruct p as [|c p]; [reflexivity|exact I].
  - intros f _. cbv zeta. destruct (fs (path_join d f)); [exact I|exact IH].
Qed.
Lemma removelast_snoc {A} (l : list A) x : removelast (l ++ [x]) = l.
Proof. apply removelast_last. Qed.

Section Level.
  Variable l : lang.
  Variable fs : fsys.
  Variable rs rf : str -> outbuf -> MM outbuf.
  Variable N : nat.
  Hypothesis Hrs : forall input out st, good st -> binv0 out -> need st < N ->
    spec (rs input out st) (post st out).
  (** a file is entered with one more element on the include stack *)
  Hypothesis Hrf : forall file out st, good st -> binv0 out ->
    length (ps_incstack st) <= include_depth_limit -> need st <= N ->
    spec (rf file out st) (post st out).

  Lemma call_text_spec src m out st : good st -> binv out -> need st <= N -> 1 <= tk_line (mc_tok m) ->
    spec (call_text l rs src m out st) (fun _ st' => ctx_eq st st' /\ good st').
  Proof.
    intros Hg (Hm & Hb & Ha) Hn Hline. unfold call_text.
    eapply spec_bind with (Q := fun a s => a = st /\ s = st); [cbn; auto|]. intros a s (-> & ->).
    eapply spec_bind; [apply spec_lift, expand_call_ospec; [exact Hg|exact Hm]|]. intros r s (_ & ->).
    eapply (spec_bind _ _ _ (fun _ st' => ctx_eq st st' /\ good st')).
    - destruct (find [bt] r); [|cbn; split; [apply ctx_eq_refl|exact Hg]].
      destruct (Nat.leb_spec max_macro_call_stack_size (length (ps_mstack st))) as [H|H]; [exact I|].
      eapply spec_bind with (Q := fun _ s => s = set_mstack st (ps_mstack st ++ [call_name (mc_tok m)])); [reflexivity|].
      intros _ s ->.
      eapply spec_bind; [apply spec_lift, new_buf_ospec; lia|]. intros b0 s (-> & ->).
      eapply spec_bind.
      + apply Hrs; [exact Hg|apply binv0_new; lia|].
        unfold need in *. cbn [set_mstack ps_mstack ps_incstack]. rewrite app_length. cbn [length]. lia.
      + intros b s ((E1 & E2 & E3) & Hg' & _ & _). cbn [set_mstack ps_mstack ps_incstack ps_incdirs] in *.
        cbn. rewrite E3, removelast_snoc. split; [|exact Hg']. repeat split; assumption.
    - intros r' s (Hc & Hg'). destruct (lang_ge l SV2005).
      + eapply spec_imp; [|apply spec_lift, unescape_ospec]. intros a s' (_ & ->). auto.
      + cbn. auto.
  Qed.
  Lemma visit_call_spec src m out st : good st -> binv out -> need st <= N -> 1 <= tk_line (mc_tok m) ->
    spec (visit_call l rs src m out st) (post st out).
  Proof.
    intros Hg Hb Hn Hline. unfold visit_call. eapply spec_bind; [apply call_text_spec; assumption|].
    intros r s (Hc & Hg'). unfold mbind, lift.
    destruct (set_line_inv out (line0 (tk_line (mc_tok m))) Hb) as (b' & -> & Hb' & X).
    cbn. destruct (buf_put_inv b' r Hb') as (B2 & X2).
    split; [exact Hc|]. split; [exact Hg'|]. split; [exact B2|]. eapply ext_trans; eassumption.
  Qed.
  Lemma visit_include_spec src added tok arg out st : good st -> binv out -> need st <= N ->
    (added = true -> ps_incdirs st <> []) ->
    (forall m, arg = inr m -> 1 <= tk_line (mc_tok m)) ->
    spec (visit_include l fs rs rf src added tok arg out st) (post st out).
  Proof.
    intros Hg Hb Hn Had Hline. unfold visit_include.
    eapply (spec_bind _ _ _ (fun _ st' => ctx_eq st st' /\ good st')).
    { destruct arg as [s|m]; [cbn; split; [apply ctx_eq_refl|exact Hg]|].
      apply call_text_spec; try assumption. apply Hline. reflexivity. }
    intros p s1 (Hc1 & Hg1).
    eapply spec_bind with (Q := fun a s => a = s1 /\ s = s1); [cbn; auto|]. intros a s (-> & ->).
    eapply spec_bind; [apply spec_lift, find_include_ospec|]. intros f s (_ & ->).
    destruct f as [name|]; [|exact I].
    destruct (Nat.ltb_spec include_depth_limit (length (ps_incstack s1))) as [H|H]; [exact I|].
    assert (added = true -> ps_incdirs s1 <> []) as Had1.
    { intros E. destruct Hc1 as (-> & _). auto. }
    eapply (spec_bind _ _ _ (fun _ s => s = if added then set_incdirs s1 (removelast (ps_incdirs s1)) else s1)).
    { destruct added; [|reflexivity]. destruct (rev (ps_incdirs s1)) as [|x r] eqn:Er; [|reflexivity].
      apply (f_equal (@rev _)) in Er. rewrite rev_involutive in Er. exfalso. apply Had1; [reflexivity|exact Er]. }
    intros _ s ->.
    eapply spec_bind; [apply spec_lift, new_buf_ospec; lia|]. intros b0 s (-> & ->).
    set (s2 := if added then set_incdirs s1 (removelast (ps_incdirs s1)) else s1).
    assert (ps_incstack s2 = ps_incstack s1 /\ ps_mstack s2 = ps_mstack s1 /\ ps_db s2 = ps_db s1) as (Ei & Em & Ed)
      by (unfold s2; destruct added; auto).
    eapply spec_bind.
    { apply Hrf; [unfold good; rewrite Ed; exact Hg1|apply binv0_new; lia|rewrite Ei; exact H|].
      rewrite <- (need_ctx _ _ Hc1) in Hn. unfold need in *. rewrite Ei, Em. exact Hn. }
    intros b s3 ((E1 & E2 & E3) & Hg3 & (Hm3 & Hb3 & Ha3) & _).
    assert (accounted b) as Hab by exact Ha3.
    destruct (buf_append_inv out b Hb Hab) as (B2 & X2).
    destruct Hc1 as (C1 & C2 & C3).
    destruct added; cbn.
    - split; [|split; [exact Hg3|split; [exact B2|exact X2]]].
      unfold ctx_eq. cbn [set_incdirs ps_incdirs ps_incstack ps_mstack] in *. rewrite E1, E2, E3, Ei, Em. unfold s2.
      cbn [set_incdirs ps_incdirs ps_incstack ps_mstack]. repeat split; try congruence.
      rewrite <- C1. rewrite <- app_removelast_last; [reflexivity|]. apply Had1. reflexivity.
    - split; [|split; [exact Hg3|split; [exact B2|exact X2]]].
      unfold s2 in *. repeat split; congruence.
  Qed.
  Lemma visit_define_spec src d st : good st -> def_P hidden_nonempty d ->
    spec (visit_define src d st) (fun _ st' => ctx_eq st st' /\ good st').
  Proof.
    intros Hg Hd. unfold visit_define.
    set (params := match dd_args d with Some ps => map conv_param ps | None => [] end).
    set (hp := match dd_args d with Some _ => true | None => false end).
    assert (ospec (body <- define_body d;; wrap_parse_exn src (dd_tok d) (new_macro (dd_name d) hp params body))
                  (fun m => mdef_ok (MUser m))) as H.
    { eapply ospec_bind; [apply define_body_ospec; exact Hd|]. intros body _. apply wrap_ospec.
      destruct (new_macro_safe (dd_name d) hp params body) as [(m & E)|(msg & E)]; rewrite E; [|exact I].
      cbn. eexists _, _, _, _. exact E. }
    destruct (body <- define_body d;; wrap_parse_exn src (dd_tok d) (new_macro (dd_name d) hp params body)); try exact H.
    cbn. split; [repeat split|]. unfold good. cbn [set_db ps_db]. apply db_ok_insert; [exact Hg|exact H].
  Qed.
  Lemma visit_undef_spec name st : good st -> spec (visit_undef name st) (fun _ st' => ctx_eq st st' /\ good st').
  Proof.
    intros Hg. unfold visit_undef. destruct (db_find (ps_db st) name) as [e|].
    - destruct (e_persistent e); cbn; [split; [repeat split|exact Hg]|left; reflexivity].
    - cbn. split; [repeat split|exact Hg].
  Qed.

  (** Lines of tokens start at 1. *)
  Definition tokP (t : token) : Prop := hidden_nonempty t /\ 1 <= tk_line t.
  Lemma def_P_imp (P Q : token -> Prop) d : (forall t, P t -> Q t) -> def_P P d -> def_P Q d.
  Proof.
    intros H (H1 & H2 & H3). split; [auto|]. split.
    - destruct (dd_args d); [|exact I]. eapply Forall_impl; [|exact H2]. intros p Hp.
      eapply Forall_impl; [|exact Hp]. exact H.
    - destruct (dd_repl d); [|exact I]. eapply Forall_impl; [|exact H3]. exact H.
  Qed.

  Variable src : str.
  Variable added : bool.
  Definition can_visit (st : pst) : Prop := good st /\ need st <= N /\ (added = true -> ps_incdirs st <> []).
  Lemma can_visit_next st st' : can_visit st -> ctx_eq st st' -> good st' -> can_visit st'.
  Proof.
    intros (_ & H2 & H3) Hc Hg. split; [exact Hg|]. rewrite (need_ctx _ _ Hc). destruct Hc as (-> & _).
    split; assumption.
  Qed.
  Lemma visit_spec_all :
    (forall ts, texts_P tokP ts -> forall out st, can_visit st -> binv out ->
       spec (visit_texts l fs rs rf src added ts out st) (post st out)) /\
    (forall t, text_P tokP t -> forall out st, can_visit st -> binv out ->
       spec (visit_text l fs rs rf src added t out st) (post st out)) /\
    (forall bs, branches_P tokP bs -> forall neg els out st, can_visit st -> binv out ->
       (forall out st, can_visit st -> binv out -> spec (els out st) (post st out)) ->
       spec (visit_branches l fs rs rf src added neg bs els out st) (post st out)) /\
    (forall e, else_P tokP e -> forall out st, can_visit st -> binv out ->
       spec (visit_else l fs rs rf src added e out st) (post st out)).
  Proof.
    assert (forall out st, can_visit st -> binv out -> post st out out st) as HR.
    { intros out st (Hg & _) Hb. split; [apply ctx_eq_refl|]. split; [exact Hg|]. split; [exact Hb|apply ext_refl]. }
    assert (forall (m : MM unit) out st, can_visit st -> binv out ->
       spec (m st) (fun _ st' => ctx_eq st st' /\ good st') -> spec ((m ;;; ret out) st) (post st out)) as HU.
    { intros m out st Hv Hb Hm. eapply spec_bind; [exact Hm|]. intros _ st' (Hc & Hg). cbn.
      split; [exact Hc|]. split; [exact Hg|]. split; [exact Hb|apply ext_refl]. }
    assert (forall ts, (texts_P tokP ts -> forall out st, can_visit st -> binv out ->
       spec (visit_texts l fs rs rf src added ts out st) (post st out)) ->
       forall line out st, texts_P tokP ts -> can_visit st -> binv out ->
       spec ((out' <-- lift (set_line out line);;; visit_texts l fs rs rf src added ts out') st) (post st out)) as HG.
    { intros ts IH line out st Hts Hv Hb. unfold mbind, lift.
      destruct (set_line_inv out line Hb) as (b' & -> & Hb' & X).
      eapply spec_imp; [|apply IH; [exact Hts|exact Hv|exact Hb']].
      intros b s (H1 & H2 & H3 & H4). split; [exact H1|]. split; [exact H2|]. split; [exact H3|].
      eapply ext_trans; eassumption. }
    apply tree_mut.
    - intros _ out st Hv Hb. cbn. apply HR; assumption.
    - intros t IHt ts IHts (Ht & Hts) out st Hv Hb. cbn [visit_texts].
      eapply spec_bind; [apply IHt; assumption|]. intros b s (H1 & H2 & H3 & H4).
      eapply spec_imp; [|apply IHts; [exact Hts|eapply can_visit_next; eassumption|exact H3]].
      intros b' s' (G1 & G2 & G3 & G4). split; [eapply ctx_eq_trans; eassumption|]. split; [exact G2|].
      split; [exact G3|]. eapply ext_trans; eassumption.
    - intros t Ht out st Hv Hb. cbn [visit_text]. unfold mbind, lift.
      destruct (set_line_inv out (line0 (tk_line t)) Hb) as (b' & -> & Hb' & X). cbn.
      destruct (buf_put_inv b' (tk_text t) Hb') as (B2 & X2). destruct Hv as (Hg & _).
      split; [apply ctx_eq_refl|]. split; [exact Hg|]. split; [exact B2|]. eapply ext_trans; eassumption.
    - intros d Hd out st Hv Hb. cbn [visit_text]. apply HU; try assumption. apply visit_define_spec; [apply Hv|].
      eapply def_P_imp; [|exact Hd]. intros t Ht. apply Ht.
    - intros neg bs IHb e IHe (Hbs & He) out st Hv Hb. cbn [visit_text]. apply IHb; try assumption.
      intros out' st' Hv' Hb'. apply IHe; assumption.
    - intros m (Hm & _) out st Hv Hb. cbn [visit_text]. destruct Hv as (Hg & Hn & _).
      apply visit_call_spec; try assumption. apply Hm.
    - intros name _ out st Hv Hb. cbn [visit_text]. apply HU; try assumption. apply visit_undef_spec. apply Hv.
    - intros tok arg (_ & Ha) out st Hv Hb. cbn [visit_text]. destruct Hv as (Hg & Hn & Had).
      apply visit_include_spec; try assumption. intros m ->. destruct Ha as (Hm & _). apply Hm.
    - intros n f _ out st Hv Hb. cbn [visit_text]. destruct Hb as (Hm & Hb0).
      destruct (set_file_line_inv out f (parse_size_t n) Hb0) as (b' & E & Hb' & X).
      unfold lift. rewrite E. cbn. split; [apply ctx_eq_refl|]. split; [apply Hv|]. split; assumption.
    - intros _ out st Hv Hb. cbn [visit_text]. apply HU; try assumption. cbn. split; [repeat split|].
      unfold good. cbn [set_db ps_db]. apply db_ok_np. apply Hv.
    - intros t _ out st Hv Hb. cbn. apply HR; assumption.
    - intros _ neg els out st Hv Hb Hels. cbn [visit_branches]. apply Hels; assumption.
    - intros name line g IHg bs IHbs (Hg & Hbs) neg els out st Hv Hb Hels. cbn [visit_branches].
      eapply spec_bind with (Q := fun a s => a = st /\ s = st); [cbn; auto|]. intros a s (-> & ->). cbv zeta.
      destruct (Bool.eqb _ (negb neg)).
      + apply HG; assumption.
      + apply IHbs; assumption.
    - intros _ out st Hv Hb. cbn. apply HR; assumption.
    - intros line g IHg Hg out st Hv Hb. cbn [visit_else]. apply HG; assumption.
  Qed.
End Level.

(** Token lines *)
Lemma lex_loop_lines : forall fuel st s line col ts, lex_loop fuel st s line col = Ok ts -> 1 <= line ->
  Forall (fun t => 1 <= tk_line t) ts.
Proof.
  induction fuel as [|fuel IH]; intros st s line col ts; [destruct s; [|discriminate]; intros H; inversion H; constructor|].
  destruct s as [|c s]; [intros H; inversion H; constructor|]. rewrite lex_loop_S.
  destruct (best_rule (mode_rules (lx_mode st)) (c :: s) None) as [[r [|n]]|]; try discriminate.
  intros H Hl. apply bind_ok in H as ([st' e] & EA & H).
  pose proof (advance_line (firstn (S n) (c :: s)) line col) as HA.
  destruct (advance (firstn (S n) (c :: s)) line col) as [l' c']. cbn [fst] in HA.
  apply bind_ok in H as (rest & EL & H). apply IH in EL; [|lia]. destruct e as [|t ch x]; inversion H; subst; [exact EL|].
  constructor; [exact Hl|exact EL].
Qed.
Lemma lex_tokP s ts : lex s = Ok ts -> Forall tokP ts.
Proof.
  intros H. unfold lex in H. apply Forall_and; [eapply lex_loop_hidden; exact H|].
  eapply lex_loop_lines; [exact H|lia].
Qed.

Lemma run_preproc_spec l fs rs rf N src added input out st :
  (forall input out st, good st -> binv0 out -> need st < N -> spec (rs input out st) (post st out)) ->
  (forall file out st, good st -> binv0 out ->
    length (ps_incstack st) <= include_depth_limit -> need st <= N -> spec (rf file out st) (post st out)) ->
  can_visit N added st -> binv out ->
  spec (run_preproc l fs rs rf src added input out st) (post st out).
Proof.
  intros Hrs Hrf Hv Hb. rewrite run_preproc_eq.
  pose proof (pp_parse_res tokP l input (lex_tokP input)) as HP.
  destruct (pp_parse l input) as [tree|e|w|].
  - destruct (is_verilog l); [|exact I].
    apply (proj1 (visit_spec_all l fs rs rf N Hrs Hrf src added)); assumption.
  - subst e. exact I.
  - pose proof (lex_safe input) as HL. rewrite HP in HL. right. exact HL.
  - contradiction.
Qed.

(** Every level: enough fuel for the state gives the invariants. *)
Lemma run_spec l fs : forall fuel,
  (forall input out st, good st -> binv0 out -> need st < fuel ->
     spec (run_str fuel l fs input out st) (post st out)) /\
  (forall file out st, good st -> binv0 out ->
     length (ps_incstack st) <= include_depth_limit -> need st <= fuel ->
     spec (run_file fuel l fs file out st) (post st out)).
Proof.
  induction fuel as [|fuel (IHs & IHf)].
  - split; [intros; lia|]. intros file out st _ _ Hi Hn. exfalso. unfold need in Hn. lia.
  - split.
    + intros input out st Hg Hb Hn. rewrite run_str_S. unfold mbind, lift.
      destruct (set_file_line_inv out (src_name st) 0 Hb) as (b' & -> & Hb' & X).
      eapply spec_imp; [|eapply (run_preproc_spec l fs _ _ fuel); [exact IHs|exact IHf| |exact Hb']].
      * intros b s (H1 & H2 & H3 & H4). split; [exact H1|]. split; [exact H2|]. split; [exact H3|].
        eapply ext_trans; eassumption.
      * split; [exact Hg|]. split; [lia|discriminate].
    + intros file out st Hg Hb Hi Hn. rewrite run_file_S. destruct (fs file) as [input|]; [|exact I].
      eapply spec_bind.
      * unfold mbind, lift.
        destruct (set_file_line_inv out file 0 Hb) as (b' & -> & Hb' & X).
        eapply (spec_imp _ (fun b s => post (enter_file file st) out b s));
          [intros b s H; exact H|].
        eapply spec_imp; [|eapply (run_preproc_spec l fs _ _ fuel); [exact IHs|exact IHf| |exact Hb']].
        -- intros b s (H1 & H2 & H3 & H4). split; [exact H1|]. split; [exact H2|]. split; [exact H3|].
           eapply ext_trans; eassumption.
        -- split; [exact Hg|]. split.
           ++ unfold need, enter_file in *. cbn [ps_mstack ps_incstack]. rewrite app_length. cbn [length]. lia.
           ++ intros E. unfold enter_file. cbn [ps_incdirs]. rewrite E. destruct (ps_incdirs st); discriminate.
      * intros b s ((E1 & E2 & E3) & Hg' & Hb' & X). cbn. unfold enter_file, leave_file in *.
        cbn [ps_incdirs ps_incstack ps_mstack] in *.
        split; [|split; [exact Hg'|split; [exact Hb'|exact X]]].
        unfold ctx_eq. cbn [ps_incdirs ps_incstack ps_mstack]. rewrite E1, E2, E3, removelast_snoc.
        destruct (add_dir file st); rewrite ?removelast_snoc; auto.
Qed.

Lemma pp_init_need l d dirs : need (pp_init l d dirs) < enough_fuel.
Proof. unfold need, pp_init, enough_fuel. cbn [ps_mstack ps_incstack length]. lia. Qed.
Lemma pp_init_good l d dirs : db_ok d -> good (pp_init l d dirs).
Proof. intros H. unfold good, pp_init. cbn [ps_db]. apply db_ok_default, db_ok_np. exact H. Qed.

Lemma verilog_pp_str_spec l fs d dirs s : db_ok d ->
  spec (verilog_pp_str l fs d dirs s) (post (pp_init l d dirs) (mkBuf [] [] 0 0 0)).
Proof.
  intros H. change (verilog_pp_str l fs d dirs s) with (run_str enough_fuel l fs s (mkBuf [] [] 0 0 0) (pp_init l d dirs)). apply run_spec; [apply pp_init_good; exact H|apply binv0_new; lia|apply pp_init_need].
Qed.
Lemma verilog_pp_file_spec l fs d dirs file : db_ok d ->
  spec (verilog_pp_file l fs d dirs file) (post (pp_init l d dirs) (mkBuf [] [] 0 0 0)).
Proof.
  intros H. rewrite verilog_pp_file_eq. apply run_spec; [apply pp_init_good; exact H|apply binv0_new; lia| |].
  - cbn. lia.
  - pose proof (pp_init_need l d dirs). lia.
Qed.
