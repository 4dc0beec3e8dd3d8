(** The tokens of a Verilog source hold texts that Python can store. *)
From Verif Require Import Base BaseFacts StrSpec StrUtilsModel AstModel StmModel LitModel SvExprModel SvSyntaxModel VhdlLexSpec SvLexModel SvLexSpec SvSpellSpec SvStmSyntaxModel SvStmSpellSpec SvModSyntaxModel SvModSyntaxSpec SvModSpellSpec.
From Verif Require Import SvDeclModel SvDeclProofs SvFileModel ConvertPySvModel PpSrcSpec ConvertSpec PySpec Utf8Proofs PySeenSpec VhdlTextSpec PyObjModel PyObjSpec SvPySpec SvPyProofs SvPyProofs2.

Lemma plain_app s t : plain_text (s ++ t) = plain_text s && plain_text t.
Proof. apply forallb_app. Qed.
Lemma plain_cons c t : plain_text (c :: t) = plain_char c && plain_text t.
Proof. reflexivity. Qed.
Lemma all_plain (P : ascii -> bool) s : (forall c, P c = true -> plain_char c = true) -> SvLexSpec.all P s -> plain_text s = true.
Proof. intros K F. apply forallb_forall. intros c I. apply K. unfold SvLexSpec.all in F. rewrite Forall_forall in F. exact (F c I). Qed.
Lemma word_char_plain c : SvLexSpec.word_char c = true -> plain_char c = true.
Proof. destruct c as [[] [] [] [] [] [] [] []]; cbv; congruence. Qed.
Lemma word_start_plain c : word_start c = true -> plain_char c = true.
Proof. destruct c as [[] [] [] [] [] [] [] []]; cbv; congruence. Qed.
Lemma white_plain c : white c = true -> plain_char c = true.
Proof. destruct c as [[] [] [] [] [] [] [] []]; cbv; congruence. Qed.
Lemma printing_plain c : between 33 126 c = true -> plain_char c = true.
Proof. destruct c as [[] [] [] [] [] [] [] []]; cbv; congruence. Qed.
Lemma mem_plain c l : plain_text l = true -> In c l -> plain_char c = true.
Proof. intros P I. unfold plain_text in P. rewrite forallb_forall in P. exact (P c I). Qed.
Lemma digits_plain (P : ascii -> bool) s : (forall c, P c = true -> plain_char c = true) -> digits_in P s -> plain_text s = true.
Proof.
  intros K (c & t & -> & H & F). rewrite plain_cons, (K c H). cbn [andb]. apply (all_plain (fun x => P x || ceqb x "_")); [|exact F]. intros x X. apply orb_prop in X as [X|X]; [exact (K x X)|]. apply ceqb_eq in X as ->. reflexivity.
Qed.
Lemma unsigned_plain s : unsigned s -> plain_text s = true.
Proof. apply digits_plain. intros c. destruct c as [[] [] [] [] [] [] [] []]; cbv; congruence. Qed.
Lemma value_plain b s : value_of b s -> plain_char b = true /\ plain_text s = true.
Proof.
  intros [[B H]|[[B H]|[[B H]|[B H]]]]; (split; [eapply mem_plain; [|exact B]; reflexivity|]).
  - destruct H as [H|(c & t & -> & C & F)]; [apply unsigned_plain; exact H|]. rewrite plain_cons, (mem_plain c x_or_z eq_refl C). cbn [andb]. apply (all_plain (ceqb "_")); [|exact F]. intros x X. apply ceqb_eq in X as <-. reflexivity.
  - revert H. apply digits_plain. intros c. destruct c as [[] [] [] [] [] [] [] []]; cbv; congruence.
  - revert H. apply digits_plain. intros c. destruct c as [[] [] [] [] [] [] [] []]; cbv; congruence.
  - revert H. apply digits_plain. intros c. destruct c as [[] [] [] [] [] [] [] []]; cbv; congruence.
Qed.
Lemma word_plain s : (exists c t, s = c :: t /\ word_start c = true /\ SvLexSpec.all SvLexSpec.word_char t) -> s <> [] /\ plain_text s = true.
Proof. intros (c & t & -> & H & F). split; [discriminate|]. rewrite plain_cons, (word_start_plain c H). exact (all_plain _ _ word_char_plain F). Qed.
Lemma tok_good v l t : elem_ok v l -> (forall s, l = T_string s -> sendable_text s = true) -> spells v t l -> good t.
Proof.
  intros O S H. destruct l as [w|w|s w|s|n g b w s|s|a e|a u|c|s|d]; cbn [spells elem_ok elem_text] in *.
  - destruct t; try (destruct H; fail); [|exact Logic.I]. destruct H as [-> _]. exact (word_plain _ O).
  - destruct H.
  - subst t. destruct O as (N & F & _ & Fw). exists (s ++ w). split; [reflexivity|]. split; [destruct s; [congruence|discriminate]|]. rewrite plain_app, (all_plain _ _ printing_plain F), (all_plain _ _ white_plain Fw). reflexivity.
  - subst t. exact (unsigned_plain _ O).
  - destruct O as (On & Og & Ow & Ov). destruct (value_plain _ _ Ov) as [Pb Ps]. assert (Pn : plain_text n = true) by (destruct On as [On|On]; [subst n; reflexivity|exact (unsigned_plain _ On)]).
    assert (Pg : plain_text g = true) by (destruct Og as [<-|[<-|[<-|[]]]]; reflexivity).
    assert (K : plain_text (n ++ "'"%char :: g ++ b :: w ++ s) = true) by (rewrite plain_app, plain_cons, plain_app, plain_cons, plain_app, Pn, Pg, Pb, Ps, (all_plain _ _ white_plain Ow); reflexivity). destruct n; subst t; exact K.
  - subst t. exact Logic.I.
  - subst t. exact Logic.I.
  - subst t. exact Logic.I.
  - subst t. cbn [good]. rewrite plain_cons, plain_cons, (mem_plain c $"01xXzZ" eq_refl O). reflexivity.
  - subst t. exists s. split; [reflexivity|]. apply S. reflexivity.
  - destruct t; try discriminate H; exact Logic.I.
Qed.
Definition a_word (w : str) : bool := negb (length w =? 0) && plain_text w.
Lemma words_good w l : forallb a_word l = true -> In w l -> w <> [] /\ plain_text w = true.
Proof. rewrite forallb_forall. intros F I. specialize (F w I). apply andb_prop in F as [F1 F2]. split; [|exact F2]. destruct w; [discriminate|discriminate]. Qed.
Lemma mtk_good v l t : elem_ok v l -> (forall s, l = T_string s -> sendable_text s = true) -> spells_mtk v t l -> good_m t.
Proof.
  intros O S H. destruct t as [t| | | | |]; cbn [spells_mtk] in H; [|exact Logic.I|..].
  - destruct t; try exact Logic.I. exact (tok_good v l _ O S H).
  - destruct H as (_ & I & _). exact (words_good w net_types eq_refl I).
  - destruct H as (_ & I & _). exact (words_good w vector_types eq_refl I).
  - destruct H as (_ & I & _). exact (words_good w atom_types eq_refl I).
  - destruct H as (_ & I & _). exact (words_good w real_types eq_refl I).
Qed.
Lemma elems_ok v ps out : plain_verilog v ps out -> Forall (elem_ok v) (elems ps).
Proof. induction 1 as [|p ps s O _ _ _ IH]; [constructor|]. destruct p; cbn [elems]; try exact IH. constructor; [exact O|exact IH]. Qed.
Lemma source_good v ps out ts : plain_verilog v ps out -> spelled_mod v ts (elems ps) -> (forall s, In (T_string s) (elems ps) -> sendable_text s = true) -> Forall good_m ts.
Proof.
  intros P S K. apply elems_ok in P. unfold spelled_mod in S. revert P K. induction S as [|t l ts ls H _ IH]; intros P K; [constructor|]. inversion P as [|? ? O P']; subst. constructor; [|apply IH; [exact P'|intros s I; apply K; right; exact I]].
  eapply mtk_good; [exact O| |exact H]. intros s ->. apply K. left. reflexivity.
Qed.
(** In a text that is UTF-8 without NUL the strings are. *)
Lemma utf8_strings v ps out : plain_verilog v ps out -> sendable_text out = true -> forall s, In (T_string s) (elems ps) -> sendable_text s = true.
Proof.
  intros P U s I. revert U I. assert (G : forall a, sendable_text (a ++ out) = true -> In (T_string s) (elems ps) -> sendable_text s = true); [|intros U; exact (G [] U)].
  induction P as [|p ps t O _ _ _ IH]; intros a U I; [destruct I|]. rewrite app_assoc in U. destruct p as [l|w|x e|x]; cbn [elems] in I; try exact (IH _ U I). destruct I as [->|I]; [|exact (IH _ U I)].
  cbn [part_text elem_text] in U. rewrite <- app_assoc in U. cbn [app] in U. apply sendable_split in U as [_ U]; [|cbv; reflexivity]. rewrite <- app_assoc in U. cbn [app] in U. apply sendable_split in U as [U _]; [exact U|cbv; reflexivity].
Qed.
Lemma utf8_verilog l text f : utf8_source l text f -> verilog_source l text f.
Proof. intros [p out ps ts f' W M L P S F _]. exact (a_source l p out ps ts f' W M L P S F). Qed.
Lemma utf8_tokens l text f : utf8_source l text f -> exists ts, is_file f ts /\ Forall good_m ts.
Proof. intros [p out ps ts f' W M L P S F U]. exists ts. split; [exact F|exact (source_good l ps out ts P S U)]. Qed.
Theorem utf8_readable l text f objs : utf8_source l text f -> known_file f = true -> conv_source f = Ok objs -> forallb readable_obj (map of_fobj objs) = true.
Proof. intros S K C. destruct (utf8_tokens l text f S) as (ts & F & G). exact (file_rd true f ts objs F G K C). Qed.
Lemma concatM_app {X Y} (g : X -> outcome (list Y)) a b r : concatM g (a ++ b) = Ok r -> exists x y, concatM g a = Ok x /\ concatM g b = Ok y /\ r = x ++ y.
Proof.
  revert r. induction a as [|e a IH]; intros r H; [exists [], r; repeat split; exact H|]. change (bind (g e) (fun u => bind (concatM g (a ++ b)) (fun w => Ok (u ++ w))) = Ok r) in H. repeat binv H. injection H as <-. destruct (IH _ Hx0) as (u & w & A & B & ->).
  exists (x ++ u), w. split; [change (bind (g e) (fun u => bind (concatM g a) (fun w => Ok (u ++ w))) = Ok (x ++ u)); rewrite Hx, A; reflexivity|]. split; [exact B|apply app_assoc].
Qed.
Theorem files_readable l (src : str -> str -> Prop) files fl : Forall2 (fun file f => exists text, src file text /\ utf8_source l text f) files fl -> known_file (List.concat fl) = true ->
  forall objs, conv_source (List.concat fl) = Ok objs -> forallb readable_obj (map of_fobj objs) = true.
Proof.
  induction 1 as [|file f files fl (text & _ & S) _ IH]; intros K objs C; [injection C as <-; reflexivity|]. cbn [List.concat] in *. unfold known_file in K. rewrite forallb_app in K. apply andb_prop in K as [K1 K2]. apply concatM_app in C as (a & b & Ca & Cb & ->).
  rewrite map_app, forallb_app, (utf8_readable l text f a S K1 Ca), (IH K2 b Cb). reflexivity.
Qed.
