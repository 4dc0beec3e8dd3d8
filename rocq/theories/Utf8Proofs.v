From Verif Require Import Base BaseFacts StrSpec EncodingSpec EncodingModel EncodingProofs PyModel PySpec.

(** ** UTF-8 *)
Lemma head_app s t c r : utf8_head s = Some (c, r) -> utf8_head (s ++ t) = Some (c, r ++ t).
Proof.
  unfold utf8_head. destruct s as [|a s]; [discriminate|]. cbn [app].
  destruct (a <? 128)%N; [intros H; injection H as <- <-; reflexivity|]. destruct (a <? 194)%N; [discriminate|].
  destruct (a <? 224)%N; [destruct s as [|b s]; [discriminate|]; cbn [app]; destruct (cont b); [|discriminate]; intros H; injection H as <- <-; reflexivity|].
  destruct (a <? 240)%N; [destruct s as [|b [|d s]]; try discriminate; cbn [app]; cbv zeta; destruct (_ && _ && _ && _); [|discriminate]; intros H; injection H as <- <-; reflexivity|].
  destruct (a <? 245)%N; [|discriminate]. destruct s as [|b [|d [|f s]]]; try discriminate; cbn [app]; cbv zeta. destruct (_ && _ && _ && _ && _); [|discriminate]. intros H; injection H as <- <-; reflexivity.
Qed.
Lemma decodes_app s a t b : decodes s a -> decodes t b -> decodes (s ++ t) (a ++ b).
Proof. induction 1 as [|s c r cps H D IH]; intros T; [exact T|]. cbn [app]. econstructor; [apply head_app; exact H|apply IH, T]. Qed.
Lemma cont_big b : cont b = true -> (128 <= b)%N.
Proof. unfold cont. intros H. apply andb_prop in H as [H _]. apply N.leb_le, H. Qed.
Lemma head_back s x t c r : (x < 128)%N -> s <> [] -> utf8_head (s ++ x :: t) = Some (c, r) -> exists r', r = r' ++ x :: t /\ utf8_head s = Some (c, r').
Proof.
  intros X. assert (NX : cont x = false). { destruct (cont x) eqn:E; [|reflexivity]. apply cont_big in E. lia. }
  destruct s as [|a s]; [congruence|]. intros _. unfold utf8_head. cbn [app].
  destruct (a <? 128)%N; [intros H; injection H as <- <-; exists s; auto|]. destruct (a <? 194)%N; [discriminate|].
  destruct (a <? 224)%N.
  { destruct s as [|b s]; cbn [app]; [rewrite NX; discriminate|]. destruct (cont b); [|discriminate]. intros H; injection H as <- <-; exists s; auto. }
  destruct (a <? 240)%N.
  { destruct s as [|b [|d s]]; cbn [app].
    - destruct t as [|y t]; [discriminate|]. rewrite NX. discriminate.
    - rewrite NX, andb_false_r. discriminate.
    - cbv zeta. destruct (_ && _ && _ && _); [|discriminate]. intros H; injection H as <- <-; exists s; auto. }
  destruct (a <? 245)%N; [|discriminate]. destruct s as [|b [|d [|f s]]]; cbn [app].
  - destruct t as [|y [|z t]]; try discriminate. rewrite NX. discriminate.
  - destruct t as [|y t]; try discriminate. rewrite NX, andb_false_r. discriminate.
  - rewrite NX, andb_false_r. discriminate.
  - cbv zeta. destruct (_ && _ && _ && _ && _); [|discriminate]. intros H; injection H as <- <-; exists s; auto.
Qed.
Lemma head_shorter s c r : utf8_head s = Some (c, r) -> length r < length s.
Proof.
  unfold utf8_head. destruct s as [|a s]; [discriminate|]. cbn [length].
  destruct (a <? 128)%N; [intros H; injection H as <- <-; lia|]. destruct (a <? 194)%N; [discriminate|].
  destruct (a <? 224)%N; [destruct s as [|b s]; [discriminate|]; destruct (cont b); [|discriminate]; intros H; injection H as <- <-; cbn [length]; lia|].
  destruct (a <? 240)%N; [destruct s as [|b [|d s]]; try discriminate; cbv zeta; destruct (_ && _ && _ && _); [|discriminate]; intros H; injection H as <- <-; cbn [length]; lia|].
  destruct (a <? 245)%N; [|discriminate]. destruct s as [|b [|d [|f s]]]; try discriminate; cbv zeta. destruct (_ && _ && _ && _ && _); [|discriminate]. intros H; injection H as <- <-; cbn [length]; lia.
Qed.
Lemma decodes_split x t : (x < 128)%N -> forall n s cps, length s <= n -> decodes (s ++ x :: t) cps -> exists a b, decodes s a /\ decodes t b.
Proof.
  intros X. induction n as [|n IH]; intros s cps L D.
  - destruct s; [|cbn in L; lia]. inversion D as [|? c r ? Hh Dr]; subst. cbn [app] in Hh. unfold utf8_head in Hh. apply N.ltb_lt in X. rewrite X in Hh. injection Hh as <- <-. exists [], cps0. split; [constructor|exact Dr].
  - destruct s as [|a s].
    + apply (IH []  cps); [cbn; lia|exact D].
    + inversion D as [|? c r ? Hh Dr]; subst. apply head_back in Hh as (r' & -> & Hh); [|exact X|discriminate].
      destruct (IH r' cps0) as (p & q & P & Q); [apply head_shorter in Hh; lia|exact Dr|]. exists (c :: p), q. split; [econstructor; eassumption|exact Q].
Qed.
Lemma is_utf8_decodes s : is_utf8 s = true <-> exists cps, decodes (bytes s) cps.
Proof.
  unfold is_utf8. assert (L : length (bytes s) = length s) by (unfold bytes; apply map_length). rewrite <- L. clear L. generalize (bytes s). clear s. intros s.
  assert (F : forall n s, utf8_valid n s = true -> exists cps, decodes s cps).
  { induction n as [|n IH]; intros t; destruct t as [|a t]; cbn [utf8_valid]; try discriminate; try (intros _; exists []; constructor).
    destruct (utf8_head (a :: t)) as [[c r]|] eqn:E; [|discriminate]. intros H. destruct (IH r H) as (cps & D). exists (c :: cps). econstructor; eassumption. }
  split; [apply F|]. intros (cps & D). assert (G : forall n, length s <= n -> utf8_valid n s = true); [|apply G; lia].
  induction D as [|s c r cps Hh D IH]; intros n L; [destruct n; reflexivity|]. destruct s as [|a s]; [discriminate|]. destruct n as [|n]; [cbn in L; lia|]. cbn [utf8_valid]. rewrite Hh. apply IH. apply head_shorter in Hh. lia.
Qed.
Lemma utf8_app s t : is_utf8 s = true -> is_utf8 t = true -> is_utf8 (s ++ t) = true.
Proof. rewrite !is_utf8_decodes. intros (a & A) (b & B). exists (a ++ b). unfold bytes. rewrite map_app. apply decodes_app; assumption. Qed.
Lemma utf8_split s c t : is_ascii c -> is_utf8 (s ++ c :: t) = true -> is_utf8 s = true /\ is_utf8 t = true.
Proof.
  intros A. rewrite !is_utf8_decodes. intros (cps & D). unfold bytes in D. rewrite map_app in D. cbn [map] in D.
  destruct (decodes_split (N_of_ascii c) (bytes t) A _ (bytes s) cps (le_n _) D) as (a & b & P & Q). eauto.
Qed.
Lemma utf8_ascii s : Forall is_ascii s -> is_utf8 s = true.
Proof.
  induction 1 as [|c s H F IH]; [reflexivity|]. apply (utf8_app [c]); [|exact IH]. rewrite is_utf8_decodes. exists [N_of_ascii c]. econstructor; [|constructor].
  unfold is_ascii in H. cbn. apply N.ltb_lt in H. rewrite H. reflexivity.
Qed.

(** ** Texts for Python *)
Definition no_nul (s : str) : bool := forallb (fun c => negb (ceqb c c0)) s.
Lemma sendable_app s t : sendable_text s = true -> sendable_text t = true -> sendable_text (s ++ t) = true.
Proof.
  unfold sendable_text. intros H K. apply andb_prop in H as [H1 H2], K as [K1 K2]. rewrite (utf8_app _ _ H1 K1). rewrite forallb_app, H2, K2. reflexivity.
Qed.
Lemma sendable_split s c t : is_ascii c -> sendable_text (s ++ c :: t) = true -> sendable_text s = true /\ sendable_text t = true.
Proof.
  intros A. unfold sendable_text. intros H. apply andb_prop in H as [H1 H2]. destruct (utf8_split s c t A H1) as [-> ->]. rewrite forallb_app in H2. apply andb_prop in H2 as [-> H2].
  cbn [forallb] in H2. apply andb_prop in H2 as [_ ->]. auto.
Qed.
Definition plain_char (c : ascii) : bool := (N_of_ascii c <? 128)%N && negb (ceqb c c0).
Lemma sendable_plain s : forallb plain_char s = true -> sendable_text s = true.
Proof.
  intros H. unfold sendable_text. rewrite utf8_ascii.
  - cbn [andb]. apply forallb_forall. intros c Hc. rewrite forallb_forall in H. apply H in Hc. unfold plain_char in Hc. apply andb_prop in Hc as [_ ->]. reflexivity.
  - apply Forall_forall. intros c Hc. rewrite forallb_forall in H. apply H in Hc. unfold plain_char in Hc. apply andb_prop in Hc as [Hc _]. apply N.ltb_lt, Hc.
Qed.
Lemma sendable_replaced (s t : str) : replaced [dq; dq] [dq] s t -> sendable_text s = true -> sendable_text t = true.
Proof.
  assert (A : is_ascii dq) by (cbv; reflexivity). assert (D : sendable_text [dq] = true) by reflexivity.
  induction 1 as [s N|a s t L R IH]; intros H; [exact H|]. cbn [app] in H. apply sendable_split in H as [H1 H2]; [|exact A].
  apply (sendable_split [] dq s A) in H2 as [_ H2]. apply sendable_app; [exact H1|]. apply sendable_app; [exact D|]. apply IH, H2.
Qed.
