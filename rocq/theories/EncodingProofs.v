From Verif Require Import Base BaseFacts EncodingModel EncodingSpec.

Lemma head_iso c r : utf8_head (bytes (iso_char c) ++ r) = Some (N_of_ascii c, r).
Proof. destruct c as [[] [] [] [] [] [] [] []]; vm_compute; reflexivity. Qed.
Lemma iso_decodes s : decodes (bytes (iso_8859_1_to_utf8 s)) (bytes s).
Proof.
  induction s as [|c s IH]; [constructor|]. cbn [iso_8859_1_to_utf8]. unfold bytes. rewrite map_app.
  change (decodes (bytes (iso_char c) ++ bytes (iso_8859_1_to_utf8 s)) (N_of_ascii c :: bytes s)).
  econstructor; [apply head_iso|exact IH].
Qed.
Lemma decodes_fun s : forall a b, decodes s a -> decodes s b -> a = b.
Proof.
  intros a b H. revert b. induction H as [|s c r cps E H IH]; intros b Hb; inversion Hb; subst.
  - reflexivity.
  - discriminate.
  - discriminate.
  - rewrite E in H0. injection H0 as -> ->. f_equal. apply IH. assumption.
Qed.
Lemma bytes_inj s : forall t, bytes s = bytes t -> s = t.
Proof.
  induction s as [|c s IH]; intros [|d t] E; try discriminate; [reflexivity|].
  injection E as E1 E2. f_equal; [|apply IH; exact E2].
  rewrite <- (ascii_N_embedding c), <- (ascii_N_embedding d), E1. reflexivity.
Qed.
Lemma iso_inj s t : iso_8859_1_to_utf8 s = iso_8859_1_to_utf8 t -> s = t.
Proof.
  intros E. apply bytes_inj. apply (decodes_fun (bytes (iso_8859_1_to_utf8 s))); [apply iso_decodes|].
  rewrite E. apply iso_decodes.
Qed.
Lemma iso_ascii s : Forall is_ascii s -> iso_8859_1_to_utf8 s = s.
Proof.
  induction 1 as [|c s Hc H IH]; [reflexivity|]. cbn [iso_8859_1_to_utf8]. rewrite IH. unfold iso_char.
  apply N.ltb_lt in Hc. rewrite Hc. reflexivity.
Qed.
Lemma to_utf8_total s enc :
  (enc = $"utf-8" -> to_utf8 s enc = Ok s) /\
  (enc = $"iso-8859-1" -> to_utf8 s enc = Ok (iso_8859_1_to_utf8 s)) /\
  (enc <> $"utf-8" -> enc <> $"utf-16" -> enc <> $"iso-8859-1" ->
     exists m, to_utf8 s enc = Throw (RuntimeError (m ++ enc))).
Proof.
  unfold to_utf8. repeat split.
  - intros ->. reflexivity.
  - intros ->. reflexivity.
  - intros H1 H2 H3.
    destruct (seqb enc $"utf-8") eqn:E1; [apply seqb_eq in E1; contradiction|].
    destruct (seqb enc $"utf-16") eqn:E2; [apply seqb_eq in E2; contradiction|].
    destruct (seqb enc $"iso-8859-1") eqn:E3; [apply seqb_eq in E3; contradiction|].
    eexists. reflexivity.
Qed.
Lemma utf16_ub s : 2 <= length s -> exists w, to_utf8 s $"utf-16" = UB w.
Proof.
  intros H. unfold to_utf8.
  change (seqb $"utf-16" $"utf-8") with false. change (seqb $"utf-16" $"utf-16") with true. cbv iota.
  destruct (Nat.ltb_spec (length s + 1) (2 * length s)); [eexists; reflexivity|lia].
Qed.
