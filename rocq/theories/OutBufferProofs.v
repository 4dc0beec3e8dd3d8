(** Lemmas about the output buffer model. *)
From Verif Require Import Base BaseFacts OutBufferModel.
From Coq Require Import ZifyBool ZifyNat ZifyN.
Ltac Zify.zify_post_hook ::= Z.div_mod_to_equations.
Local Open Scope Z_scope.

Lemma two64_val : two64 = 18446744073709551616.
Proof. reflexivity. Qed.
Lemma two63_val : 2 ^ 63 = 9223372036854775808.
Proof. reflexivity. Qed.

(** Equality of 64 bit machine integers. *)
Definition cong (a b : Z) : Prop := (a - b) mod two64 = 0.
Lemma cong_refl a : cong a a.
Proof. unfold cong. rewrite Z.sub_diag. reflexivity. Qed.
Lemma cong_sym a b : cong a b -> cong b a.
Proof. unfold cong. rewrite two64_val. lia. Qed.
Lemma cong_trans a b c : cong a b -> cong b c -> cong a c.
Proof. unfold cong. rewrite two64_val. lia. Qed.
Lemma cong_add a b c d : cong a b -> cong c d -> cong (a + c) (b + d).
Proof. unfold cong. rewrite two64_val. lia. Qed.
Lemma cong_sub a b c d : cong a b -> cong c d -> cong (a - c) (b - d).
Proof. unfold cong. rewrite two64_val. lia. Qed.
Lemma to_size_cong a : cong (to_size a) a.
Proof. unfold cong, to_size. rewrite two64_val. lia. Qed.
Lemma to_ssize_cong a : cong (to_ssize a) a.
Proof.
  unfold cong, to_ssize. rewrite two63_val, two64_val. cbv zeta.
  destruct (Z.ltb_spec (a mod 18446744073709551616) 9223372036854775808); lia.
Qed.
Lemma cong_to_size a b : cong a b <-> to_size a = to_size b.
Proof. unfold cong, to_size. rewrite two64_val. lia. Qed.
Lemma cong_small a b : cong a b -> 0 <= a < two64 -> 0 <= b < two64 -> a = b.
Proof. unfold cong. rewrite two64_val. lia. Qed.

(** The buffer's idea of the current input line. *)
Definition cur_line (b : outbuf) : Z := ob_line b + ob_off b + ob_begin b.

Lemma buf_endls_eq n : forall b,
  buf_endls n b = mkBuf (ob_text b ++ repeat nl n) (ob_map b)
                        (ob_line (buf_endls n b)) (ob_off b) (ob_begin b).
Proof.
  induction n as [|n IH]; intros b; cbn [buf_endls repeat].
  - rewrite app_nil_r. destruct b; reflexivity.
  - rewrite IH at 1. cbn [buf_endl ob_text ob_map ob_off ob_begin].
    rewrite <- app_assoc. reflexivity.
Qed.
Lemma buf_endls_line n : forall b, cong (ob_line (buf_endls n b)) (ob_line b + Z.of_nat n).
Proof.
  induction n as [|n IH]; intros b; cbn [buf_endls].
  - rewrite Z.add_0_r. apply cong_refl.
  - eapply cong_trans; [apply IH|]. cbn [buf_endl ob_line].
    replace (ob_line b + Z.of_nat (S n)) with (ob_line b + 1 + Z.of_nat n) by lia.
    apply cong_add; [apply to_size_cong|apply cong_refl].
Qed.

(** set_line with the current line already right emits nothing. *)
Lemma set_line_same b line : ob_map b <> [] -> cong (cur_line b) line ->
  exists b', set_line b line = Ok b' /\ ob_text b' = ob_text b /\ ob_map b' <> []
             /\ cong (cur_line b') line /\ ob_begin b' = ob_begin b.
Proof.
  intros Hm Hc. unfold set_line, lines_to_add.
  assert (to_size (line - (ob_line b + ob_off b + ob_begin b)) = 0) as ->.
  { unfold cong, cur_line, to_size in *. rewrite two64_val in *. lia. }
  cbn [Z.ltb Z.compare andb]. destruct (rev (ob_map b)) as [|last r] eqn:Er.
  - apply (f_equal (@rev _)) in Er. rewrite rev_involutive in Er. contradiction.
  - eexists. split; [reflexivity|]. cbn [ob_text ob_map ob_begin]. split; [reflexivity|].
    split; [destruct (ob_map b); discriminate|]. split; [|reflexivity].
    unfold cur_line. cbn [ob_line ob_off ob_begin]. eapply cong_trans; [|exact Hc].
    unfold cur_line. apply cong_add; [|apply cong_refl]. apply cong_add; [apply cong_refl|].
    rewrite Z.add_0_r. apply to_ssize_cong.
Qed.

Lemma buf_put_cur b s : cong (cur_line (buf_put b s)) (cur_line b + Z.of_nat (count_nl s)).
Proof.
  unfold cur_line. cbn [buf_put ob_line ob_off ob_begin].
  replace (ob_line b + ob_off b + ob_begin b + Z.of_nat (count_nl s))
    with (ob_line b + Z.of_nat (count_nl s) + ob_off b + ob_begin b) by lia.
  repeat (apply cong_add; [|apply cong_refl]). apply to_size_cong.
Qed.

(** A re-synchronisation that emits no newline. *)
Lemma set_line_resync b line : ob_map b <> [] ->
  ~ (0 < lines_to_add b line <= NEWLINE_TRESHOLD) ->
  exists b', set_line b line = Ok b' /\ ob_text b' = ob_text b /\ ob_map b' <> []
             /\ cong (cur_line b') line /\ ob_begin b' = ob_begin b.
Proof.
  intros Hm Hn. unfold set_line.
  destruct ((0 <? lines_to_add b line) && (lines_to_add b line <=? NEWLINE_TRESHOLD)) eqn:E; [lia|].
  destruct (rev (ob_map b)) as [|last r] eqn:Er.
  - apply (f_equal (@rev _)) in Er. rewrite rev_involutive in Er. contradiction.
  - eexists. split; [reflexivity|]. cbn [ob_text ob_map ob_begin]. split; [reflexivity|].
    split; [destruct (ob_map b); discriminate|]. split; [|reflexivity].
    unfold cur_line. cbn [ob_line ob_off ob_begin].
    eapply cong_trans.
    + apply cong_add; [apply cong_add; [apply cong_refl|apply to_ssize_cong]|apply cong_refl].
    + unfold lines_to_add, to_size, cong. rewrite two64_val. lia.
Qed.
