From Verif Require Import Base BaseFacts CommentModel CommentSpec.

Lemma strip_line m b : isspace m = false -> strip_marker m (m :: m :: b) = Ok (kept (Line b)).
Proof.
  intros Hm. unfold strip_marker. cbn [skip_blank]. rewrite Hm. cbn [plus].
  change (2 <=? length (m :: m :: b)) with true. cbv iota.
  change (char_at (m :: m :: b) 0) with (Ok m). change (char_at (m :: m :: b) 1) with (Ok m). cbn [bind].
  rewrite ceqb_refl. cbn [andb].
  destruct b as [|c [|d b]]; try reflexivity.
  change (3 <=? length (m :: m :: c :: d :: b)) with true. cbv iota.
  change (char_at (m :: m :: c :: d :: b) 3) with (Ok d). cbn [bind kept].
  destruct (ceqb d sp); unfold substr; cbn [length Nat.ltb Nat.leb skipn]; f_equal.
  - change (firstn (S (S (S (S (length b))))) (d :: b) = d :: b). apply firstn_all2. cbn. lia.
  - change (firstn (S (S (S (S (length b))))) (c :: d :: b) = c :: d :: b). apply firstn_all2. cbn. lia.
Qed.
Lemma strip_block m b : m = "/"%char \/ m = "-"%char -> strip_marker m ($"/*" ++ b ++ $"*/") = Ok ($"/*" ++ b ++ $"*/").
Proof.
  intros Hm. unfold strip_marker. 
  change (skip_blank ($"/*" ++ b ++ $"*/")) with 0. cbn [plus].
  destruct (2 <=? length ($"/*" ++ b ++ $"*/")); [|reflexivity].
  change (char_at ($"/*" ++ b ++ $"*/") 0) with (Ok "/"%char). change (char_at ($"/*" ++ b ++ $"*/") 1) with (Ok "*"%char). cbn [bind].
  destruct Hm as [-> | ->]; reflexivity.
Qed.
Definition marker (m : ascii) : Prop := m = "/"%char \/ m = "-"%char.
Lemma strip_tok m x : marker m -> (if ct_blank (tok_of m x) then Ok [] else strip_marker m (ct_text (tok_of m x))) = Ok (kept x).
Proof.
  intros Hm. destruct x as [s|b|b]; cbn [tok_of ct_blank ct_text]; [reflexivity| |].
  - apply strip_line. destruct Hm as [-> | ->]; reflexivity.
  - apply strip_block, Hm.
Qed.

Lemma first_ok m pre l rest : closed pre -> first_comment (pre ++ map (tok_of m) l ++ rest) (length pre + length l) = Ok (length pre).
Proof.
  intros Hc. revert rest. induction l as [|x l IH] using rev_ind; intros rest.
  - rewrite Nat.add_0_r. destruct Hc as [-> | (p & t & -> & Ht)]; [reflexivity|].
    rewrite app_length. cbn [length]. rewrite Nat.add_comm. cbn [plus first_comment].
    rewrite <- app_assoc, nth_error_app2 by lia. rewrite Nat.sub_diag. cbn [nth_error app]. rewrite Ht. reflexivity.
  - rewrite app_length. cbn [length]. rewrite Nat.add_1_r, Nat.add_succ_r. cbn [first_comment].
    rewrite map_app. cbn [map]. rewrite nth_error_app2 by lia.
    replace (length pre + length l - length pre) with (length l) by lia.
    rewrite nth_error_app1 by (rewrite app_length, map_length; cbn; lia).
    rewrite nth_error_app2 by (rewrite map_length; lia). rewrite map_length, Nat.sub_diag. cbn [nth_error].
    replace (ct_hidden (tok_of m x)) with true by (destruct x; reflexivity).
    rewrite <- app_assoc. apply IH.
Qed.
Lemma collect_ok m : marker m -> forall l pre rest, collect_comments m (pre ++ map (tok_of m) l ++ rest) (length pre) (length l) = Ok (kept_doc l).
Proof.
  intros Hm. induction l as [|x l IH]; intros pre rest; [reflexivity|].
  cbn [length collect_comments map]. rewrite nth_error_app2 by lia. rewrite Nat.sub_diag. cbn [nth_error app].
  rewrite strip_tok by exact Hm. cbn [bind].
  specialize (IH (pre ++ [tok_of m x]) rest). rewrite app_length, <- app_assoc in IH. cbn [length app] in IH.
  rewrite Nat.add_1_r in IH. rewrite IH. reflexivity.
Qed.
Lemma parse_doc_ok m pre l rest : marker m -> closed pre ->
  parse_doc m (pre ++ map (tok_of m) l ++ rest) (length pre + length l) = Ok (kept_doc l).
Proof.
  intros Hm Hc. unfold parse_doc. rewrite first_ok by exact Hc. cbn [bind].
  replace (length pre + length l - length pre) with (length l) by lia. apply collect_ok, Hm.
Qed.
Lemma tight_kept x : tight x -> kept x = claimed x.
Proof.
  destruct x as [s|[|c [|d b]]|b]; cbn [tight kept claimed]; try reflexivity; try tauto.
  - intros H. rewrite (proj2 (ceqb_neq c sp) H). reflexivity.
  - intros [H1 H2]. rewrite (proj2 (ceqb_neq c sp) H1), (proj2 (ceqb_neq d sp) H2). reflexivity.
Qed.
Lemma tight_doc l : Forall tight l -> kept_doc l = claimed_doc l.
Proof. intros H. unfold kept_doc, claimed_doc. f_equal. apply map_ext_in. intros x Hx. apply tight_kept. rewrite Forall_forall in H. auto. Qed.
