From Verif Require Import Base BaseFacts StrUtilsModel StrSpec StrUtilsProofs AstModel LitModel LitSpec.

Lemma find_char c a b : ~ In c a -> find [c] (a ++ c :: b) = Some (length a).
Proof.
  induction a as [|x a IH]; intros H; cbn [app find is_prefix].
  - rewrite ceqb_refl. reflexivity.
  - destruct (ceqb c x) eqn:E; [apply ceqb_eq in E; subst; destruct H; left; reflexivity|].
    cbn [andb]. rewrite IH; [reflexivity|]. intros Hi. apply H. right. exact Hi.
Qed.
Lemma plain_eq s : lower (remove_us s) = plain s.
Proof.
  unfold lower, remove_us. induction s as [|c s IH]; [reflexivity|]. cbn [filter plain].
  destruct (ceqb c "_"); cbn [negb map]; rewrite IH; reflexivity.
Qed.
Lemma plain_app a b : plain (a ++ b) = plain a ++ plain b.
Proof. induction a as [|c a IH]; [reflexivity|]. cbn [app plain]. destruct (ceqb c "_"); cbn [app]; rewrite IH; reflexivity. Qed.
Lemma digit_num_val c : is_digit c = true -> (0 <= digit_val c)%Z /\ digit_num c = Some (Z.to_nat (digit_val c)).
Proof. destruct c as [[] [] [] [] [] [] [] []]; vm_compute; intros H; try discriminate; split; congruence. Qed.
Lemma us_digit : is_digit "_" = false. Proof. reflexivity. Qed.
Lemma digits_value acc s : Forall (fun c => is_digit c = true \/ c = "_"%char) s ->
  dec_acc acc (digit_prefix (remove_us s)) = value_from 10 acc s.
Proof.
  intros H. revert acc. induction H as [|c s Hc H IH]; intros acc; [reflexivity|]. unfold remove_us. cbn [filter value_from].
  destruct (ceqb c "_") eqn:E; cbn [negb]; [apply IH|].
  destruct Hc as [Hc| ->]; [|discriminate]. cbn [digit_prefix]. rewrite Hc.
  destruct (digit_num_val c Hc) as (H0 & ->). unfold dec_acc. cbn [fold_left].
  change (dec_acc (10 * acc + digit_val c) (digit_prefix (remove_us s)) = value_from 10 (10 * acc + Z.of_nat (Z.to_nat (digit_val c))) s).
  rewrite IH. f_equal. lia.
Qed.
Lemma size_value s : Forall (fun c => is_digit c = true \/ c = "_"%char) s -> (value 10 s <= 2147483647)%Z -> parse_size s = Ok (value 10 s).
Proof.
  intros H1 H2. unfold parse_size, c_atoi. rewrite digits_value by exact H1. fold (value 10 s).
  unfold INT_MAX. destruct (Z.leb_spec (value 10 s) 2147483647); [reflexivity|lia].
Qed.
Lemma substr_skip (a b : str) : substr (a ++ b) (length a) (length (a ++ b)) = Ok b.
Proof.
  unfold substr. destruct (Nat.ltb_spec (length (a ++ b)) (length a)) as [H|H]; [rewrite app_length in H; lia|].
  rewrite skipn_app_len, firstn_all2; [reflexivity|rewrite app_length; lia].
Qed.
Lemma based_law l size : vlit_ok l ->
  visit_based (spell_based l) size = Ok (EInt (match size with Some b => b | None => -1 end) (Digits (plain (vl_digits l)) (radix (vl_base l)))).
Proof.
  intros (_ & Hs & Hl & _). unfold visit_based. rewrite plain_eq.
  assert (exists p r, plain (spell_based l) = p ++ plain (vl_digits l) /\
    ((p = ["'"; r] /\ ceqb r "s" = false) \/ p = ["'"; "s"; r])%char /\
    (if ceqb r "b" then Ok 2 else if ceqb r "o" then Ok 8 else if ceqb r "d" then Ok 10 else if ceqb r "h" then Ok 16
     else Throw (RuntimeError ($"Unknown number base:" ++ [r])))%Z = Ok (radix (vl_base l))) as (p & r & -> & Hp & Hr).
  { unfold spell_based. exists (plain ("'"%char :: match vl_sign l with Some c => [c] | None => [] end ++ [vl_letter l])), (low (vl_letter l)).
    split; [rewrite <- plain_app; cbn [app]; rewrite <- app_assoc; reflexivity|].
    destruct (vl_sign l) as [c|].
    - cbn in Hs. destruct Hs as [<-|[<-|[]]]; destruct (vl_base l); cbn in Hl; destruct Hl as [<-|[<-|[]]]; vm_compute; auto.
    - destruct (vl_base l); cbn in Hl; destruct Hl as [<-|[<-|[]]]; vm_compute; auto. }
  destruct Hp as [[-> Hn]| ->].
  - cbn [app]. change (char_at ("'"%char :: r :: plain (vl_digits l)) 0) with (Ok "'"%char). cbn [bind].
    change (ceqb "'" "'") with true. cbn [negb].
    change (char_at ("'"%char :: r :: plain (vl_digits l)) 1) with (Ok r). cbn [bind]. rewrite Hn. cbn [Nat.sub].
    change (char_at ("'"%char :: r :: plain (vl_digits l)) 1) with (Ok r). cbn [bind]. rewrite Hr. cbn [bind].
    match goal with |- context [substr ?a ?b ?c] => change (substr a b c) with (substr (["'"%char; r] ++ plain (vl_digits l)) (length ["'"%char; r]) (length (["'"%char; r] ++ plain (vl_digits l)))) end.
    rewrite (substr_skip ["'"%char; r]). reflexivity.
  - cbn [app]. set (d := plain (vl_digits l)). change (char_at ("'"%char :: "s"%char :: r :: d) 0) with (Ok "'"%char). cbn [bind].
    change (ceqb "'" "'") with true. cbn [negb].
    change (char_at ("'"%char :: "s"%char :: r :: d) 1) with (Ok "s"%char). cbn [bind]. change (ceqb "s" "s") with true. cbn [Nat.sub].
    change (char_at ("'"%char :: "s"%char :: r :: d) 2) with (Ok r). cbn [bind]. rewrite Hr. cbn [bind].
    match goal with |- context [substr ?a ?b ?c] => change (substr a b c) with (substr (["'"%char; "s"%char; r] ++ plain (vl_digits l)) (length ["'"%char; "s"%char; r]) (length (["'"%char; "s"%char; r] ++ plain (vl_digits l)))) end.
    rewrite (substr_skip ["'"%char; "s"%char; r]). reflexivity.
Qed.
Lemma no_apostrophe s : Forall (fun c => is_digit c = true \/ c = "_"%char) s -> ~ In "'"%char s.
Proof. intros H Hi. rewrite Forall_forall in H. destruct (H _ Hi) as [A|A]; discriminate. Qed.
Lemma sized_law l s : vlit_ok l -> vl_size l = Some s ->
  visit_integral (TokSized (s ++ spell_based l)) = Ok (EInt (value 10 s) (Digits (plain (vl_digits l)) (radix (vl_base l)))) /\
  visit_integral (TokBased (Some s) (spell_based l)) = Ok (EInt (value 10 s) (Digits (plain (vl_digits l)) (radix (vl_base l)))).
Proof.
  intros Hok Es. pose proof Hok as (Hs & _). rewrite Es in Hs. destruct Hs as ((_ & Hd) & Hv).
  pose proof (based_law l (Some (value 10 s)) Hok) as B. split.
  - unfold visit_integral. unfold spell_based at 1. change $"'" with ["'"%char]. rewrite find_char by (apply no_apostrophe; exact Hd).
    rewrite firstn_app_len, skipn_app_len. rewrite (size_value s Hd Hv). cbn [bind]. exact B.
  - unfold visit_integral. rewrite (size_value s Hd Hv). cbn [bind]. exact B.
Qed.
Lemma unsized_law l : vlit_ok l -> vl_size l = None ->
  visit_integral (TokBased None (spell_based l)) = Ok (EInt (-1) (Digits (plain (vl_digits l)) (radix (vl_base l)))).
Proof. intros H _. exact (based_law l None H). Qed.
Lemma plain_digits s : Forall (fun c => is_digit c = true \/ c = "_"%char) s -> plain s = remove_us s.
Proof.
  unfold remove_us. induction 1 as [|c s Hc H IH]; [reflexivity|]. cbn [plain filter].
  destruct (ceqb c "_") eqn:E; cbn [negb]; [exact IH|]. rewrite IH. f_equal.
  destruct Hc as [Hc| ->]; [|discriminate].
  revert Hc. clear. destruct c as [[] [] [] [] [] [] [] []]; vm_compute; congruence.
Qed.
Lemma unsigned_law s : decimal s -> visit_integral (TokUnsigned s) = Ok (EInt (-1) (Digits (plain s) 10)).
Proof. intros (_ & H). cbn [visit_integral]. rewrite (plain_digits s H). reflexivity. Qed.

(** The digits kept in the AST have the value of the literal. *)
Lemma low_low c : low (low c) = low c.
Proof. destruct c as [[] [] [] [] [] [] [] []]; vm_compute; reflexivity. Qed.
Lemma low_us c : ceqb c "_" = false -> ceqb (low c) "_" = false.
Proof. destruct c as [[] [] [] [] [] [] [] []]; vm_compute; congruence. Qed.
Lemma plain_value b s : forall acc, value_from b acc (plain s) = value_from b acc s.
Proof.
  induction s as [|c s IH]; intros acc; [reflexivity|]. cbn [plain value_from]. destruct (ceqb c "_") eqn:E; [apply IH|].
  cbn [value_from]. rewrite (low_us c E). unfold digit_num. rewrite low_low. destruct (index_of (low c) hex_digits); apply IH.
Qed.

(** VHDL bit strings. *)
Lemma lower_app a b : lower (a ++ b) = lower a ++ lower b. Proof. apply map_app. Qed.
Lemma lower_len a : length (lower a) = length a. Proof. apply map_length. Qed.
Lemma tolower_digit c : is_digit c = true -> tolower c = c.
Proof. destruct c as [[] [] [] [] [] [] [] []]; vm_compute; congruence. Qed.
Lemma lower_digits s : Forall (fun c => is_digit c = true) s -> lower s = s.
Proof. unfold lower. induction 1 as [|c s Hc H IH]; [reflexivity|]. cbn. rewrite IH, (tolower_digit c Hc). reflexivity. Qed.
Lemma digit_prefix_app s r : Forall (fun c => is_digit c = true) s ->
  match r with [] => True | c :: _ => is_digit c = false end -> digit_prefix (s ++ r) = s.
Proof.
  induction 1 as [|c s Hc H IH]; intros Hr; cbn [app digit_prefix].
  - destruct r as [|c r]; [reflexivity|]. cbn [digit_prefix]. rewrite Hr. reflexivity.
  - rewrite Hc, IH by exact Hr. reflexivity.
Qed.
Lemma digit_prefix_all s : Forall (fun c => is_digit c = true) s -> digit_prefix s = s.
Proof. intros H. rewrite <- (app_nil_r s) at 1. apply digit_prefix_app; auto. Qed.
Lemma remove_us_app a b : remove_us (a ++ b) = remove_us a ++ remove_us b.
Proof. apply filter_app. Qed.
Lemma remove_us_digits s : Forall (fun c => is_digit c = true) s -> remove_us s = s.
Proof.
  unfold remove_us. induction 1 as [|c s Hc H IH]; [reflexivity|]. cbn [filter].
  destruct (ceqb c "_") eqn:E; [apply ceqb_eq in E; subst; discriminate|]. cbn [negb]. rewrite IH. reflexivity.
Qed.
Lemma value_digits s : Forall (fun c => is_digit c = true) s -> dec_acc 0 s = value 10 s.
Proof.
  intros H. unfold value. rewrite <- (digits_value 0 s).
  - rewrite (remove_us_digits s H). rewrite <- (app_nil_r s) at 2. rewrite digit_prefix_app; auto.
  - eapply Forall_impl; [|exact H]. auto.
Qed.
Lemma low_c0 c : c <> c0 -> low c <> c0.
Proof. destruct c as [[] [] [] [] [] [] [] []]; vm_compute; congruence. Qed.
Lemma c_string_plain s : Forall (fun c => c <> dq /\ c <> c0) s -> c_string (remove_us (lower s) ++ [c0]) = plain s.
Proof.
  unfold remove_us, lower. induction 1 as [|c s (Hq & Hc) H IH]; [reflexivity|]. cbn [map filter plain].
  change (tolower c) with (low c).
  destruct (ceqb c "_") eqn:E.
  - apply ceqb_eq in E. subst. exact IH.
  - rewrite (low_us c E). cbn [negb app c_string]. pose proof (low_c0 c Hc) as Hl. apply ceqb_neq in Hl. rewrite Hl, IH. reflexivity.
Qed.
Lemma removelast_snoc {A} (l : list A) x : removelast (l ++ [x]) = l.
Proof. apply removelast_last. Qed.

(** What the conversion does, for every bit string literal whose length has no underscore. *)
Definition code_radix (b : bbase) : Z := match b with BB => 2 | BO => 8 | BX => 16 | BD => 16 end.
Definition code_bits (b : bbase) : Z := match b with BB => 1 | BO => 2 | BX => 4 | BD => 4 end.
Definition code_width (l : bitlit) : Z :=
  let w := match bl_len l with Some s => value 10 s | None => 0%Z end in
  if (w =? 0)%Z then (Z.of_nat (length (plain (bl_digits l))) * code_bits (bl_base l))%Z else w.
Lemma last_digit s : s <> [] -> Forall (fun c => is_digit c = true) s -> exists a c, s = a ++ [c] /\ is_digit c = true.
Proof.
  intros Hn H. destruct (exists_last Hn) as (a & c & ->). exists a, c. split; [reflexivity|].
  apply Forall_app in H as (_ & H). inversion H; assumption.
Qed.
Lemma bit_string_core pre r digits b : ~ In dq pre -> In r (bletters b) ->
  Forall (fun c => c <> dq /\ c <> c0) digits -> remove_us (lower pre) = lower pre ->
  visit_bit_string (pre ++ r :: dq :: digits ++ [dq]) =
  (cu <- match rev (lower pre) with c :: _ => Ok c | [] => Ok c0 end ;;
   bits <- (if ((0 <? length pre) && negb (ceqb cu "u")) || ((1 <? length pre) && ceqb cu "u")
            then c_stoi (lower (pre ++ r :: dq :: digits ++ [dq])) else Ok 0%Z) ;;
   Ok (EInt (if (bits =? 0)%Z then (Z.of_nat (length (plain digits)) * code_bits b)%Z else bits) (Digits (plain digits) (code_radix b)))).
Proof.
  intros Hp Hr Hd Hu. unfold visit_bit_string.
  assert (find [dq] (pre ++ r :: dq :: digits ++ [dq]) = Some (S (length pre))) as ->.
  { change (pre ++ r :: dq :: digits ++ [dq]) with (pre ++ [r] ++ dq :: digits ++ [dq]). rewrite app_assoc.
    rewrite find_char; [rewrite app_length; cbn; f_equal; lia|]. intros Hi. apply in_app_or in Hi as [Hi|Hi]; [exact (Hp Hi)|].
    destruct Hi as [->|[]]. destruct b; cbn in Hr; destruct Hr as [E|[E|[]]]; discriminate. }
  cbv zeta. set (s := lower (pre ++ r :: dq :: digits ++ [dq])).
  assert (s = lower pre ++ tolower r :: dq :: lower digits ++ [dq]) as Es.
  { unfold s. rewrite lower_app. f_equal. cbn [lower map]. do 2 f_equal. unfold lower. rewrite map_app. reflexivity. }
  assert (char_at s (length pre) = Ok (tolower r)) as ->.
  { rewrite Es, <- (lower_len pre). apply char_at_app. }
  cbn [bind].
  assert ((if ceqb (tolower r) "b" then (2, 1) else if ceqb (tolower r) "o" then (8, 2)
    else if ceqb (tolower r) "x" then (16, 4) else if ceqb (tolower r) "d" then (16, 4) else (0, 0))%Z = (code_radix b, code_bits b)) as ->.
  { destruct b; cbn in Hr; destruct Hr as [<-|[<-|[]]]; reflexivity. }
  assert ((if length pre =? 0 then Ok c0 else char_at s (length pre - 1)) = match rev (lower pre) with c :: _ => Ok c | [] => Ok c0 end) as ->.
  { destruct pre as [|x pre'] using rev_ind; [reflexivity|]. rewrite app_length. cbn [length].
    destruct (Nat.eqb_spec (length pre' + 1) 0); [lia|]. rewrite Es, lower_app, rev_app_distr. cbn [lower map rev app].
    replace (length pre' + 1 - 1) with (length (lower pre')) by (rewrite lower_len; lia).
    rewrite <- app_assoc. cbn [app]. apply char_at_app. }
  destruct (match rev (lower pre) with c :: _ => Ok c | [] => Ok c0 end) as [cu| | |] eqn:Ecu; cbn [bind]; try reflexivity.
  destruct (if ((0 <? length pre) && negb (ceqb cu "u")) || ((1 <? length pre) && ceqb cu "u") then c_stoi s else Ok 0%Z) as [bits| | |] eqn:Eb; cbn [bind]; try reflexivity.
  assert (remove_us (removelast s ++ [c0]) = lower pre ++ tolower r :: dq :: remove_us (lower digits) ++ [c0]) as ->.
  { rewrite Es. change (lower pre ++ tolower r :: dq :: lower digits ++ [dq]) with (lower pre ++ [tolower r; dq] ++ lower digits ++ [dq]).
    rewrite !app_assoc, removelast_snoc, !remove_us_app, Hu. rewrite <- !app_assoc. f_equal.
    destruct b; cbn in Hr; destruct Hr as [<-|[<-|[]]]; reflexivity. }
  rewrite app_length, lower_len. cbn [length]. destruct (Nat.ltb_spec (length pre + S (S (length (remove_us (lower digits) ++ [c0])))) (length pre + 2)); [lia|].
  rewrite <- (lower_len pre), skipn_app_plus. cbn [skipn].
  rewrite (c_string_plain digits Hd). reflexivity.
Qed.
Theorem bit_string_law l : bitlit_ok l ->
  visit_bit_string (spell_bit l) =
  match bl_len l, bl_sign l with
  | None, SSign _ => Throw (InvalidArgument $"stoi")
  | _, _ => Ok (EInt (code_width l) (Digits (plain (bl_digits l)) (code_radix (bl_base l))))
  end.
Proof.
  intros (Hlen & Hs & Hr & Hd). unfold spell_bit.
  set (len := match bl_len l with Some s => s | None => [] end).
  set (sg := match bl_sign l with USign c => [c] | SSign c => [c] | NoSign => [] end).
  assert (Forall (fun c => is_digit c = true) len) as Hdig.
  { unfold len. destruct (bl_len l); [apply Hlen|constructor]. }
  assert (exists sl, lower sg = sl /\ remove_us sl = sl /\ ~ In dq sg /\
    match bl_sign l with NoSign => sl = [] | USign _ => sl = ["u"%char] | SSign _ => sl = ["s"%char] end) as (sl & Esl & Hus & Hq & Hsl).
  { unfold sg. destruct (bl_sign l) as [|c|c]; cbn in Hs.
    - exists []. repeat split; auto.
    - destruct Hs as [<-|[<-|[]]]; exists ["u"%char]; repeat split; auto; cbn; intros [E|[]]; discriminate.
    - destruct Hs as [<-|[<-|[]]]; exists ["s"%char]; repeat split; auto; cbn; intros [E|[]]; discriminate. }
  rewrite app_assoc.
  assert (lower (len ++ sg) = len ++ sl) as El by (rewrite lower_app, (lower_digits len Hdig), Esl; reflexivity).
  match goal with |- _ = ?r => change (visit_bit_string ((len ++ sg) ++ bl_letter l :: dq :: bl_digits l ++ [dq]) = r) end.
  rewrite (bit_string_core (len ++ sg) (bl_letter l) (bl_digits l) (bl_base l));
    [|intros Hi; apply in_app_or in Hi as [Hi|Hi]; [rewrite Forall_forall in Hdig; specialize (Hdig _ Hi); discriminate|exact (Hq Hi)]
     |exact Hr|exact Hd|rewrite El, remove_us_app, (remove_us_digits len Hdig), Hus; reflexivity].
  rewrite El.
  assert (length (len ++ sg) = length len + length sl) as ELen by (rewrite app_length, <- Esl, lower_len; reflexivity).
  rewrite ELen.
  assert (c_stoi (lower ((len ++ sg) ++ bl_letter l :: dq :: bl_digits l ++ [dq])) = c_stoi (len ++ sl ++ lower (bl_letter l :: dq :: bl_digits l ++ [dq]))) as Est.
  { rewrite lower_app, El, <- app_assoc. reflexivity. }
  rewrite Est.
  assert (match sl ++ lower (bl_letter l :: dq :: bl_digits l ++ [dq]) with [] => True | c :: _ => is_digit c = false end) as Hnd.
  { destruct (bl_sign l); rewrite Hsl; cbn [app]; try reflexivity. cbn [lower map].
    destruct (bl_base l); cbn in Hr; destruct Hr as [<-|[<-|[]]]; reflexivity. }
  assert (c_stoi (len ++ sl ++ lower (bl_letter l :: dq :: bl_digits l ++ [dq])) =
    match len with [] => Throw (InvalidArgument $"stoi") | _ => Ok (value 10 len) end) as ->.
  { unfold c_stoi. rewrite (digit_prefix_app len _ Hdig Hnd). unfold len. destruct (bl_len l) as [s|]; [|reflexivity].
    destruct Hlen as (Hn & Hdg & Hv). destruct s as [|c s]; [contradiction|]. rewrite (value_digits _ Hdg). unfold INT_MAX.
    destruct (Z.leb_spec (value 10 (c :: s)) 2147483647); [reflexivity|lia]. }
  unfold code_width.
  destruct (bl_len l) as [s|] eqn:E1.
  - destruct Hlen as (Hn & Hdg & Hv). destruct (last_digit s Hn Hdg) as (a & c & Es & Hc).
    assert (ceqb c "u" = false) as Hcu by (apply ceqb_neq; intros ->; discriminate).
    assert (len = s) as -> by reflexivity.
    assert (1 <= length s) by (destruct s; [contradiction|cbn; lia]).
    assert (match s with [] => @Throw Z (InvalidArgument $"stoi") | _ => Ok (value 10 s) end = Ok (value 10 s)) as -> by (destruct s; [contradiction|reflexivity]).
    assert (0 <? length s + length sl = true) as -> by (apply Nat.ltb_lt; lia).
    destruct (bl_sign l); rewrite Hsl.
    + rewrite app_nil_r. rewrite Es at 1. rewrite rev_app_distr. cbn [rev app bind]. rewrite Hcu. cbn [negb andb orb bind]. reflexivity.
    + rewrite rev_app_distr. cbn [rev app bind]. change (ceqb "u" "u") with true. cbn [negb andb orb length].
      assert (1 <? length s + 1 = true) as -> by (apply Nat.ltb_lt; lia). cbn [andb orb bind]. reflexivity.
    + rewrite rev_app_distr. cbn [rev app bind]. change (ceqb "s" "u") with false. cbn [negb andb orb bind]. reflexivity.
  - assert (len = []) as -> by reflexivity. destruct (bl_sign l); rewrite Hsl; reflexivity.
Qed.

(** VHDL strings. *)
Lemma dbl_no_pair a : (forall x, In x a -> x <> dq) -> ~ occurs [dq; dq] a.
Proof. intros H (x & y & ->). apply (H dq); [|reflexivity]. apply in_or_app. right. left. reflexivity. Qed.
Lemma split_first_dq s : (~ In dq s) \/ exists a b, s = a ++ dq :: b /\ ~ In dq a.
Proof.
  induction s as [|c s IH]; [left; intros []|]. destruct (ascii_dec c dq) as [->|Hc].
  - right. exists [], s. split; [reflexivity|intros []].
  - destruct IH as [IH|(a & b & -> & Ha)].
    + left. intros [E|E]; [congruence|exact (IH E)].
    + right. exists (c :: a), b. split; [reflexivity|]. intros [E|E]; [congruence|exact (Ha E)].
Qed.
Lemma doubled_app a b : doubled (a ++ b) = doubled a ++ doubled b.
Proof. induction a as [|c a IH]; [reflexivity|]. cbn [app doubled]. destruct (ceqb c dq); cbn [app]; rewrite IH; reflexivity. Qed.
Lemma doubled_plain a : ~ In dq a -> doubled a = a.
Proof.
  induction a as [|c a IH]; intros H; [reflexivity|]. cbn [doubled].
  destruct (ceqb c dq) eqn:E; [apply ceqb_eq in E; subst; destruct H; left; reflexivity|]. f_equal. apply IH. intros Hi. apply H. right. exact Hi.
Qed.
Lemma doubled_replaced : forall n s, length s <= n -> replaced [dq; dq] [dq] (doubled s) s.
Proof.
  induction n as [|n IH]; intros s Hn.
  - destruct s; [|cbn in Hn; lia]. apply R_none. intros (a & b & E). destruct a; discriminate.
  - destruct (split_first_dq s) as [H|(a & b & -> & Ha)].
    + rewrite (doubled_plain s H). apply R_none. apply dbl_no_pair. intros x Hx ->. exact (H Hx).
    + rewrite doubled_app, (doubled_plain a Ha). cbn [doubled]. rewrite ceqb_refl.
      change (a ++ dq :: b) with (a ++ [dq] ++ b).
      apply (R_some [dq; dq] [dq] a (doubled b) b).
      * intros a' b' E. destruct (Nat.le_gt_cases (length a) (length a')) as [L|L]; [exact L|]. exfalso.
        apply Ha. assert (nth_error (a ++ [dq; dq] ++ doubled b) (length a') = Some dq) as N.
        { rewrite E, nth_error_app2, Nat.sub_diag by lia. reflexivity. }
        rewrite nth_error_app1 in N by lia. exact (nth_error_In _ _ N).
      * apply IH. rewrite app_length in Hn. cbn in Hn. lia.
Qed.
Lemma string_law s : visit_vhdl_string (spell_string s) = Ok (EStr s).
Proof.
  unfold visit_vhdl_string, spell_string. rewrite (app_comm_cons (doubled s) [dq] dq).
  assert (substr ((dq :: doubled s) ++ [dq]) 1 (if length ((dq :: doubled s) ++ [dq]) <? 2 then length ((dq :: doubled s) ++ [dq]) else length ((dq :: doubled s) ++ [dq]) - 2) = Ok (doubled s)) as ->.
  { rewrite app_length. cbn [length]. destruct (Nat.ltb_spec (S (length (doubled s)) + 1) 2) as [H|H].
    - assert (doubled s = []) as -> by (destruct (doubled s); [reflexivity|cbn in H; lia]). cbn in H. lia.
    - unfold substr. rewrite app_length. cbn [length app skipn].
      destruct (Nat.ltb_spec (S (length (doubled s)) + 1) 1); [lia|].
      replace (S (length (doubled s)) + 1 - 2) with (length (doubled s)) by lia. rewrite firstn_app_len. reflexivity. }
  cbn [bind]. destruct (replace_substring_total (doubled s) [dq; dq] [dq] ltac:(discriminate)) as (t & -> & _ & U).
  cbn [bind]. rewrite <- (U s (doubled_replaced (length s) s ltac:(lia))). reflexivity.
Qed.

(** VHDL decimal and based literals. *)
Lemma no_float_digits s : Forall (fun c => is_digit c = true) s -> existsb (fun c => ceqb c "." || ceqb c "e" || ceqb c "E") s = false.
Proof.
  induction 1 as [|c s Hc H IH]; [reflexivity|]. cbn [existsb]. rewrite IH, orb_false_r.
  revert Hc. destruct c as [[] [] [] [] [] [] [] []]; vm_compute; congruence.
Qed.
Lemma decimal_law s : Forall (fun c => is_digit c = true) s ->
  visit_decimal s = if (value 10 s <=? 2147483647)%Z then Ok (EInt (-1) (Val (value 10 s))) else UB "atoi: value out of range".
Proof.
  intros H. unfold visit_decimal. rewrite (no_float_digits s H). unfold c_atoi.
  rewrite (digit_prefix_all s H), (value_digits s H). unfold INT_MAX.
  destruct (value 10 s <=? 2147483647)%Z; reflexivity.
Qed.
Lemma decimal_underscore_law s r : Forall (fun c => is_digit c = true) s -> Forall (fun c => is_digit c = true \/ c = "_"%char) r ->
  (value 10 s <= 2147483647)%Z ->
  visit_decimal (s ++ "_"%char :: r) = Ok (EInt (-1) (Val (value 10 s))).
Proof.
  intros H Hr Hv. unfold visit_decimal. rewrite existsb_app. rewrite (no_float_digits s H). cbn [orb existsb].
  replace (existsb (fun c => ceqb c "." || ceqb c "e" || ceqb c "E") r) with false.
  2: { symmetry. clear -Hr. induction Hr as [|c r Hc Hr IH]; [reflexivity|]. cbn [existsb]. rewrite IH, orb_false_r.
       destruct Hc as [Hc| ->]; [|reflexivity]. revert Hc. destruct c as [[] [] [] [] [] [] [] []]; vm_compute; congruence. }
  cbn [orb]. change (ceqb "_" "." || ceqb "_" "e" || ceqb "_" "E") with false. cbn [orb].
  unfold c_atoi. rewrite digit_prefix_app by (auto; reflexivity). rewrite (value_digits s H). unfold INT_MAX.
  destruct (Z.leb_spec (value 10 s) 2147483647); [reflexivity|lia].
Qed.
Lemma based_literal_law b d e : Forall (fun c => is_digit c = true) b -> (value 10 b <= 2147483647)%Z -> ~ In "#"%char d ->
  visit_based_literal (b ++ "#"%char :: d ++ "#"%char :: e) = Ok (EInt (-1) (Digits ("#"%char :: d) (value 10 b))).
Proof.
  intros Hb Hv Hd. unfold visit_based_literal. change $"#" with ["#"%char].
  assert (~ In "#"%char b) as Hn by (intros Hi; rewrite Forall_forall in Hb; specialize (Hb _ Hi); discriminate).
  rewrite find_char by exact Hn. rewrite firstn_app_len. unfold c_atoi.
  rewrite (digit_prefix_all b Hb), (value_digits b Hb). unfold INT_MAX.
  destruct (Z.leb_spec (value 10 b) 2147483647); [|lia]. cbn [bind].
  assert (find_from ["#"%char] (b ++ "#"%char :: d ++ "#"%char :: e) (length b + 1) = Some (length b + 1 + length d)) as ->.
  { unfold find_from. destruct (Nat.ltb_spec (length (b ++ "#"%char :: d ++ "#"%char :: e)) (length b + 1)) as [L|L]; [rewrite app_length in L; cbn in L; lia|].
    rewrite skipn_app_plus. cbn [skipn]. rewrite find_char by exact Hd. cbn [option_map]. f_equal; lia. }
  unfold substr. destruct (Nat.ltb_spec (length (b ++ "#"%char :: d ++ "#"%char :: e)) (length b)) as [L|L]; [rewrite app_length in L; lia|].
  rewrite skipn_app_len. replace (length b + 1 + length d - length b) with (length ("#"%char :: d)) by (cbn; lia).
  change ("#"%char :: d ++ "#"%char :: e) with (("#"%char :: d) ++ "#"%char :: e). rewrite firstn_app_len. reflexivity.
Qed.

(** Verilog strings and escaped identifiers. *)
Lemma sv_string_law s : visit_string (dq :: s ++ [dq]) = Ok (EStr s).
Proof.
  unfold visit_string. cbn [length]. rewrite app_length. cbn [length].
  destruct (Nat.ltb_spec (S (length s + 1)) 2) as [H|H].
  - assert (s = []) as -> by (destruct s; [reflexivity|cbn in H; lia]). cbn in H. lia.
  - unfold substr. cbn [length]. rewrite app_length. cbn [length].
    destruct (Nat.ltb_spec (S (length s + 1)) 1); [lia|]. cbn [skipn].
    replace (S (length s + 1) - 2) with (length s) by lia. rewrite firstn_app_len. reflexivity.
Qed.
Lemma string_injective s t : visit_vhdl_string (spell_string s) = visit_vhdl_string (spell_string t) -> s = t.
Proof. rewrite !string_law. intros E. injection E as E. exact E. Qed.
Lemma based_tok_law l : vlit_ok l ->
  visit_integral (TokBased (vl_size l) (spell_based l)) = Ok (EInt (width (vl_size l)) (Digits (plain (vl_digits l)) (radix (vl_base l)))).
Proof.
  intros H. destruct (vl_size l) as [s|] eqn:E; [exact (proj2 (sized_law l s H E))|exact (unsized_law l H E)].
Qed.
Lemma literals_not_merged l1 l2 : vlit_ok l1 -> vlit_ok l2 ->
  visit_integral (TokBased (vl_size l1) (spell_based l1)) = visit_integral (TokBased (vl_size l2) (spell_based l2)) ->
  width (vl_size l1) = width (vl_size l2) /\ radix (vl_base l1) = radix (vl_base l2) /\
  plain (vl_digits l1) = plain (vl_digits l2) /\ forall b, value b (vl_digits l1) = value b (vl_digits l2).
Proof.
  intros H1 H2. rewrite (based_tok_law l1 H1), (based_tok_law l2 H2). intros E. injection E as E1 E2 E3.
  repeat split; auto. intros b. unfold value. rewrite <- (plain_value b (vl_digits l1)), <- (plain_value b (vl_digits l2)), E2. reflexivity.
Qed.
Lemma signedness_lost l c : vlit_ok l -> In c $"sS" ->
  let signed := mkVlit (vl_size l) (Some c) (vl_letter l) (vl_base l) (vl_digits l) in
  let unsigned := mkVlit (vl_size l) None (vl_letter l) (vl_base l) (vl_digits l) in
  visit_integral (TokBased (vl_size l) (spell_based signed)) = visit_integral (TokBased (vl_size l) (spell_based unsigned)).
Proof.
  intros (H1 & H2 & H3 & H4) Hc signed unsigned.
  transitivity (visit_integral (TokBased (vl_size signed) (spell_based signed))); [reflexivity|].
  transitivity (visit_integral (TokBased (vl_size unsigned) (spell_based unsigned))); [|reflexivity].
  rewrite (based_tok_law signed), (based_tok_law unsigned); [reflexivity| |]; repeat split; assumption.
Qed.
Lemma bit_string_bin_hex l : bitlit_ok l -> bl_base l = BB \/ bl_base l = BX ->
  match bl_len l with
  | Some s => value 10 s <> 0%Z
  | None => match bl_sign l with SSign _ => False | _ => True end
  end ->
  visit_bit_string (spell_bit l) = Ok (EInt (std_width l) (Digits (plain (bl_digits l)) (bradix (bl_base l)))).
Proof.
  intros H Hb Hl. rewrite (bit_string_law l H). unfold code_width, std_width.
  assert (code_bits (bl_base l) = bits_per_digit (bl_base l) /\ code_radix (bl_base l) = bradix (bl_base l)) as (-> & ->) by (destruct Hb as [-> | ->]; split; reflexivity).
  destruct (bl_len l) as [s|].
  - apply Z.eqb_neq in Hl. rewrite Hl. reflexivity.
  - destruct (bl_sign l); [reflexivity|reflexivity|contradiction].
Qed.
Lemma bit_string_oct l s : bitlit_ok l -> bl_base l = BO -> bl_len l = Some s -> value 10 s <> 0%Z ->
  visit_bit_string (spell_bit l) = Ok (EInt (std_width l) (Digits (plain (bl_digits l)) (bradix (bl_base l)))).
Proof.
  intros H Hb Hl Hv. rewrite (bit_string_law l H). unfold code_width, std_width. rewrite Hl, Hb. apply Z.eqb_neq in Hv. rewrite Hv. reflexivity.
Qed.
Lemma bit_string_oct_width l : bitlit_ok l -> bl_base l = BO -> bl_len l = None ->
  match bl_sign l with SSign _ => False | _ => True end ->
  visit_bit_string (spell_bit l) = Ok (EInt (2 * Z.of_nat (length (plain (bl_digits l)))) (Digits (plain (bl_digits l)) 8)).
Proof.
  intros H Hb Hl Hs. rewrite (bit_string_law l H). unfold code_width. rewrite Hl, Hb. rewrite (Z.mul_comm 2).
  destruct (bl_sign l); [reflexivity|reflexivity|contradiction].
Qed.
Lemma bit_string_decimal l : bitlit_ok l -> bl_base l = BD ->
  match bl_len l, bl_sign l with None, SSign _ => False | _, _ => True end ->
  exists w, visit_bit_string (spell_bit l) = Ok (EInt w (Digits (plain (bl_digits l)) 16)).
Proof.
  intros H Hb Hl. rewrite (bit_string_law l H). rewrite Hb. destruct (bl_len l), (bl_sign l); try contradiction; eexists; reflexivity.
Qed.
Lemma bit_string_signed l c : bitlit_ok l -> bl_len l = None -> bl_sign l = SSign c ->
  visit_bit_string (spell_bit l) = Throw (InvalidArgument $"stoi").
Proof. intros H Hl Hs. rewrite (bit_string_law l H). rewrite Hl, Hs. reflexivity. Qed.
Lemma decimal_value s : Forall (fun c => is_digit c = true) s -> (value 10 s <= 2147483647)%Z ->
  visit_decimal s = Ok (EInt (-1) (Val (value 10 s))).
Proof. intros H Hv. rewrite (decimal_law s H). destruct (Z.leb_spec (value 10 s) 2147483647); [reflexivity|lia]. Qed.
Lemma decimal_large s : Forall (fun c => is_digit c = true) s -> (2147483647 < value 10 s)%Z -> exists w, visit_decimal s = UB w.
Proof. intros H Hv. rewrite (decimal_law s H). destruct (Z.leb_spec (value 10 s) 2147483647); [lia|eexists; reflexivity]. Qed.
Lemma sv_string_injective s t : visit_string (dq :: s ++ [dq]) = visit_string (dq :: t ++ [dq]) -> s = t.
Proof. rewrite !sv_string_law. intros E. injection E as E. exact E. Qed.
Lemma escaped_id_law name w : visit_escaped_id (bs :: name ++ w) = Ok (name ++ w).
Proof.
  unfold visit_escaped_id, substr. cbn [length]. destruct (Nat.ltb_spec (S (length (name ++ w))) 1); [lia|].
  cbn [skipn]. rewrite firstn_all2 by lia. reflexivity.
Qed.
Lemma escaped_id_differ name w w' : w <> w' -> visit_escaped_id (bs :: name ++ w) <> visit_escaped_id (bs :: name ++ w').
Proof. rewrite !escaped_id_law. intros H E. injection E as E. apply app_inv_head in E. exact (H E). Qed.
Lemma character_law c :
  visit_character ["'"%char; c; "'"%char] = Ok (EInt (-1) (Digits [c] 256)) /\
  visit_enum_char ["'"%char; c; "'"%char] = Ok (EInt 8 (Digits [c] 256)).
Proof. split; reflexivity. Qed.
Lemma character_injective c d : visit_character ["'"%char; c; "'"%char] = visit_character ["'"%char; d; "'"%char] -> c = d.
Proof. intros E. injection E as E. exact E. Qed.
Lemma character_two_bytes b1 b2 b2' :
  visit_character ["'"%char; b1; b2; "'"%char] = visit_character ["'"%char; b1; b2'; "'"%char] /\
  visit_character ["'"%char; b1; b2; "'"%char] = Ok (EInt (-1) (Digits [b1] 256)).
Proof. split; reflexivity. Qed.
