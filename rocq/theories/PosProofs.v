(** Proofs about code positions. *)
From Verif Require Import Base BaseFacts SvExprModel PosSpec PosModel.
From Coq Require Import Lia.
Local Open Scope nat_scope.

(** ** Lines and columns *)
Lemma walk_app p x y : walk p (x ++ y) = walk (walk p x) y. Proof. unfold walk. apply fold_left_app. Qed.
Definition num (p : place) (s : str) := numbered (pl_line p) (S (pl_col p)) s.
Lemma num_cons p c s : num p (c :: s) = (pl_line p, S (pl_col p), c) :: num (advance p c) s.
Proof. unfold num, advance. cbn [numbered]. destruct (ceqb c nl); reflexivity. Qed.
Lemma num_app x : forall p y, num p (x ++ y) = num p x ++ num (walk p x) y.
Proof. induction x as [|c x IH]; intros p y; [reflexivity|]. cbn [app]. rewrite !num_cons, IH. reflexivity. Qed.
Lemma num_snd x : forall p, map snd (num p x) = x.
Proof. induction x as [|c x IH]; intros p; [reflexivity|]. rewrite num_cons. cbn [map snd]. rewrite IH. reflexivity. Qed.
(** at (l, c) or behind it *)
Definition from (l c l' c' : nat) : Prop := l < l' \/ (l = l' /\ c <= c').
Lemma upto_iff l c l' c' : upto l c l' c' = true <-> from l c l' c'.
Proof. unfold upto, from. rewrite orb_true_iff, andb_true_iff, Nat.ltb_lt, Nat.eqb_eq, Nat.leb_le. reflexivity. Qed.
Lemma advance_from p c : from (pl_line p) (S (S (pl_col p))) (pl_line (advance p c)) (S (pl_col (advance p c))).
Proof. unfold advance, from. destruct (ceqb c nl); cbn; lia. Qed.
Lemma walk_from x : forall p, from (pl_line p) (S (pl_col p)) (pl_line (walk p x)) (S (pl_col (walk p x))).
Proof.
  induction x as [|c x IH]; intros p; [right; auto|]. change (walk p (c :: x)) with (walk (advance p c) x). specialize (IH (advance p c)). pose proof (advance_from p c) as H. unfold from in *. lia.
Qed.
Lemma num_ge x : forall p e, In e (num p x) -> from (pl_line p) (S (pl_col p)) (fst (fst e)) (snd (fst e)).
Proof.
  induction x as [|c x IH]; intros p e I; [destruct I|]. rewrite num_cons in I. destruct I as [<-|I]; [right; cbn; auto|].
  apply IH in I. pose proof (advance_from p c) as H. unfold from in *. lia.
Qed.
Lemma num_lt x : forall p e, In e (num p x) -> from (fst (fst e)) (S (snd (fst e))) (pl_line (walk p x)) (S (pl_col (walk p x))).
Proof.
  induction x as [|c x IH]; intros p e I; [destruct I|]. rewrite num_cons in I. change (walk p (c :: x)) with (walk (advance p c) x). destruct I as [<-|I]; [|exact (IH _ _ I)].
  cbn [fst snd]. pose proof (advance_from p c) as H. pose proof (walk_from x (advance p c)) as H'. unfold from in *. lia.
Qed.
Lemma walk_line x : forall p, ~ In nl x -> pl_line (walk p x) = pl_line p /\ pl_col (walk p x) = pl_col p + length x.
Proof.
  induction x as [|c x IH]; intros p N; [cbn; auto|]. change (walk p (c :: x)) with (walk (advance p c) x). destruct (IH (advance p c)) as (E1 & E2); [intros I; apply N; right; exact I|].
  rewrite E1, E2. unfold advance. destruct (ceqb c nl) eqn:E; [apply ceqb_eq in E; subst; destruct N; left; reflexivity|]. cbn. lia.
Qed.
Lemma walk_ge x p : pl_line p <= pl_line (walk p x). Proof. pose proof (walk_from x p). unfold from in *. lia. Qed.
Lemma walk_nl x : forall p, In nl x -> pl_line p < pl_line (walk p x).
Proof.
  intros p I. apply in_split in I as (u & w & ->). rewrite walk_app. change (walk (walk p u) (nl :: w)) with (walk (advance (walk p u) nl) w).
  pose proof (walk_ge u p). pose proof (walk_ge w (advance (walk p u) nl)) as H'. change (pl_line (advance (walk p u) nl)) with (S (pl_line (walk p u))) in H'. lia.
Qed.
Lemma walk_index x : forall p, pl_index (walk p x) = pl_index p + length x.
Proof. induction x as [|c x IH]; intros p; [cbn; lia|]. change (walk p (c :: x)) with (walk (advance p c) x). rewrite IH. unfold advance. destruct (ceqb c nl); cbn; lia. Qed.
Lemma walk_bound x : forall p, pl_line (walk p x) <= pl_line p + length x /\ pl_col (walk p x) <= pl_col p + length x.
Proof.
  induction x as [|c x IH]; intros p; [cbn; lia|]. change (walk p (c :: x)) with (walk (advance p c) x). specialize (IH (advance p c)). cbn [length].
  revert IH. generalize (walk (advance p c) x). intros q. unfold advance. destruct (ceqb c nl); cbn [pl_line pl_col]; lia.
Qed.

(** ** Regions *)
Lemma filter_none {X} (f : X -> bool) l : (forall x, In x l -> f x = false) -> filter f l = [].
Proof. induction l as [|a l IH]; intros H; [reflexivity|]. cbn [filter]. rewrite (H a (or_introl eq_refl)). apply IH. intros x I. apply H. right. exact I. Qed.
Lemma filter_all {X} (f : X -> bool) l : (forall x, In x l -> f x = true) -> filter f l = l.
Proof. induction l as [|a l IH]; intros H; [reflexivity|]. cbn [filter]. rewrite (H a (or_introl eq_refl)). f_equal. apply IH. intros x I. apply H. right. exact I. Qed.
Lemma not_upto l c l' c' : from l' (S c') l c -> upto l c l' c' = false.
Proof. intros H. destruct (upto l c l' c') eqn:E; [|reflexivity]. apply upto_iff in E. unfold from in *. lia. Qed.
Lemma region_law a x t c b :
  let p0 := walk start_place a in let pz := walk start_place (a ++ x) in
  region (pl_line p0) (S (pl_col p0)) (pl_line pz) (pl_col pz + length t + 1) (a ++ x ++ (t ++ [c]) ++ b) = x ++ t ++ [c] <-> ~ In nl t.
Proof.
  cbv zeta. set (p0 := walk start_place a). set (pz := walk start_place (a ++ x)).
  assert (Ez : pz = walk p0 x) by (unfold pz; rewrite walk_app; reflexivity).
  unfold region. change (numbered 1 1) with (num start_place).
  rewrite num_app. fold p0. rewrite num_app. rewrite <- Ez. rewrite num_app, num_app. rewrite !filter_app, !map_app.
  set (f := fun e : nat * nat * ascii => upto (pl_line p0) (S (pl_col p0)) (fst (fst e)) (snd (fst e)) && upto (fst (fst e)) (snd (fst e)) (pl_line pz) (pl_col pz + length t + 1)).
  assert (Fa : filter f (num start_place a) = []).
  { apply filter_none. intros e I. apply num_lt in I. fold p0 in I. unfold f. rewrite not_upto; [reflexivity|exact I]. }
  assert (Fx : filter f (num p0 x) = num p0 x).
  { apply filter_all. intros e I. pose proof (num_ge _ _ _ I) as G. apply num_lt in I. rewrite <- Ez in I. unfold f. apply andb_true_intro. split; apply upto_iff; [exact G|]. unfold from in *. lia. }
  rewrite Fa, Fx, num_snd. cbn [map app]. pose proof (walk_from x p0) as W0. rewrite <- Ez in W0. split.
  - intros E N. apply in_split in N as (u & w & ->).
    assert (Ln : pl_line pz < pl_line (walk pz (u ++ nl :: w))) by (apply walk_nl, in_or_app; right; left; reflexivity).
    assert (Fc : filter f (num (walk pz (u ++ nl :: w)) [c]) = []).
    { apply filter_none. intros e I. apply num_ge in I. unfold f. rewrite (not_upto (fst (fst e))); [apply andb_false_r|]. unfold from in *. lia. }
    assert (Fb : filter f (num (walk pz ((u ++ nl :: w) ++ [c])) b) = []).
    { apply filter_none. intros e I. apply num_ge in I. unfold f. rewrite (not_upto (fst (fst e))); [apply andb_false_r|]. pose proof (walk_ge [c] (walk pz (u ++ nl :: w))) as G. rewrite <- walk_app in G. unfold from in *. lia. }
    rewrite Fc, Fb in E. cbn [map app] in E. rewrite !app_nil_r in E. apply app_inv_head in E. apply (f_equal (@length ascii)) in E. rewrite map_length in E.
    assert (L : length (filter f (num pz (u ++ nl :: w))) <= length (u ++ nl :: w)).
    { rewrite <- (num_snd (u ++ nl :: w) pz) at 2. rewrite map_length. clear. induction (num pz (u ++ nl :: w)) as [|y l IH]; [auto|]. cbn [filter length]. destruct (f y); cbn [length]; lia. }
    rewrite E, app_length in L. cbn [length] in L. lia.
  - intros N. destruct (walk_line t pz N) as (L1 & L2).
    assert (Ft : filter f (num pz t) = num pz t).
    { apply filter_all. intros e I. pose proof (num_ge _ _ _ I) as G. apply num_lt in I. unfold f. apply andb_true_intro. split; apply upto_iff; unfold from in *; lia. }
    assert (Fc : filter f (num (walk pz t) [c]) = num (walk pz t) [c]).
    { apply filter_all. intros e I. rewrite num_cons in I. destruct I as [<-|[]]. cbn [fst snd]. unfold f. cbn [fst snd]. apply andb_true_intro. split; apply upto_iff; unfold from in *; lia. }
    assert (Fb : filter f (num (walk pz (t ++ [c])) b) = []).
    { apply filter_none. intros e I. apply num_ge in I. unfold f. rewrite (not_upto (fst (fst e))); [apply andb_false_r|]. rewrite walk_app in I. pose proof (advance_from (walk pz t) c) as G. change (walk (walk pz t) [c]) with (advance (walk pz t) c) in I. unfold from in *. lia. }
    rewrite Ft, Fc, Fb, !num_snd. cbn [map]. rewrite app_nil_r. reflexivity.
Qed.

(** ** Numbers in Python *)
Lemma szt_id z : (0 <= z < 2 ^ 64)%Z -> szt z = z. Proof. intros H. unfold szt. apply Z.mod_small. exact H. Qed.
Lemma py_size_id z : (0 <= z < 2 ^ 63)%Z -> py_size z = Some z.
Proof. intros H. unfold py_size, size_max. destruct (Z.eqb_spec z (2 ^ 64 - 1)) as [E|_]; [lia|]. destruct (Z.ltb_spec z (2 ^ 63)); [reflexivity|lia]. Qed.
Lemma shown_elem {K} (ka kz : option K) ta t c p q : (Z.of_nat (pl_line p) < 2 ^ 62)%Z -> (Z.of_nat (pl_line q) < 2 ^ 62)%Z -> (Z.of_nat (pl_col p) < 2 ^ 62)%Z -> (Z.of_nat (pl_col q + length t) < 2 ^ 62)%Z ->
  py_position (from_elem (token_at ka ta p) (token_at kz (t ++ [c]) q)) = shown (pl_line p) (S (pl_col p)) (pl_line q) (pl_col q + length t + 1).
Proof.
  intros H1 H2 H3 H4. unfold py_position, from_elem, token_at, shown. cbn [cp_start_line cp_stop_line cp_start_column cp_stop_column tk_line tk_col tk_start tk_stop]. rewrite app_length. cbn [length].
  assert (E : (Z.of_nat (pl_index q) + Z.of_nat (length t + 1) - 1 - Z.of_nat (pl_index q) = Z.of_nat (length t))%Z) by lia. rewrite E.
  rewrite (szt_id (Z.of_nat (length t))) by lia. rewrite !szt_id by lia. rewrite !py_size_id by lia.
  replace (Z.of_nat (pl_col p) + 1)%Z with (Z.of_nat (S (pl_col p))) by lia. replace (Z.of_nat (pl_col q) + Z.of_nat (length t) + 1)%Z with (Z.of_nat (pl_col q + length t + 1)) by lia. reflexivity.
Qed.

(** ** Tokens and their places *)
Section Located.
Context {K : Type} (lay : str -> Prop).
Inductive located : place -> list (token K) -> str -> Prop :=
| loc_end p : located p [token_at None [] p] []
| loc_show p k t ts s : t <> [] -> located (walk p t) ts s -> located p (token_at (Some k) t p :: ts) (t ++ s)
| loc_hide p t ts s : lay t -> located (walk p t) ts s -> located p ts (t ++ s).
(** a text made of tokens and layout *)
Inductive made : list str -> str -> Prop :=
| md_nil : made [] []
| md_token t ts s : t <> [] -> made ts s -> made (t :: ts) (t ++ s)
| md_layout l ts s : lay l -> made ts s -> made ts (l ++ s).
Lemma made_app ts1 s1 ts2 s2 : made ts1 s1 -> made ts2 s2 -> made (ts1 ++ ts2) (s1 ++ s2).
Proof. induction 1; intros H2; [exact H2| |]; rewrite <- app_assoc; cbn [app]; [apply md_token|apply md_layout]; auto. Qed.
Lemma made_one t : t <> [] -> made [t] t. Proof. intros N. rewrite <- (app_nil_r t) at 2. apply md_token; [exact N|constructor]. Qed.
(** the first token is right here *)
Definition here (p : place) (ts : list (token K)) (s : str) : Prop :=
  (exists k t ts' s', t <> [] /\ ts = token_at (Some k) t p :: ts' /\ s = t ++ s' /\ located (walk p t) ts' s') \/ (ts = [token_at None [] p] /\ s = []).
Lemma here_located p ts s : here p ts s -> located p ts s.
Proof. intros [(k & t & ts' & s' & N & -> & -> & H)|(-> & ->)]; constructor; assumption. Qed.
Lemma split_at p ts s : located p ts s -> forall ts1 ts2, ts = ts1 ++ ts2 -> ts2 <> [] ->
  exists a b, s = a ++ b /\ made (map tk_text ts1) a /\ here (walk p a) ts2 b.
Proof.
  induction 1 as [p|p k t ts s N H IH|p t ts s L H IH]; intros ts1 ts2 E N2.
  - destruct ts1 as [|x ts1]; [|destruct ts1, ts2; try discriminate E; congruence]. exists [], []. cbn [app] in E. subst ts2. split; [reflexivity|]. split; [constructor|]. right. auto.
  - destruct ts1 as [|x ts1].
    + exists [], (t ++ s). cbn [app] in E. subst ts2. split; [reflexivity|]. split; [constructor|]. left. exists k, t, ts, s. auto.
    + cbn [app] in E. injection E as <- E. destruct (IH ts1 ts2 E N2) as (a & b & -> & Ha & Hb). exists (t ++ a), b. split; [apply app_assoc|]. split; [cbn [map tk_text token_at]; apply md_token; assumption|].
      rewrite walk_app. exact Hb.
  - destruct (IH ts1 ts2 E N2) as (a & b & -> & Ha & Hb). exists (t ++ a), b. split; [apply app_assoc|]. split; [apply md_layout; assumption|]. rewrite walk_app. exact Hb.
Qed.
Lemma located_made p ts s : located p ts s -> forall ts', ts = ts' ++ [token_at None [] (walk p s)] -> made (map tk_text ts') s.
Proof.
  induction 1 as [p|p k t ts s N H IH|p t ts s L H IH]; intros ts' E.
  - destruct ts' as [|x ts']; [constructor|]. destruct ts'; discriminate E.
  - destruct ts' as [|x ts']; [cbn [app] in E; injection E as E _ ; discriminate E|]. cbn [app] in E. injection E as <- E. rewrite walk_app in E. apply md_token; [exact N|exact (IH ts' E)].
  - rewrite walk_app in E. apply md_layout; [exact L|exact (IH ts' E)].
Qed.
Lemma last_char (t : str) : t <> [] -> exists u c, t = u ++ [c].
Proof. intros N. destruct (exists_last N) as (u & c & E). exists u, c. exact E. Qed.

Lemma exists_last_or {X} (l : list X) : l = [] \/ exists r z, l = r ++ [z].
Proof. destruct l as [|a l]; [left; reflexivity|right]. destruct (exists_last (l := a :: l)) as (r & z & E); [discriminate|]. exists r, z. exact E. Qed.
(** What is between two tokens, and the position of an element from the one to the other *)
Lemma span s ts1 tr ts2 : located start_place (ts1 ++ tr ++ ts2 ++ [token_at None [] (walk start_place s)]) s -> tr <> [] ->
  exists a x b p l1 c1 l2 c2, s = a ++ x ++ b /\ made (map tk_text ts1) a /\ made (map tk_text tr) x /\ made (map tk_text ts2) b /\
    (exists t r y, map tk_text tr = t :: r /\ x = t ++ y) /\ (exists t r y, map tk_text tr = r ++ [t] /\ t <> [] /\ x = y ++ t /\ (region l1 c1 l2 c2 s = x <-> ~ In nl (removelast t))) /\
    rule_position (ts1 ++ tr ++ ts2 ++ [token_at None [] (walk start_place s)]) (length ts1) (length tr) = Ok p /\ (fits s -> py_position p = shown l1 c1 l2 c2).
Proof.
  intros H Nr. destruct (split_at _ _ _ H ts1 (tr ++ ts2 ++ [token_at None [] (walk start_place s)]) eq_refl) as (a & b1 & Es & Ha & Hb); [destruct tr; [congruence|discriminate]|].
  destruct Hb as [(k & t & ts' & s' & Nt & E & Eb & Hl)|(E & _)]; [|destruct tr as [|y tr]; [congruence|]; cbn [app] in E; injection E as -> E; destruct tr; [destruct ts2|]; discriminate E].
  destruct tr as [|y tr]; [congruence|]. cbn [app] in E. injection E as Ey E. subst ts'.
  set (F := token_at None [] (walk start_place s)) in *. clear Nr.
  assert (G : exists x z kz tz b, s = a ++ (x ++ tz) ++ b /\ tz <> [] /\ z = token_at (Some kz) tz (walk start_place (a ++ x)) /\
               (exists rest, y :: tr = rest ++ [z] /\ made (map tk_text rest) x) /\ located (walk (walk start_place (a ++ x)) tz) (ts2 ++ [F]) b /\ (exists v, x ++ tz = t ++ v)).
  { destruct (exists_last_or tr) as [->|(rest & z & ->)].
    - exists [], y, k, t, s'. cbn [app] in *. rewrite app_nil_r. split; [rewrite Es, Eb; reflexivity|]. split; [exact Nt|]. split; [exact Ey|]. split; [exists []; split; [reflexivity|constructor]|].
      split; [exact Hl|]. exists []. rewrite app_nil_r. reflexivity.
    - rewrite <- app_assoc in Hl. destruct (split_at _ _ _ Hl rest ([z] ++ ts2 ++ [F]) eq_refl) as (a' & b' & Es' & Ha' & Hb'); [discriminate|].
      destruct Hb' as [(kz & tz & ts' & b & Nz & Ez & Eb' & Hlz)|(Ez & _)]; [|cbn [app] in Ez; injection Ez as _ Ez; destruct ts2; discriminate Ez].
      cbn [app] in Ez. injection Ez as Ez <-. rewrite <- !walk_app in *. exists (t ++ a'), z, kz, tz, b.
      split; [rewrite Es, Eb, Es', Eb', <- !app_assoc; reflexivity|]. split; [exact Nz|]. split; [rewrite Ez; rewrite ?app_assoc; reflexivity|].
      split; [exists (y :: rest); split; [reflexivity|rewrite Ey; cbn [map tk_text token_at]; apply md_token; assumption]|].
      split; [rewrite <- walk_app, <- ?app_assoc; exact Hlz|]. exists (a' ++ tz). rewrite <- app_assoc. reflexivity. }
  destruct G as (x & z & kz & tz & b & Es2 & Nz & Ez & (rest & Er & Hrest) & Hlz & (v & Ev)).
  destruct (last_char tz Nz) as (u & c & Eu).
  exists a, (x ++ tz), b, (from_elem y z), (pl_line (walk start_place a)), (S (pl_col (walk start_place a))), (pl_line (walk start_place (a ++ x))), (pl_col (walk start_place (a ++ x)) + length u + 1).
  split; [exact Es2|]. split; [exact Ha|].
  assert (Hz : made (map tk_text (y :: tr)) (x ++ tz)).
  { rewrite Er, map_app. apply made_app; [exact Hrest|]. subst z. cbn [map tk_text token_at]. exact (made_one tz Nz). }
  split; [exact Hz|]. split; [apply (located_made _ _ _ Hlz ts2); unfold F; rewrite <- !walk_app, Es2, <- !app_assoc; reflexivity|].
  split; [exists t, (map tk_text tr), v; split; [rewrite Ey; reflexivity|exact Ev]|].
  split.
  { exists tz, (map tk_text rest), x. split; [rewrite Er, map_app; subst z; reflexivity|]. split; [exact Nz|]. split; [reflexivity|]. subst tz. rewrite removelast_last. rewrite Es2, <- !app_assoc.
    pose proof (region_law a x u c b) as R. cbv zeta in R. rewrite <- !app_assoc in R. exact R. }
  split.
  { unfold rule_position. rewrite nth_error_app2, Nat.sub_diag by lia. cbn [app nth_error length]. rewrite <- plus_n_Sm.
    assert (Ln : length rest = length tr) by (apply (f_equal (@length _)) in Er; rewrite app_length in Er; cbn [length] in Er; lia).
    rewrite nth_error_app2 by lia. replace (length ts1 + length tr - length ts1) with (length rest) by lia.
    change (y :: tr ++ ts2 ++ [F]) with ((y :: tr) ++ ts2 ++ [F]). rewrite Er, <- app_assoc, nth_error_app2, Nat.sub_diag by lia. reflexivity. }
  intros Fs. unfold fits in Fs. rewrite Ey, Ez, Eu.
  pose proof (walk_bound a start_place) as (B1 & B2). pose proof (walk_bound (a ++ x) start_place) as (B3 & B4). cbn [pl_line pl_col start_place] in *.
  assert (Len : length s = length a + length x + length u + 1 + length b) by (rewrite Es2, Eu, !app_length; cbn [length]; lia).
  rewrite app_length in B3, B4. apply shown_elem; lia.
Qed.
End Located.
