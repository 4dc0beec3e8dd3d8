(** The tokens with positions are those of the lexers of VHDL and Verilog. *)
From Verif Require Import Base BaseFacts SvExprModel RegexModel VhdlLexModel SvLexModel PosSpec PosModel PosProofs.
From Verif Require VhdlSpellSpec SvSpellSpec VhdlCoverProofs SvLexProofs SvCoverProofs.
Local Open Scope nat_scope.

Definition seen {K} (l : list (K * str)) : list (option K * str) := map (fun kt => (Some (fst kt), snd kt)) l.
Definition kind_text {K} (t : token K) : option K * str := (tk_kind t, tk_text t).
Lemma seen_app {K} (l1 l2 : list (K * str)) : seen (l1 ++ l2) = seen l1 ++ seen l2. Proof. apply map_app. Qed.
Lemma seen_texts {K} (ts : list (token K)) l : map kind_text ts = seen l -> map tk_text ts = map snd l /\ length ts = length l.
Proof.
  intros E. split; [apply (f_equal (map snd)) in E; unfold seen in E; rewrite !map_map in E; exact E|]. apply (f_equal (@length _)) in E. unfold seen in E. rewrite !map_length in E. exact E.
Qed.
Lemma map_split {X Y} (f : X -> Y) l1 : forall ts l2, map f ts = l1 ++ l2 -> exists t1 t2, ts = t1 ++ t2 /\ map f t1 = l1 /\ map f t2 = l2.
Proof.
  induction l1 as [|y l1 IH]; intros ts l2 E; [exists [], ts; auto|]. destruct ts as [|x ts]; [discriminate E|]. cbn [map app] in E. injection E as E1 E. destruct (IH ts l2 E) as (t1 & t2 & -> & <- & <-).
  exists (x :: t1), t2. subst y. auto.
Qed.
Lemma nonempty_texts {K} (ts : list (token K)) (l : list (K * str)) : l <> [] -> length ts = length l -> ts <> [].
Proof. intros N E ->. destruct l; [congruence|discriminate]. Qed.

Definition t_ok (lay : str -> Prop) (hid : bool) (t : str) : Prop := if hid then lay t else t <> [].
Section Step.
Context {K Mode : Type} (step : Mode -> str -> option (K * nat)) (hide : K -> bool) (next : Mode -> K -> Mode).
Lemma scan_step f m p c s k n ts : step m (c :: s) = Some (k, S n) -> scan step hide next f (next m k) (walk p (firstn (S n) (c :: s))) (skipn (S n) (c :: s)) = Ok ts ->
  scan step hide next (S f) m p (c :: s) = Ok (if hide k then ts else token_at (Some k) (firstn (S n) (c :: s)) p :: ts).
Proof. intros E H. change (scan step hide next (S f) m p (c :: s)) with (match step m (c :: s) with
          | None | Some (_, 0) => Throw (ParseException $"token recognition error")
          | Some (k, n) =>
              rest <- scan step hide next f (next m k) (walk p (firstn n (c :: s))) (skipn n (c :: s)) ;;
              Ok (if hide k then rest else token_at (Some k) (firstn n (c :: s)) p :: rest)
          end). rewrite E, H. reflexivity. Qed.
Lemma scan_nil f m p : scan step hide next f m p [] = Ok [token_at None [] p]. Proof. destruct f; reflexivity. Qed.
Lemma scan_located lay f m p c s k n ts : t_ok lay (hide k) (firstn (S n) (c :: s)) -> step m (c :: s) = Some (k, S n) ->
  let t := firstn (S n) (c :: s) in let u := skipn (S n) (c :: s) in
  scan step hide next f (next m k) (walk p t) u = Ok (ts ++ [token_at None [] (walk (walk p t) u)]) -> located lay (walk p t) (ts ++ [token_at None [] (walk (walk p t) u)]) u ->
  exists ts', scan step hide next (S f) m p (c :: s) = Ok (ts' ++ [token_at None [] (walk p (c :: s))]) /\ located lay p (ts' ++ [token_at None [] (walk p (c :: s))]) (c :: s) /\
    map kind_text ts' = if hide k then map kind_text ts else (Some k, t) :: map kind_text ts.
Proof.
  cbv zeta. intros Ht E Hs Hl. pose proof (scan_step f m p c s k n _ E Hs) as G. pose proof (firstn_skipn (S n) (c :: s)) as Sp. rewrite <- walk_app, Sp in *.
  revert Ht G Hl Sp. generalize (firstn (S n) (c :: s)) (skipn (S n) (c :: s)). intros t u Ht G Hl Sp. rewrite G. unfold t_ok in Ht. destruct (hide k).
  - exists ts. split; [reflexivity|]. split; [|reflexivity]. rewrite <- Sp at 2. apply loc_hide; assumption.
  - exists (token_at (Some k) t p :: ts). split; [reflexivity|]. split; [|reflexivity]. cbn [app]. rewrite <- Sp at 2. apply loc_show; assumption.
Qed.
End Step.

(** ** VHDL *)
Definition vlay (t : str) : Prop := forall ts s, VhdlSpellSpec.made_of ts s -> VhdlSpellSpec.made_of ts (t ++ s).
Lemma v_made ts s : made vlay ts s -> VhdlSpellSpec.made_of ts s.
Proof. induction 1; [constructor|apply VhdlSpellSpec.mo_token; assumption|auto]. Qed.
Lemma v_located : forall f p s l, v_loop f s = Ok l ->
  exists ts, scan (fun (_ : unit) s => v_best v_rules s None) hidden (fun m _ => m) f tt p s = Ok (ts ++ [token_at None [] (walk p s)]) /\
    located vlay p (ts ++ [token_at None [] (walk p s)]) s /\ map kind_text ts = seen l.
Proof.
  assert (N : forall f p, exists ts, scan (fun (_ : unit) s => v_best v_rules s None) hidden (fun m _ => m) f tt p [] = Ok (ts ++ [token_at None [] (walk p [])]) /\ located vlay p (ts ++ [token_at None [] (walk p [])]) [] /\ map kind_text ts = seen (@nil (vkind * str))).
  { intros f p. exists []. split; [apply scan_nil|]. split; [constructor|reflexivity]. }
  induction f as [|f IH]; intros p s l H; destruct s as [|c s].
  - injection H as <-. apply N.
  - discriminate H.
  - injection H as <-. apply N.
  - rewrite VhdlCoverProofs.v_loop_S in H. apply VhdlCoverProofs.v_next_Ok in H as (k & n & ts' & E & R & ->).
    destruct (IH (walk p (firstn (S n) (c :: s))) _ _ R) as (ts & Hs & Hl & Em). pose proof (VhdlCoverProofs.v_best_chosen _ _ _ E) as (C & _).
    destruct (scan_located (fun (_ : unit) s => v_best v_rules s None) hidden (fun m _ => m) vlay f tt p c s k n ts) as (ts2 & H1 & H2 & H3); [|exact E|exact Hs|exact Hl|].
    + unfold t_ok. destruct (hidden k) eqn:Hk; [intros l s'; exact (VhdlCoverProofs.hidden_made k _ _ l s' C Hk)|exact (proj1 C)].
    + exists ts2. split; [exact H1|]. split; [exact H2|]. rewrite H3, Em. destruct (hidden k); reflexivity.
Qed.

(** ** Verilog *)
Definition slay (t : str) : Prop := SvSpellSpec.layout t.
Lemma s_made ts s : made slay ts s -> SvSpellSpec.made_of ts s.
Proof. induction 1; [constructor|apply SvSpellSpec.mo_token; assumption|apply SvSpellSpec.mo_layout; assumption]. Qed.
Lemma s_located v : forall f b p s l, s_loop v f b s = Ok l ->
  exists ts, scan (fun m s => s_step v m s) s_hidden s_mode f b p s = Ok (ts ++ [token_at None [] (walk p s)]) /\
    located slay p (ts ++ [token_at None [] (walk p s)]) s /\ map kind_text ts = seen l.
Proof.
  assert (N : forall f b p, exists ts, scan (fun m s => s_step v m s) s_hidden s_mode f b p [] = Ok (ts ++ [token_at None [] (walk p [])]) /\ located slay p (ts ++ [token_at None [] (walk p [])]) [] /\ map kind_text ts = seen (@nil (skind * str))).
  { intros f b p. exists []. split; [apply scan_nil|]. split; [constructor|reflexivity]. }
  induction f as [|f IH]; intros b p s l H; destruct s as [|c s].
  - injection H as <-. apply N.
  - discriminate H.
  - injection H as <-. apply N.
  - rewrite SvLexProofs.s_loop_S in H. unfold SvLexProofs.s_next in H. destruct (s_step v b (c :: s)) as [[k [|n]]|] eqn:E; try discriminate H.
    destruct (s_loop v f (s_mode b k) (skipn (S n) (c :: s))) as [l'| | |] eqn:R; try discriminate H. cbn [bind] in H. injection H as <-.
    destruct (IH (s_mode b k) (walk p (firstn (S n) (c :: s))) _ _ R) as (ts & Hs & Hl & Em). pose proof E as C. unfold s_step in C. apply SvCoverProofs.s_best_chosen in C.
    destruct (scan_located (fun m s => s_step v m s) s_hidden s_mode slay f b p c s k n ts) as (ts2 & H1 & H2 & H3); [|exact E|exact Hs|exact Hl|].
    + unfold t_ok. destruct (s_hidden k) eqn:Hk; [exact (SvCoverProofs.hidden_layout v b k _ _ C Hk)|exact (proj1 C)].
    + exists ts2. split; [exact H1|]. split; [exact H2|]. rewrite H3, Em. destruct (s_hidden k); reflexivity.
Qed.

(** ** Line ends in tokens *)
Fixpoint avoids (c : ascii) (r : re) : bool :=
  match r with
  | Emp | Eps | Eof => true
  | Chr k => negb (cc_mem k c)
  | Seq a b | Alt a b => avoids c a && avoids c b
  | Star a => avoids c a
  end.
Lemma avoids_ok c r s rest : M r s rest -> avoids c r = true -> ~ In c s.
Proof.
  induction 1 as [rest| |k x rest H|a b x y rest _ IHa _ IHb|a b x rest _ IH|a b x rest _ IH|a rest|a x y rest _ _ IHa _ IHb]; cbn [avoids]; intros A I; try destruct I as [<-|[]]; try contradiction.
  - rewrite H in A. discriminate.
  - apply andb_prop in A as (A1 & A2). apply in_app_or in I as [I|I]; [exact (IHa A1 I)|exact (IHb A2 I)].
  - apply andb_prop in A as (A1 & A2). exact (IH A1 I).
  - apply andb_prop in A as (A1 & A2). exact (IH A2 I).
  - apply in_app_or in I as [I|I]; [exact (IHa A I)|exact (IHb A I)].
Qed.
Lemma v_rules_lines : forallb (fun kr => if hidden (fst kr) then true else avoids nl (snd kr)) v_rules = true.
Proof. vm_compute. reflexivity. Qed.
Lemma v_no_line l s : VhdlCoverProofs.steps l s -> Forall (fun kt => ~ In nl (snd kt)) l.
Proof.
  induction 1 as [|k t ts s C Hk _ IH|k t ts s C Hk _ IH]; [constructor| |exact IH]. constructor; [|exact IH]. destruct C as (_ & pre & r & post & E & HM & _).
  pose proof (proj1 (forallb_forall _ _) v_rules_lines (k, r)) as A. rewrite E in A. specialize (A (in_elt (k, r) pre post)). cbn [fst snd] in A. rewrite Hk in A. exact (avoids_ok nl r t s HM A).
Qed.
(** Strings, escaped names and numbers with a base may contain line ends. *)
Definition many_lines (k : skind) : bool := match k with S_STRING_LITERAL | S_ESCAPED_IDENTIFIER | S_ANY_BASED_NUMBER | S_BASED_NUMBER_WITH_SIZE => true | _ => false end.
Definition one_line (kr : skind * re) : bool := if s_hidden (fst kr) then true else if many_lines (fst kr) then true else avoids nl (snd kr).
Lemma all_in {X} (f : X -> bool) l x : forallb f l = true -> In x l -> f x = true. Proof. intros H. exact (proj1 (forallb_forall f l) H x). Qed.
Lemma table_lines : forallb one_line table_rules = true. Proof. vm_compute. reflexivity. Qed.
Lemma s_rules_lines v : forallb one_line (s_rules v) = true. Proof. destruct v; vm_compute; reflexivity. Qed.
Lemma s_no_line v b l s : SvCoverProofs.steps v b l s -> Forall (fun kt => many_lines (fst kt) = false -> ~ In nl (snd kt)) l.
Proof.
  induction 1 as [b|b k t ts s C Hk _ IH|b k t ts s C Hk _ IH]; [constructor| |exact IH]. constructor; [|exact IH]. cbn [fst snd]. intros Hm. apply SvCoverProofs.chosen_in in C as (r & I & HM).
  assert (A : one_line (k, r) = true). { destruct b; [rewrite SvCoverProofs.mode_table in I; exact (all_in one_line table_rules (k, r) table_lines I)|rewrite SvCoverProofs.mode_plain in I; exact (all_in one_line (s_rules v) (k, r) (s_rules_lines v) I)]. }
  unfold one_line in A. cbn [fst snd] in A. rewrite Hk, Hm in A. exact (avoids_ok nl r t s HM A).
Qed.
