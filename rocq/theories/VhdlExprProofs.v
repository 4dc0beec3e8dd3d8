From Verif Require Import Base BaseFacts AstModel LitModel LitSpec LitProofs SvExprModel SvExprSpec SvExprProofs VhdlExprModel VhdlExprSpec.

(** ** Induction over expressions *)
Section Kids.
Context (P : hexpr -> Prop).
Definition o_kid (e : option hexpr) : Prop := match e with Some e => P e | None => True end.
Definition h_rng (r : hrange hexpr) : Prop := match r with R_name e => P e | R_explicit a _ b => P a /\ P b end.
Definition h_ch (c : hchoice hexpr) : Prop := match c with Ch_others => True | Ch r => h_rng r end.
Definition h_el (p : list (hchoice hexpr) * hexpr) : Prop := Forall h_ch (fst p) /\ P (snd p).
Definition h_ds (d : hdesig hexpr) : Prop := match d with D_expr _ e => P e | D_open => True end.
Definition h_ac (a : hactual hexpr) : Prop := match a with Act d => h_ds d | Act_conv n d => P n /\ h_ds d end.
Definition h_fp (p : option (hexpr * option hexpr)) : Prop := match p with Some (n, m) => P n /\ o_kid m | None => True end.
Definition h_as (a : hassoc hexpr) : Prop := match a with Assoc fp ac => h_fp fp /\ h_ac ac end.
Definition h_re (r : option (hres hexpr)) : Prop := match r with Some (Res_name n) => P n | _ => True end.
Definition h_orl (l : option (list (hrange hexpr))) : Prop := match l with Some l => Forall h_rng l | None => True end.
Definition h_co (c : option (hconstr hexpr)) : Prop :=
  match c with Some (Con_range r) => h_rng r | Some (Con_array l _) => Forall h_orl l | None => True end.
Definition hkids (e : hexpr) : Prop :=
  match e with
  | HLit _ | HExternal | HBits _ | HNull => True
  | HSlice n a _ b => P n /\ P a /\ P b
  | HAttr n _ _ | HDot n _ | HAll n | HNew n | HUn _ n | HCondOp n => P n
  | HApply n l => P n /\ Forall h_as l
  | HNum _ _ u => o_kid u
  | HAgg l => Forall h_el l
  | HQual tm l => P tm /\ Forall h_el l
  | HPow a b | HMul _ a b | HAdd _ a b | HShift _ a b | HRel _ a b | HLog _ a b => P a /\ P b
  | HSubtype ri tm c => h_re ri /\ P tm /\ h_co c
  end.
Section Build.
Context (f : forall e, P e).
Definition bo_kid (e : option hexpr) : o_kid e := match e with Some e => f e | None => I end.
Definition b_rng (r : hrange hexpr) : h_rng r := match r with R_name e => f e | R_explicit a _ b => conj (f a) (f b) end.
Definition b_ch (c : hchoice hexpr) : h_ch c := match c with Ch_others => I | Ch r => b_rng r end.
Definition b_el (p : list (hchoice hexpr) * hexpr) : h_el p :=
  match p return h_el p with (cs, e) => conj (Forall_fix h_ch b_ch cs) (f e) end.
Definition b_ds (d : hdesig hexpr) : h_ds d := match d with D_expr _ e => f e | D_open => I end.
Definition b_ac (a : hactual hexpr) : h_ac a := match a with Act d => b_ds d | Act_conv n d => conj (f n) (b_ds d) end.
Definition b_fp (p : option (hexpr * option hexpr)) : h_fp p :=
  match p return h_fp p with Some (n, m) => conj (f n) (bo_kid m) | None => I end.
Definition b_as (a : hassoc hexpr) : h_as a := match a with Assoc fp ac => conj (b_fp fp) (b_ac ac) end.
Definition b_re (r : option (hres hexpr)) : h_re r := match r with Some (Res_name n) => f n | Some Res_elem => I | None => I end.
Definition b_orl (l : option (list (hrange hexpr))) : h_orl l := match l with Some l => Forall_fix h_rng b_rng l | None => I end.
Definition b_co (c : option (hconstr hexpr)) : h_co c :=
  match c with Some (Con_range r) => b_rng r | Some (Con_array l _) => Forall_fix h_orl b_orl l | None => I end.
End Build.
End Kids.
Section Ind.
Context (P : hexpr -> Prop) (H : forall e, hkids P e -> P e).
Fixpoint hexpr_ind' (e : hexpr) : P e :=
  H e (match e return hkids P e with
       | HLit _ | HExternal | HBits _ | HNull => I
       | HSlice n a _ b => conj (hexpr_ind' n) (conj (hexpr_ind' a) (hexpr_ind' b))
       | HAttr n _ _ | HDot n _ | HAll n | HNew n | HUn _ n | HCondOp n => hexpr_ind' n
       | HApply n l => conj (hexpr_ind' n) (Forall_fix (h_as P) (b_as P hexpr_ind') l)
       | HNum _ _ u => bo_kid P hexpr_ind' u
       | HAgg l => Forall_fix (h_el P) (b_el P hexpr_ind') l
       | HQual tm l => conj (hexpr_ind' tm) (Forall_fix (h_el P) (b_el P hexpr_ind') l)
       | HPow a b | HMul _ a b | HAdd _ a b | HShift _ a b | HRel _ a b | HLog _ a b => conj (hexpr_ind' a) (hexpr_ind' b)
       | HSubtype ri tm c => conj (b_re P hexpr_ind' ri) (conj (hexpr_ind' tm) (b_co P hexpr_ind' c))
       end).
End Ind.

(** ** Literals *)
Lemma undouble_doubled : forall n d s, length d <= n -> undouble d = Some s -> d = doubled s.
Proof.
  induction n as [|n IH]; intros d s L E.
  - destruct d; [|cbn in L; lia]. injection E as <-. reflexivity.
  - destruct d as [|c d]; [injection E as <-; reflexivity|]. cbn [undouble] in E. destruct (ceqb c dq) eqn:C.
    + destruct d as [|c' d]; [discriminate|]. destruct (ceqb c' dq) eqn:C'; [|discriminate]. apply obind_inv in E as (r & Er & E). injection E as <-.
      apply ceqb_eq in C, C'. subst. cbn [doubled]. rewrite ceqb_refl. rewrite <- (IH d r); [reflexivity|cbn in L; lia|exact Er].
    + apply obind_inv in E as (r & Er & E). injection E as <-. cbn [doubled]. rewrite C. rewrite <- (IH d r); [reflexivity|cbn in L; lia|exact Er].
Qed.
Lemma hv_string_ok t s : hv_string t = Some s -> visit_vhdl_string t = Ok (EStr s).
Proof.
  destruct t as [|q t]; [discriminate|]. cbn [hv_string]. destruct (rev t) as [|r t'] eqn:E; [discriminate|].
  destruct (ceqb q dq && ceqb r dq) eqn:E2; [|discriminate]. intros H. apply andb_true_iff in E2 as (E2 & E3). apply ceqb_eq in E2, E3. subst.
  apply (undouble_doubled (length (rev t')) _ _ (le_n _)) in H.
  assert (t = rev t' ++ [dq]) as -> by (rewrite <- (rev_involutive t), E; reflexivity). rewrite H. exact (string_law s).
Qed.
Lemma hv_char_ok t s : hv_char t = Some s -> visit_character t = Ok (EInt (-1) (Digits s 256)).
Proof.
  destruct t as [|q [|c [|r [|x t]]]]; try discriminate. cbn [hv_char]. destruct (ceqb q "'" && ceqb r "'"); [|discriminate].
  intros H. injection H as <-. reflexivity.
Qed.
Lemma forallb_Forall {A} (f : A -> bool) l : forallb f l = true -> Forall (fun x => f x = true) l.
Proof. intros H. apply Forall_forall. apply forallb_forall. exact H. Qed.
Lemma bitlit_sim t l : hv_bitlit t = Some l ->
  visit_bit_string t = Ok (EInt (std_width l) (Digits (plain (bl_digits l)) (bradix (bl_base l)))).
Proof.
  unfold hv_bitlit. pose proof (cut_at_app dq t) as Ht. destruct (cut_at dq t) as (p, q) eqn:Ec.
  destruct (rev p) as [|c n] eqn:Ep; [discriminate|]. destruct q as [|d ds]; [discriminate|]. intros H. apply obind_inv in H as (b & Hb & H).
  destruct (rev ds) as [|r ds'] eqn:Eds; [discriminate|].
  match type of H with (if ?x then _ else _) = _ => destruct x eqn:E; [|discriminate] end. injection H as <-.
  apply andb_true_iff in E as (E & E4). apply andb_true_iff in E as (E & E3). apply andb_true_iff in E as (E1 & E2).
  apply ceqb_eq in E1. subst r.
  assert (d = dq) as ->.
  { clear - Ec. revert p Ec. induction t as [|x t IH]; intros p Ec; [discriminate|]. cbn [cut_at] in Ec. destruct (ceqb x dq) eqn:X.
    - injection Ec as <- <- <-. apply ceqb_eq. exact X.
    - destruct (cut_at dq t) as (a, b). injection Ec as <- ->. apply (IH a). reflexivity. }
  assert (p = rev n ++ [c]) as -> by (rewrite <- (rev_involutive p), Ep; reflexivity).
  assert (ds = rev ds' ++ [dq]) as -> by (rewrite <- (rev_involutive ds), Eds; reflexivity).
  set (l := mkBit (match n with [] => None | _ => Some (rev n) end) NoSign c b (rev ds')).
  assert (t = spell_bit l) as ->.
  { rewrite Ht. unfold spell_bit, l. cbn [bl_len bl_sign bl_letter bl_digits]. destruct n; [reflexivity|]. rewrite <- app_assoc. reflexivity. }
  assert (In c (bletters b) /\ (b = BB \/ b = BX)) as (Hc & Hb').
  { destruct (mem_c c $"bB") eqn:M; [injection Hb as <-; split; [apply mem_c_In; exact M|left; reflexivity]|].
    destruct (mem_c c $"xX") eqn:M2; [injection Hb as <-; split; [apply mem_c_In; exact M2|right; reflexivity]|discriminate]. }
  apply (bit_string_bin_hex l).
  - unfold bitlit_ok, l. cbn [bl_len bl_sign bl_letter bl_digits bl_base]. split; [|split; [exact I|split; [exact Hc|]]].
    + destruct n as [|x n]; [exact I|]. apply andb_true_iff in E4 as (_ & E4). split; [|split].
      * cbn [rev]. destruct (rev n); discriminate.
      * apply forallb_Forall. exact E3.
      * apply Z.leb_le. exact E4.
    + apply Forall_forall. intros x Hx. rewrite forallb_forall in E2. specialize (E2 x Hx). apply andb_true_iff in E2 as (A & B).
      apply negb_true_iff in A, B. split; intros ->; rewrite ceqb_refl in *; discriminate.
  - exact Hb'.
  - cbn [bl_len bl_sign l]. destruct n as [|x n]; [exact I|]. apply andb_true_iff in E4 as (E4 & _). apply negb_true_iff in E4. apply Z.eqb_neq. exact E4.
Qed.
Lemma not_digits_dot t : mem_c "." t = true -> existsb (fun c => ceqb c "." || ceqb c "e" || ceqb c "E") t = true.
Proof.
  intros H. apply mem_c_In in H. apply existsb_exists. exists "."%char. split; [exact H|reflexivity].
Qed.

Section Sim.
Context (A : halgebra).
Notation mean := (hmeaning A).
Notation vmean := (hvmeaning A).

Lemma decimal_sim t v : hv_decimal A t = Some v -> exists a, visit_decimal t = Ok a /\ mean a = Some v /\ (forall s, a <> EId s) /\ (forall x, a <> EArr x).
Proof.
  unfold hv_decimal. destruct (forallb is_digit t) eqn:E.
  - destruct (value 10 t <=? 2147483647)%Z eqn:L; [|discriminate]. intros H. injection H as <-.
    exists (EInt (-1) (Val (value 10 t))). split; [apply decimal_value; [apply forallb_Forall; exact E|apply Z.leb_le; exact L]|].
    repeat split; discriminate.
  - destruct (mem_c "." t) eqn:M; [|discriminate]. intros H. injection H as <-. unfold visit_decimal. rewrite (not_digits_dot t M).
    eexists. split; [reflexivity|]. repeat split; discriminate.
Qed.
Lemma nlit_sim l v : hv_nlit A l = Some v -> exists a, conv_nlit l = Ok a /\ mean a = Some v /\ (forall x, a <> EArr x) /\
  (match l with NL_id _ => True | _ => forall s, a <> EId s end).
Proof.
  destruct l as [s|t|t]; cbn [hv_nlit conv_nlit]; intros H; apply obind_inv in H as (x & Hx & H); injection H as <-.
  - unfold hv_id in Hx. destruct (seqb s $"new") eqn:E; [discriminate|]. injection Hx as <-. eexists. split; [reflexivity|]. cbn [hmeaning]. rewrite E. repeat split. discriminate.
  - rewrite (hv_string_ok t x Hx). eexists. split; [reflexivity|]. repeat split; discriminate.
  - rewrite (hv_char_ok t x Hx). eexists. split; [reflexivity|]. repeat split; discriminate.
Qed.

Definition hsim (e : hexpr) : Prop :=
  forall v, vmean e = Some v -> exists a, hconv e = Ok a /\ mean a = Some v /\
    (single_named e = false -> unwrap1 a = a) /\ (is_id e = false -> forall s, a <> EId s).

Lemma not_arrow a v : mean a = Some v -> hm_assoc A mean a = Some (None, HaVal v).
Proof.
  intros H. assert (hm_act A mean a = Some (HaVal v)) as Ha.
  { unfold hm_act. destruct a as [| | | | |[]| | |]; try (rewrite H; reflexivity); discriminate. }
  unfold hm_assoc. destruct a as [| | | | | | |o l|]; try (rewrite Ha; reflexivity).
  destruct (op_eq_dec o ARROW) as [->|N].
  - destruct l as [|x [|y [|z l]]]; try (rewrite Ha; reflexivity). exfalso. cbn in H. discriminate.
  - destruct o; try (rewrite Ha; reflexivity). contradiction.
Qed.
Lemma act_val a v : mean a = Some v -> hm_act A mean a = Some (HaVal v).
Proof. intros H. unfold hm_act. destruct a as [| | | | |[]| | |]; try (rewrite H; reflexivity); discriminate. Qed.
Lemma not_element a v : mean a = Some v -> hm_element A mean a = Some ([], v).
Proof.
  intros H. unfold hm_element. destruct a as [| | | | | | |o l|]; try (rewrite H; reflexivity).
  destruct (op_eq_dec o MAP_ASSOCIATION) as [->|N].
  - destruct l as [|x [|y [|z l]]]; try (rewrite H; reflexivity). exfalso. cbn in H. discriminate.
  - destruct o; try (rewrite H; reflexivity). contradiction.
Qed.
Lemma mean_call g vg l r : mean g = Some vg -> omapM (hm_assoc A mean) l = Some r -> mean (EOp CALL (g :: l)) = Some (h_apply A vg r).
Proof.
  intros Hg Hl. cbn [hmeaning]. destruct g as [s| | | | | | | |]; try (rewrite Hg, Hl; reflexivity).
  destruct l as [|x [|y l]]; try (rewrite Hg, Hl; reflexivity). cbn [hmeaning] in Hg. destruct (seqb s $"new"); [discriminate|]. injection Hg as <-.
  cbn [omapM] in Hl. destruct (hm_assoc A mean x); [|discriminate]. cbn [obind] in *. injection Hl as <-. reflexivity.
Qed.
Lemma mean_index g vg l r : mean g = Some vg -> omapM (hm_assoc A mean) l = Some r -> mean (EOp INDEX (g :: l)) = Some (h_apply A vg r).
Proof. intros Hg Hl. cbn [hmeaning]. rewrite Hg, Hl. reflexivity. Qed.
Lemma mean_range d x y vx vy : mean x = Some vx -> mean y = Some vy -> mean (op2 (dir_op d) x y) = Some (h_range A d vx vy).
Proof. intros Hx Hy. destruct d; cbn [dir_op op2 hmeaning]; rewrite Hx, Hy; reflexivity. Qed.
Lemma mean_bin o b x y vx vy : hm_bin o = Some b -> mean x = Some vx -> mean y = Some vy -> mean (op2 o x y) = Some (h_binary A b vx vy).
Proof. intros Ho Hx Hy. destruct o; try discriminate Ho; injection Ho as <-; cbn [op2 hmeaning hm_bin obind]; rewrite Hx, Hy; reflexivity. Qed.
Lemma mean_un o u x vx : hm_un o = Some u -> mean x = Some vx -> mean (op1 o x) = Some (h_unary A u vx).
Proof. intros Ho Hx. destruct o; try discriminate Ho; injection Ho as <-; cbn [op1 hmeaning hm_un obind]; rewrite Hx; reflexivity. Qed.

(** Parts. *)
Lemma range_sim r v : h_rng hsim r -> hv_range A vmean r = Some v -> exists a, conv_range hconv r = Ok a /\ mean a = Some v.
Proof.
  destruct r as [e|a d b]; cbn [h_rng hv_range conv_range]; intros H E.
  - destruct (H v E) as (x & Hx & Hm & _). eauto.
  - destruct H as (H1 & H2). apply obind_inv in E as (x & Ex & E). apply obind_inv in E as (y & Ey & E). injection E as <-.
    destruct (H1 x Ex) as (x' & -> & Hm & _). destruct (H2 y Ey) as (y' & -> & Hm' & _). cbn [bind]. eexists. split; [reflexivity|]. apply mean_range; assumption.
Qed.
Lemma element_sim p v : h_el hsim p -> hv_element A vmean p = Some v ->
  exists a, conv_element hconv p = Ok a /\ hm_element A mean a = Some v.
Proof.
  destruct p as (cs, e). unfold hv_element, conv_element, h_el. cbn [fst snd]. intros (Hc & He) E. apply obind_inv in E as (w & Ew & E).
  destruct (He w Ew) as (a & -> & Hm & _). cbn [bind]. destruct cs as [|c [|c' cs]]; [| |discriminate].
  - injection E as <-. exists a. split; [reflexivity|]. apply not_element. exact Hm.
  - apply obind_inv in E as (s & Es & E). injection E as <-. inversion Hc as [|? ? H1 _]; subst. cbn [mapM].
    destruct c as [|r]; cbn [hv_choice conv_choice h_ch] in *.
    + injection Es as <-. cbn [bind]. eexists. split; [reflexivity|]. cbn [op2 hm_element obind]. rewrite Hm. reflexivity.
    + apply obind_inv in Es as (y & Ey & Es). injection Es as <-. destruct (range_sim r y H1 Ey) as (b & -> & Hb). cbn [bind].
      eexists. split; [reflexivity|]. cbn [op2 hm_element]. rewrite Hm.
      destruct b as [| | | | |[]| | |]; try (rewrite Hb; reflexivity); discriminate.
Qed.
Lemma list_sim' {X Y} (Q : X -> Prop) (f : X -> outcome expr) (g : X -> option Y) (m : expr -> option Y) :
  (forall x v, Q x -> g x = Some v -> exists a, f x = Ok a /\ m a = Some v) ->
  forall l, Forall Q l -> forall r, omapM g l = Some r -> exists xs, mapM f l = Ok xs /\ omapM m xs = Some r /\ length xs = length l.
Proof.
  intros S l H. induction H as [|x l Hx H IH]; intros r E.
  - injection E as <-. exists []. repeat split.
  - cbn [omapM] in E. apply obind_inv in E as (v & Ev & E). apply obind_inv in E as (r' & Er & E). injection E as <-.
    destruct (S x v Hx Ev) as (a & Ha & Hm). destruct (IH r' Er) as (xs & Hxs & Hr & HL). cbn [mapM]. rewrite Ha. cbn [bind]. rewrite Hxs. cbn [bind].
    eexists. split; [reflexivity|]. cbn [omapM]. rewrite Hm. cbn [obind]. rewrite Hr. cbn. split; [reflexivity|f_equal; exact HL].
Qed.
Lemma aggregate_sim l v : Forall (h_el hsim) l -> hv_aggregate A vmean l = Some v ->
  exists a, conv_aggregate hconv l = Ok a /\ mean a = Some v /\
    (single_named (HAgg l) = false -> unwrap1 a = a) /\ (is_id (HAgg l) = false -> forall s, a <> EId s).
Proof.
  intros H E. unfold conv_aggregate.
  assert ((exists e, l = [([], e)] /\ vmean e = Some v) \/ (exists r, omapM (hv_element A vmean) l = Some r /\ v = h_aggregate A r /\ forall e, l <> [([], e)])) as [(e & -> & Ee)|(r & Er & -> & N)].
  { destruct l as [|([|c cs], e) [|p l]]; cbn [hv_aggregate] in E; try (right; apply obind_inv in E as (r & Er & E); injection E as <-; exists r; repeat split; [exact Er|discriminate]).
    left. exists e. split; [reflexivity|exact E]. }
  - inversion H as [|? ? (_ & He) _]; subst. cbn [snd] in He. destruct (He v Ee) as (a & Ha & Hm & H1 & H2). cbn [mapM conv_element snd fst].
    unfold conv_element. cbn [fst snd]. rewrite Ha. cbn [bind]. exists a. split; [|split; [exact Hm|split; assumption]].
    f_equal. unfold finish_aggregate. destruct a as [| | | | | | |o l|]; try reflexivity.
    destruct (op_eq_dec o MAP_ASSOCIATION) as [->|No]; [|destruct o; try reflexivity; contradiction].
    exfalso. destruct l as [|x [|y [|z l]]]; cbn in Hm; try discriminate. destruct (mean x); discriminate.
  - destruct (list_sim' (h_el hsim) (conv_element hconv) (hv_element A vmean) (hm_element A mean) element_sim l H r Er) as (xs & -> & Hxs & HL). cbn [bind].
    assert (finish_aggregate xs = EArr xs) as ->.
    { destruct l as [|p [|p' l]]; cbn [length] in HL.
      - destruct xs; [reflexivity|discriminate].
      - destruct xs as [|x [|x' xs]]; try discriminate. destruct p as ([|c cs], e); [exfalso; apply (N e); reflexivity|].
        inversion H as [|? ? Hp _]; subst. cbn [omapM] in Er, Hxs. apply obind_inv in Er as (w & Ew & Er). cbn [obind] in Er. injection Er as <-.
        destruct (hm_element A mean x) as [w'|] eqn:Ex; [|discriminate]. cbn [obind] in Hxs. injection Hxs as ->.
        unfold hv_element in Ew. cbn [fst snd] in Ew. apply obind_inv in Ew as (u & _ & Ew). destruct cs as [|]; [|discriminate].
        apply obind_inv in Ew as (s & _ & Ew). injection Ew as <-.
        unfold hm_element in Ex. destruct x as [| | | | | | |o l|]; try (apply obind_inv in Ex as (? & _ & Ex); discriminate).
        destruct (op_eq_dec o MAP_ASSOCIATION) as [->|No]; [reflexivity|].
        exfalso. destruct o; try (apply obind_inv in Ex as (? & _ & Ex); discriminate). contradiction.
      - destruct xs as [|x [|x' xs]]; try discriminate. unfold finish_aggregate. destruct x; try reflexivity. destruct o; reflexivity. }
    exists (EArr xs). split; [reflexivity|]. cbn [hmeaning]. rewrite Hxs. split; [reflexivity|]. split.
    + intros Hs. destruct l as [|([|c cs], e) [|p l]]; cbn [length] in HL; destruct xs as [|x [|x' xs]]; try discriminate; try reflexivity.
      exfalso. apply (N e). reflexivity.
    + discriminate.
Qed.
Lemma desig_sim d v : h_ds hsim d -> hv_desig A vmean d = Some v -> exists a, conv_desig hconv d = Ok a /\ hm_act A mean a = Some v /\ hm_assoc A mean a = Some (None, v).
Proof.
  destruct d as [[] e|]; cbn [h_ds hv_desig conv_desig]; intros H E; try discriminate.
  - apply obind_inv in E as (x & Ex & E). injection E as <-. destruct (H x Ex) as (a & -> & Hm & _). exists a. split; [reflexivity|]. split; [apply act_val|apply not_arrow]; exact Hm.
  - injection E as <-. eexists. repeat split.
Qed.
Lemma actual_sim a v : h_ac hsim a -> hv_actual A vmean a = Some v -> exists x, conv_actual hconv a = Ok x /\ hm_act A mean x = Some v /\ hm_assoc A mean x = Some (None, v).
Proof.
  destruct a as [d|n d]; cbn [h_ac hv_actual conv_actual]; intros H E; [exact (desig_sim d v H E)|]. destruct H as (H1 & H2).
  apply obind_inv in E as (g & Eg & E). apply obind_inv in E as (w & Ew & E). injection E as <-.
  destruct (H1 g Eg) as (g' & Hg & Hm & _). destruct (desig_sim d w H2 Ew) as (x & -> & _ & Hx). cbn [bind]. rewrite Hg. cbn [bind].
  assert (mean (call_op CALL g' [x]) = Some (h_apply A g [(None, w)])) as M.
  { apply (mean_call g' g [x] [(None, w)] Hm). cbn [omapM]. rewrite Hx. reflexivity. }
  eexists. split; [reflexivity|]. split; [apply act_val|apply not_arrow]; exact M.
Qed.
Lemma assoc_sim a v : h_as hsim a -> hv_assoc A vmean a = Some v -> exists x, conv_assoc hconv a = Ok x /\ hm_assoc A mean x = Some v.
Proof.
  destruct a as [fp ac]. cbn [h_as hv_assoc conv_assoc]. intros (H1 & H2) E. apply obind_inv in E as (w & Ew & E).
  destruct (actual_sim ac w H2 Ew) as (x & -> & Hx & Hx'). cbn [bind]. destruct fp as [(n, m)|].
  - apply obind_inv in E as (k & Ek & E). injection E as <-. cbn [h_fp] in H1. destruct H1 as (H1 & H3). unfold hv_formal in Ek. cbn [fst snd] in Ek.
    apply obind_inv in Ek as (vn & En & Ek). destruct (H1 vn En) as (n' & Hn & Hmn & _). unfold conv_formal. cbn [fst snd]. rewrite Hn. cbn [bind].
    assert (exists k', (match m with Some m => x <- hconv m ;; Ok (call_op CALL n' [x]) | None => Ok n' end) = Ok k' /\ mean k' = Some k) as (k' & -> & Hk).
    { destruct m as [m|].
      - apply obind_inv in Ek as (y & Ey & Ek). injection Ek as <-. destruct (H3 y Ey) as (y' & -> & Hy & _). cbn [bind]. eexists. split; [reflexivity|].
        apply (mean_call n' vn [y'] [(None, HaVal y)] Hmn). cbn [omapM]. rewrite (not_arrow y' y Hy). reflexivity.
      - injection Ek as <-. exists n'. split; [reflexivity|exact Hmn]. }
    cbn [bind]. eexists. split; [reflexivity|]. cbn [op2 hm_assoc]. rewrite Hk, Hx. reflexivity.
  - injection E as <-. exists x. split; [reflexivity|exact Hx'].
Qed.
Lemma ranges_sim l r : Forall (h_rng hsim) l -> omapM (fun d => x <~ hv_range A vmean d ;; Some (None, HaVal x)) l = Some r ->
  exists xs, mapM (conv_range hconv) l = Ok xs /\ omapM (hm_assoc A mean) xs = Some r.
Proof.
  intros H E. destruct (list_sim' (h_rng hsim) (conv_range hconv) (fun d => x <~ hv_range A vmean d ;; Some (None, HaVal x)) (hm_assoc A mean)) with (l := l) (r := r) as (xs & Hxs & Hr & _); auto.
  - intros x v Hx Ev. apply obind_inv in Ev as (y & Ey & Ev). injection Ev as <-. destruct (range_sim x y Hx Ey) as (a & Ha & Hm). exists a. split; [exact Ha|]. apply not_arrow. exact Hm.
  - exists xs. split; assumption.
Qed.
Lemma constraints_sim l : Forall (h_orl hsim) l -> forall t vt v, mean t = Some vt -> hv_array_constraints A vmean vt l = Some v ->
  exists a, conv_array_constraints hconv t l = Ok a /\ mean a = Some v /\ (l <> [] -> unwrap1 a = a) /\ (l <> [] -> forall s, a <> EId s).
Proof.
  intros H. induction H as [|c l Hc H IH]; intros t vt v Ht E.
  - injection E as <-. exists t. repeat split; auto. intros N. contradiction.
  - cbn [hv_array_constraints] in E. apply obind_inv in E as (u & Eu & E). cbn [conv_array_constraints].
    assert (exists u', conv_array_constraint hconv t c = Ok u' /\ mean u' = Some u /\ exists o args, u' = EOp o args) as (u' & Hu' & Hmu & o & args & Eo).
    { destruct c as [rs|]; cbn [hv_array_constraint conv_array_constraint h_orl] in *.
      - apply obind_inv in Eu as (r & Er & Eu). injection Eu as <-. destruct (ranges_sim rs r Hc Er) as (xs & -> & Hxs). cbn [bind].
        eexists. split; [reflexivity|]. split; [apply (mean_index t vt xs r Ht Hxs)|do 2 eexists; reflexivity].
      - injection Eu as <-. eexists. split; [reflexivity|]. split; [|do 2 eexists; reflexivity]. apply (mean_index t vt _ [(None, HaAll)] Ht). reflexivity. }
    rewrite Hu'. cbn [bind]. destruct (IH u' u v Hmu E) as (a & Ha & Hm & H1 & H2). exists a. split; [exact Ha|]. split; [exact Hm|].
    destruct l as [|c' l].
    + cbn in Ha. injection Ha as <-. subst u'. split; [reflexivity|discriminate].
    + split; intros _; [apply H1|apply H2]; discriminate.
Qed.

Lemma operand_sim e v : hsim e -> hv_operand A vmean e = Some v -> exists a, hconv e = Ok a /\ mean (unwrap1 a) = Some v.
Proof.
  unfold hv_operand. destruct (single_named e) eqn:S; [discriminate|]. intros H E. destruct (H v E) as (a & Ha & Hm & H1 & _).
  exists a. split; [exact Ha|]. rewrite (H1 S). exact Hm.
Qed.
Theorem hconv_sim e : hsim e.
Proof.
  apply hexpr_ind'. clear e. intros e K v E. destruct e; cbn [hkids] in K; cbn [hvmeaning] in E; try discriminate.
  - destruct (nlit_sim l v E) as (a & Ha & Hm & Hx & Hi). exists a. cbn [hconv]. split; [exact Ha|]. split; [exact Hm|]. split.
    + intros _. destruct a as [| | | |x| | | |]; try reflexivity. exfalso. apply (Hx x). reflexivity.
    + intros N. destruct l; [discriminate|exact Hi|exact Hi].
  - destruct K as (K1 & K2 & K3). apply obind_inv in E as (x & Ex & E). apply obind_inv in E as (y & Ey & E). apply obind_inv in E as (z & Ez & E). injection E as <-.
    destruct (K1 x Ex) as (x' & Hx & Hmx & _). destruct (K2 y Ey) as (y' & Hy & Hmy & _). destruct (K3 z Ez) as (z' & Hz & Hmz & _).
    cbn [hconv]. rewrite Hx. cbn [bind]. rewrite Hy. cbn [bind]. rewrite Hz. cbn [bind]. eexists. split; [reflexivity|]. split; [|split; [reflexivity|discriminate]].
    apply (mean_index x' x _ [(None, HaVal (h_range A d y z))] Hmx). cbn [omapM]. rewrite (not_arrow _ _ (mean_range d y' z' y z Hmy Hmz)). reflexivity.
  - destruct signature; [discriminate|]. apply obind_inv in E as (x & Ex & E). injection E as <-. destruct (K x Ex) as (x' & Hx & Hmx & _).
    cbn [hconv]. rewrite Hx. cbn [bind]. eexists. split; [reflexivity|]. split; [|split; [reflexivity|discriminate]]. cbn [op2 hmeaning]. rewrite Hmx. reflexivity.
  - apply obind_inv in E as (x & Ex & E). apply obind_inv in E as (y & Ey & E). injection E as <-. destruct (K x Ex) as (x' & Hx & Hmx & _).
    destruct (nlit_sim l y Ey) as (y' & Hy & Hmy & _). cbn [hconv]. rewrite Hx. cbn [bind]. rewrite Hy. cbn [bind].
    eexists. split; [reflexivity|]. split; [|split; [reflexivity|discriminate]]. cbn [op2 hmeaning].
    destruct y' as [| | | | |[]| | |]; try (rewrite Hmx; cbn [obind]; rewrite Hmy; reflexivity). discriminate.
  - apply obind_inv in E as (x & Ex & E). injection E as <-. destruct (K x Ex) as (x' & Hx & Hmx & _).
    cbn [hconv]. rewrite Hx. cbn [bind]. eexists. split; [reflexivity|]. split; [|split; [reflexivity|discriminate]]. cbn [op2 hmeaning]. rewrite Hmx. reflexivity.
  - destruct K as (K1 & K2). apply obind_inv in E as (x & Ex & E). apply obind_inv in E as (r & Er & E). injection E as <-. destruct (K1 x Ex) as (x' & Hx & Hmx & _).
    destruct (list_sim' (h_as hsim) (conv_assoc hconv) (hv_assoc A vmean) (hm_assoc A mean) assoc_sim l K2 r Er) as (xs & Hxs & Hr & _).
    cbn [hconv]. rewrite Hx. cbn [bind]. rewrite Hxs. cbn [bind]. eexists. split; [reflexivity|]. split; [|split; [reflexivity|discriminate]].
    exact (mean_index x' x xs r Hmx Hr).
  - destruct based; [discriminate|]. destruct unit_ as [u|]; cbn [o_kid] in K.
    + apply obind_inv in E as (x & Ex & E). apply obind_inv in E as (y & Ey & E). injection E as <-. destruct (decimal_sim t x Ex) as (a & Ha & Hm & _).
      destruct (K y Ey) as (y' & Hy & Hmy & _). cbn [hconv]. rewrite Hy. cbn [bind]. rewrite Ha. cbn [bind]. eexists. split; [reflexivity|]. split; [|split; [reflexivity|discriminate]].
      cbn [op2 hmeaning]. rewrite Hm. cbn [obind]. rewrite Hmy. reflexivity.
    + destruct (decimal_sim t v E) as (a & Ha & Hm & Hi & Hx). cbn [hconv bind]. rewrite Ha. cbn [bind]. exists a. split; [reflexivity|]. split; [exact Hm|]. split.
      * intros _. destruct a as [| | | |x| | | |]; try reflexivity. exfalso. apply (Hx x). reflexivity.
      * intros _. exact Hi.
  - unfold hv_bits in E. apply obind_inv in E as (l & El & E). injection E as <-. cbn [hconv]. rewrite (bitlit_sim t l El).
    eexists. split; [reflexivity|]. split; [|split; [reflexivity|discriminate]]. cbn [hmeaning]. destruct (bl_base l); reflexivity.
  - injection E as <-. exists (ESym symb_NULL). repeat split. discriminate.
  - apply obind_inv in E as (x & Ex & E). injection E as <-. destruct (K x Ex) as (x' & Hx & Hmx & _).
    cbn [hconv]. rewrite Hx. cbn [bind]. eexists. split; [reflexivity|]. split; [|split; [reflexivity|discriminate]].
    change (mean (op2 CALL (EId $"new") x')) with (vx <~ mean x' ;; Some (h_new A vx)). rewrite Hmx. reflexivity.
  - destruct (aggregate_sim l v K E) as (a & Ha & Hm & H1 & H2). exists a. cbn [hconv]. repeat split; auto.
  - destruct K as (K1 & K2). destruct (match l with [([], e)] => is_id e | _ => false end) eqn:I; [discriminate|].
    apply obind_inv in E as (x & Ex & E). apply obind_inv in E as (y & Ey & E). injection E as <-. destruct (K1 x Ex) as (x' & Hx & Hmx & _).
    destruct (aggregate_sim l y K2 Ey) as (a & Ha & Hm & _ & H2). cbn [hconv]. rewrite Hx. cbn [bind]. rewrite Ha. cbn [bind].
    eexists. split; [reflexivity|]. split; [|split; [reflexivity|discriminate]]. cbn [op2 hmeaning].
    destruct a as [s| | | | | | | |]; try (rewrite Hmx; cbn [obind]; rewrite Hm; reflexivity). exfalso. apply (H2 I s). reflexivity.
  - destruct K as (K1 & K2). apply obind_inv in E as (x & Ex & E). apply obind_inv in E as (y & Ey & E). injection E as <-.
    destruct (operand_sim _ _ K1 Ex) as (a & Ha & Hma). destruct (operand_sim _ _ K2 Ey) as (b & Hb & Hmb). cbn [hconv]. rewrite Ha. cbn [bind]. rewrite Hb. cbn [bind].
    eexists. split; [reflexivity|]. split; [|split; [reflexivity|discriminate]]. apply mean_bin; auto.
  - assert (o <> O_ULOG O_XNOR /\ (x <~ hv_operand A vmean e ;; Some (h_unary A (hv_un o) x)) = Some v) as (No & E').
    { destruct o as [| |[]|]; (split; [discriminate|exact E]) || discriminate. }
    apply obind_inv in E' as (x & Ex & E'). injection E' as <-. destruct (operand_sim _ _ K Ex) as (a & Ha & Hma). cbn [hconv].
    assert (exists k, un_op o = Ok k /\ hm_un k = Some (hv_un o)) as (k & Hk & Hu).
    { destruct o as [| |[]|[]]; try (eexists; split; reflexivity). contradiction. }
    rewrite Hk. cbn [bind]. rewrite Ha. cbn [bind]. eexists. split; [reflexivity|]. split; [|split; [reflexivity|discriminate]]. apply mean_un; assumption.
  - destruct K as (K1 & K2). apply obind_inv in E as (x & Ex & E). apply obind_inv in E as (y & Ey & E). injection E as <-.
    destruct (operand_sim _ _ K1 Ex) as (a & Ha & Hma). destruct (operand_sim _ _ K2 Ey) as (b & Hb & Hmb). cbn [hconv]. rewrite Ha. cbn [bind]. rewrite Hb. cbn [bind].
    eexists. split; [reflexivity|]. split; [|split; [reflexivity|discriminate]]. apply mean_bin; auto. destruct o; reflexivity.
  - destruct K as (K1 & K2). apply obind_inv in E as (x & Ex & E). apply obind_inv in E as (y & Ey & E). injection E as <-.
    destruct (operand_sim _ _ K1 Ex) as (a & Ha & Hma). destruct (operand_sim _ _ K2 Ey) as (b & Hb & Hmb). cbn [hconv]. rewrite Ha. cbn [bind]. rewrite Hb. cbn [bind].
    eexists. split; [reflexivity|]. split; [|split; [reflexivity|discriminate]]. apply mean_bin; auto. destruct o; reflexivity.
  - destruct K as (K1 & K2). apply obind_inv in E as (x & Ex & E). apply obind_inv in E as (y & Ey & E). injection E as <-.
    destruct (K1 x Ex) as (a & Ha & Hma & _). destruct (K2 y Ey) as (b & Hb & Hmb & _). cbn [hconv]. rewrite Ha. cbn [bind]. rewrite Hb. cbn [bind].
    eexists. split; [reflexivity|]. split; [|split; [reflexivity|discriminate]]. apply mean_bin; auto. destruct o; reflexivity.
  - destruct K as (K1 & K2). apply obind_inv in E as (x & Ex & E). apply obind_inv in E as (y & Ey & E). injection E as <-.
    destruct (K1 x Ex) as (a & Ha & Hma & _). destruct (K2 y Ey) as (b & Hb & Hmb & _). cbn [hconv]. rewrite Ha. cbn [bind]. rewrite Hb. cbn [bind].
    eexists. split; [reflexivity|]. split; [|split; [reflexivity|discriminate]]. apply mean_bin; auto. destruct o; reflexivity.
  - destruct K as (K1 & K2). apply obind_inv in E as (x & Ex & E). apply obind_inv in E as (y & Ey & E). injection E as <-.
    destruct (K1 x Ex) as (a & Ha & Hma & _). destruct (K2 y Ey) as (b & Hb & Hmb & _). cbn [hconv]. rewrite Ha. cbn [bind]. rewrite Hb. cbn [bind].
    eexists. split; [reflexivity|]. split; [|split; [reflexivity|discriminate]]. apply mean_bin; auto. destruct o; reflexivity.
  - destruct K as (K1 & K2 & K3). apply obind_inv in E as (r & Er & E). apply obind_inv in E as (t & Et & E). apply obind_inv in E as (u & Eu & E). injection E as <-.
    destruct (K2 t Et) as (t' & Ht & Hmt & Hut & Hit). cbn [hconv].
    assert (exists r', (match ri with Some r => x <- conv_res hconv r ;; Ok (Some x) | None => Ok None end) = Ok r' /\
      match r', r with Some a, Some w => mean a = Some w | None, None => ri = None | _, _ => False end) as (r' & -> & Hr).
    { destruct ri as [[n|]|]; cbn [h_re] in *; try discriminate.
      - apply obind_inv in Er as (x & Ex & Er). injection Er as <-. destruct (K1 x Ex) as (a & Ha & Hm & _). cbn [conv_res]. rewrite Ha. cbn [bind]. eexists. split; [reflexivity|exact Hm].
      - injection Er as <-. eexists. split; reflexivity. }
    cbn [bind]. rewrite Ht. cbn [bind].
    assert (exists u', (match c with Some c => conv_constr hconv t' c | None => Ok t' end) = Ok u' /\ mean u' = Some u /\
       (c <> None -> unwrap1 u' = u' /\ forall s, u' <> EId s) /\ (c = None -> u' = t')) as (u' & -> & Hmu & Hc1 & Hc2).
    { destruct c as [[rg|l rec]|]; cbn [hv_constr conv_constr h_co] in *.
      - apply obind_inv in Eu as (x & Ex & Eu). injection Eu as <-. destruct (range_sim rg x K3 Ex) as (a & -> & Hm). cbn [bind].
        eexists. split; [reflexivity|]. split; [cbn [op2 hmeaning]; rewrite Hmt; cbn [obind]; rewrite Hm; reflexivity|]. split; [intros _; split; [reflexivity|discriminate]|discriminate].
      - destruct l as [|c l]; [discriminate|]. destruct rec; [discriminate|].
        destruct (constraints_sim (c :: l) K3 t' t u Hmt Eu) as (a & Ha & Hm & H1 & H2). rewrite Ha. cbn [bind]. exists a. split; [reflexivity|]. split; [exact Hm|].
        split; [intros _; split; [apply H1|apply H2]; discriminate|discriminate].
      - injection Eu as <-. exists t'. split; [reflexivity|split; [exact Hmt|split; [intros N; contradiction|reflexivity]]]. }
    cbn [bind]. eexists. split; [reflexivity|]. destruct r' as [a|], r as [w|]; try contradiction.
    + split; [|split; [reflexivity|discriminate]]. cbn [op2 hmeaning]. rewrite Hr. cbn [obind]. rewrite Hmu. reflexivity.
    + split; [exact Hmu|]. subst ri. destruct c as [c|].
      * destruct (Hc1 ltac:(discriminate)) as (X & Y). split; [intros _; exact X|intros _; exact Y].
      * rewrite (Hc2 eq_refl). split; assumption.
Qed.
End Sim.
