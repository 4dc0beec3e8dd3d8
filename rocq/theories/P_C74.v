(** C74: A whole VHDL file keeps its meaning. *)
From Verif Require Import Base AstModel StmModel LitModel SvExprModel SvExprSpec SvDeclModel VhdlExprModel VhdlExprSpec VhdlStmModel VhdlStmSpec SvStmDemo VhdlStmDemo VhdlDeclModel VhdlDeclSpec VhdlFileSpec VhdlFileProofs.

(** Whatever the meaning of expressions, of elementary actions and of generate parameters: if the file means
    something and converts, its AST means the same: the same libraries, use clauses, entities, packages and
    architectures in the same order, with the same declarations, and every architecture elaborates to the same
    items in the same scopes, whose statements do the same.  Missing: the constructs for which [s_file] is not
    defined, some of which are refuted below. *)
Theorem C74_file_partial (A : halgebra) (M : hmachine A) (fuel : nat) (N : Type)
  (test : VhdlDeclSpec.env N -> HV A -> bool) (range : VhdlDeclSpec.env N -> HV A -> list N) (matches : VhdlDeclSpec.env N -> HV A -> HV A -> bool)
  (l : list dunit) (r : list hobj) (f : list (umean A M N)) :
  conv_file false l = Ok r -> s_file A M fuel N test range matches l = Some f ->
  exists f', m_file A M fuel N test range matches r = Some f' /\ Forall2 (usame A M N) f' f.
Proof. exact (file_ok A M fuel N test range matches l r f). Qed.
Print Assumptions C74_file_partial.
(** Declarations with a meaning always convert; their order and their nesting are kept. *)
Theorem C74_declarations_partial (A : halgebra) (M : hmachine A) (fuel : nat) (l : list decl) (ms : list (dmean A M)) :
  s_decls A M fuel l = Some ms ->
  exists r ms', conv_decls false l = Ok r /\ omapM (m_decl A M fuel) r = Some ms' /\ Forall2 (dsame A M) ms' ms.
Proof. intros H. destruct (decls_all A M fuel l ms H) as (r & Hr & ms' & Hm & S). exists r, ms'. auto. Qed.
Print Assumptions C74_declarations_partial.

(** Configurations, context declarations and package instances vanish, with the reference to a context. *)
Theorem C74_units_refuted ho n l :
  conv_file ho [([CI_context l], LU_configuration n); ([], LU_package_instance n); ([], LU_context n)] = Ok [].
Proof. reflexivity. Qed.
Print Assumptions C74_units_refuted.
(** The statements of an entity vanish. *)
Theorem C74_entity_statements_refuted ho n g p ds ss : conv_lunit ho (LU_entity n g p ds ss) = conv_lunit ho (LU_entity n g p ds []).
Proof. reflexivity. Qed.
Print Assumptions C74_entity_statements_refuted.
(** A signal loses register and bus; a postponed process is a process; a package loses its generics; an alias its signature. *)
Theorem C74_signal_kind_refuted ho ns t k v : conv_decl ho (DC_signal ns t k v) = conv_decl ho (DC_signal ns t None v).
Proof. reflexivity. Qed.
Print Assumptions C74_signal_kind_refuted.
Theorem C74_postponed_refuted ho l s : conv_cstm ho (CS_simple l true s) = conv_cstm ho (CS_simple l false s).
Proof. reflexivity. Qed.
Print Assumptions C74_postponed_refuted.
Theorem C74_package_generics_refuted ho n g ds : conv_lunit ho (LU_package n g ds) = conv_lunit ho (LU_package n None ds).
Proof. reflexivity. Qed.
Print Assumptions C74_package_generics_refuted.
Theorem C74_alias_signature_refuted ho n t e s : conv_decl ho (DC_alias n t e s) = conv_decl ho (DC_alias n t e None).
Proof. reflexivity. Qed.
Print Assumptions C74_alias_signature_refuted.
(** Files, attributes, groups, specifications and instances of packages or subprograms vanish wherever they are declared. *)
Theorem C74_dropped_refuted ho a d b : conv_decls ho (a ++ DC_dropped d :: b) = conv_decls ho (a ++ b).
Proof.
  unfold conv_decls. induction a as [|x a IH].
  - cbn [app]. change (concatM (conv_decl ho) (DC_dropped d :: b)) with (y <- conv_decl ho (DC_dropped d) ;; z <- concatM (conv_decl ho) b ;; Ok (y ++ z)).
    cbn [conv_decl bind]. destruct (concatM (conv_decl ho) b); reflexivity.
  - cbn [app]. change (concatM (conv_decl ho) (x :: a ++ DC_dropped d :: b)) with (y <- conv_decl ho x ;; z <- concatM (conv_decl ho) (a ++ DC_dropped d :: b) ;; Ok (y ++ z)).
    change (concatM (conv_decl ho) (x :: a ++ b)) with (y <- conv_decl ho x ;; z <- concatM (conv_decl ho) (a ++ b) ;; Ok (y ++ z)). rewrite IH. reflexivity.
Qed.
Print Assumptions C74_dropped_refuted.

(** library ieee, work; use ieee.p.all;
    package p is constant c : T := 3; shared variable v, w : T; end;
    entity e is port (signal x : in bit); end;
    architecture a of e is signal s : bit; begin
      l: process (s) is variable t : T; begin t := 4; end process;
      g: for i in 1 to 2 generate u: e port map (i); s <= i; end generate;
    end; *)
Definition ex_units : list dunit :=
  [([CI_library [$"ieee"; $"work"]; CI_use [HAll (HDot (hid "ieee") (NL_id $"p"))]],
    LU_package $"p" None [DC_constant [$"c"] (hid "T") (Some (hnum "3")); DC_variable true [$"v"; $"w"] (hid "T") None]);
   ([], LU_entity $"e" None (Some [IF_signal true [$"x"] (Some Md_in) (hid "bit") false None]) [] []);
   ([], LU_arch $"a" (hid "e") [DC_signal [$"s"] (hid "bit") None None]
     [CS_simple (Some $"l") false (CP_process (HSens [hid "s"]) [DC_variable false [$"t"] (hid "T") None] [hset "t" "4"] None);
      CS_for $"g" $"i" (R_explicit (hnum "1") To (hnum "2"))
        (GB false [] [CS_inst $"u" (IU_component false (hid "e")) None (Some [Assoc None (Act (D_expr false (hid "i")))]); CS_simple None false (CP_assign (CC_wave (hid "s") (w1 (hid "i"))))]) None])].
(** What is shown of a meaning: kinds, names and scopes, and for statements the values of t and s after them. *)
Notation Dm := (dmean hdemo hdemo_machine). Notation Cm := (cmean hdemo hdemo_machine). Notation Um := (umean hdemo hdemo_machine Z).
Definition show_d (d : Dm) : str :=
  match d with
  | M_object n K_constant _ _ => $"constant " ++ n | M_object n K_signal _ _ => $"signal " ++ n
  | M_object n (K_variable true) _ _ => $"shared " ++ n | M_object n (K_variable false) _ _ => $"variable " ++ n
  | _ => []
  end.
Definition after (k : hbeh hdemo hdemo_machine) : option (list Z * list note) := hwatch [$"t"; $"s"] (Some k).
Definition show_c (c : Cm) : str * list str * list (option (list Z * list note)) :=
  match c with
  | C_decl d => (show_d d, [], [])
  | C_instance v => ($"instance", [], [])
  | C_process l _ ds ks => ($"process " ++ match l with Some l => l | None => [] end, map show_d ds, map after ks)
  | C_stm l k => ($"statement", [], [after k])
  end.
Definition show_u (u : Um) : str * list str * list (list (str * option Z) * (str * list str * list (option (list Z * list note)))) :=
  match u with
  | U_library n => ($"library " ++ n, [], [])
  | U_use l => ($"use", map (fun x => match x with Up_id s | Up_operator s | Up_char s => s | Up_all => $"all" end) l, [])
  | U_entity i ds => ($"entity", map show_d ds, [])
  | U_arch n _ l => ($"architecture " ++ n, [], map (fun it => (fst (fst it), show_c (snd it))) l)
  | U_package n b ds => (n, map show_d ds, [])
  end.
Definition shown : list (str * list str * list (list (str * option Z) * (str * list str * list (option (list Z * list note))))) :=
  ([($"library ieee", [], []); ($"library work", [], []); ($"use", [$"ieee"; $"p"; $"all"], []);
    ($"p", [$"constant c"; $"shared v"; $"shared w"], []); ($"entity", [], []);
    ($"architecture a", [],
      [([], ($"signal s", [], [])); ([], ($"process l", [$"variable t"], [Some ([4; 0], [])]));
       ([($"g", Some 1)], ($"instance", [], [])); ([($"g", Some 1)], ($"statement", [], [Some ([0; 0], [])]));
       ([($"g", Some 2)], ($"instance", [], [])); ([($"g", Some 2)], ($"statement", [], [Some ([0; 0], [])]))])])%Z.
Definition test_ (e : VhdlDeclSpec.env Z) (v : hd_) : bool := negb (val v e =? 0)%Z.
Definition range_ (e : VhdlDeclSpec.env Z) (v : hd_) : list Z := snd v e.
Definition matches_ (e : VhdlDeclSpec.env Z) (w v : hd_) : bool := (val w e =? val v e)%Z.
Example C74_ex_hyp : option_map (map show_u) (s_file hdemo hdemo_machine 9 Z test_ range_ matches_ ex_units) = Some shown.
Proof. vm_compute. reflexivity. Qed.
Example C74_ex : match conv_file false ex_units with Ok r => option_map (map show_u) (m_file hdemo hdemo_machine 9 Z test_ range_ matches_ r) = Some shown | _ => False end.
Proof. vm_compute. reflexivity. Qed.
