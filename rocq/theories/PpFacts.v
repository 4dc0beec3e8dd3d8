(** Unfolding lemmas for the preprocessor model. *)
From Verif Require Import Base BaseFacts OutBufferModel OutBufferProofs PpLexerModel PpParserModel
  MacroDefModel StrUtilsModel PpModel.

Lemma mbind_Ok {A B} (m : MM A) (f : A -> MM B) st a st' :
  m st = (Ok a, st') -> mbind m f st = f a st'.
Proof. unfold mbind. intros ->. reflexivity. Qed.
Lemma mbind_inv {A B} (m : MM A) (f : A -> MM B) st b st2 :
  mbind m f st = (Ok b, st2) -> exists a st1, m st = (Ok a, st1) /\ f a st1 = (Ok b, st2).
Proof.
  unfold mbind. destruct (m st) as [[a|e|w|] st1]; intros H; try discriminate. eauto.
Qed.
Lemma lift_inv {A} (m : outcome A) st a st' : lift m st = (Ok a, st') -> m = Ok a /\ st' = st.
Proof. unfold lift. intros H; inversion H; auto. Qed.

(** Name of the current input used by run_preproc_str. *)
Definition src_name (st : pst) : str :=
  match rev (ps_incstack st) with f :: _ => f | [] => STRING_FILENAME end.

Lemma run_str_S fuel l fs input out st : run_str (S fuel) l fs input out st =
  mbind (lift (set_file_line out (src_name st) 0))
        (run_preproc l fs (run_str fuel l fs) (run_file fuel l fs) (src_name st) false input) st.
Proof. reflexivity. Qed.

Definition add_dir (file : str) (st : pst) : bool :=
  negb (existsb (seqb (parent_path file)) (ps_incdirs st)).
Definition enter_file (file : str) (st : pst) : pst :=
  mkPst (ps_db st) (if add_dir file st then ps_incdirs st ++ [parent_path file] else ps_incdirs st)
        (ps_incstack st ++ [file]) (ps_mstack st).
Definition leave_file (add : bool) (st : pst) : pst :=
  mkPst (ps_db st) (if add then removelast (ps_incdirs st) else ps_incdirs st)
        (removelast (ps_incstack st)) (ps_mstack st).

Lemma run_file_S fuel l fs file out st : run_file (S fuel) l fs file out st =
  match fs file with
  | None => (Throw (RuntimeError $"Can not open file"), enter_file file st)
  | Some input =>
      mbind (mbind (lift (set_file_line out file 0))
              (run_preproc l fs (run_str fuel l fs) (run_file fuel l fs) file (add_dir file st) input))
            (fun b s => (Ok b, leave_file (add_dir file st) s)) (enter_file file st)
  end.
Proof.
  cbn [run_file]. unfold get, modify, mbind at 1 2 3. cbv beta iota.
  set (x := if negb (existsb (seqb (parent_path file)) (ps_incdirs st))
           then set_incdirs st (ps_incdirs st ++ [parent_path file]) else st).
  assert (set_incstack x (ps_incstack x ++ [file]) = enter_file file st) as ->.
  { unfold x, enter_file, add_dir, set_incdirs. destruct (negb _); destruct st; reflexivity. }
  destruct (fs file) as [input|]; [|reflexivity].
  unfold mbind, lift. destruct (set_file_line out file 0) as [o|e|w|]; try reflexivity.
  fold (add_dir file st).
  destruct (run_preproc l fs (run_str fuel l fs) (run_file fuel l fs) file (add_dir file st) input o
                        (enter_file file st)) as [[b|e|w|] s]; try reflexivity.
  unfold ret, set_incstack, set_incdirs, leave_file. destruct (add_dir file st); reflexivity.
Qed.

Lemma run_preproc_eq l fs rs rf src added input out st :
  run_preproc l fs rs rf src added input out st =
  match pp_parse l input with
  | Ok tree => if is_verilog l then visit_texts l fs rs rf src added tree out st
               else (Throw (RuntimeError $"vPreprocessor: unsupported language"), st)
  | Throw e => (Throw e, st)
  | UB w => (UB w, st)
  | OutOfFuel => (OutOfFuel, st)
  end.
Proof.
  unfold run_preproc, mbind, lift. destruct (pp_parse l input); try reflexivity.
  destruct (is_verilog l); reflexivity.
Qed.

(** The buffer the API starts with, after run_preproc_str has named its input. *)
Definition start_buf (name : str) : outbuf := mkBuf [] [mkItem 0 name 0] 0 0 0.

Lemma verilog_pp_str_eq l fs d dirs s : verilog_pp_str l fs d dirs s =
  run_preproc l fs (run_str (pred enough_fuel) l fs) (run_file (pred enough_fuel) l fs)
              STRING_FILENAME false s (start_buf STRING_FILENAME) (pp_init l d dirs).
Proof. reflexivity. Qed.

Lemma verilog_pp_file_eq l fs d dirs file : verilog_pp_file l fs d dirs file =
  run_file enough_fuel l fs file (mkBuf [] [] 0 0 0) (pp_init l d dirs).
Proof. reflexivity. Qed.

Arguments enough_fuel : simpl never.

Lemma bracket_end_to_end :
  text_of (verilog_pp_str SV2012 (fun _ => None) [] []
     ($"`define BIT(v) v[0]" ++ [nl] ++ $"`BIT(data)"))
  = Ok ([nl] ++ $"v[0]").
Proof. vm_compute. reflexivity. Qed.
