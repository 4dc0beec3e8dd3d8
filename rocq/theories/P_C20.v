(** C20: reported error positions are positions in the original file. *)
From Verif Require Import Base OutBufferModel PpModel PpSpec ApiModel ApiSpec ApiProofs.

(** With a line map installed, an error behind the last entry of the map is reported at the
    position the map gives for its line ([origin]; lines of reports count from 1, those of the map
    from 0).  Missing: errors before the last entry, and the map is never installed (below). *)
Theorem C20_last_entry_partial m it src r : (lm_line it < rp_line r)%Z ->
  (0 <= lm_over it)%Z -> (0 <= lm_line it)%Z -> (lm_over it + rp_line r < two64)%Z ->
  exists f n, origin (m ++ [it]) (rp_line r - 1) None = Some (f, n) /\
    log_error (Some (m ++ [it])) src r = Ok (mkErr f (n + 1) (rp_col r) (rp_msg r)).
Proof. exact (log_last m it src r). Qed.
Print Assumptions C20_last_entry_partial.
Example C20_ex : log_error (Some [mkItem 0 $"a.v" 0; mkItem 5 $"b.v" 1]) $"x" (mkRep 7 2 $"m") = Ok (mkErr $"b.v" 3 2 $"m").
Proof. reflexivity. Qed.

(** An error before the last entry fails the assertion although the map knows its position. *)
Theorem C20_earlier_refuted : exists m r,
  origin m (rp_line r - 1) None = Some ($"a.v", 2%Z) /\ log_error (Some m) $"a.v" r = UB "assert(line >= lm.line)".
Proof. exists [mkItem 0 $"a.v" 0; mkItem 5 $"b.v" 0], (mkRep 3 0 $"e"). vm_compute. split; reflexivity. Qed.
Print Assumptions C20_earlier_refuted.

(** The Verilog front end never installs the map: for a parser that complains about the word BAD on
    line 2 of the source, behind an include of three lines, the error is reported on line 4. *)
Definition fs20 (f : str) : option fentry :=
  if seqb f $"d/i.v" then Some (FFile ($"a" ++ [nl] ++ $"b" ++ [nl] ++ $"c" ++ [nl])) else None.
Definition complain (s : str) : list report :=
  match find $"BAD" s with Some i => [mkRep (1 + Z.of_nat (count_nl (firstn i s))) 0 $"BAD"] | None => [] end.
Theorem C20_front_end_refuted :
  fst (fst (py_parse_str nat (fun _ => []) (fun _ _ => ([], None)) (fun _ => complain) (fun _ _ _ => ([], None))
    SV2012 false fs20 $"utf-8" [$"d"] ($"`include ""i.v""" ++ [nl] ++ $"BAD") [] []))
  = Throw (ParseException (error_message $"<string>" [mkRep 4 0 $"BAD"])) /\
  complain ($"`include ""i.v""" ++ [nl] ++ $"BAD") = [mkRep 2 0 $"BAD"].
Proof. vm_compute. split; reflexivity. Qed.
Print Assumptions C20_front_end_refuted.
