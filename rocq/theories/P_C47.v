(** C47: documentation comments keep their text. *)
From Verif Require Import Base BaseFacts CommentModel CommentSpec CommentProofs.

(** The exact law: of every comment directly in front of the object what [kept] says, in order. *)
Theorem C47_sv_law pre l rest : closed pre -> sv_doc (pre ++ map (tok_of "/") l ++ rest) (length pre + length l) = Ok (kept_doc l).
Proof. exact (parse_doc_ok _ pre l rest (or_introl eq_refl)). Qed.
Theorem C47_vhdl_law pre l rest : closed pre -> vhdl_doc (pre ++ map (tok_of "-") l ++ rest) (length pre + length l) = Ok (kept_doc l).
Proof. exact (parse_doc_ok _ pre l rest (or_intror eq_refl)). Qed.
(** The claim holds for line comments without a blank behind the marker or behind their first character. *)
Theorem C47_tight_partial pre l rest : closed pre -> Forall tight l ->
  sv_doc (pre ++ map (tok_of "/") l ++ rest) (length pre + length l) = Ok (claimed_doc l)
  /\ vhdl_doc (pre ++ map (tok_of "-") l ++ rest) (length pre + length l) = Ok (claimed_doc l).
Proof. exact (fun H1 H2 => conj (eq_trans (C47_sv_law _ _ _ H1) (f_equal Ok (tight_doc l H2))) (eq_trans (C47_vhdl_law _ _ _ H1) (f_equal Ok (tight_doc l H2)))). Qed.

(** The blank is looked for one character too far: the usual blank is kept, and a one letter first word
    loses its letter. *)
Theorem C47_blank_kept_refuted : sv_doc (map (tok_of "/") [Line $" text"] ++ [code $"input"]) 1 = Ok $" text".
Proof. reflexivity. Qed.
Theorem C47_letter_lost_refuted :
  sv_doc (map (tok_of "/") [Line $"A port"] ++ [code $"input"]) 1 = Ok $" port"
  /\ vhdl_doc (map (tok_of "-") [Line $"1 means on"] ++ [code $"entity"]) 1 = vhdl_doc (map (tok_of "-") [Line $"0 means on"] ++ [code $"entity"]) 1.
Proof. split; reflexivity. Qed.
(** The markers of a block comment stay in the text. *)
Theorem C47_block_refuted : sv_doc (map (tok_of "/") [Block $"x"] ++ [code $"input"]) 1 = Ok $"/*x*/".
Proof. reflexivity. Qed.
(** VHDL comments do not contain their line end, so the lines run together. *)
Theorem C47_lines_refuted :
  vhdl_doc (map (tok_of "-") [Line $"in-"; Line $"put"] ++ [code $"entity"]) 2 = vhdl_doc (map (tok_of "-") [Line $"in-put"] ++ [code $"entity"]) 1.
Proof. reflexivity. Qed.

Print Assumptions C47_sv_law.
Print Assumptions C47_vhdl_law.
Print Assumptions C47_tight_partial.
Print Assumptions C47_blank_kept_refuted.
Print Assumptions C47_letter_lost_refuted.
Print Assumptions C47_block_refuted.
Print Assumptions C47_lines_refuted.

Example C47_ex : closed [code $";"] /\ Forall tight [Line ($"clock" ++ [nl]); Blanks [sp]; Line ($"of all" ++ [nl])]
  /\ sv_doc ([code $";"] ++ map (tok_of "/") [Line ($"clock" ++ [nl]); Blanks [sp]; Line ($"of all" ++ [nl])] ++ [code $"input"]) 4 = Ok ($"clock" ++ [nl] ++ $"of all" ++ [nl]).
Proof. split; [right; exists [], (code $";"); split; reflexivity|]. split; [|reflexivity].
  repeat constructor; discriminate. Qed.
