(** C11: the line map leads every output line back to its source line. *)
From Verif Require Import Base OutBufferModel OutBufferProofs PpModel PpSpec PpLineProofs.

(** [cong] is equality of 64 bit words; [cur_line] is output line + offset + begin. *)
Theorem C11_relation_after_line b n b' : set_line b n = Ok b' -> cong (cur_line b') n.
Proof. exact (set_line_relation b n b'). Qed.
Print Assumptions C11_relation_after_line.

(** After a change of file, for buffers that start at line 0. *)
Theorem C11_relation_after_file_partial b f n b' :
  ob_begin b = 0%Z -> set_file_line b f n = Ok b' -> cong (cur_line b') n.
Proof. exact (set_file_relation b f n b'). Qed.
Print Assumptions C11_relation_after_file_partial.

(** For a buffer with another start line the start is counted twice: neither reading of
    "current input line" fits. *)
Theorem C11_begin_refuted : exists b b', new_buf 5 = Ok b /\ set_file_line b $"f" 0 = Ok b'
  /\ ~ cong (cur_line b') 0 /\ ~ cong (cur_line b') 5.
Proof. do 2 eexists. split; [reflexivity|]. split; [reflexivity|]. split; vm_compute; discriminate. Qed.
Print Assumptions C11_begin_refuted.

(** The line map itself: without includes, right after a re-synchronisation the map sends the
    current output line to the file and line that were announced. *)
Theorem C11_map_line_partial b f n b' : in_file b (Some f) -> set_line b n = Ok b' ->
  (Z.of_nat (count_nl (ob_text b')) < two64)%Z ->
  exists z, origin (ob_map b') (ob_line b') None = Some (f, z) /\ cong z n.
Proof. exact (line_origin b f n b'). Qed.
Print Assumptions C11_map_line_partial.
Theorem C11_map_file_partial b f g n b' : in_file b f -> set_file_line b g n = Ok b' ->
  (Z.of_nat (count_nl (ob_text b')) < two64)%Z ->
  exists z, origin (ob_map b') (ob_line b') None = Some (g, z) /\ cong z n.
Proof. exact (file_origin b f g n b'). Qed.
Print Assumptions C11_map_file_partial.

(** With includes the map is wrong: text behind an include is attributed to the included file,
    because the file name is not set again after the include. *)
Definition fs11 : fsys := fun f =>
  if seqb f $"d/top.v" then Some ($"a" ++ [nl] ++ $"`include ""inc.v""" ++ [nl] ++ $"b" ++ [nl] ++ $"c")
  else if seqb f $"d/inc.v" then Some ($"i" ++ [nl] ++ $"j" ++ [nl]) else None.
Theorem C11_include_refuted : exists b st,
  verilog_pp_file SV2012 fs11 [] [$"d"] $"d/top.v" = (Ok b, st)
  /\ ob_text b = $"a" ++ [nl] ++ $"i" ++ [nl] ++ $"j" ++ [nl] ++ $"b" ++ [nl] ++ $"c"
  /\ exists z, origin (ob_map b) (ob_line b) None = Some ($"d/inc.v", z).   (* should be d/top.v *)
Proof. do 2 eexists. split; [vm_compute; reflexivity|]. split; [vm_compute; reflexivity|]. vm_compute. eauto. Qed.
Print Assumptions C11_include_refuted.

Example C11_hyp : exists b b', in_file b (Some $"f") /\ set_line b 7 = Ok b'
  /\ origin (ob_map b') (ob_line b') None = Some ($"f", 7%Z).
Proof.
  do 2 eexists. split.
  - eapply if_put with (s := $"x" ++ [nl]). eapply if_file with (n := 0%Z) (g := $"f"); [apply if_new|reflexivity].
  - split; vm_compute; reflexivity.
Qed.
