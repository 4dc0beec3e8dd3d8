(** C17: ISO-8859-1 sources are transcoded losslessly. *)
From Verif Require Import Base EncodingModel EncodingSpec EncodingProofs.

(** The result is valid UTF-8 for exactly the code points of the source (in ISO-8859-1 the code
    point of a byte is the byte), and for no other. *)
Theorem C17_valid_utf8 s : decodes (bytes (iso_8859_1_to_utf8 s)) (bytes s).
Proof. exact (iso_decodes s). Qed.
Theorem C17_only s cps : decodes (bytes (iso_8859_1_to_utf8 s)) cps -> cps = bytes s.
Proof. intros H. exact (decodes_fun _ _ _ H (iso_decodes s)). Qed.
Theorem C17_injective s t : iso_8859_1_to_utf8 s = iso_8859_1_to_utf8 t -> s = t.
Proof. exact (iso_inj s t). Qed.
Theorem C17_ascii s : Forall is_ascii s -> iso_8859_1_to_utf8 s = s.
Proof. exact (iso_ascii s). Qed.
Print Assumptions C17_valid_utf8.
Print Assumptions C17_only.
Print Assumptions C17_injective.
Print Assumptions C17_ascii.
Example C17_ex : bytes (iso_8859_1_to_utf8 ["a"%char; "233"%char; "255"%char]) = [97; 195; 169; 195; 191]%N.
Proof. vm_compute. reflexivity. Qed.
Example C17_rejects : utf8_head [193; 169]%N = None /\ utf8_head [169]%N = None /\ utf8_head [237; 160; 128]%N = None.
Proof. vm_compute. auto. Qed.
