(** C18: every accepted encoding name is decoded safely. *)
From Verif Require Import Base EncodingModel EncodingSpec EncodingProofs.

(** utf-8 and iso-8859-1 are decoded, any name besides the three raises an exception naming it.
    Missing: utf-16. *)
Theorem C18_encodings_partial s enc :
  (enc = $"utf-8" -> to_utf8 s enc = Ok s) /\
  (enc = $"iso-8859-1" -> to_utf8 s enc = Ok (iso_8859_1_to_utf8 s)) /\
  (enc <> $"utf-8" -> enc <> $"utf-16" -> enc <> $"iso-8859-1" ->
     exists m, to_utf8 s enc = Throw (RuntimeError (m ++ enc))).
Proof. exact (to_utf8_total s enc). Qed.
Print Assumptions C18_encodings_partial.
(** Every utf-16 source (one character is two bytes) is read beyond its end. *)
Theorem C18_utf16_refuted s : 2 <= length s -> exists w, to_utf8 s $"utf-16" = UB w.
Proof. exact (utf16_ub s). Qed.
Print Assumptions C18_utf16_refuted.
Example C18_ex : to_utf8 [c0; "a"%char] $"utf-16" = UB "read behind the buffer of a std::string".
Proof. reflexivity. Qed.
Example C18_upper : exists m, to_utf8 $"a" $"UTF-8" = Throw (RuntimeError m).
Proof. eexists. reflexivity. Qed.
