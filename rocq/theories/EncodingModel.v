(** Model of src/encodingConversions.cpp. *)
From Verif Require Import Base.

(** iso_8859_1_to_utf8, encodingConversions.cpp:7-20: the loop over the bytes; [ch] is a uint8_t,
    the pushed int is truncated to a byte. *)
Definition iso_char (c : ascii) : str :=
  let ch := N_of_ascii c in
  if (ch <? 128)%N then [c]
  else [ascii_of_N (N.lor 192 (N.shiftr ch 6)); ascii_of_N (N.lor 128 (N.land ch 63))].
Fixpoint iso_8859_1_to_utf8 (s : str) : str :=
  match s with [] => [] | c :: s' => iso_char c ++ iso_8859_1_to_utf8 s' end.

(** UTF-16 code unit -> UTF-8 bytes for a unit below 0x100, as std::codecvt_utf8_utf16 does it. *)
Definition unit_to_utf8 (c : ascii) : str := iso_char c.

(** _to_utf8, encodingConversions.cpp:22-43.  For utf-16 the std::string of n bytes is
    reinterpreted as a std::u16string: with the common layout its size() is still n, so 2 n bytes
    are read from a buffer that holds n + 1 (one terminating zero).  For n = 1 the only unit
    (little endian) is the byte itself.  That the reinterpret_cast alone already breaks the
    aliasing rules is not counted here. *)
Definition to_utf8 (s enc : str) : outcome str :=
  if seqb enc $"utf-8" then Ok s
  else if seqb enc $"utf-16" then
    if length s + 1 <? 2 * length s then UB "read behind the buffer of a std::string"
    else Ok (match s with [c] => unit_to_utf8 c | _ => [] end)
  else if seqb enc $"iso-8859-1" then Ok (iso_8859_1_to_utf8 s)
  else Throw (RuntimeError ($"iParserContainer implemented only for utf-8, utf-16 and iso-8859-1, recieved:" ++ enc)).
