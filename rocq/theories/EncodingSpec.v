(** UTF-8 after RFC 3629, written as a decoder from bytes to code points. *)
From Verif Require Import Base.

Definition cont (b : N) : bool := ((128 <=? b) && (b <? 192))%N.
Definition low (b : N) : N := (b mod 64)%N.
(** One code point and the rest, or None if the bytes are not UTF-8: shortest form only, no
    surrogates, at most 0x10FFFF. *)
Definition utf8_head (s : list N) : option (N * list N) :=
  match s with
  | [] => None
  | a :: r =>
      if (a <? 128)%N then Some (a, r)
      else if (a <? 194)%N then None
      else if (a <? 224)%N then
        match r with b :: r' => if cont b then Some (((a mod 32) * 64 + low b)%N, r') else None | _ => None end
      else if (a <? 240)%N then
        match r with
        | b :: c :: r' =>
            let cp := ((a mod 16) * 4096 + low b * 64 + low c)%N in
            if cont b && cont c && (2048 <=? cp)%N && negb ((55296 <=? cp) && (cp <? 57344))%N
            then Some (cp, r') else None
        | _ => None
        end
      else if (a <? 245)%N then
        match r with
        | b :: c :: d :: r' =>
            let cp := ((a mod 8) * 262144 + low b * 4096 + low c * 64 + low d)%N in
            if cont b && cont c && cont d && (65536 <=? cp)%N && (cp <? 1114112)%N
            then Some (cp, r') else None
        | _ => None
        end
      else None
  end.
(** [decodes s cps]: the bytes [s] are valid UTF-8 and stand for the code points [cps]. *)
Inductive decodes : list N -> list N -> Prop :=
| dec_nil : decodes [] []
| dec_cons s c r cps : utf8_head s = Some (c, r) -> decodes r cps -> decodes s (c :: cps).
Definition bytes (s : str) : list N := map N_of_ascii s.
Definition is_ascii (c : ascii) : Prop := (N_of_ascii c < 128)%N.
