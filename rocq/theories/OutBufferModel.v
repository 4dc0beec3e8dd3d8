(** Model of src/verilogPreproc/out_buffer.cpp and include/hdlConvertor/verilogPreproc/
    {out_buffer,file_line_map}.h.  size_t and ssize_t are 64 bit. *)
From Verif Require Import Base.
Local Open Scope Z_scope.

Definition two64 : Z := 2 ^ 64.
(** conversion to size_t *)
Definition to_size (z : Z) : Z := z mod two64.
(** conversion of a 64 bit value to ssize_t (two's complement) *)
Definition to_ssize (z : Z) : Z :=
  let u := z mod two64 in if u <? 2 ^ 63 then u else u - two64.

(** file_line_map.h:9-16 *)
Record lm_item := mkItem { lm_line : Z; lm_file : str; lm_over : Z }.

(** out_buffer.h:18-45 *)
Record outbuf := mkBuf {
  ob_text : str;
  ob_map : list lm_item;
  ob_line : Z;           (* output_line, size_t *)
  ob_off : Z;            (* input_line_offset, ssize_t *)
  ob_begin : Z           (* input_line_begin, ssize_t *)
}.

(** out_buffer.h:22 *)
Definition NEWLINE_TRESHOLD : Z := 3.

(** Constructor, out_buffer.cpp:10-14 *)
Definition new_buf (begin : Z) : outcome outbuf :=
  if begin <? 0 then UB "assert(_input_line_begin >= 0)"
  else Ok (mkBuf [] [] 0 0 begin).

(** operator<<(const string&), out_buffer.cpp:53-59 *)
Definition buf_put (b : outbuf) (s : str) : outbuf :=
  mkBuf (ob_text b ++ s) (ob_map b) (to_size (ob_line b + Z.of_nat (count_nl s)))
        (ob_off b) (ob_begin b).

(** operator<<(endl), out_buffer.cpp:74-83 *)
Definition buf_endl (b : outbuf) : outbuf :=
  mkBuf (ob_text b ++ [nl]) (ob_map b) (to_size (ob_line b + 1)) (ob_off b) (ob_begin b).

Fixpoint buf_endls (n : nat) (b : outbuf) : outbuf :=
  match n with O => b | S n' => buf_endls n' (buf_endl b) end.

(** set_input_line(size_t), out_buffer.cpp:33-51.  [lines_to_add] is a size_t: it wraps. *)
Definition lines_to_add (b : outbuf) (line : Z) : Z :=
  to_size (line - (ob_line b + ob_off b + ob_begin b)).
Definition set_line (b : outbuf) (line : Z) : outcome outbuf :=
  let n := lines_to_add b line in
  if (0 <? n) && (n <=? NEWLINE_TRESHOLD) then Ok (buf_endls (Z.to_nat n) b)
  else
    match rev (ob_map b) with
    | [] => UB "assert(file_line_map.size() > 0)"
    | last :: _ =>
        Ok (mkBuf (ob_text b) (ob_map b ++ [mkItem (ob_line b) (lm_file last) line])
                  (ob_line b) (to_ssize (ob_off b + n)) (ob_begin b))
    end.

(** set_input_line(const string&, size_t), out_buffer.cpp:16-31 *)
Definition set_file_line (b : outbuf) (file : str) (line : Z) : outcome outbuf :=
  let fresh :=
    Ok (mkBuf (ob_text b) (ob_map b ++ [mkItem (ob_line b) file line]) (ob_line b)
              (to_ssize (ob_begin b + line - ob_line b)) (ob_begin b)) in
  match rev (ob_map b) with
  | [] => fresh
  | last :: _ => if seqb (lm_file last) file then set_line b line else fresh
  end.

(** operator<<(const VerilogPreprocOutBuffer&), out_buffer.cpp:61-72 *)
Definition buf_append (b o : outbuf) : outbuf :=
  mkBuf (ob_text b ++ ob_text o)
        (ob_map b ++ map (fun i => mkItem (to_size (lm_line i + ob_line b)) (lm_file i) (lm_over i))
                         (ob_map o))
        (to_size (ob_line b + ob_line o))
        (to_ssize (ob_off b + ob_off o))
        (ob_begin b).
