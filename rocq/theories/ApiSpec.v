(** Specification of error reporting and of the parse entry points. *)
From Verif Require Import Base OutBufferModel PpModel ApiModel.

(** Running independent steps one after the other: the objects of all steps in order, up to and
    including the first step that fails. *)
Fixpoint in_order {obj : Type} (rs : list (outcome unit * list obj)) : outcome unit * list obj :=
  match rs with
  | [] => (Ok tt, [])
  | (Ok _, os) :: rs' => let '(o, os') := in_order rs' in (o, os ++ os')
  | (o, os) :: _ => (o, os)
  end.

(** The message of a ParseException for the errors of one source: an empty line, then one line
    file:line:column:SyntaxError:message per reported error, in the order of the reports. *)
Fixpoint error_message_lines (source : str) (rs : list report) : str :=
  match rs with
  | [] => []
  | r :: rs' => source ++ $":" ++ Z_str (rp_line r) ++ $":" ++ Z_str (rp_col r) ++ $":SyntaxError:"
                ++ rp_msg r ++ [nl] ++ error_message_lines source rs'
  end.
Definition error_message (source : str) (rs : list report) : str := nl :: error_message_lines source rs.
(** Columns that fit the type they are printed with. *)
Definition columns_ok (rs : list report) : Prop := Forall (fun r => (0 <= rp_col r < 4294967296)%Z) rs.
