(** The macros that Python has put into the database, as the preprocessor finds them: preproc_macro_db is a proxy for the
    map HdlConvertor::defineDB (_hdlConvertor.pyx:102, include/hdlConvertor/hdlConvertor.h:24), and the preprocessor works on
    this very map (src/hdlConvertor.cpp:45-47, 107-110). *)
From Verif Require Import Base MacroDefModel PpModel PyDbModel.

(** The entries of the map with the objects they point to; a pointer to a deleted object is undefined behaviour. *)
Fixpoint view (h : heap) (m : list (str * nat)) : outcome db :=
  match m with
  | [] => Ok []
  | (k, a) :: m' => o <- deref h a ;; r <- view h m' ;; Ok ((k, mkEntry (co_persistent o) (co_def o)) :: r)
  end.
Definition define_db (s : pydb) : outcome db := view (pd_heap s) (pd_map s).
