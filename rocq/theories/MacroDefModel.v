(** Model of src/verilogPreproc/macro_def_verilog.cpp and
    include/hdlConvertor/verilogPreproc/{a_macro_def,macro_def_verilog}.h. *)
From Verif Require Import Base.

(** macro_def_verilog.h:31-35 *)
Record param_info := mkParam { p_name : str; p_has_def : bool; p_def : str }.

(** macro_def_verilog.h:39-50; [FArg i] is arg_no >= 0, [FStr s] is arg_no == -1. *)
Inductive fragment := FStr (s : str) | FArg (i : nat).

(** macro_def_verilog.h:23-70 (fields of MacroDefVerilog without is_persistent, which the
    database model keeps beside the definition). *)
Record macro_def := mkMacro {
  m_name : str;
  m_has_params : bool;
  m_params : list param_info;
  m_body : list fragment
}.

(** macro_def_verilog.cpp:132-146; state: start_pos, prev_start_pos, collected intervals. *)
Fixpoint collect_loop (fuel : nat) (t : str) (pos : nat) (prev : option nat)
         (acc : list (nat * nat)) : outcome (option nat * list (nat * nat)) :=
  match fuel with
  | 0 => OutOfFuel
  | S fuel' =>
      match find_from [dq] t pos with
      | None => Ok (prev, acc)
      | Some p =>
          is_escaped <- (match p with
                         | 0 => Ok false
                         | S j => c <- char_at t j ;; Ok (ceqb c bt || ceqb c bs)
                         end) ;;
          if is_escaped : bool then collect_loop fuel' t (S p) prev acc
          else match prev with
               | None => collect_loop fuel' t (S p) (Some p) acc
               | Some q => collect_loop fuel' t (S p) None (acc ++ [(q, p - q)])
               end
      end
  end.
(** macro_def_verilog.cpp:128-150 *)
Definition collect_string_intervals (name t : str) : outcome (list (nat * nat)) :=
  '(prev, acc) <- collect_loop (S (length t)) t 0 None [] ;;
  match prev with
  | None => Ok acc
  | Some _ => Throw (ParseException ($"Unfinished string in definition of macro " ++ name ++ $"."))
  end.

(** macro_def_verilog.cpp:117-124 *)
Definition check_is_in_string (ivs : list (nat * nat)) (start : nat) : option (nat * nat) :=
  List.find (fun p => (fst p <=? start) && (start <? fst p + snd p)) ivs.

(** macro_def_verilog.cpp:58-59 *)
Definition part_pre (c : ascii) : bool := isalnum c || ceqb "_" c || ceqb "$" c.
(** macro_def_verilog.cpp:78-80 *)
Definition part_post (c : ascii) : bool :=
  isalnum c || ceqb "_" c || ceqb "$" c || ceqb "(" c || ceqb "[" c || ceqb "{" c.

(** macro_def_verilog.cpp:54-96: positions at which one parameter is used. *)
Fixpoint usage_loop (fuel : nat) (ivs : list (nat * nat)) (body name : str) (pos : nat)
  : outcome (list nat) :=
  match fuel with
  | 0 => OutOfFuel
  | S fuel' =>
      match find_from name body pos with
      | None => Ok []
      | Some p =>
          pre <- (match p with
                  | 0 => Ok false
                  | S j => c <- char_at body j ;; Ok (part_pre c)
                  end) ;;
          if pre : bool then usage_loop fuel' ivs body name (S p)
          else
            c_post <- char_at body (p + length name) ;;
            if part_post c_post then usage_loop fuel' ivs body name (S p)
            else
              match check_is_in_string ivs p with
              | Some (a, n) => usage_loop fuel' ivs body name (a + n)
              | None =>
                  rest <- usage_loop fuel' ivs body name (S p) ;;
                  Ok (p :: rest)
              end
      end
  end.

(** macro_def_verilog.cpp:52-97: usages of all parameters, in parameter order. *)
Fixpoint all_usages (ivs : list (nat * nat)) (body : str) (params : list param_info) (i : nat)
  : outcome (list (nat * nat)) :=
  match params with
  | [] => Ok []
  | p :: ps =>
      us <- usage_loop (S (S (length body))) ivs body (p_name p) 0 ;;
      rest <- all_usages ivs body ps (S i) ;;
      Ok (map (fun u => (u, i)) us ++ rest)
  end.

(** std::sort on pair<size_t,size_t>, macro_def_verilog.cpp:98; insertion sort with the
    lexicographic order (equal pairs are indistinguishable, so stability is irrelevant). *)
Definition pair_le (a b : nat * nat) : bool :=
  (fst a <? fst b) || ((fst a =? fst b) && (snd a <=? snd b)).
Fixpoint insert_pair (x : nat * nat) (l : list (nat * nat)) : list (nat * nat) :=
  match l with
  | [] => [x]
  | y :: l' => if pair_le x y then x :: l else y :: insert_pair x l'
  end.
Definition sort_pairs (l : list (nat * nat)) : list (nat * nat) :=
  fold_right insert_pair [] l.

(** macro_def_verilog.cpp:99-112: cut the body at the sorted usages. *)
Fixpoint cut (body : str) (params : list param_info) (us : list (nat * nat)) (start : nat)
  : outcome (list fragment) :=
  match us with
  | [] =>
      if start =? length body then Ok []
      else s <- substr body start (length body) ;; Ok [FStr s]
  | (pos, i) :: us' =>
      match nth_error params i with
      | None => UB "params[fp.second]"
      | Some p =>
          pre <- (if start <? pos then s <- substr body start (pos - start) ;; Ok [FStr s]
                  else Ok []) ;;
          rest <- cut body params us' (pos + length (p_name p)) ;;
          Ok (pre ++ FArg i :: rest)
      end
  end.

(** macro_def_verilog.cpp:38-113 *)
Definition parse_body (name : str) (params : list param_info) (body : str)
  : outcome (list fragment) :=
  ivs <- collect_string_intervals name body ;;
  match body, params with
  | [], _ => Ok []
  | _, [] => Ok [FStr body]
  | _, _ =>
      us <- all_usages ivs body params 0 ;;
      cut body params (sort_pairs us) 0
  end.

(** Constructor, macro_def_verilog.cpp:14-18 *)
Definition new_macro (name : str) (has_params : bool) (params : list param_info) (body : str)
  : outcome macro_def :=
  b <- parse_body name params body ;;
  Ok (mkMacro name has_params params b).

(** macro_def_verilog.cpp:20-28 *)
Definition get_possible_arg_cnt (m : macro_def) : nat * nat :=
  let mx := length (m_params m) in
  (mx - length (filter p_has_def (m_params m)), mx).
(** macro_def_verilog.cpp:29-36 *)
Definition get_possible_arg_cnt_str (m : macro_def) : str :=
  let '(a, b) := get_possible_arg_cnt m in
  if a =? b then nat_str b else nat_str a ++ $" to " ++ nat_str b.

(** a_macro_def.cpp:11-15 *)
Definition msg_no_args (name : str) : str :=
  $"Macro " ++ name ++ $" does not expect any arguments or braces.".

(** macro_def_verilog.cpp:171-201: the default-filling loop over the remaining parameters.
    [i] is the loop index, [args] the vector being completed, [cnt] orig_args_cnt. *)
Fixpoint fill_defaults (m : macro_def) (cnt : nat) (ps : list param_info) (i : nat) (args : list str)
  : outcome (list str) :=
  match ps with
  | [] => Ok args
  | p :: ps' =>
      let value_required := cnt <=? i in
      a_i <- (if value_required then Ok [] else
              match nth_error args i with
              | Some a => Ok a
              | None => UB "args[i]"
              end) ;;
      if value_required || (length a_i =? 0) then
        if negb (p_has_def p) then
          if negb value_required then fill_defaults m cnt ps' (S i) args
          else if length args =? 0 then fill_defaults m cnt ps' (S i) (args ++ [[]])
          else
            Throw (ParseException
              ($"Macro " ++ m_name m ++ $" missing value for parameter " ++ p_name p ++ $" "
               ++ (if negb (i =? length (m_params m) - 1) then $"and for parameters after " else [])
               ++ $"(" ++ get_possible_arg_cnt_str m ++ $" arguments expected but "
               ++ nat_str cnt ++ $" provided)."))
        else if i <? cnt then
          fill_defaults m cnt ps' (S i) (firstn i args ++ p_def p :: skipn (S i) args)
        else fill_defaults m cnt ps' (S i) (args ++ [p_def p])
      else fill_defaults m cnt ps' (S i) args
  end.

(** macro_def_verilog.cpp:208-218; vector::at throws std::out_of_range. *)
Fixpoint render (fs : list fragment) (args : list str) : outcome str :=
  match fs with
  | [] => Ok []
  | FStr s :: fs' => r <- render fs' args ;; Ok (s ++ r)
  | FArg i :: fs' =>
      match nth_error args i with
      | None => Throw (OutOfRange $"vector::_M_range_check")
      | Some a => r <- render fs' args ;; Ok (a ++ r)
      end
  end.

(** macro_def_verilog.cpp:156-220 *)
Definition macro_replace (m : macro_def) (args : list str) (args_specified : bool) : outcome str :=
  if m_has_params m && negb args_specified then
    Throw (ParseException ($"Macro " ++ m_name m ++ $" requires braces and expects "
                           ++ get_possible_arg_cnt_str m ++ $" arguments."))
  else if negb (m_has_params m) && args_specified then
    Throw (ParseException (msg_no_args (m_name m)))
  else
    args' <- (if length args <=? length (m_params m)
              then fill_defaults m (length args) (m_params m) 0 args
              else Throw (ParseException
                ($"Macro " ++ m_name m ++ $" expected " ++ get_possible_arg_cnt_str m
                 ++ $" arguments but " ++ nat_str (length args) ++ $" provided."))) ;;
    render (m_body m) args'.
