(* PhaseModel.v: model of StateMachine (scripts/state_machine.py L66-176) and of
   CCPP_STATE_MACH (scripts/ccpp_state_machine.py L6-27).
   Simplified: a transition carries its regular expression as an AST together with the
   length of its text (used only to order the initial table). *)
From Verif Require Import Regex.
Open Scope nat_scope.
Open Scope list_scope.

(* FORTRAN_ID, parse_tools/parse_checkers.py L210: one of [A-Za-z], then any number of [A-Za-z0-9_] *)
Definition fortran_id_re : re := Cat (Cls is_alpha) (Star (Cls is_word)).

Record trans := mkT { t_name : str; t_init : str; t_final : str; t_re : re; t_len : nat }.
Definition machine := list trans.

Definition has_name (n : str) (m : machine) : bool := existsb (fun t => str_eqb n (t_name t)) m.
(* __setitem__ and add_transition, L101-104, L149-159 *)
Definition add_transition (m : machine) (t : trans) : res machine :=
  if has_name (t_name t) m then Raise "ValueError: transition already exists" else Ok (m ++ [t]).
(* __delitem__, L161-162 *)
Definition del_transition (m : machine) (n : str) : res machine :=
  if has_name n m then Ok (List.filter (fun t => negb (str_eqb n (t_name t))) m) else Raise "KeyError".
(* sorted(initial_data, key=len of regex, reverse=True), L92: stable, longest first *)
Fixpoint insert_desc (t : trans) (l : list trans) : list trans :=
  match l with
  | [] => [t]
  | x :: r => if t_len x <? t_len t then t :: l else x :: insert_desc t r
  end.
Definition sort_desc (l : list trans) : list trans := fold_left (fun acc t => insert_desc t acc) l [].
(* __init__, L80-99 *)
Fixpoint add_all (m : machine) (l : list trans) : res machine :=
  match l with [] => Ok m | t :: r => m' <- add_transition m t ;; add_all m' r end.
Definition new_machine (l : list trans) : res machine := add_all [] (sort_desc l).

Definition find_trans (m : machine) (n : str) : option trans := find (fun t => str_eqb n (t_name t)) m.
(* the list of transitions to try, L124-128, L141-145; a name that is not there is a KeyError
   as soon as it is tried *)
Definition trans_list (m : machine) (only : option str) : res (list trans) :=
  match only with
  | None => Ok m
  | Some n => match find_trans m n with Some t => Ok [t] | None => Raise "KeyError" end
  end.

(* transition_match, L120-137 *)
Definition transition_match (m : machine) (s : str) (only : option str) : res (option str) :=
  l <- trans_list m only ;;
  Ok (match find (fun t => re_dollar (t_re t) s) l with Some t => Some (t_name t) | None => None end).

(* group(1) and group(2) of FORTRAN_ID_(regex)$: the identifier is as long as possible.
   Simplified: a final newline is left out of group(2) unless the regex itself takes it. *)
Fixpoint fm_split (r : re) (s : str) (i : nat) : option (str * str) :=
  match i with
  | 0 => None
  | S k =>
      let a := firstn i s in
      match skipn i s with
      | c :: w =>
          if Ascii.eqb c "_" && re_full fortran_id_re a then
            if re_full r w then Some (a, w)
            else match drop_nl w with
                 | Some w' => if re_full r w' then Some (a, w') else fm_split r s k
                 | None => fm_split r s k
                 end
          else fm_split r s k
      | [] => fm_split r s k
      end
  end.
Fixpoint fm_loop (l : list trans) (s : str) : option (str * str * str) :=
  match l with
  | [] => None
  | t :: r => match fm_split (t_re t) s (length s) with
              | Some (a, w) => Some (a, w, t_name t)
              | None => fm_loop r s
              end
  end.
(* function_match, L139-166; None stands for (None, None, None) *)
Definition function_match (m : machine) (s : str) (only : option str) : res (option (str * str * str)) :=
  l <- trans_list m only ;; Ok (fm_loop l s).

(* ---- ccpp_state_machine.py ---- *)
(* (?:init(?:ial(?:ize)?)?) after a prefix *)
Definition init_re (pre : str) : re :=
  Cat (wordi (pre ++ L "init")) (opt (Cat (wordi (L "ial")) (opt (wordi (L "ize"))))).
(* (?:final(?:ize)?) after a prefix *)
Definition final_re (pre : str) : re := Cat (wordi (pre ++ L "final")) (opt (wordi (L "ize"))).
Definition ccpp_transitions : list trans :=
  [mkT (L "register") (L "uninitialized") (L "uninitialized") (wordi (L "register")) (length (L "(?:register)"));
   mkT (L "initialize") (L "uninitialized") (L "initialized") (init_re []) (length (L "(?:init(?:ial(?:ize)?)?)"));
   mkT (L "timestep_initial") (L "initialized") (L "in_time_step") (init_re (L "timestep_")) (length (L "(?:timestep_init(?:ial(?:ize)?)?)"));
   mkT (L "run") (L "in_time_step") (L "in_time_step") (wordi (L "run")) (length (L "(?:run)"));
   mkT (L "timestep_final") (L "in_time_step") (L "initialized") (final_re (L "timestep_")) (length (L "(?:timestep_final(?:ize)?)"));
   mkT (L "finalize") (L "initialized") (L "uninitialized") (final_re []) (length (L "(?:final(?:ize)?)"))].
(* CCPP_STATE_MACH = StateMachine(...) *)
Definition ccpp_machine : machine := match new_machine ccpp_transitions with Ok m => m | Raise _ => [] end.
