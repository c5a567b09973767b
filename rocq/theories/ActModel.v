(* The `active` condition of a variable, written with standard names, turned into
   a Fortran condition written with local names, and the variables a group cap of
   ccpp_prebuild needs to evaluate it.
   Models /repo/scripts/parse_tools/fortran_conditional.py L9-L12 (the same text is
   in common.py L41-L44), metavar.py Var.conditional L1003-L1030, the lines written
   by suite_objects.py associate_optional_var L1600 and assign_pointer_to_var L1617,
   metadata_parser.py L200-L211 and mkstatic.py Group.write L1130-L1213.
   Texts are ASCII. *)
From Coq Require Import List Ascii String ZArith Bool.
From Verif Require Import PyStr CompatModel.
Import ListNotations.
Open Scope nat_scope. Open Scope list_scope.

(* FORTRAN_CONDITIONAL_REGEX_WORDS, fortran_conditional.py L9-L11 *)
Definition words : list str :=
  map L [" "; "("; ")"; "=="; "/="; "<="; ">="; "<"; ">"; ".eqv."; ".neqv.";
         ".true."; ".false."; ".lt."; ".le."; ".eq."; ".ge."; ".gt."; ".ne.";
         ".not."; ".and."; ".or."; ".xor."]%string.

(* one word used as a pattern, fortran_conditional.py L12: parentheses are escaped,
   dots are not, so a dot of the word stands for any character but a newline.  The
   rest of the text after the match. *)
Fixpoint match_word (w s : str) : option str :=
  match w, s with
  | [], _ => Some s
  | p :: w', c :: s' =>
      if Ascii.eqb p "."%char then (if Ascii.eqb c nl then None else match_word w' s')
      else if Ascii.eqb p c then match_word w' s' else None
  | _ :: _, [] => None
  end.
Fixpoint first_word (ws : list str) (s : str) : option (str * str) :=
  match ws with
  | [] => None
  | w :: r => match match_word w s with
              | Some rest => Some (firstn (length w) s, rest)
              | None => first_word r s
              end
  end.
(* the character class [\w'] *)
Definition in_item (c : ascii) : bool := is_word c || Ascii.eqb c "'"%char.
(* the regex at the start of a text: the class, then the words in order *)
Definition next_item (s : str) : option (str * str) :=
  match s with
  | c :: _ => if in_item c then Some (takewhile in_item s, dropwhile in_item s) else first_word words s
  | [] => None
  end.
(* re.findall: characters at which nothing matches are passed over *)
Fixpoint findall (fuel : nat) (s : str) : list str :=
  match fuel with
  | O => []
  | S f => match s with
           | [] => []
           | _ :: t => match next_item s with
                       | Some (i, rest) => i :: findall f rest
                       | None => findall f t
                       end
           end
  end.
Definition items (s : str) : list str := findall (length s) s.

Definition mem_str (x : str) (l : list str) : bool := existsb (str_eqb x) l.

(* a variable, by its standard and local names *)
Record cvar := mkCV { cv_std : str; cv_local : str }.
(* the dictionaries, asked in turn, metavar.py L1021-L1025.  Simplification: a
   dictionary is the function find_variable(standard_name, any_scope=True). *)
Fixpoint ask (ds : list (str -> option cvar)) (n : str) : option cvar :=
  match ds with
  | [] => None
  | d :: r => match d n with Some v => Some v | None => ask r n end
  end.
(* one item, L1011-L1029 *)
Definition item_text (ds : list (str -> option cvar)) (i : str) : res (str * list cvar) :=
  let i := lower i in
  if mem_str i words then Ok (i, [])
  else match py_int i with
       | Some _ => Ok (i, [])
       | None => match ask ds i with
                 | Some v => Ok (cv_local v, [v])
                 | None => Raise "Exception: cannot find variable"
                 end
       end.
Fixpoint items_text (ds : list (str -> option cvar)) (l : list str) : res (str * list cvar) :=
  match l with
  | [] => Ok ([], [])
  | i :: r =>
      a <- item_text ds i ;;
      b <- items_text ds r ;;
      Ok (fst a ++ fst b, snd a ++ snd b)
  end.
(* Var.conditional, metavar.py L1003-L1030 *)
Definition conditional (ds : list (str -> option cvar)) (active : str) : res (str * list cvar) :=
  items_text ds (items active).

(* the line opening the block of an optional argument, suite_objects.py L1600, L1617 *)
Definition if_line (cond : str) : str := L "if " ++ cond ++ L " then".

(* ---------------------------------------------------------------- prebuild *)
(* a variable of the host model: metadata_define[standard_name][0] *)
Record pvar := mkPV { pv_local : str; pv_dims : list str; pv_active : str }.

(* str.split() and ' '.join *)
Fixpoint words_of (cur : str) (s : str) : list str :=
  match s with
  | [] => match cur with [] => [] | _ => [rev cur] end
  | c :: t => if is_space c then match cur with [] => words_of [] t | _ => rev cur :: words_of [] t end
              else words_of (c :: cur) t
  end.
(* metadata_parser.py L203-L211: a scheme variable must be active, a host variable
   keeps its condition with single blanks *)
Definition pre_active (scheme : bool) (a : str) : res str :=
  if (match a with [] => true | _ => false end) then Raise "Exception: no active attribute"
  else if (scheme && negb (str_eqb (lower a) (L ".true.")))%bool then Raise "Exception: active not allowed"
  else if str_eqb (lower a) (L ".true.") then Ok (L "T")
  else if str_eqb (lower a) (L ".false.") then Ok (L "F")
  else Ok (join (L " ") (words_of [] a)).

Section Need.
Variable define : str -> option pvar.   (* metadata_define *)
Variable known : list str.              (* local_vars.keys() *)
Variable args : list str.               (* arguments[scheme][subroutine] *)
(* additional_variables_required grows; "add if absent", e.g. L1134-L1137 *)
Definition need (acc : list str) (n : str) : list str :=
  if mem_str n known then acc else if mem_str n (acc ++ args) then acc else acc ++ [n].
Definition defined (n : str) : bool := match define n with Some _ => true | None => false end.

(* L1130-L1147 *)
Definition mandatory (run : bool) : list str :=
  if defined (L "horizontal_loop_extent") then
    fold_left need [L "ccpp_constant_one"; L "horizontal_loop_extent"] []
  else if (run && defined (L "horizontal_loop_begin") && defined (L "horizontal_loop_end")
           && defined (L "ccpp_chunk_extent"))%bool then
    fold_left need [L "horizontal_loop_begin"; L "horizontal_loop_end"; L "ccpp_chunk_extent"] []
  else [].

(* one part of a dimension, L1158-L1170 *)
Definition dim_need (acc : list str) (d : str) : res (list str) :=
  let d := lower d in
  match py_int d with
  | Some _ => Ok acc
  | None =>
      if mem_str d known then Ok acc
      else if mem_str d (acc ++ args) then Ok acc
      else if defined d then Ok (acc ++ [d])
      else Raise "Exception: dimension not defined in host model metadata"
  end.
Fixpoint fold_need {A} (f : list str -> A -> res (list str)) (l : list A) (acc : list str) : res (list str) :=
  match l with [] => Ok acc | x :: r => a <- f acc x ;; fold_need f r a end.
(* L1155-L1170 *)
Definition dims_need (acc : list str) (dims : list str) : res (list str) :=
  fold_need dim_need (concat (map (split_on ":"%char) dims)) acc.
(* L1172-L1178; [run] is the stage run *)
Definition block_need (run : bool) (acc : list str) (v : pvar) : list str :=
  if (negb run && contains (L "cdata%blk_no") (pv_local v))%bool
  then fold_left need [L "ccpp_block_count"; L "horizontal_dimension"] acc else acc.
(* one item of the condition, L1190-L1210 *)
Definition item_need (st : list str * str) (i : str) : res (list str * str) :=
  let i := lower i in
  if mem_str i words then Ok (fst st, snd st ++ i)
  else match py_int i with
       | Some _ => Ok (fst st, snd st ++ i)
       | None => match define i with
                 | None => Raise "Exception: variable used in conditional not known to host model"
                 | Some v => Ok (need (fst st) i, snd st ++ pv_local v)
                 end
       end.
Fixpoint items_need (l : list str) (st : list str * str) : res (list str * str) :=
  match l with [] => Ok st | i :: r => s <- item_need st i ;; items_need r s end.
(* L1181-L1210 *)
Definition active_need (acc : list str) (v : pvar) : res (list str * str) :=
  if str_eqb (pv_active v) (L "T") then Ok (acc, L ".true.")
  else if str_eqb (pv_active v) (L "F") then Ok (acc, L ".false.")
  else items_need (items (pv_active v)) (acc, []).
(* conditionals is a dictionary; L1211-L1213 *)
Definition put_cond (cs : list (str * str)) (n c : str) : list (str * str) :=
  if mem_str n (map fst cs) then cs else cs ++ [(n, c)].
(* one argument, L1150-L1213 *)
Definition arg_need (run : bool) (st : list str * list (str * str)) (n : str) : res (list str * list (str * str)) :=
  match define n with
  | None => Raise "Exception: variable not defined in host model metadata"
  | Some v =>
      a <- dims_need (fst st) (pv_dims v) ;;
      r <- active_need (block_need run a v) v ;;
      Ok (fst r, put_cond (snd st) n (snd r))
  end.
Fixpoint args_need (run : bool) (l : list str) (st : list str * list (str * str)) : res (list str * list (str * str)) :=
  match l with [] => Ok st | n :: r => s <- arg_need run st n ;; args_need run r s end.
(* one scheme of the group, L1130-L1213: the additional variables and the
   conditions.  [cs] are the conditions of the schemes before it. *)
Definition requirements (run : bool) (cs : list (str * str)) : res (list str * list (str * str)) :=
  args_need run args (mandatory run, cs).
End Need.
