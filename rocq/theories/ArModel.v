(* ccpp_prebuild: the argument lists, the declarations and the imports of the group
   and suite caps.
   Models /repo/scripts/mkcap.py: Var.rank L98-L106, dimstring_local_names L237-L283,
   print_module_use L285-L292, print_def_intent L294-L323, print_def_local L325-L390;
   /repo/scripts/mkstatic.py: create_arguments_module_use_var_defs L182-L263, the
   templates L63-L66.  (The wrapped lists L151-L180 are in PassModel.)
   Texts are ASCII. *)
From Coq Require Import List Ascii String ZArith Bool.
From Verif Require Import PyStr PyNum SelModel ParModel.
Import ListNotations.
Open Scope nat_scope. Open Scope list_scope.

(* a variable of ccpp_prebuild, mkcap.py L22-L40.  Simplification: an attribute that
   is None is the empty text; both are false in Python. *)
Record pvar := mkPV { pv_std : str; pv_local : str; pv_type : str; pv_kind : str; pv_dims : list str;
  pv_intent : str; pv_active : str; pv_optional : str; pv_container : str }.
(* metadata_define: standard name -> the host's variable (its first entry) *)
Definition pdefs := list (str * pvar).
Definition nonempty (s : str) : bool := match s with [] => false | _ => true end.

(* mkcap.py L252-L259, L260-L267, L271-L278: one bound *)
Definition bound_name (defs : pdefs) (b : str) : res str :=
  match py_int b with
  | Some _ => Ok b
  | None => match assoc defs (lower b) with
            | Some v => Ok (pv_local v)
            | None => Raise "Exception: dimension not defined in metadata"
            end
  end.
(* L250-L278: the two bounds of a dimension.  A dimension a:b:c is read as a:b. *)
Definition dim_bounds (defs : pdefs) (d : str) : res (str * str) :=
  match split_on ":"%char d with
  | x :: y :: _ => lo <- bound_name defs (lower x) ;; hi <- bound_name defs (lower y) ;; Ok (lo, hi)
  | _ => hi <- bound_name defs d ;; Ok (L "1", hi)
  end.
Fixpoint map_r {A B} (f : A -> res B) (l : list A) : res (list B) :=
  match l with [] => Ok [] | x :: r => y <- f x ;; ys <- map_r f r ;; Ok (y :: ys) end.
(* L237-L283 *)
Definition dimstring (defs : pdefs) (assume : bool) (dims : list str) : res str :=
  match dims with
  | [] => Ok []
  | _ => bs <- map_r (dim_bounds defs) dims ;;
         Ok (enclose (map (fun b => if assume then fst b ++ L ":" else fst b ++ L ":" ++ snd b) bs))
  end.

(* L285-L292; replace takes away every MODULE_ *)
Definition module_use (v : pvar) : res str :=
  match List.find (startswith (L "MODULE_")) (split_on " "%char (pv_container v)) with
  | Some item => Ok (L "use " ++ replace (L "MODULE_") [] item ++ L ", only: " ++ pv_local v)
  | None => Raise "UnboundLocalError: module"
  end.

(* common.py L67-L69 *)
Definition standard_type (t : str) : bool :=
  existsb (str_eqb t) [L "character"; L "integer"; L "logical"; L "real"].
(* the type in a declaration, mkcap.py L311-L322, L336-L356, L369-L389 *)
Definition type_text (v : pvar) : res str :=
  if standard_type (pv_type v)
  then Ok (if nonempty (pv_kind v) then pv_type v ++ L "(" ++ pv_kind v ++ L ")" else pv_type v)
  else if nonempty (pv_kind v) then Raise "Exception: derived types with kind attributes not implemented"
  else Ok (L "type(" ++ pv_type v ++ L ")").
(* L294-L323 *)
Definition def_intent (defs : pdefs) (v : pvar) : res str :=
  d <- dimstring defs true (pv_dims v) ;;
  if str_eqb (pv_optional v) (L "T") then Raise "Exception: optional host variable"
  else
    let attr := if str_eqb (pv_active v) (L "T") then L ", target" else L ", optional, target" in
    t <- type_text v ;;
    Ok (t ++ L ", intent(" ++ pv_intent v ++ L ")" ++ attr ++ L " :: " ++ pv_local v ++ d).
(* L98-L106 *)
Definition rank (v : pvar) : str := colons (length (pv_dims v)).
(* L325-L390; [ptr] is self.pointer *)
Definition def_local (ptr : bool) (v : pvar) : res str :=
  if str_eqb (pv_active v) (L "T") then
    t <- type_text v ;;
    Ok (if ptr then t ++ (if nonempty (rank v) then L ", dimension" ++ rank v else []) ++ L ", pointer :: p => null()"
        else t ++ (if nonempty (rank v) then L ", dimension" ++ rank v ++ L ", allocatable" else []) ++
             L ", target :: " ++ pv_local v)
  else Raise "Exception: local variable with an active attribute".

(* mkstatic.py L209-L227: the kind or type the variable needs from a module *)
Definition needs (v : pvar) : option str :=
  if standard_type (pv_type v)
  then if (nonempty (pv_kind v) && negb (str_eqb (pv_type v) (L "character")))%bool then Some (pv_kind v) else None
  else Some (pv_type v).
(* module_use and local_kind_and_type_vars after one variable *)
Definition add_use (defs : pdefs) (u : list str * list str) (need : option str) : res (list str * list str) :=
  match need with
  | None => Ok u
  | Some n =>
      if mem_s n (snd u) then Ok u
      else match assoc defs n with
           | None => Raise "Exception: kind or type not defined by host model"
           | Some kv => m <- module_use kv ;; Ok (fst u ++ [m], snd u ++ [n])
           end
  end.
Fixpoint fold_r {A S} (f : S -> A -> res S) (l : list A) (s : S) : res S :=
  match l with [] => Ok s | x :: r => t <- f s x ;; fold_r f r t end.
(* arguments, module_use, var_defs, local_kind_and_type_vars *)
Record caps := mkC { c_args : list str; c_use : list str; c_defs : list str; c_seen : list str }.
(* L205-L227 *)
Definition one_arg (defs : pdefs) (c : caps) (v : pvar) : res caps :=
  d <- def_intent defs v ;;
  u <- add_use defs (c_use c, c_seen c) (needs v) ;;
  Ok (mkC (c_args c ++ [pv_local v]) (fst u) (c_defs c ++ [d]) (snd u)).
Definition is_scalar (v : pvar) : bool := match pv_dims v with [] => true | _ => false end.
(* L193-L228: the scalars, then the arrays *)
Definition args_part (defs : pdefs) (vars : list pvar) : res caps :=
  c <- fold_r (one_arg defs) (List.filter is_scalar vars) (mkC [] [] [] []) ;;
  fold_r (one_arg defs) (List.filter (fun v => negb (is_scalar v)) vars) c.

(* s contains t *)
Fixpoint has_text (t s : str) : bool :=
  match s with [] => startswith t [] | _ :: r => (startswith t s || has_text t r)%bool end.
(* L241-L246 *)
Definition pointer_type (v : pvar) : str :=
  let n := str_of_nat (length (pv_dims v)) in
  if (str_eqb (pv_type v) (L "character") && has_text (L "len=") (pv_kind v))%bool
  then pv_type v ++ L "_" ++ List.filter (fun c => negb (Ascii.eqb c "="%char)) (pv_kind v) ++ L "_r" ++ n ++ L "_ptr_arr_type"
  else if nonempty (pv_kind v)
  then pv_type v ++ L "_" ++ pv_kind v ++ L "_rank" ++ n ++ L "_ptr_arr_type"
  else pv_type v ++ L "_default_kind_rank" ++ n ++ L "_ptr_arr_type".
(* L63-L66 *)
Definition pointer_type_def (name p : str) : str :=
  L "type :: " ++ name ++ [nl] ++ L "         " ++ p ++ [nl] ++ L "      end type " ++ name.
Definition pointer_array_def (name l : str) : str :=
  L "type(" ++ name ++ L "), dimension(1:cdata%thrd_cnt) :: " ++ l ++ L "_array".
(* L254-L261: only the kind of a local variable is imported *)
Definition needs_kind (v : pvar) : option str := if standard_type (pv_type v) then needs v else None.
(* the definitions, the pointer types defined so far, the imports *)
Definition one_tmp (defs : pdefs) (s : caps * list str) (t : bool * pvar) : res (caps * list str) :=
  let '(c, ptypes) := s in let '(ptr, v) := t in
  dp <- (if ptr then
           let n := pointer_type v in
           if mem_s n ptypes then Ok (c_defs c ++ [pointer_array_def n (pv_local v)], ptypes)
           else p <- def_local true v ;;
                Ok (c_defs c ++ [pointer_type_def n p; pointer_array_def n (pv_local v)], ptypes ++ [n])
         else d <- def_local false v ;; Ok (c_defs c ++ [d], ptypes)) ;;
  u <- add_use defs (c_use c, c_seen c) (needs_kind v) ;;
  Ok (mkC (c_args c) (fst u) (fst dp) (snd u), snd dp).
(* L182-L263.  Simplification: tmpvars and tmpptrs are lists; None is the empty list. *)
Definition cap_texts (defs : pdefs) (vars tmpvars tmpptrs : list pvar) : res caps :=
  c <- args_part defs vars ;;
  match tmpvars ++ tmpptrs with
  | [] => Ok c
  | _ => s <- fold_r (one_tmp defs) (map (pair false) tmpvars ++ map (pair true) tmpptrs)
                (mkC (c_args c) (c_use c)
                   (c_defs c ++ [[]; L "! Local variables/pointers for unit conversions, array transformations, ..."])
                   (c_seen c), []) ;;
         Ok (fst s)
  end.
