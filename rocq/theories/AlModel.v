(* AlModel.v: scripts/suite_objects.py, Group.write (L2360-L2649), the local variables of a
   group's subroutine: which are arrays, scalars, optional or inactive (L2371-L2404), the
   pointers (L2405-L2455), the arrays of transforms (L2456-L2468), and the statements that
   allocate and deallocate the arrays (allocate_dim_str L2311-L2336, L2581-L2600, L2618-L2629).
   Var.compatible is the parameter [compat]; the local name of a dimension's standard name,
   looked up in the group and then in its call list, is the parameter [lookup].  A Python set
   has no order of its own: the parameter [order] is the order of its iteration.
   The allocation of suite variables is in CapModel; the text of declarations in WdModel.
   An exception is its class. *)
From Coq Require Import List Ascii String ZArith Bool.
From Verif Require Import PyStr ReqModel HdrModel.
Import ListNotations.
Open Scope nat_scope. Open Scope list_scope.

Record lvar := mkLv { l_std : str; l_name : str; l_dims : list str; l_opt : bool }.
(* subpart_allocate_vars, subpart_optional_vars, subpart_scalar_vars, inactive_var_set *)
Record parts := mkParts { p_alloc : list lvar; p_opt : list lvar; p_scalar : list lvar; p_inactive : list lvar }.
Definition has_name (n : str) (l : list lvar) : bool := mem n (map l_name l).
Definition find_name (n : str) (l : list lvar) : option lvar := List.find (fun v => str_eqb (l_name v) n) l.
(* L2371-L2404; [called] tells if the call list has a variable of that standard name *)
Definition classify1 (compat : lvar -> lvar -> bool) (called : str -> bool) (p : parts) (v : lvar) : res parts :=
  if has_name (l_name v) (p_alloc p) || has_name (l_name v) (p_opt p) || has_name (l_name v) (p_scalar p) then
    match find_name (l_name v) (p_alloc p) with
    | None => Raise "KeyError"
    | Some w => if compat w v then Ok p else Raise "ParseInternalError"
    end
  else
    match l_dims v with
    | [] => Ok (mkParts (p_alloc p) (p_opt p) (p_scalar p ++ [v]) (p_inactive p))
    | _ => if l_opt v then
             if called (l_std v) then Ok (mkParts (p_alloc p) (p_opt p ++ [v]) (p_scalar p) (p_inactive p))
             else Ok (mkParts (p_alloc p) (p_opt p) (p_scalar p) (p_inactive p ++ [v]))
           else Ok (mkParts (p_alloc p ++ [v]) (p_opt p) (p_scalar p) (p_inactive p))
    end.
Fixpoint classify (compat : lvar -> lvar -> bool) (called : str -> bool) (p : parts) (l : list lvar) : res parts :=
  match l with [] => Ok p | v :: r => p <- classify1 compat called p v ;; classify compat called p r end.
(* d[v.local_name] = v *)
Definition put_var (v : lvar) (l : list lvar) : list lvar :=
  if has_name (l_name v) l then map (fun w => if str_eqb (l_name w) (l_name v) then v else w) l else l ++ [v].
(* L2456-L2468 *)
Definition add_transform (p : parts) (v : lvar) : parts :=
  match l_dims v with
  | [] => mkParts (p_alloc p) (p_opt p) (put_var v (p_scalar p)) (p_inactive p)
  | _ => mkParts (put_var v (p_alloc p)) (p_opt p) (p_scalar p) (p_inactive p)
  end.
Record group := mkGroup { g_decls : list lvar; g_call : list lvar; g_transforms : list lvar }.
Definition is_called (g : group) (s : str) : bool := mem s (map l_std (g_call g)).
Definition group_parts (compat : lvar -> lvar -> bool) (g : group) : res parts :=
  p <- classify compat (is_called g) (mkParts [] [] [] []) (g_decls g) ;; Ok (fold_left add_transform (g_transforms g) p).
(* L2405-L2455, L2530-L2531: name and rank of each pointer; write_ptr_def is a method of whatever
   variable an earlier loop has left in var *)
Definition pointer (v : lvar) : str * nat := (l_name v ++ L "_ptr", List.length (l_dims v)).
Definition group_pointers (order : list lvar -> list lvar) (g : group) (p : parts) : res (list (str * nat)) :=
  let ptrs := map pointer (List.filter l_opt (g_call g)) ++ map pointer (order (p_inactive p)) in
  match ptrs with
  | [] => Ok []
  | _ => match g_decls g, p_alloc p, p_scalar p, p_opt p with [], [], [], [] => Raise "UnboundLocalError" | _, _, _, _ => Ok ptrs end
  end.

(* L2311-L2336 *)
Definition dim_part (lookup : str -> option str) (d : str) : res str := match lookup d with Some n => Ok n | None => Raise "CCPPError" end.
Definition dim_text (lookup : str -> option str) (d : str) : res str := ps <- map_res (dim_part lookup) (split_on ":" d) ;; Ok (join (L ":") ps).
Definition allocate_dim_str (lookup : str -> option str) (dims : list str) : res str := ds <- map_res (dim_text lookup) dims ;; Ok (join (L ", ") ds).
(* L2583-L2594 *)
Definition alloc_stmt (lookup : str -> option str) (l : list lvar) (n : str) : res str :=
  match find_name n l with
  | None => Raise "KeyError"
  | Some v => t <- allocate_dim_str lookup (l_dims v) ;; Ok (L "allocate(" ++ n ++ L "(" ++ t ++ L "))")
  end.
(* L2623, L2626: ' '*(20-len(lname)) *)
Definition dealloc_stmt (n : str) : str :=
  L "if (allocated(" ++ n ++ L ")) " ++ List.repeat " "%char (20 - List.length n) ++ L " deallocate(" ++ n ++ L ")".
(* the statements before and after the calls of the schemes *)
Definition group_allocate (order : list str -> list str) (lookup : str -> option str) (p : parts) : res (list str) :=
  a <- map_res (alloc_stmt lookup (p_alloc p)) (sorted (map l_name (p_alloc p))) ;;
  o <- map_res (alloc_stmt lookup (p_opt p)) (order (map l_name (p_opt p))) ;;
  Ok (a ++ o).
Definition group_deallocate (order : list str -> list str) (p : parts) : list str :=
  map dealloc_stmt (sorted (map l_name (p_alloc p))) ++ map dealloc_stmt (order (map l_name (p_opt p))).
