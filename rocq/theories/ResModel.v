(* ResModel.v: where the arguments of the schemes of a suite come from.  Model of
   scripts/suite_objects.py: SuiteObject.add_call_list_variable (L406-503),
   add_variable_to_call_tree (L505-533), find_variable (L782-838), match_variable
   (L840-951), Scheme.update_group_call_list_variable (L1133-1159), Scheme.analyze
   (L1167-1294), Group.register_action (L2213-2223), Group.manage_variable (L2225-2283),
   Group.analyze (L2285-2309), CallList.add_variable and call_string (L90-190); of
   scripts/ccpp_suite.py: Suite.find_variable (L272-357), Suite.analyze (L466-491),
   new_group (L165-180); and of scripts/metavar.py: VarLoopSubst (L1334-1400),
   CCPP_VAR_LOOP_SUBSTS (L1454-1480), CCPP_LOOP_VAR_STDNAMES (L86-88).
   Simplified: every variable is a scalar (no dimensions, so no vertical loops and no
   dimension matching, which DimModel covers); no constituents, no variable of type
   ccpp_constituent_properties_t, no debug checks; the host model is the list of its
   variables (components of derived types included as entries); a group is the list of the
   argument lists of its schemes in call order: subcycles are flattened, and a scheme
   without an entry point for the phase is left out, as in L1176-1178; unit and kind
   transforms are left out.  Var.compatible is the parameter [compat], as in DictModel.
   Python exceptions end the run, so a failing step keeps no state. *)
From Coq Require Import ZArith.
From Verif Require Import PyStr PyNum CompatModel ReqModel DictModel.
Open Scope nat_scope.
Open Scope list_scope.

(* an argument of a scheme: the variable, "has a default value", "optional" *)
Record arg := mkArg { a_var : var; a_default : bool; a_opt : bool }.
Definition a_std (a : arg) : str := x_std (a_var a).
(* a variable of the host; h_always: its "active" property is .true. *)
Record hvar := mkHV { h_var : var; h_always : bool }.
Definition h_std (h : hvar) : str := x_std (h_var h).

(* CCPP_LOOP_VAR_STDNAMES, metavar.py L86-88 *)
Definition loop_names : list str :=
  [L "horizontal_loop_extent"; L "horizontal_loop_begin"; L "horizontal_loop_end";
   L "vertical_layer_index"; L "vertical_interface_index"].
(* CCPP_VAR_LOOP_SUBSTS, metavar.py L1454-1480: missing name, required names, local name *)
Definition loop_substs : list (str * (list str * str)) :=
  [(L "horizontal_loop_extent", ([L "horizontal_loop_begin"; L "horizontal_loop_end"], L "ncol"));
   (L "horizontal_loop_begin", ([const_one], L "one"));
   (L "horizontal_loop_end", ([L "horizontal_loop_extent"], L "ncol"));
   (L "vertical_layer_dimension", ([L "vertical_layer_index"], L "layer_index"));
   (L "vertical_interface_dimension", ([L "vertical_interface_index"], L "level_index"))].

(* a group while and after it is analysed: its own dictionary (variables it declares), its
   call list (dummy arguments), the "optional" property of the entries of both, the loop
   substitutions registered (missing names), and the call lists of its schemes *)
Record gst := mkG { g_run : bool; g_dict : dict; g_call : dict; g_lopt : list (str * bool);
                    g_copt : list (str * bool); g_loops : list str; g_schemes : list dict }.
(* the suite: groups already analysed, the current one, the suite's own variables with
   their "optional" property, and __gvar_stdnames: standard name to group number *)
Record st := mkSt { s_past : list gst; s_cur : gst; s_suite : dict; s_sopt : list (str * bool);
                    s_gvars : list (str * nat) }.
Definition set_cur (s : st) (g : gst) : st := mkSt (s_past s) g (s_suite s) (s_sopt s) (s_gvars s).
Definition has {A} (k : str) (l : list (str * A)) : bool := match get k l with Some _ => true | None => false end.
Definition opt_of (k : str) (l : list (str * bool)) : bool := match get k l with Some b => b | None => false end.
(* record the property of a new entry; an existing one keeps its own *)
Definition note_opt (k : str) (b : bool) (l : list (str * bool)) : list (str * bool) :=
  if has k l then l else l ++ [(k, b)].
Fixpoint upd {A} (n : nat) (x : A) (l : list A) : list A :=
  match l, n with [], _ => [] | _ :: t, 0 => x :: t | y :: t, S n => y :: upd n x t end.

Section Res.
Context (compat : var -> var -> bool) (host : list hvar).

Definition host_find (s : str) : option hvar := List.find (fun h => str_eqb (h_std h) s) host.

(* where a variable was found: the constant, the group, the suite, the host *)
Inductive src := FConst | FLocal (v : var) | FSuite (v : var) | FHost (h : hvar).

(* Suite.find_variable, ccpp_suite.py L272-357; any = any_scope.  A variable of an earlier
   group is moved to the suite (L300-315).  Scalars: L316-343 add nothing. *)
Definition suite_find (x : st) (s : str) (any : bool) : res (st * option src) :=
  if str_eqb s const_one then Ok (x, Some FConst)
  else match get s (d_vars (s_suite x)) with
  | Some v => Ok (x, Some (FSuite v))
  | None =>
      match (if any then host_find s else None) with
      | Some h => Ok (x, Some (FHost h))
      | None =>
          match get s (s_gvars x) with
          | None => Ok (x, None)
          | Some i =>
              if mem s loop_names then Ok (x, None)
              else match nth_error (s_past x) i with
              | None => Raise "no group"
              | Some g =>
                  match get s (d_vars (g_dict g)) with
                  | None => Raise "CCPPError: group claimed it had created the variable"
                  | Some v =>
                      match add_variable compat (s_suite x) v false false false with
                      | (_, Raise e) => Raise e
                      | (d, Ok _) =>
                          let g' := mkG (g_run g) (remove_variable (g_dict g) s) (g_call g) (g_lopt g)
                                        (g_copt g) (g_loops g) (g_schemes g) in
                          Ok (mkSt (upd i g' (s_past x)) (s_cur x) d
                                   (note_opt s (opt_of s (g_lopt g)) (s_sopt x)) (del s (s_gvars x)),
                              Some (FSuite v))
                      end
                  end
              end
          end
      end
  end.
(* find_variable with any_scope=True from a scheme or group, L782-838: the group, then up *)
Definition find_up (x : st) (s : str) : res (st * option src) :=
  if str_eqb s const_one then Ok (x, Some FConst)
  else match get s (d_vars (g_dict (s_cur x))) with
  | Some v => Ok (x, Some (FLocal v))
  | None => suite_find x s true
  end.

(* Group.add_call_list_variable, L406-503.  The clone of L443-452 keeps all properties but
   a missing intent, which becomes "in"; o: the "optional" property *)
Definition with_intent (v : var) : var :=
  match x_intent v with Some _ => v | None => set_intent v In_ end.
Definition group_add_call (x : st) (v : var) (o : bool) (exists_ok gen_unique : bool) : res st :=
  let s := x_std v in
  r <- suite_find x s false ;;
  let '(x, f) := r in
  match f with
  | Some (FSuite _) => Ok x
  | Some FConst => Ok x
  | _ =>
      let g := s_cur x in
      if has s (d_vars (g_dict g)) then Ok x
      else if mem s loop_names && negb (g_run g) then Raise "CCPPError: loop variable"
      else match add_variable compat (g_call g) (with_intent v) exists_ok gen_unique true with
           | (_, Raise e) => Raise e
           | (d, Ok _) => Ok (set_cur x (mkG (g_run g) (g_dict g) d (g_lopt g) (note_opt s o (g_copt g)) (g_loops g) (g_schemes g)))
           end
  end.
(* the same called on the parent of a scheme: in run phases that is a TimeSplit, which has
   no call list and first looks for a variable of its group (L420-427), elsewhere the group *)
Definition tree_add (x : st) (v : var) (o : bool) (gen_unique : bool) : res st :=
  if g_run (s_cur x) && (str_eqb (x_std v) const_one || has (x_std v) (d_vars (g_dict (s_cur x)))) then Ok x
  else group_add_call x v o true gen_unique.

(* VarLoopSubst.has_subst, metavar.py L1358-1374 *)
Definition src_var (f : src) : var :=
  match f with FConst => const_var | FLocal v => v | FSuite v => v | FHost h => h_var h end.
Fixpoint has_subst (x : st) (names : list str) : res (st * option (list var)) :=
  match names with
  | [] => Ok (x, Some [])
  | n :: t =>
      r <- find_up x n ;;
      match r with
      | (x, None) => Ok (x, None)
      | (x, Some f) => r <- has_subst x t ;; let '(x, l) := r in
          Ok (x, match l with Some l => Some (src_var f :: l) | None => None end)
      end
  end.
Fixpoint tree_add_all (x : st) (l : list var) : res st :=
  match l with [] => Ok x | v :: t => x <- tree_add x v false false ;; tree_add_all x t end.
(* VarLoopSubst.add_local, metavar.py L1376-1386, on the group, and add_to_list (L1317-1330);
   equiv compares the missing name, which determines the rest *)
Definition register_loop (x : st) (s : str) (prefix : str) : res st :=
  let g := s_cur x in
  let loops := if mem s (g_loops g) then g_loops g else g_loops g ++ [s] in
  if has s (d_vars (g_dict g)) then
    Ok (set_cur x (mkG (g_run g) (g_dict g) (g_call g) (g_lopt g) (g_copt g) loops (g_schemes g)))
  else match new_name (fuel_of (g_dict g) prefix) (g_dict g) max_len prefix with
  | None => Raise "no termination"
  | Some n =>
      match add_variable compat (g_dict g) (mkV s n None false) true true false with
      | (_, Raise e) => Raise e
      | (d, Ok _) => Ok (set_cur x (mkG (g_run g) d (g_call g) (note_opt s false (g_lopt g)) (g_copt g) loops (g_schemes g)))
      end
  end.
(* add_variable_to_call_tree(None, vmatch), L505-533 *)
Definition loop_subst (x : st) (s : str) : res (st * bool) :=
  match (if g_run (s_cur x) then get s loop_substs else None) with
  | None => Ok (x, false)
  | Some (names, prefix) =>
      r <- has_subst x names ;;
      match r with
      | (x, None) => Ok (x, false)
      | (x, Some l) => x <- tree_add_all x l ;; x <- register_loop x s prefix ;; Ok (x, true)
      end
  end.

(* match_variable, L840-951, for a scalar: is there a source for the argument? *)
Definition match_variable (x : st) (a : arg) : res (st * bool) :=
  r <- find_up x (a_std a) ;;
  match r with
  | (x, None) => loop_subst x (a_std a)
  | (x, Some (FLocal _)) | (x, Some (FSuite _)) => Ok (x, true)
  | (x, Some f) =>
      if negb (a_opt a) && negb (match f with FHost h => h_always h | _ => true end)
      then Raise "CCPPError: non optional argument for conditionally allocatable variable"
      else x <- tree_add x (a_var a) (a_opt a) true ;; Ok (x, true)
  end.

(* Group.manage_variable, L2225-2283: the group declares the variable, without intent *)
Definition manage (x : st) (a : arg) : res st :=
  let g := s_cur x in let v := a_var a in
  match add_variable compat (g_dict g) (mkV (x_std v) (x_local v) None (x_prot v)) true false false with
  | (_, Raise e) => Raise e
  | (d, Ok _) => Ok (set_cur x (mkG (g_run g) d (g_call g) (note_opt (x_std v) (a_opt a) (g_lopt g)) (g_copt g) (g_loops g) (g_schemes g)))
  end.
(* add_call_list_variable on the scheme, L406-503 with is_local_variable of L1161-1165 *)
Definition scheme_add (x : st) (scl : dict) (v : var) (exists_ok : bool) : res dict :=
  if mem (x_std v) loop_names && negb (g_run (s_cur x)) then Raise "CCPPError: loop variable"
  else match add_variable compat scl (with_intent v) exists_ok false true with
       | (_, Raise e) => Raise e
       | (d, Ok _) => Ok d
       end.
(* Scheme.update_group_call_list_variable, L1133-1159.  Simplified: for the constant
   nothing is done (the code adjusts the intent of the constant itself) *)
Definition update_group (x : st) (v : var) (o : bool) : res st :=
  let g := s_cur x in
  if str_eqb (x_std v) const_one then Ok x
  else match get (x_std v) (d_vars (g_call g)) with
  | Some gv =>
      gv' <- adjust_intent gv v ;;
      Ok (set_cur x (mkG (g_run g) (g_dict g) (mkD (set (x_std v) gv' (d_vars (g_call g))) (d_locals (g_call g)))
                         (g_lopt g) (g_copt g) (g_loops g) (g_schemes g)))
  | None =>
      if has (x_std v) (d_vars (g_dict g)) then Ok x
      else r <- find_up x (x_std v) ;;
           match r with
           | (x, Some (FSuite _)) => Ok x
           | (x, _) => group_add_call x v o false false
           end
  end.

(* one argument of Scheme.analyze, L1203-1268 *)
Definition scheme_arg (x : st) (scl : dict) (a : arg) : res (st * dict) :=
  r <- match_variable x a ;;
  match r with
  | (x, true) =>
      scl <- scheme_add x scl (a_var a) true ;;
      x <- update_group x (a_var a) (a_opt a) ;;
      Ok (x, scl)
  | (x, false) =>
      match x_intent (a_var a) with
      | Some Out_ => x <- manage x a ;; scl <- scheme_add x scl (a_var a) false ;; Ok (x, scl)
      | _ => if a_default a
             then x <- manage x a ;; scl <- scheme_add x scl (a_var a) false ;; Ok (x, scl)
             else Raise "CCPPError: input argument not found"
      end
  end.
Fixpoint scheme_args (x : st) (scl : dict) (l : list arg) : res (st * dict) :=
  match l with
  | [] => Ok (x, scl)
  | a :: t => r <- scheme_arg x scl a ;; let '(x, scl) := r in scheme_args x scl t
  end.
Definition scheme_analyze (x : st) (l : list arg) : res st :=
  r <- scheme_args x d_empty l ;;
  let '(x, scl) := r in let g := s_cur x in
  Ok (set_cur x (mkG (g_run g) (g_dict g) (g_call g) (g_lopt g) (g_copt g) (g_loops g) (g_schemes g ++ [scl]))).
Fixpoint schemes_analyze (x : st) (l : list (list arg)) : res st :=
  match l with [] => Ok x | s :: t => x <- scheme_analyze x s ;; schemes_analyze x t end.

(* new_group, ccpp_suite.py L165-180 with CCPP_REQUIRED_VARS (L49-56) *)
Definition err_code : var := mkV (L "ccpp_error_code") (L "errflg") (Some Out_) false.
Definition err_msg : var := mkV (L "ccpp_error_message") (L "errmsg") (Some Out_) false.
Definition new_group (run : bool) : gst :=
  mkG run d_empty (mkD [(x_std err_code, err_code); (x_std err_msg, err_msg)]
                       [(x_local err_code, x_std err_code); (x_local err_msg, x_std err_msg)])
      [] [(x_std err_code, false); (x_std err_msg, false)] [] [].
(* the end of the loop body of Suite.analyze, L480-490 *)
Definition add_gvars (i : nat) (names : list str) (l : list (str * nat)) : list (str * nat) :=
  fold_left (fun l s => if has s l then l else l ++ [(s, i)]) names l.
(* Suite.analyze, L466-491: the groups in order.  Result: all groups and the suite *)
Fixpoint groups_analyze (past : list gst) (suite : dict) (sopt : list (str * bool)) (gvars : list (str * nat))
         (l : list (bool * list (list arg))) : res (list gst * dict * list (str * bool)) :=
  match l with
  | [] => Ok (past, suite, sopt)
  | (run, schemes) :: t =>
      x <- schemes_analyze (mkSt past (new_group run) suite sopt gvars) schemes ;;
      groups_analyze (s_past x ++ [s_cur x]) (s_suite x) (s_sopt x)
        (add_gvars (length (s_past x)) (map fst (d_vars (g_dict (s_cur x)))) (s_gvars x)) t
  end.
Definition suite_analyze (l : list (bool * list (list arg))) : res (list gst * dict * list (str * bool)) :=
  groups_analyze [] d_empty [] [] l.
End Res.

(* the loop calculations a group writes before its calls, Group.write L2573-2579 and
   VarLoopSubst.write_action (metavar.py L1408-1434): the assignments of L1454-1480, on the
   values of the variables by standard name; the two vertical ones write nothing *)
Definition setv (e : str -> Z) (s : str) (z : Z) : str -> Z := fun t => if str_eqb t s then z else e t.
Definition loop_action (e : str -> Z) (s : str) : str -> Z :=
  if str_eqb s (L "horizontal_loop_extent") then setv e s (e (L "horizontal_loop_end") - e (L "horizontal_loop_begin") + 1)%Z
  else if str_eqb s (L "horizontal_loop_begin") then setv e s 1%Z
  else if str_eqb s (L "horizontal_loop_end") then setv e s (e (L "horizontal_loop_extent"))
  else e.
Definition run_loops (e : str -> Z) (l : list str) : str -> Z := fold_left loop_action l e.

(* CallList.call_string(cldicts, is_func_call=True), L107-190, as called by Scheme.write
   (L1757-1763): for every argument of the scheme but the constant, the dummy argument and
   the actual one.  The dictionaries searched: the group, its call list, the suite. *)
Definition lookup (g : gst) (suite : dict) (sopt : list (str * bool)) (s : str) : option (var * bool) :=
  match get s (d_vars (g_dict g)) with
  | Some v => Some (v, opt_of s (g_lopt g))
  | None => match get s (d_vars (g_call g)) with
            | Some v => Some (v, opt_of s (g_copt g))
            | None => match get s (d_vars suite) with Some v => Some (v, opt_of s sopt) | None => None end
            end
  end.
Definition actual (g : gst) (suite : dict) (sopt : list (str * bool)) (v : var) : res (str * str) :=
  match lookup g suite sopt (x_std v) with
  | None => Raise "CCPPError: not found in call list"
  | Some (d, o) => Ok (x_local v, if o then x_local v ++ L "_ptr" else x_local d)
  end.
Fixpoint actuals (g : gst) (suite : dict) (sopt : list (str * bool)) (l : list (str * var)) : res (list (str * str)) :=
  match l with
  | [] => Ok []
  | (s, v) :: t =>
      if str_eqb s const_one then actuals g suite sopt t
      else p <- actual g suite sopt v ;; r <- actuals g suite sopt t ;; Ok (p :: r)
  end.
Definition call_string (g : gst) (suite : dict) (sopt : list (str * bool)) (scl : dict) : res str :=
  r <- actuals g suite sopt (d_vars scl) ;;
  Ok (join (L ", ") (map (fun p => fst p ++ L "=" ++ snd p) r)).
