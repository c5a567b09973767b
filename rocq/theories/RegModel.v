(* RegModel.v: model of the constituent part of a generated host cap:
   scripts/host_cap.py L265-489 (add_constituent_vars) and scripts/constituents.py L96-119,
   L200-395, L452-629 (the suite routines and the registration routine), on top of the model
   of ccpp_model_constituents_t (ConstModel).  The generated Fortran routines are modelled by
   what they do.  Left out: the texts of declarations, units, types and kinds of the entries
   (they are copied), messages, the python quoting of names and long names (they are taken to
   contain no quotes), allocation failures. *)
From Verif Require Import Base PyStr ReqModel ConstPropModel ConstModel.
Open Scope nat_scope.
Open Scope list_scope.

(* ---- the variables of a suite that are constituents ---- *)
Record cvar := mkCV { cv_name : str; cv_long : str; cv_units : str; cv_dims : list str; cv_adv : bool; cv_default : option Z }.

(* ConstituentVarDict.find_variable, constituents.py L96-117: loop dimensions are replaced *)
Definition clone_name (d : str) : str :=
  if str_eqb d (L "horizontal_loop_extent") then L "horizontal_dimension"
  else if str_eqb d (L "horizontal_loop_end") then L "horizontal_dimension"
  else if str_eqb d (L "horizontal_loop_begin") then L "ccpp_constant_one"
  else d.
Definition clone_dim (d : str) : str := join (L ":") (map clone_name (split_on ":" d)).
Definition clone (v : cvar) : cvar := mkCV (cv_name v) (cv_long v) (cv_units v) (map clone_dim (cv_dims v)) (cv_adv v) (cv_default v).

(* ---- python: w in s, and s.split(w)[1] ---- *)
Fixpoint find_sub (w s : str) : option (str * str) :=
  match after_prefix w s with
  | Some r => Some ([], r)
  | None => match s with [] => None | c :: t => match find_sub w t with Some (a, b) => Some (c :: a, b) | None => None end end
  end.
Definition within (w s : str) : bool := match find_sub w s with Some _ => true | None => false end.
Definition second (w s : str) : res str :=
  match find_sub w s with
  | Some (_, r) => Ok (match find_sub w r with Some (b, _) => b | None => r end)
  | None => Raise "IndexError"
  end.

(* ---- add_constituent_vars, host_cap.py L301-377 ---- *)
(* the entry of a constituent: its array and the standard name of its index *)
Record entry := mkE { e_std : str; e_tend : bool; e_index : str }.
Record gst := mkG { g_consts : list cvar; g_tends : list cvar; g_entries : list entry }.
Definition last_part (d : str) : str := List.last (split_on ":" d) [].
Definition add_one (g : gst) (v : cvar) : res gst :=
  if mem (cv_name v) (map cv_name (g_consts g)) || mem (cv_name v) (map cv_name (g_tends g)) then Ok g
  else
    let t := within (L "tendency_of") (cv_name v) in
    match cv_dims v with
    | [] => Raise "CCPPError: Unsupported constituent dimensions"
    | h :: vs =>
        match vs with
        | _ :: _ :: _ => Raise "CCPPError: Unsupported constituent dimensions"
        | _ =>
            if negb (str_eqb (last_part h) (L "horizontal_dimension")) then Raise "CCPPError: Unsupported first constituent dimension"
            else match vs with
                 | [d] =>
                     if str_eqb (last_part d) (L "vertical_layer_dimension") then
                       n <- (if t then second (L "tendency_of_") (cv_name v) else Ok (cv_name v)) ;;
                       let e := mkE (cv_name v) t (L "index_of_" ++ n) in
                       Ok (if t then mkG (g_consts g) (g_tends g ++ [v]) (g_entries g ++ [e])
                           else mkG (g_consts g ++ [v]) (g_tends g) (g_entries g ++ [e]))
                     else Raise "CCPPError: Unsupported vertical constituent dimension"
                 | _ => Raise "CCPPError: Unsupported 2-D variable"
                 end
        end
    end.
Fixpoint add_all (g : gst) (l : list cvar) : res gst :=
  match l with [] => Ok g | v :: r => g <- add_one g v ;; add_all g r end.
(* L378-402; [compat] is Var.compatible with is_tend (C48) *)
Fixpoint check_tends (compat : cvar -> cvar -> bool) (consts ts : list cvar) : res unit :=
  match ts with
  | [] => Ok tt
  | t :: r =>
      n <- second (L "tendency_of_") (cv_name t) ;;
      match List.filter (fun c => str_eqb (cv_name c) n) consts with
      | [] => Raise "ParseSyntaxError: No associated state variable"
      | cs => if forallb (compat t) cs then check_tends compat consts r else Raise "ParseSyntaxError: Tendency variable incompatible"
      end
  end.
(* the entries, and the names of the array of names, L436-446; [suites] are the constituents
   of the suites, in the order of their dictionaries *)
Definition generate (compat : cvar -> cvar -> bool) (suites : list (list cvar)) : res (list entry * list str) :=
  g <- add_all (mkG [] [] []) (List.concat (map (map clone) suites)) ;;
  _ <- check_tends compat (g_consts g) (g_tends g) ;;
  Ok (g_entries g, sorted (map cv_name (g_consts g))).
(* the field of the model object passed for a standard name: the array, and the place in the
   array of indices; L360-363 and L456-466 (index variables index_of_<name> for each name) *)
Fixpoint place (w : str) (names : list str) : option nat :=
  match names with
  | [] => None
  | n :: r => if str_eqb (L "index_of_" ++ n) w then Some 0 else option_map S (place w r)
  end.
Definition passed (entries : list entry) (names : list str) (n : str) : option (bool * nat) :=
  match List.find (fun e => str_eqb (e_std e) n) entries with
  | Some e => option_map (fun k => (e_tend e, k)) (place (e_index e) names)
  | None => None
  end.

(* ---- the suite routines, constituents.py L232-395 ---- *)
Definition sos (s : str) : string := string_of_list_ascii s.
Definition is_tendency (v : cvar) : bool := startswith (L "tendency_of_") (cv_name v).
Definition members (d : list cvar) : list cvar := List.filter (fun v => negb (is_tendency v)) d.
(* L278-283: get_dim_stdnames are the names of all dimensions *)
Definition vertical (v : cvar) : str :=
  let names := List.concat (map (split_on ":") (cv_dims v)) in
  if mem (L "vertical_layer_dimension") names then L "vertical_layer_dimension"
  else if mem (L "vertical_interface_dimension") names then L "vertical_interface_dimension"
  else [].
Definition inst_args (v : cvar) : iargs :=
  mkArgs (sos (cv_name v)) (sos (cv_long v)) (sos (cv_units v)) (sos (vertical v)) (Some (cv_adv v)) (cv_default v) None None None None.
(* the module data of a suite cap: the array, and whether it was initialised (L136-148) *)
Record suite_st := mkSS { ss_props : option (list cprop); ss_init : bool }.
Definition ss_new : suite_st := mkSS None false.
Open Scope Z_scope.
(* L262-301: each call of instantiate only if there was no error *)
Fixpoint instantiate_all (l : list cvar) (err : Z) : list cprop * Z :=
  match l with
  | [] => ([], err)
  | v :: r =>
      let (p, e) := if err =? 0 then prop_instantiate prop_new (inst_args v) else (prop_new, err) in
      let (ps, e') := instantiate_all r e in (p :: ps, e')
  end.
Definition init_consts (d : list cvar) (s : suite_st) : suite_st * Z :=
  let (ps, e) := instantiate_all (members d) 0 in
  (mkSS (match d with [] => ss_props s | _ => Some ps end) true, e).
(* L310-330: number of constituents *)
Definition num_consts (d : list cvar) (s : suite_st) : suite_st * Z * Z :=
  let (s, e) := if ss_init s then (s, 0) else init_consts d s in
  (s, Z.of_nat (length (members d)), e).
(* L188-243: the checks; None: an array is used that is not allocated *)
Definition checks (d : list cvar) (s : suite_st) (index : Z) : option Z :=
  let e0 := if ss_init s then 0 else 1 in
  match d with
  | [] => Some 1
  | _ => if index <? 1 then Some 1
         else match ss_props s with
              | None => None
              | Some ps => Some (if Z.of_nat (length ps) <? index then 1 else e0)
              end
  end.
(* an array element; None: not allocated, or outside the bounds *)
Definition element (s : suite_st) (index : Z) : option cprop :=
  match ss_props s with
  | Some ps => if index <? 1 then None else nth_error ps (Z.to_nat (index - 1))
  | None => None
  end.
Inductive answer (A : Type) := Gives (x : A) (err : Z) | Fails (err : Z) | Undefined.
Arguments Gives {A}. Arguments Fails {A}. Arguments Undefined {A}.
(* L331-361: the name of a constituent; standard_name sets the error code again *)
Definition const_name (d : list cvar) (s : suite_st) (index : Z) : answer string :=
  match checks d s index with
  | None => Undefined
  | Some e =>
      match d with
      | [] => Fails e
      | _ => match element s index with Some p => let (n, e) := q_standard_name p in Gives n e | None => Undefined end
      end
  end.
(* L362-388: a copy of the properties *)
Definition copy_const (d : list cvar) (s : suite_st) (index : Z) : answer cprop :=
  match checks d s index with
  | None => Undefined
  | Some e =>
      match d with
      | [] => Fails e
      | _ => match element s index with Some p => Gives (copy_constituent p) e | None => Undefined end
      end
  end.

(* ---- the registration routine, constituents.py L487-628 ---- *)
(* the objects registered: those of the host, the dynamic ones, and the copies of those of
   the suites, allocated one after the other; they are the objects 0, 1, 2, ... *)
Fixpoint count_all (ds : list (list cvar)) (ss : list suite_st) (n : Z) : option (list suite_st * Z) :=
  match ds, ss with
  | d :: ds, s :: ss =>
      let '(s, k, e) := num_consts d s in
      if e =? 0 then match count_all ds ss (n + k) with Some (ss, n) => Some (s :: ss, n) | None => None end else None
  | _, _ => Some ([], n)
  end.
Fixpoint copies (d : list cvar) (s : suite_st) (index : Z) (fuel : nat) : option (list cprop) :=
  match fuel with
  | O => Some []
  | S fuel => match copy_const d s index with
              | Gives p e => if e =? 0 then option_map (cons p) (copies d s (index + 1) fuel) else None
              | _ => None
              end
  end.
Fixpoint all_copies (ds : list (list cvar)) (ss : list suite_st) : option (list cprop) :=
  match ds, ss with
  | d :: ds, s :: ss =>
      match copies d s 1 (length (members d)), all_copies ds ss with Some a, Some b => Some (a ++ b) | _, _ => None end
  | _, _ => Some []
  end.
(* new_field for each object until one fails (L523-602) *)
Fixpoint new_fields (s : mconst) (ids : list nat) : mconst * mout :=
  match ids with
  | [] => (s, MOk)
  | i :: r => match mc_new_field s i with (s, MOk) => new_fields s r | x => x end
  end.
(* L608-627: the indices of the names; [cur] is the array before *)
Fixpoint set_indices (s : mconst) (names : list str) (cur : list Z) : list Z * mout :=
  match names, cur with
  | n :: names, c :: cur =>
      if 0 <? mc_const_index s (sos n) then let (l, o) := set_indices s names cur in (mc_const_index s (sos n) :: l, o)
      else (c :: cur, MErr)
  | _, _ => (cur, MOk)
  end.
Record cap_st := mkCap { k_obj : mconst; k_suites : list suite_st; k_indices : list Z }.
(* [host] and [dyn] are the objects offered by the host and by the schemes, as they are when
   the routine is called *)
(* objects that do not exist are never used; the first one stands for them *)
Definition heap_of (l : list cprop) : nat -> cprop := fun i => nth i l (hd prop_new l).
Definition with_heap (s : mconst) (h : nat -> cprop) : mconst :=
  mkMC h (m_hash s) (m_tlock s) (m_dlock s) (m_nlayer s) (m_nadv s) (m_nlev s) (m_meta s) (m_vars s) (m_minv s).
Definition register (ds : list (list cvar)) (names : list str) (host dyn : list cprop) (k : cap_st) : cap_st * mout :=
  match count_all ds (k_suites k) (Z.of_nat (length host)) with
  | None => (k, MErr)
  | Some (ss, n) =>
      match mc_initialize (k_obj k) n with
      | (_, MUndef) => (k, MUndef)
      | (o, _) =>
          match all_copies ds ss with
          | None => (k, MUndef)
          | Some cps =>
              let l := (host ++ dyn ++ cps)%list in
              let '(o, r) := new_fields (with_heap o (heap_of l)) (seq 0 (length l)) in
              match r with
              | MOk => match mc_lock_table o with
                       | (o, MOk) => let (ix, r) := set_indices o names (k_indices k) in (mkCap o ss ix, r)
                       | (o, r) => (mkCap o ss (k_indices k), r)
                       end
              | r => (mkCap o ss (k_indices k), r)
              end
          end
      end
  end.
(* the state of a new cap: the array of indices has -1 (host_cap.py L452) *)
Definition cap_new (n : nat) (names : list str) : cap_st :=
  mkCap (mc_new (fun _ => prop_new)) (repeat ss_new n) (repeat (-1) (length names)).
(* initialize_constituents (L630-645) and the cleanup routine (L706-720: reset for each suite) *)
Definition init_data (ncols nlev : Z) (k : cap_st) : cap_st * mout :=
  let (o, r) := mc_lock_data (k_obj k) ncols nlev in (mkCap o (k_suites k) (k_indices k), r).
Fixpoint resets (n : nat) (o : mconst) : mconst := match n with O => o | S n => resets n (mc_reset o true) end.
Definition cleanup (k : cap_st) : cap_st := mkCap (resets (length (k_suites k)) (k_obj k)) (k_suites k) (k_indices k).
