(* DimModel.v: model of SuiteObject.match_dimensions, dim_match and horiz_dim_match,
   scripts/suite_objects.py L554-790, with VarDictionary.loop_var_match
   (scripts/metavar.py L1955-1972) and CCPP_VAR_LOOP_SUBSTS (L1470-1491).
   Simplified: adding the substitute variables to the call list (L579-581) and the
   text of the reason are dropped. *)
From Verif Require Import PyStr CompatModel.
Open Scope nat_scope.
Open Scope list_scope.

(* the run phase flag, and which standard names find_variable(any_scope=True) finds *)
Record env := mkEnv { e_run : bool; e_avail : str -> bool }.

(* find_horizontal_dimension, find_vertical_dimension: var_props.py L96-130; None is -1 *)
Fixpoint find_index (f : str -> bool) (l : list str) : option nat :=
  match l with
  | [] => None
  | x :: t => if f x then Some 0 else match find_index f t with Some i => Some (S i) | None => None end
  end.

(* CCPP_VAR_LOOP_SUBSTS: the required standard names *)
Definition loop_substs : list (str * list str) :=
  [(L "horizontal_loop_extent", [L "horizontal_loop_begin"; L "horizontal_loop_end"]);
   (L "horizontal_loop_begin", [L "ccpp_constant_one"]);
   (L "horizontal_loop_end", [L "horizontal_loop_extent"]);
   (L "vertical_layer_dimension", [L "vertical_layer_index"]);
   (L "vertical_interface_dimension", [L "vertical_interface_index"])].
Fixpoint assoc (k : str) (l : list (str * list str)) : option (list str) :=
  match l with [] => None | (k', v) :: t => if str_eqb k k' then Some v else assoc k t end.
(* loop_var_match, metavar.py L1955-1972 *)
Definition loop_var_match (d : str) : option (list str) :=
  match after_prefix (L "ccpp_constant_one:") d with
  | Some r => assoc r loop_substs
  | None => assoc d loop_substs
  end.

(* horiz_dim_match, L554-594 *)
Definition horiz_dim_match (e : env) (nd hd : str) (subst : option (list str)) : option str :=
  if is_horizontal nd && is_horizontal hd then
    if str_eqb nd hd then Some nd
    else match e_run e, subst with
         | true, Some req => if forallb (e_avail e) req then Some (join (L ":") req) else None
         | true, None => None
         | false, _ =>
             if str_eqb hd (L "ccpp_constant_one:horizontal_dimension") &&
                (str_eqb nd (L "ccpp_constant_one:horizontal_loop_extent") ||
                 str_eqb nd (L "horizontal_loop_begin:horizontal_loop_end"))
             then Some hd else None
         end
  else None.

(* dim_match, L596-624.  [ndims[0].lower == ...] compares a method with a string and
   is never true, so the lists compared last have different lengths. *)
Definition dim_match (nd hd : str) : option str :=
  if str_eqb nd hd then Some nd
  else
    let ndims := split_on ":" nd in
    let hdims := split_on ":" hd in
    if length hdims <? length ndims then
      if strs_eqb ndims hdims then Some nd else None
    else None.

Record mstate := mkM { m_perm : list nat; m_need : list str; m_have : list str }.
Definition nat_in (x : nat) (l : list nat) : bool := existsb (Nat.eqb x) l.
(* the inner loop, L701-714: first unused position of have_dims that matches *)
Fixpoint first_match (nd : str) (have : list str) (idx : list nat) : option (nat * str) :=
  match idx with
  | [] => None
  | i :: r => match dim_match nd (nth i have []) with
              | Some m => Some (i, m)
              | None => first_match nd have r
              end
  end.
Definition opt_is (o : option nat) (i : nat) : bool := match o with Some k => Nat.eqb k i | None => false end.

(* L695-699: the vertical dimension to skip *)
Definition skip_of (nv hv : option nat) : option nat := match nv with None => hv | Some _ => None end.
(* one needed dimension, L677-715 *)
Definition match_one (e : env) (have : list str) (nv hv nh hh : option nat) (k : nat) (nd : str) (s : mstate) : option mstate :=
  if opt_is nh k then
    match hh with
    | Some h =>
        match horiz_dim_match e nd (nth h have []) (loop_var_match nd) with
        | Some m => Some (mkM (m_perm s ++ [h]) (m_need s ++ [m]) (list_set (m_have s) h m))
        | None => None
        end
    | None => None
    end
  else
    let skip := skip_of nv hv in
    let idx := List.filter (fun x => negb (nat_in x (m_perm s)) && negb (opt_is skip x)) (seq 0 (length have)) in
    let idx' := List.filter (fun x => negb (opt_is hv x) || match nv with Some _ => true | None => false end) idx in
    match first_match nd have idx' with
    | Some (i, m) => Some (mkM (m_perm s ++ [i]) (m_need s ++ [m]) (list_set (m_have s) i m))
    | None => None
    end.
(* the outer loop; false: stopped at a dimension that was not found *)
Fixpoint match_loop (e : env) (have : list str) (nv hv nh hh : option nat) (k : nat) (need : list str) (s : mstate) : bool * mstate :=
  match need with
  | [] => (true, s)
  | nd :: r => match match_one e have nv hv nh hh k nd s with
               | Some s' => match_loop e have nv hv nh hh (S k) r s'
               | None => (false, s)
               end
  end.

Definition insert_at {A} (i : nat) (x : A) (l : list A) : list A := firstn i l ++ x :: skipn i l.
Fixpoint nats_eqb (a b : list nat) : bool :=
  match a, b with [], [] => true | x :: a', y :: b' => Nat.eqb x y && nats_eqb a' b' | _, _ => false end.

Record mresult := mkMR { r_match : bool; r_need : list str; r_have : list str; r_missing : option str; r_perm : option (list nat) }.

(* L774-781: the permutation as reported *)
Definition final_perm (m : bool) (missing : option str) (perm : list nat) (hlen : nat) : option (list nat) :=
  if nats_eqb perm (seq 0 hlen) then None
  else if negb m && match missing with None => true | _ => false end then None
  else Some perm.
(* match_dimensions, L660-790 *)
Definition match_dimensions (e : env) (need have : list str) : res mresult :=
  let nv := find_index is_vertical need in
  let hv := find_index is_vertical have in
  let nh := find_index is_horizontal need in
  let hh := find_index is_horizontal have in
  let no_h := match hh, nh with None, Some _ => true | _, _ => false end in
  let hlen := if no_h then 0 else length have in
  let '(ok, s) := if no_h then (false, mkM [] [] have)
                  else match_loop e have nv hv nh hh 0 need (mkM [] [] have) in
  r <- match nv, hv with
       | None, Some v =>
           match loop_var_match (nth v have []) with
           | Some req =>
               let dims := join (L ":") req in
               let found := forallb (e_avail e) req in
               let missing := if found then None else Some dims in
               if v <? length (m_need s)
               then Ok (ok && found, insert_at v dims (m_need s), missing, insert_at v v (m_perm s))
               else Ok (ok && found, m_need s ++ [dims], missing, m_perm s ++ [v])
           | None => Raise "CCPPError: Unknown vertical dimension"
           end
       | _, _ => Ok (ok, m_need s, None, m_perm s)
       end ;;
  let '(m, nn, missing, perm) := r in
  Ok (mkMR m nn (m_have s) missing (final_perm m missing perm hlen)).
