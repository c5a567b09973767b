(* The debug checks of generated group caps: /repo/scripts/suite_objects.py,
   Scheme.add_var_debug_check L1298-L1377, replace_horiz_dim_debug_check L1379-L1426,
   write_var_debug_check L1428-L1588, the place of the checks in Scheme.write
   L1754-L1775, and what the generated code does.
   Texts are ASCII. *)
From Coq Require Import List Ascii String ZArith Bool.
From Verif Require Import PyStr CompatModel ParModel.
Import ListNotations.
Open Scope nat_scope. Open Scope list_scope.

(* cldicts: local names by standard name, the first dictionary that has the name *)
Fixpoint dlook (ds : list (str -> option str)) (n : str) : res str :=
  match ds with
  | [] => Raise "Exception: No variable with standard name in cldicts"
  | d :: r => match d n with Some l => Ok l | None => dlook r n end
  end.
(* the texts written for one dimension: in the subscripts of size(..), in the
   expected size, and in the subscripts of the first and the last element *)
Inductive bound := BName (n : str) | BOne | BExtent (u l : str).
Inductive dsel :=
| DIndex (n : str)                                (* n; factor 1 *)
| DAll (u l : str) (first last : bound)           (* :   ; factor u-l+1 *)
| DSection (u l : str).                           (* l:u ; factor u-l+1 *)
(* L1379-L1426.  [run]: the run phase; [ext]: the scheme finds a variable
   horizontal_loop_extent; [incl]: the variable is in the group's call list *)
Definition horiz (ds : list (str -> option str)) (run ext incl : bool) : res dsel :=
  let lu := if run then
      if (incl && ext)%bool then (L "ccpp_constant_one", L "horizontal_loop_extent")
      else (L "horizontal_loop_begin", L "horizontal_loop_end")
    else (L "ccpp_constant_one", L "horizontal_dimension") in
  l <- dlook ds (fst lu) ;;
  u <- dlook ds (snd lu) ;;
  Ok (if incl then DAll u l BOne (BExtent u l) else DSection u l).
(* L1500-L1549 *)
Definition dim_sel (ds : list (str -> option str)) (run ext incl : bool) (dim : str) : res dsel :=
  if negb (has_char ":"%char dim) then n <- dlook ds dim ;; Ok (DIndex n)
  else if is_horizontal dim then horiz ds run ext incl
  else match split_on ":"%char dim with
       | [ld; ud] => l <- dlook ds ld ;; u <- dlook ds ud ;; Ok (DAll u l (BName l) (BName u))
       | _ => Raise "ValueError: too many values to unpack"
       end.
Fixpoint dim_sels (ds : list (str -> option str)) (run ext incl : bool) (dims : list str) : res (list dsel) :=
  match dims with
  | [] => Ok []
  | d :: r => x <- dim_sel ds run ext incl d ;; l <- dim_sels ds run ext incl r ;; Ok (x :: l)
  end.

(* what is known of the variable (dict_var) and the scheme's argument *)
Record dvar := mkDV { d_std : str; d_local : str; d_dims : list str; d_active : str; d_alloc : bool; d_incall : bool }.
(* the code of one check: the condition it is guarded with (None: no if), the
   variable, the dimensions ([] for a scalar), whether the content is read *)
Record check := mkCK { c_cond : option str; c_name : str; c_sels : list dsel; c_reads : bool }.
(* L1311-L1318: no check is recorded for inactive variables and the error variables *)
Definition recorded (v : dvar) : bool :=
  negb (str_eqb (lower (d_active v)) (L ".false.") ||
        str_eqb (d_std v) (L "ccpp_error_code") || str_eqb (d_std v) (L "ccpp_error_message"))%bool.
(* L1428-L1588; [cond] is the condition in local names (C136), [out]: the scheme's
   intent is out.  Simplification: the text of the comments and of the messages. *)
Definition write_check (ds : list (str -> option str)) (run ext out : bool) (cond : str) (v : dvar) : res (option check) :=
  if (out && d_alloc v)%bool then Ok None
  else
    let guard := if str_eqb cond (L ".true.") then None else Some cond in
    match d_dims v with
    | [] => if out then Ok None else Ok (Some (mkCK guard (d_local v) [] true))
    | _ =>
        sels <- dim_sels ds run ext (d_incall v) (d_dims v) ;;
        Ok (Some (mkCK guard (d_local v) sels (negb out)))
    end.

(* ---------------------------------------------------------------- what the code does *)
(* integer variables by local name, conditions, arrays with the bounds of each
   dimension *)
Record rt := mkRT { r_int : str -> Z; r_on : str -> bool; r_shape : str -> list (Z * Z) }.
Definition extent (b : Z * Z) : Z := Z.max 0 (snd b - fst b + 1).
Definition factor (m : rt) (s : dsel) : Z :=
  match s with
  | DIndex _ => 1
  | DAll u l _ _ => r_int m u - r_int m l + 1
  | DSection u l => r_int m u - r_int m l + 1
  end.
(* Simplification: a section outside the array or an index outside it is not an
   error here; the sizes are those of Fortran when they are inside *)
Definition sel_size (m : rt) (s : dsel) (b : Z * Z) : Z :=
  match s with
  | DIndex _ => 1
  | DAll _ _ _ _ => extent b
  | DSection u l => extent (r_int m l, r_int m u)
  end.
Fixpoint zprod (l : list Z) : Z := match l with [] => 1 | x :: r => x * zprod r end.
Fixpoint sizes (m : rt) (ss : list dsel) (bs : list (Z * Z)) : list Z :=
  match ss, bs with s :: ss, b :: bs => sel_size m s b :: sizes m ss bs | _, _ => [] end.
Definition bound_val (m : rt) (b : bound) : Z :=
  match b with BName n => r_int m n | BOne => 1 | BExtent u l => r_int m u - r_int m l + 1 end.
Definition first_sub (m : rt) (s : dsel) : Z := match s with DIndex n => r_int m n | DAll _ _ f _ => bound_val m f | DSection _ l => r_int m l end.
Definition last_sub (m : rt) (s : dsel) : Z := match s with DIndex n => r_int m n | DAll _ _ _ t => bound_val m t | DSection u _ => r_int m u end.
(* an element that is read: the variable and the subscripts *)
Definition access := (str * list Z)%type.
(* L1556-L1588: the error, or the elements read *)
Definition run_check (m : rt) (c : check) : option (list access) :=
  match c_cond c with
  | Some t => if r_on m t then
      match c_sels c with
      | [] => Some (if c_reads c then [(c_name c, [])] else [])
      | ss => if (zprod (sizes m ss (r_shape m (c_name c))) =? zprod (map (factor m) ss))%Z
              then Some (if c_reads c then [(c_name c, map (first_sub m) ss); (c_name c, map (last_sub m) ss)] else [])
              else None
      end else Some []
  | None =>
      match c_sels c with
      | [] => Some (if c_reads c then [(c_name c, [])] else [])
      | ss => if (zprod (sizes m ss (r_shape m (c_name c))) =? zprod (map (factor m) ss))%Z
              then Some (if c_reads c then [(c_name c, map (first_sub m) ss); (c_name c, map (last_sub m) ss)] else [])
              else None
      end
  end.
(* L1754-L1775 and the call after them: the scheme is called when the error code is
   zero and no check failed; a failed check sets it to 1 and returns *)
Fixpoint run_checks (m : rt) (cs : list check) : option (list access) :=
  match cs with
  | [] => Some []
  | c :: r => match run_check m c with
              | None => None
              | Some a => match run_checks m r with None => None | Some b => Some (a ++ b) end
              end
  end.
Definition run_scheme {A} (m : rt) (errcode : Z) (cs : list check) (call : A -> A * Z) (s : A) : A * Z :=
  if (errcode =? 0)%Z then match run_checks m cs with None => (s, 1%Z) | Some _ => call s end else (s, errcode).
