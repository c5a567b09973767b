(* LnModel.v: scripts/ccpp_prebuild.py, the local names of the host's variables: conversion
   from the form of the metadata (components without their structure, subscripts by standard
   name) to Fortran: convert_local_name_from_new_metadata L207-L284, the conversion in
   gather_variable_definitions L309-L326 and its call L759-L761.
   A variable's container is taken decoded (CommonModel.v): its module and its type.
   Recursion is bounded by fuel; no fuel is Python's RecursionError.  Logging is left out. *)
From Coq Require Import List Ascii String ZArith Bool.
From Verif Require Import PyStr ReqModel CheckModel CommonModel ParModel.
Import ListNotations.
Open Scope nat_scope. Open Scope list_scope.

(* the first definition of a standard name; n_multiple: there is a second one *)
Record nvar := mkN { n_local : str; n_module : str; n_type : option str; n_multiple : bool }.
(* metadata: standard name -> variable; typedefs: module -> type -> reference *)
Definition meta := list (str * nvar).
Definition typedefs := list (str * list (str * str)).
Definition set_local (s t : str) (m : meta) : meta :=
  map (fun p => if str_eqb (fst p) s then (fst p, mkN t (n_module (snd p)) (n_type (snd p)) (n_multiple (snd p))) else p) m.
(* what the conversion works on: the metadata and converted_variables; None: success is False *)
Definition state := (meta * list str)%type.
Fixpoint each {A B} (step : A -> state -> res (option B * state)) (l : list A) (x : state) : res (option (list B) * state) :=
  match l with
  | [] => Ok (Some [], x)
  | a :: r =>
      p <- step a x ;;
      match p with
      | (None, x) => Ok (None, x)
      | (Some b, x) => q <- each step r x ;; Ok (option_map (cons b) (fst q), snd q)
      end
  end.
(* L250-L270: one bound; [conv] is the recursive call *)
Definition one_bound (conv : str -> state -> res (option str * state)) (b : str) (x : state) : res (option str * state) :=
  let d := strip b in
  match py_int d with
  | Some _ => Ok (Some d, x)
  | None =>
      p <- conv d x ;;
      match p with
      | (None, x) => Ok (None, x)
      | (Some t, x) =>
          match assoc (fst x) d with
          | None => Raise "KeyError"
          | Some v => Ok (Some t, if str_eqb (n_local v) t then x else (set_local d t (fst x), snd x))
          end
      end
  end.
(* L239-L271: one subscript *)
Definition one_index (conv : str -> state -> res (option str * state)) (i : str) (x : state) : res (option str * state) :=
  let i := strip i in
  if str_eqb i (L ":") then Ok (Some i, x)
  else p <- each (one_bound conv) (split_on ":" i) x ;; Ok (option_map (join (L ":")) (fst p), snd p).
(* array_reference.lstrip('(').rstrip(')'), L236 *)
Definition inside (r : str) : str := rstrip_c ")" (dropwhile (Ascii.eqb "(") r).
(* L234-L276 *)
Definition convert_reference (conv : str -> state -> res (option str * state)) (name : str) (x : state) : res (option str * state) :=
  if has_char "(" name then
    match split_var_name name with
    | None => Raise "AttributeError"
    | Some (base, r) =>
        p <- each (one_index conv) (split_on "," (inside r)) x ;;
        Ok (option_map (fun l => base ++ L "(" ++ join (L ",") l ++ L ")") (fst p), snd p)
    end
  else Ok (Some name, x).
(* L278-L280 *)
Definition prefixed (p name : str) : str := match p with [] => name | _ => p ++ L "%" ++ name end.
(* L207-L284 *)
Fixpoint convert (fuel : nat) (tds : typedefs) (s : str) (x : state) : res (option str * state) :=
  match fuel with
  | O => Raise "RecursionError"
  | S f =>
      match assoc (fst x) s with
      | None => Raise "KeyError"
      | Some v =>
          if mem s (snd x) then Ok (Some (n_local v), x)
          else match assoc tds (n_module v) with
               | None => Ok (Some (n_local v), x)
               | Some types =>
                   match assoc types (match n_type v with Some t => t | None => n_module v end) with
                   | None => Ok (None, x)
                   | Some p =>
                       r <- convert_reference (convert f tds) (n_local v) x ;;
                       match r with
                       | (None, x) => Ok (None, x)
                       | (Some name, x) => Ok (Some (prefixed p name), (fst x, snd x ++ [s]))
                       end
                   end
               end
      end
  end.
(* what gather_variable_definitions returns: nothing, two values or three *)
Inductive gathered := Nothing | Two | Three (m : meta).
(* L309-L326: [keys] are those of metadata_define *)
Fixpoint gather (fuel : nat) (tds : typedefs) (keys : list str) (x : state) : res gathered :=
  match keys with
  | [] => Ok (Three (fst x))
  | k :: r =>
      match assoc (fst x) k with
      | None => Raise "KeyError"
      | Some v =>
          if n_multiple v then Ok Nothing
          else p <- convert fuel tds k x ;;
               match p with
               | (None, _) => Ok Two
               | (Some t, x) =>
                   match assoc (fst x) k with
                   | None => Raise "KeyError"
                   | Some v => gather fuel tds r (if str_eqb (n_local v) t then x else (set_local k t (fst x), snd x))
                   end
               end
      end
  end.
(* L759-L761, with L309: the caller takes three values *)
Definition host_names (fuel : nat) (tds : typedefs) (m : meta) : res meta :=
  match tds with
  | [] => Ok m
  | _ => g <- gather fuel tds (map fst m) (m, []) ;;
         match g with Three m => Ok m | Two => Raise "ValueError" | Nothing => Raise "TypeError" end
  end.
