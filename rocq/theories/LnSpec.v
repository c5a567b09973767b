(* LnSpec.v: the full Fortran name of a host variable. *)
From Coq Require Import List Ascii String ZArith Bool.
From Verif Require Import PyStr LnModel.
Import ListNotations.
Open Scope nat_scope. Open Scope list_scope.

(* a name without subscripts, or a name with one list of subscripts at its end, without
   further parentheses in it *)
Definition subscripted (l base : str) (refs : list str) : Prop :=
  l = base ++ L "(" ++ join (L ",") refs ++ L ")" /\ refs <> [] /\
  forall r, In r refs -> ~ In ","%char r /\ ~ In "("%char r /\ ~ In ")"%char r.
Definition tidy_name (l : str) : Prop := ~ In "("%char l \/ exists base refs, subscripted l base refs.
(* a host: each standard name once, with a tidy local name *)
Definition tidy (m : meta) : Prop := NoDup (map fst m) /\ forall s v, In (s, v) m -> tidy_name (n_local v).

(* the reference configured for the structure a variable is in: empty for a module's own
   variables; None: not configured *)
Inductive configured (tds : typedefs) (v : nvar) (p : str) : Prop :=
| C_type types t : In (n_module v, types) tds -> n_type v = Some t -> In (t, p) types -> configured tds v p
| C_module types : In (n_module v, types) tds -> n_type v = None -> In (n_module v, p) types -> configured tds v p.
Definition with_reference (p name full : str) : Prop := (p = [] /\ full = name) \/ (p <> [] /\ full = p ++ L "%" ++ name).

(* the full name of the variable with a standard name; [n] bounds how deep subscripts go *)
(* a bound of a subscript: a number or the full name of a variable *)
Definition bound_is (name_is : str -> str -> Prop) (b t : str) : Prop :=
  (py_int (strip b) <> None /\ t = strip b) \/ (py_int (strip b) = None /\ name_is (strip b) t).
(* a subscript: a colon or bounds *)
Definition index_is (name_is : str -> str -> Prop) (r t : str) : Prop :=
  (strip r = L ":" /\ t = L ":") \/
  (strip r <> L ":" /\ exists bs ts, strip r = join (L ":") bs /\ bs <> [] /\ (forall b, In b bs -> ~ In ":"%char b) /\
     Forall2 (bound_is name_is) bs ts /\ t = join (L ":") ts).
Fixpoint full_name (n : nat) (tds : typedefs) (m : meta) (s t : str) : Prop :=
  match n with
  | O => False
  | S n =>
      exists v, In (s, v) m /\
      (((forall types, ~ In (n_module v, types) tds) /\ t = n_local v) \/
       exists p name, configured tds v p /\ with_reference p name t /\
         ((~ In "("%char (n_local v) /\ name = n_local v) \/
          exists base refs ts, subscripted (n_local v) base refs /\ Forall2 (index_is (full_name n tds m)) refs ts /\
            name = base ++ L "(" ++ join (L ",") ts ++ L ")"))
  end.
(* the typedefs have each module and each type once *)
Definition tidy_typedefs (tds : typedefs) : Prop := NoDup (map fst tds) /\ forall m types, In (m, types) tds -> NoDup (map fst types).
