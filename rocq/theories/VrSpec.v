(* VrSpec.v: which values the metadata properties of a variable may have. *)
From Coq Require Import List Ascii String ZArith Bool.
From Verif Require Import PyStr PhaseSpec CheckModel CheckSpec CheckProps VrModel.
Import ListNotations.
Open Scope nat_scope. Open Scope list_scope.

(* what Python takes for true *)
Inductive true_value : pv -> Prop :=
| TV_text s : s <> [] -> true_value (PS s)
| TV_bool : true_value (PB true)
| TV_list l : l <> [] -> true_value (PL l)
| TV_float f : f_zero f = false -> true_value (PF f).
Definition given (d : dict) (n : prop) (v : pv) : Prop := In (n, v) d.
Definition given_true (d : dict) (n : prop) : Prop := exists v, given d n v /\ true_value v.
Definition bool_prop (n : prop) : Prop :=
  In n [Pstate_variable; Pprotected; Pallocatable; Ppolymorphic; Ptop_at_one; Poptional; Ptarget; Padvected; Pconstituent].
Definition text_prop (n : prop) : Prop := In n [Plong_name; Pkind; Pactive].
(* a literal of the type and kind of the variable: check_fortran_literal, see C53 *)
Definition literal (s typ kind : str) : Prop := check_fortran_literal s typ kind = Ok true.
Definition text_of (d : dict) (n : prop) (s : str) : Prop := given d n (PS s) \/ (s = [] /\ forall t, ~ given d n (PS t)).
Inductive valid (float_of : str -> option pyfloat) (names : list str) (d : dict) : prop -> pv -> Prop :=
| Va_local s : reference 0 s -> valid float_of names d Plocal_name (PS s)
| Va_constant s t k : given_true d Pprotected -> text_of d Ptype t -> text_of d Pkind k -> t <> [] -> literal s t k -> valid float_of names d Plocal_name (PS s)
| Va_standard s : fortran_name s -> valid float_of names d Pstandard_name (PS s)
| Va_units s : s = [] \/ unit_string (strip s) -> valid float_of names d Punits (PS s)
| Va_dimensions l : Forall (dim_ok 0) l -> valid float_of names d Pdimensions (PL l)
| Va_dimensions_text s l : fortran_list_match s = Ok (Some l) -> l = [[]] \/ Forall (dim_ok 0) l -> valid float_of names d Pdimensions (PS s)
| Va_type s : type_text s \/ In s names -> valid float_of names d Ptype (PS s)
| Va_text n s : text_prop n -> valid float_of names d n (PS s)
| Va_bool_text n s : bool_prop n -> In (lower s) [L "t"; L "true"; L ".true."; L "f"; L "false"; L ".false."] -> valid float_of names d n (PS s)
| Va_bool n v : bool_prop n -> (forall s, v <> PS s) -> valid float_of names d n v
| Va_no_diagnostic n : n = Pdiagnostic_name \/ n = Pdiagnostic_name_fixed \/ n = Pdefault_value -> valid float_of names d n (PS [])
| Va_diagnostic s : diag_name s -> text_of d Pdiagnostic_name_fixed [] -> valid float_of names d Pdiagnostic_name (PS s)
| Va_fixed s : fortran_name s -> text_of d Pdiagnostic_name [] -> valid float_of names d Pdiagnostic_name_fixed (PS s)
| Va_default s t k : given d Ptype (PS t) -> text_of d Pkind k -> literal s (strip (lower t)) (strip (lower k)) -> valid float_of names d Pdefault_value (PS s)
| Va_persistence s : s = L "timestep" \/ s = L "run" -> valid float_of names d Ppersistence (PS s)
| Va_intent s : s = L "in" \/ s = L "out" \/ s = L "inout" -> valid float_of names d Pintent (PS s)
| Va_mass f : f_zero f = true \/ f_in_range f = true -> valid float_of names d Pmolar_mass (PF f)
| Va_mass_text s f : float_of s = Some f -> f_zero f = true \/ f_in_range f = true -> valid float_of names d Pmolar_mass (PS s)
| Va_mass_bool b : valid float_of names d Pmolar_mass (PB b).
(* a legal description of a variable of a scheme, or of a host or type definition *)
Definition legal (float_of : str -> option pyfloat) (names : list str) (scheme : bool) (d : dict) : Prop :=
  (forall n v, given d n v -> valid float_of names d n v) /\
  (forall n, In n [Plocal_name; Pstandard_name; Punits; Pdimensions; Ptype] -> exists v, given d n v) /\
  (scheme = true -> exists v, given d Pintent v) /\
  (given_true d Pprotected -> forall v, given d Pintent v -> v = PS (L "in")).
Definition registered (names : list str) : list str := fold_left register_ddt names [].
(* texts of one line, and names that are not empty *)
Definition ordinary (d : dict) : Prop :=
  NoDup (map fst d) /\ (forall n s, given d n (PS s) -> ~ ends_nl s) /\ (forall n, In n [Plocal_name; Pstandard_name; Ptype] -> ~ given d n (PS [])).
(* the test whether the local name of a protected variable is a constant ends *)
Definition decided (d : dict) : Prop :=
  given_true d Pprotected -> forall s t k, given d Plocal_name (PS s) -> text_of d Ptype t -> text_of d Pkind k -> t <> [] -> exists b, check_fortran_literal s t k = Ok b.
