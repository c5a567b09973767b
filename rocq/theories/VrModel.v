(* VrModel.v: scripts/metavar.py, class Var: the constructor (L240-L376), its property tables
   (L170-L238), get_prop_value (L494-L516), adjust_intent (L406-L441), copy_prop_dict and clone
   (L459-L492), and scripts/var_props.py: VariableProperty.valid_value (L660-L755),
   get_default_val (L635-L646), standard_name_to_long_name (L132-L181), default_kind_val
   (L184-L239).  The check functions of the properties are in CheckModel.
   The name of a property is a constructor.  A float is described by its text and by the answers
   to two questions: is it zero, is it between 0 and the largest molar mass; float(s) is the
   parameter [float_of].  type and kind are taken to be strings where check functions read them.
   Left out: properties of type int (there are none), contexts, sources, loggers, the text of
   messages (an exception is its class), the debug property valid_values. *)
From Coq Require Import List Ascii String ZArith Bool.
From Verif Require Import PyStr Regex CheckModel.
Import ListNotations.
Open Scope nat_scope. Open Scope list_scope.

Record pyfloat := mkF { f_text : str; f_zero : bool; f_in_range : bool }.
Inductive pv := PS (s : str) | PB (b : bool) | PL (l : list str) | PF (f : pyfloat).
Inductive prop :=
| Plocal_name | Pstandard_name | Plong_name | Punits | Pdimensions | Ptype | Pkind | Pstate_variable | Pprotected | Pallocatable
| Pdiagnostic_name | Pdiagnostic_name_fixed | Pdefault_value | Ppersistence | Pactive | Ppolymorphic | Ptop_at_one | Poptional | Ptarget
| Pintent | Padvected | Pmolar_mass | Pconstituent | Pddt_type | Pother (s : str).
Definition prop_dec : forall a b : prop, {a = b} + {a <> b}.
Proof. decide equality. apply (list_eq_dec ascii_dec). Defined.
Definition dict := list (prop * pv).
Definition get (n : prop) (d : dict) : option pv := match List.find (fun x => if prop_dec (fst x) n then true else false) d with Some x => Some (snd x) | None => None end.
Definition has (n : prop) (d : dict) : bool := match get n d with Some _ => true | None => false end.
(* d[n] = v *)
Definition set (n : prop) (v : pv) (d : dict) : dict :=
  if has n d then map (fun x => if prop_dec (fst x) n then (n, v) else x) d else d ++ [(n, v)].
Definition del (n : prop) (d : dict) : dict := List.filter (fun x => if prop_dec (fst x) n then false else true) d.
(* bool(v) *)
Definition truthy (v : pv) : bool :=
  match v with PS s => negb (is_nil s) | PB b => b | PL l => match l with [] => false | _ => true end | PF f => negb (f_zero f) end.

(* ---- the tables, L170-L238 ---- *)
Inductive ptype := TStr (valid : option (list str)) | TBool | TList | TFloat.
Definition prop_type (n : prop) : option ptype :=
  match n with
  | Plocal_name | Pstandard_name | Plong_name | Punits | Ptype | Pkind | Pdiagnostic_name | Pdiagnostic_name_fixed | Pdefault_value | Pactive => Some (TStr None)
  | Pdimensions => Some TList
  | Pstate_variable | Pprotected | Pallocatable | Ppolymorphic | Ptop_at_one | Poptional | Ptarget | Padvected | Pconstituent => Some TBool
  | Ppersistence => Some (TStr (Some [L "timestep"; L "run"]))
  | Pintent => Some (TStr (Some [L "in"; L "out"; L "inout"]))
  | Pmolar_mass => Some TFloat
  | Pddt_type | Pother _ => None
  end.
Definition required (scheme : bool) : list prop := [Plocal_name; Pstandard_name; Punits; Pdimensions; Ptype] ++ (if scheme then [Pintent] else []).

(* ---- VariableProperty.valid_value ---- *)
Definition mem_str (s : str) (l : list str) : bool := existsb (str_eqb s) l.
Definition true_vals : list str := [L "t"; L "true"; L ".true."].
Definition false_vals : list str := [L "f"; L "false"; L ".false."].
Definition one_float : pyfloat := mkF (L "1.0") false true.
Definition zero_float : pyfloat := mkF (L "0.0") true true.
(* the value in the type of the property, or None; L667-L742 *)
Definition convert (float_of : str -> option pyfloat) (t : ptype) (v : pv) : res (option pv) :=
  match t with
  | TFloat =>
      match v with
      | PS s => match float_of s with Some f => Ok (Some (PF f)) | None => Raise "ValueError" end
      | PB b => Ok (Some (PF (if b then one_float else zero_float)))
      | PF f => Ok (Some v)
      | PL _ => Raise "TypeError"
      end
  | TList =>
      match v with
      | PS s => r <- fortran_list_match s ;; Ok (match r with Some [[]] => Some (PL []) | Some l => Some (PL l) | None => None end)
      | PL l => Ok (Some v)
      | _ => Ok None
      end
  | TBool =>
      match v with
      | PS s => Ok (if mem_str (lower s) (true_vals ++ false_vals) then Some (PB (mem_str (lower s) true_vals)) else None)
      | _ => Ok (Some (PB (truthy v)))
      end
  | TStr valid =>
      match v with
      | PS s => Ok (match valid with Some l => if mem_str s l then Some v else None | None => Some v end)
      | _ => Ok None
      end
  end.
Definition str_at (n : prop) (d : dict) : str := match get n d with Some (PS s) => s | _ => [] end.
Definition true_at (n : prop) (d : dict) : bool := match get n d with Some v => truthy v | None => false end.
Definition as_ps (r : res (option str)) : res (option pv) := o <- r ;; Ok (match o with Some s => Some (PS s) | None => None end).
(* the check functions; [pd] is the dictionary of the variable, None in the metadata reader *)
Definition check (ddts : list str) (pd : option dict) (n : prop) (v : pv) (error : bool) : res (option pv) :=
  let d := match pd with Some d => d | None => [] end in
  match n, v with
  | Plocal_name, PS s => as_ps (check_local_name s (true_at Pprotected d) (str_at Ptype d) (str_at Pkind d) error 0)
  | Pstandard_name, PS s => as_ps (check_cf_standard_name s error)
  | Punits, PS s => as_ps (check_units s error)
  | Ptype, PS s => as_ps (check_fortran_type ddts s error)
  | Pdiagnostic_name, PS s => as_ps (check_diagnostic_id s (str_at Pdiagnostic_name_fixed d) error)
  | Pdiagnostic_name_fixed, PS s => as_ps (check_diagnostic_fixed s (str_at Pdiagnostic_name d) error)
  | Pdefault_value, PS s =>
      match pd with
      | None => Ok (Some v)
      | Some d => if has Ptype d then as_ps (check_default_value s (str_at Ptype d) (if has Pkind d then Some (str_at Pkind d) else None) error)
                  else if error then Raise "CCPPError" else Ok None
      end
  | Pdimensions, PL l => r <- check_dimensions l error 0 ;; Ok (match r with Some k => Some (PL k) | None => None end)
  (* check_molar_mass, parse_checkers.py L947-L996 *)
  | Pmolar_mass, PF f => if f_in_range f then Ok (Some v) else if error then Raise "CCPPError" else Ok None
  | _, _ => Ok (Some v)
  end.
Definition valid_value (float_of : str -> option pyfloat) (ddts : list str) (pd : option dict) (n : prop) (v : pv) (error : bool) : res (option pv) :=
  match prop_type n with
  | None => Raise "ParseInternalError"
  | Some t =>
      o <- convert float_of t v ;;
      match o with
      | Some w => if truthy w then check ddts pd n w error else Ok o
      | None => if error then Raise "CCPPError" else Ok None
      end
  end.

(* ---- Var.__init__ ---- *)
Record var := mkVar { v_props : dict; v_ddt : bool; v_constituent : bool }.
(* L272-L287 *)
Definition ddt_rules (d : dict) : dict * bool :=
  match get Pddt_type d with
  | Some t =>
      let d1 := if has Ptype d then d else set Ptype t d in
      let d2 := if has Punits d1 then d1 else set Punits (PS []) d1 in
      (del Pddt_type (set Pkind t d2), true)
  | None => (d, false)
  end.
(* prop_dict['protected'] with an intent that is not "in", L301-L308 *)
Definition intent_rule (d : dict) : res unit :=
  match get Pprotected d, get Pintent d with
  | Some p, Some i =>
      match i with
      | PS s => if negb (str_eqb (lower s) (L "in")) && truthy p then Raise "ParseSyntaxError" else Ok tt
      | _ => Raise "AttributeError"
      end
  | _, _ => Ok tt
  end.
(* prop_dict[name] != default, L310-L318; the defaults are False and 0.0 *)
Definition not_default (v : pv) : bool := match v with PB b => b | PF f => negb (f_zero f) | _ => true end.
Definition constituent_at (n : prop) (d : dict) : bool := match get n d with Some v => not_default v | None => false end.
(* a CCPPError of a check becomes a ParseSyntaxError, L334-L346 *)
Definition reraise (r : res (option pv)) : res unit :=
  match r with Ok _ => Ok tt | Raise e => if prefix "CCPPError" e then Raise "ParseSyntaxError" else Raise e end.
Fixpoint check_all (float_of : str -> option pyfloat) (ddts : list str) (d l : dict) : res unit :=
  match l with [] => Ok tt | (n, v) :: r => u <- reraise (valid_value float_of ddts (Some d) n v true) ;; check_all float_of ddts d r end.
Definition make_var (float_of : str -> option pyfloat) (ddts : list str) (scheme : bool) (d0 : dict) : res var :=
  let (d, ddt) := ddt_rules d0 in
  if negb (forallb (fun x => is_some (prop_type (fst x))) d) then Raise "ParseSyntaxError"
  else if negb (forallb (fun n => has n d) (required scheme)) then Raise "ParseSyntaxError"
  else
    u <- intent_rule d ;;
    w <- check_all float_of ddts d d ;;
    Ok (mkVar d ddt (constituent_at Padvected d || constituent_at Pmolar_mass d || constituent_at Pconstituent d)).

(* ---- defaults ---- *)
(* _REAL_SUBST_RE: the last p between two digits becomes a point *)
Fixpoint subst_last (s : str) : option str :=
  match s with
  | [] => None
  | a :: r =>
      match subst_last r with
      | Some r' => Some (a :: r')
      | None => match r with
                | p :: b :: t => if is_digit a && Ascii.eqb p "p" && is_digit b then Some (a :: "."%char :: b :: t) else None
                | _ => None
                end
      end
  end.
(* the while loop; each round removes a p *)
Fixpoint subst_loop (fuel : nat) (s : str) : str :=
  match fuel with 0 => s | Datatypes.S k => match subst_last s with Some t => subst_loop k t | None => s end end.
Definition long_name (s : str) : str :=
  match s with
  | [] => []
  | c :: r => let t := upper_c c :: map (fun x => if Ascii.eqb x "_" then " "%char else x) r in subst_loop (List.length t) t
  end.
(* default_kind_val *)
Definition default_kind (t : str) : str :=
  let v := lower t in
  if str_eqb v (L "real") || str_eqb v (L "complex") || re_prefix dp_re v then L "kind_phys" else [].
(* get_default_val; the name of a standard name or type that is not a string is left out *)
Definition default_of (d : dict) (n : prop) : option pv :=
  match n with
  | Plong_name => Some (PS (long_name (str_at Pstandard_name d)))
  | Pkind => Some (PS (default_kind (str_at Ptype d)))
  | Pstate_variable | Pprotected | Pallocatable | Ppolymorphic | Ptop_at_one | Poptional | Ptarget | Padvected | Pconstituent => Some (PB false)
  | Pdiagnostic_name | Pdiagnostic_name_fixed | Pdefault_value => Some (PS [])
  | Ppersistence => Some (PS (L "timestep"))
  | Pactive => Some (PS (L ".true."))
  | Pmolar_mass => Some (PF zero_float)
  | _ => None
  end.
Definition get_prop_value (d : dict) (n : prop) : option pv := match get n d with Some v => Some v | None => default_of d n end.

(* ---- adjust_intent: the new dictionary ---- *)
Definition adjust_intent (self src : dict) : res dict :=
  let sv := match get_prop_value src Pintent with Some v => if truthy v then v else PS (L "in") | None => PS (L "in") end in
  let change := match sv with PS s => mem_str s [L "inout"; L "out"] | _ => false end in
  let protected := match get_prop_value self Pprotected with Some v => truthy v | None => false end in
  if change && protected then Raise "CCPPError"
  else
    match get Pintent self with
    | Some mine =>
        if truthy mine then
          match mine, sv with
          | PS a, PS b => if str_eqb a b then Ok self else Ok (set Pintent (PS (L "inout")) self)
          | _, _ => Ok (set Pintent (PS (L "inout")) self)
          end
        else Ok (set Pintent sv self)
    | None => Ok (set Pintent sv self)
    end.
(* ---- copy_prop_dict and clone ---- *)
Definition copy_prop_dict (v : var) (subst : dict) : res dict :=
  let d := fold_left (fun d x => set (fst x) (snd x) d) subst (v_props v) in
  if v_ddt v then match get Ptype d with Some t => Ok (set Pddt_type t d) | None => Raise "KeyError" end else Ok d.
Definition clone (float_of : str -> option pyfloat) (ddts : list str) (scheme : bool) (v : var) (subst : dict) (remove_intent : bool) : res var :=
  d <- copy_prop_dict v subst ;; make_var float_of ddts scheme (if remove_intent then del Pintent d else d).
