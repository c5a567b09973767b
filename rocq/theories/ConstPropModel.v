(* ConstPropModel.v: model of ccpp_constituent_properties_t in
   src/ccpp_constituent_prop_mod.F90.
   Simplifications: real(kind_phys) values are only stored, copied and compared
   by this type, so they are modelled as Z; error messages are dropped, errcode
   is a Z as in the code. *)
From Verif Require Import Base.
Open Scope Z_scope.

(* L20-27 *)
Definition dry_mixing_ratio : Z := -2.
Definition moist_mixing_ratio : Z := -3.
Definition wet_mixing_ratio : Z := -4.
Definition mass_mixing_ratio : Z := -5.
Definition volume_mixing_ratio : Z := -6.
Definition number_concentration : Z := -7.
Definition int_unassigned : Z := - (2 ^ 31 - 1).
Definition kphys_unassigned : Z := 2 ^ 1024.       (* stands for HUGE(1.0_kind_phys) *)

(* L32-54 ccpp_constituent_properties_t; None = not allocated *)
Record cprop := mkProp {
  p_std_name : option string;
  p_long_name : option string;
  p_units : option string;
  p_vert_dim : option string;
  p_const_ind : Z;
  p_advected : bool;
  p_thermo_active : bool;
  p_water_species : bool;
  p_const_type : Z;
  p_const_water : Z;
  p_min_val : Z;
  p_molar_mass : Z;
  p_default_value : Z }.

(* default initialisation, L35-54 *)
Definition prop_new : cprop :=
  mkProp None None None None int_unassigned false false false
         int_unassigned int_unassigned 0 kphys_unassigned kphys_unassigned.

(* L351-372 ccp_is_instantiated *)
Definition is_instantiated (p : cprop) : bool :=
  match p_std_name p with Some _ => true | None => false end.

(* L470-491 ccp_deallocate: var_units, thermo_active, water_species, min_val and
   molar_mass_val are not touched. *)
Definition prop_deallocate (p : cprop) : cprop :=
  mkProp None None (p_units p) None int_unassigned false
         (p_thermo_active p) (p_water_species p)
         int_unassigned int_unassigned (p_min_val p) (p_molar_mass p) kphys_unassigned.

(* arguments of ccp_instantiate, L376-394; optional ones are options *)
Record iargs := mkArgs {
  a_std_name : string; a_long_name : string; a_units : string; a_vert_dim : string;
  a_advected : option bool; a_default : option Z; a_min : option Z; a_molar : option Z;
  a_water : option bool; a_mixing : option string }.

(* Fortran intrinsic index(str, sub) > 0 *)
Definition contains (sub s : string) : bool :=
  match String.index 0 sub s with Some _ => true | None => false end.

(* L428-436 *)
Definition const_type_of (name : string) : Z :=
  if contains "volume_mixing_ratio" name then volume_mixing_ratio
  else if contains "number_concentration" name then number_concentration
  else mass_mixing_ratio.

(* L437-463; None = invalid mixing ratio type *)
Definition const_water_of (name : string) (mixing : option string) : option Z :=
  match mixing with
  | Some m =>
      if feqb m "wet" then Some wet_mixing_ratio
      else if feqb m "moist" then Some moist_mixing_ratio
      else if feqb m "dry" then Some dry_mixing_ratio
      else None
  | None =>
      if contains "wrt_moist_air_and_condensed_water" name then Some wet_mixing_ratio
      else if contains "wrt_moist_air" name then Some moist_mixing_ratio
      else Some dry_mixing_ratio
  end.

Definition or_else {A} (o : option A) (d : A) : A := match o with Some x => x | None => d end.

(* L376-467 ccp_instantiate: (new object, errcode) *)
Definition prop_instantiate (p : cprop) (a : iargs) : cprop * Z :=
  if is_instantiated p then
    (* errcode = 1, all later blocks are skipped, then L464: deallocate *)
    (prop_deallocate p, 1)
  else
    let name := rtrim (a_std_name a) in
    let p1 := mkProp (Some name) (Some (rtrim (a_long_name a))) (Some (rtrim (a_units a)))
                (Some (rtrim (a_vert_dim a))) (p_const_ind p)
                (or_else (a_advected a) false) (p_thermo_active p)
                (or_else (a_water a) (p_water_species p))
                (const_type_of name) (p_const_water p)
                (or_else (a_min a) (p_min_val p)) (or_else (a_molar a) (p_molar_mass p))
                (or_else (a_default a) (p_default_value p)) in
    match const_water_of name (a_mixing a) with
    | Some w =>
        (mkProp (p_std_name p1) (p_long_name p1) (p_units p1) (p_vert_dim p1) (p_const_ind p1)
           (p_advected p1) (p_thermo_active p1) (p_water_species p1) (p_const_type p1) w
           (p_min_val p1) (p_molar_mass p1) (p_default_value p1), 0)
    | None => (prop_deallocate p1, 1)
    end.

(* L634-654 ccp_set_const_index *)
Definition set_const_index (p : cprop) (i : Z) : cprop * Z :=
  if is_instantiated p then
    if p_const_ind p =? int_unassigned then
      (mkProp (p_std_name p) (p_long_name p) (p_units p) (p_vert_dim p) i
         (p_advected p) (p_thermo_active p) (p_water_species p) (p_const_type p)
         (p_const_water p) (p_min_val p) (p_molar_mass p) (p_default_value p), 0)
    else (p, 1)
  else (p, 1).

(* L658-674 ccp_set_thermo_active *)
Definition set_thermo_active (p : cprop) (b : bool) : cprop * Z :=
  if is_instantiated p then
    (mkProp (p_std_name p) (p_long_name p) (p_units p) (p_vert_dim p) (p_const_ind p)
       (p_advected p) b (p_water_species p) (p_const_type p)
       (p_const_water p) (p_min_val p) (p_molar_mass p) (p_default_value p), 0)
  else (p, 1).

(* L678-694 ccp_set_water_species *)
Definition set_water_species (p : cprop) (b : bool) : cprop * Z :=
  if is_instantiated p then
    (mkProp (p_std_name p) (p_long_name p) (p_units p) (p_vert_dim p) (p_const_ind p)
       (p_advected p) (p_thermo_active p) b (p_const_type p)
       (p_const_water p) (p_min_val p) (p_molar_mass p) (p_default_value p), 0)
  else (p, 1).

(* L906-922 ccp_set_min_val *)
Definition set_min_val (p : cprop) (x : Z) : cprop * Z :=
  if is_instantiated p then
    (mkProp (p_std_name p) (p_long_name p) (p_units p) (p_vert_dim p) (p_const_ind p)
       (p_advected p) (p_thermo_active p) (p_water_species p) (p_const_type p)
       (p_const_water p) x (p_molar_mass p) (p_default_value p), 0)
  else (p, 1).

(* L944-956 ccp_set_molar_mass *)
Definition set_molar_mass (p : cprop) (x : Z) : cprop * Z :=
  if is_instantiated p then
    (mkProp (p_std_name p) (p_long_name p) (p_units p) (p_vert_dim p) (p_const_ind p)
       (p_advected p) (p_thermo_active p) (p_water_species p) (p_const_type p)
       (p_const_water p) (p_min_val p) x (p_default_value p), 0)
  else (p, 1).

(* ---- queries: value when instantiated, given default (and errcode 1) if not ---- *)
Definition query {A} (p : cprop) (f : cprop -> A) (d : A) : A * Z :=
  if is_instantiated p then (f p, 0) else (d, 1).

(* an allocatable string that is read although not allocated reads as '' here *)
Definition ostr (o : option string) : string := or_else o "".

Definition q_standard_name p := query p (fun p => ostr (p_std_name p)) "".        (* L495-510 *)
Definition q_long_name p := query p (fun p => ostr (p_long_name p)) "".           (* L514-529 *)
Definition q_units p := query p (fun p => ostr (p_units p)) "".                   (* L533-548 *)
Definition q_vertical_dimension p := query p (fun p => ostr (p_vert_dim p)) "".   (* L552-567 *)
Definition q_const_index p := query p p_const_ind int_unassigned.                 (* L616-630 *)
Definition q_is_advected p := query p p_advected false.                           (* L736-749 *)
Definition q_is_thermo_active p := query p p_thermo_active false.                 (* L698-713 *)
Definition q_is_water_species p := query p p_water_species false.                 (* L717-732 *)
Definition q_is_mass p := query p (fun p => p_const_type p =? mass_mixing_ratio) false.      (* L783-796 *)
Definition q_is_volume p := query p (fun p => p_const_type p =? volume_mixing_ratio) false.  (* L800-813 *)
Definition q_is_number p := query p (fun p => p_const_type p =? number_concentration) false. (* L817-830 *)
Definition q_is_dry p := query p (fun p => p_const_water p =? dry_mixing_ratio) false.       (* L834-848 *)
Definition q_is_moist p := query p (fun p => p_const_water p =? moist_mixing_ratio) false.   (* L852-866 *)
Definition q_is_wet p := query p (fun p => p_const_water p =? wet_mixing_ratio) false.       (* L870-884 *)
Definition q_minimum p := query p p_min_val kphys_unassigned.                     (* L888-902 *)
Definition q_molar_mass p := query p p_molar_mass kphys_unassigned.               (* L926-940 *)
Definition q_default_value p := query p p_default_value kphys_unassigned.         (* L960-974 *)
Definition q_has_default p :=
  query p (fun p => negb (p_default_value p =? kphys_unassigned)) false.          (* L978-994 *)

(* L571-582 ccp_is_layer_var; dimname has fixed length, which is not modelled *)
Definition is_layer_var (p : cprop) : bool :=
  feqb (fst (q_vertical_dimension p)) "vertical_layer_dimension".
(* L586-597 ccp_is_interface_var *)
Definition is_interface_var (p : cprop) : bool :=
  feqb (fst (q_vertical_dimension p)) "vertical_interface_dimension".
(* L601-612 ccp_is_2d_var *)
Definition is_2d_var (p : cprop) : bool :=
  match rtrim (fst (q_vertical_dimension p)) with EmptyString => true | _ => false end.

(* L998-1042 ccp_is_match *)
Definition is_match (p q : cprop) : bool :=
  Bool.eqb (fst (q_is_advected p)) (fst (q_is_advected q)) &&
  Bool.eqb (fst (q_is_thermo_active p)) (fst (q_is_thermo_active q)) &&
  Bool.eqb (fst (q_is_water_species p)) (fst (q_is_water_species q)) &&
  feqb (fst (q_units p)) (fst (q_units q)).

(* L753-779 ccp_is_equivalent (both instantiated; otherwise false) *)
Definition is_equivalent (p q : cprop) : bool :=
  is_instantiated p && is_instantiated q &&
  feqb (ostr (p_std_name p)) (ostr (p_std_name q)) &&
  feqb (ostr (p_long_name p)) (ostr (p_long_name q)) &&
  feqb (ostr (p_vert_dim p)) (ostr (p_vert_dim q)) &&
  feqb (ostr (p_units p)) (ostr (p_units q)) &&
  Bool.eqb (p_advected p) (p_advected q) &&
  (p_default_value p =? p_default_value q) &&
  (p_min_val p =? p_min_val q) && (p_molar_mass p =? p_molar_mass q) &&
  Bool.eqb (p_thermo_active p) (p_thermo_active q) &&
  (p_const_water p =? p_const_water q) &&
  Bool.eqb (p_water_species p) (p_water_species q).

(* L214-233 copyConstituent (assignment) *)
Definition copy_constituent (q : cprop) : cprop :=
  mkProp (p_std_name q) (p_long_name q) (p_units q) (p_vert_dim q) (p_const_ind q)
    (p_advected q) (p_thermo_active q) (p_water_species q) (p_const_type q)
    (p_const_water q) (p_min_val q) (p_molar_mass q) (p_default_value q).

(* ---- call histories on one object ---- *)
Inductive pop :=
| PInstantiate (a : iargs) | PDeallocate
| PSetIndex (i : Z) | PSetThermo (b : bool) | PSetWater (b : bool)
| PSetMin (x : Z) | PSetMolar (x : Z).

Definition pstep (p : cprop) (o : pop) : cprop * Z :=
  match o with
  | PInstantiate a => prop_instantiate p a
  | PDeallocate => (prop_deallocate p, 0)
  | PSetIndex i => set_const_index p i
  | PSetThermo b => set_thermo_active p b
  | PSetWater b => set_water_species p b
  | PSetMin x => set_min_val p x
  | PSetMolar x => set_molar_mass p x
  end.

Definition prun (p : cprop) (ops : list pop) : cprop :=
  fold_left (fun p o => fst (pstep p o)) ops p.
