(* ConstPropSpec.v: vocabulary of the statements about ccpp_constituent_properties_t. *)
From Verif Require Import Base ConstPropModel.
Open Scope Z_scope.

(* "Everything a client can observe of an object" *)
Definition observe (p : cprop) :=
  (is_instantiated p, q_standard_name p, q_long_name p, q_units p, q_vertical_dimension p,
   (q_const_index p, q_is_advected p, q_is_thermo_active p, q_is_water_species p),
   (q_is_mass p, q_is_volume p, q_is_number p, q_is_dry p, q_is_moist p, q_is_wet p),
   (q_minimum p, q_molar_mass p, q_default_value p, q_has_default p)).

Definition valid_mixing (a : iargs) : bool :=
  match a_mixing a with
  | None => true
  | Some m => feqb m "wet" || feqb m "moist" || feqb m "dry"
  end.

(* calls that neither end nor restart the life of an object *)
Definition keeps (o : pop) : bool :=
  match o with PInstantiate _ | PDeallocate => false | _ => true end.

Definition exactly_one3 (a b c : bool) : Prop :=
  (a = true /\ b = false /\ c = false) \/ (a = false /\ b = true /\ c = false) \/
  (a = false /\ b = false /\ c = true).


(* [sub] occurs in [s] *)
Definition occurs (sub s : string) : Prop := exists a b, s = (a ++ sub ++ b)%string.
(* everything observable except the index in the constituent array *)
Definition observe_unplaced (p : cprop) :=
  (q_standard_name p, q_long_name p, q_units p, q_vertical_dimension p,
   (q_is_advected p, q_is_thermo_active p, q_is_water_species p),
   (q_is_mass p, q_is_volume p, q_is_number p, q_is_dry p, q_is_moist p, q_is_wet p),
   (q_minimum p, q_molar_mass p, q_default_value p, q_has_default p)).
