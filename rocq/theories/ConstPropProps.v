(* ConstPropProps.v: property C07 (ccpp_constituent_properties_t). *)
From Verif Require Import Base ConstPropModel ConstPropSpec ConstPropProofs.
Open Scope Z_scope.

Definition ex_args : iargs :=
  mkArgs "water_vapor_mixing_ratio_wrt_moist_air  " "vapor" "kg kg-1" "vertical_layer_dimension"
         (Some true) (Some 0) (Some 5) (Some 18) (Some true) None.

(* instantiate on an object that is not instantiated: errors exactly for an
   invalid mixing ratio type, and the object is instantiated exactly on success *)
Theorem C07_instantiate_fresh :
  forall p a, is_instantiated p = false ->
  (valid_mixing a = true -> snd (prop_instantiate p a) = 0 /\
      is_instantiated (fst (prop_instantiate p a)) = true) /\
  (valid_mixing a = false -> snd (prop_instantiate p a) = 1 /\
      is_instantiated (fst (prop_instantiate p a)) = false).
Proof. exact instantiate_fresh. Qed.
Print Assumptions C07_instantiate_fresh.

(* ... and the queries return the arguments (trailing blanks removed) *)
Theorem C07_instantiate_values :
  forall p a, is_instantiated p = false -> valid_mixing a = true ->
  let q := fst (prop_instantiate p a) in
  q_standard_name q = (rtrim (a_std_name a), 0) /\
  q_long_name q = (rtrim (a_long_name a), 0) /\
  q_units q = (rtrim (a_units a), 0) /\
  q_vertical_dimension q = (rtrim (a_vert_dim a), 0) /\
  q_is_advected q = (or_else (a_advected a) false, 0) /\
  q_is_thermo_active q = (p_thermo_active p, 0) /\
  (forall x, a_default a = Some x -> q_default_value q = (x, 0)) /\
  (forall x, a_min a = Some x -> q_minimum q = (x, 0)) /\
  (forall x, a_molar a = Some x -> q_molar_mass q = (x, 0)) /\
  (forall x, a_water a = Some x -> q_is_water_species q = (x, 0)).
Proof. exact instantiate_values. Qed.
Print Assumptions C07_instantiate_values.

(* after any history, an object about to be instantiated gets no index and has a
   default value exactly when one is given *)
Theorem C07_instantiate_unplaced :
  forall ops a, let p := prun prop_new ops in
  is_instantiated p = false -> valid_mixing a = true ->
  let q := fst (prop_instantiate p a) in
  q_const_index q = (int_unassigned, 0) /\
  q_default_value q = (or_else (a_default a) kphys_unassigned, 0) /\
  q_has_default q = (match a_default a with Some x => negb (x =? kphys_unassigned) | None => false end, 0).
Proof. exact instantiate_unplaced. Qed.
Print Assumptions C07_instantiate_unplaced.

(* the mixing ratio argument, or else the standard name, decides the class *)
Theorem C07_classification_values :
  forall p a, is_instantiated p = false -> valid_mixing a = true ->
  let q := fst (prop_instantiate p a) in let n := rtrim (a_std_name a) in
  (fst (q_is_volume q) = true <-> occurs "volume_mixing_ratio" n) /\
  (fst (q_is_number q) = true <-> occurs "number_concentration" n /\ ~ occurs "volume_mixing_ratio" n) /\
  (forall m, a_mixing a = Some m ->
     (fst (q_is_wet q) = true <-> rtrim m = "wet"%string) /\
     (fst (q_is_moist q) = true <-> rtrim m = "moist"%string) /\
     (fst (q_is_dry q) = true <-> rtrim m = "dry"%string)) /\
  (a_mixing a = None ->
     (fst (q_is_wet q) = true <-> occurs "wrt_moist_air_and_condensed_water" n) /\
     (fst (q_is_moist q) = true <-> occurs "wrt_moist_air" n /\ ~ occurs "wrt_moist_air_and_condensed_water" n) /\
     (fst (q_is_dry q) = true <-> ~ occurs "wrt_moist_air" n)).
Proof. exact classification_values. Qed.
Print Assumptions C07_classification_values.

(* two objects of any histories are equivalent exactly when both are
   instantiated and agree in everything observable except the index *)
Theorem C07_equivalent_iff :
  forall ops1 ops2, let p := prun prop_new ops1 in let q := prun prop_new ops2 in
  is_equivalent p q = true <->
  is_instantiated p = true /\ is_instantiated q = true /\ observe_unplaced p = observe_unplaced q.
Proof. exact equivalent_iff. Qed.
Print Assumptions C07_equivalent_iff.

Theorem C07_vertical_classes :
  forall ops, let p := prun prop_new ops in is_instantiated p = true ->
  (is_layer_var p = true <-> q_vertical_dimension p = ("vertical_layer_dimension"%string, 0)) /\
  (is_interface_var p = true <-> q_vertical_dimension p = ("vertical_interface_dimension"%string, 0)) /\
  (is_2d_var p = true <-> q_vertical_dimension p = (""%string, 0)).
Proof. exact vertical_classes. Qed.
Print Assumptions C07_vertical_classes.
Example C07_equivalent_example :
  is_equivalent (prun prop_new [PInstantiate ex_args; PSetIndex 2]) (prun prop_new [PInstantiate ex_args; PSetIndex 7]) = true /\
  is_equivalent (prun prop_new [PInstantiate ex_args; PSetMin 2]) (prun prop_new [PInstantiate ex_args]) = false /\
  is_layer_var (prun prop_new [PInstantiate ex_args]) = true.
Proof. repeat split; vm_compute; reflexivity. Qed.

Example C07_instantiate_example :
  is_instantiated prop_new = false /\ valid_mixing ex_args = true /\
  q_standard_name (fst (prop_instantiate prop_new ex_args)) = ("water_vapor_mixing_ratio_wrt_moist_air", 0) /\
  q_is_moist (fst (prop_instantiate prop_new ex_args)) = (true, 0).
Proof. repeat split. Qed.

(* The documented error case destroys the object: after instantiate on an
   instantiated object the object is no longer instantiated. *)
Theorem C07_reinstantiate_keeps_object_refuted :
  forall p a, is_instantiated p = true ->
    snd (prop_instantiate p a) = 1 /\ is_instantiated (fst (prop_instantiate p a)) = false.
Proof. exact instantiate_twice. Qed.
Print Assumptions C07_reinstantiate_keeps_object_refuted.

Example C07_reinstantiate_example :
  is_instantiated (fst (prop_instantiate prop_new ex_args)) = true.
Proof. reflexivity. Qed.

(* deallocate then instantiate gives a fresh object only if everything
   deallocate forgets is passed explicitly and thermo_active was never set *)
Theorem C07_deallocate_then_instantiate_partial :
  forall p a, a_min a <> None -> a_molar a <> None -> a_water a <> None ->
    p_thermo_active p = false -> valid_mixing a = true ->
    observe (fst (prop_instantiate (prop_deallocate p) a))
    = observe (fst (prop_instantiate prop_new a)).
Proof. exact reinstantiate_explicit. Qed.
Print Assumptions C07_deallocate_then_instantiate_partial.

Theorem C07_deallocate_then_instantiate_refuted :
  exists p a, is_instantiated p = true /\ valid_mixing a = true /\
    q_minimum (fst (prop_instantiate (prop_deallocate p) a))
      <> q_minimum (fst (prop_instantiate prop_new a)) /\
    q_molar_mass (fst (prop_instantiate (prop_deallocate p) a))
      <> q_molar_mass (fst (prop_instantiate prop_new a)) /\
    q_is_water_species (fst (prop_instantiate (prop_deallocate p) a))
      <> q_is_water_species (fst (prop_instantiate prop_new a)) /\
    q_is_thermo_active (fst (prop_instantiate (prop_deallocate p) a))
      <> q_is_thermo_active (fst (prop_instantiate prop_new a)).
Proof. exact reinstantiate_stale. Qed.
Print Assumptions C07_deallocate_then_instantiate_refuted.

(* An index, once assigned, is what const_index returns for ever (until the
   object is deallocated or re-instantiated) and every further attempt fails
   without effect, whatever setters are called in between. *)
Theorem C07_index_assigned_once :
  forall p i ops,
    snd (set_const_index p i) = 0 -> i <> int_unassigned ->
    forallb keeps ops = true ->
    q_const_index (prun (fst (set_const_index p i)) ops) = (i, 0) /\
    forall j, set_const_index (prun (fst (set_const_index p i)) ops) j
              = (prun (fst (set_const_index p i)) ops, 1).
Proof. exact index_once. Qed.
Print Assumptions C07_index_assigned_once.

Example C07_index_example :
  let p := fst (prop_instantiate prop_new ex_args) in
  snd (set_const_index p 3) = 0 /\ 3 <> int_unassigned /\
  forallb keeps [PSetThermo true; PSetIndex 4; PSetMin 2] = true.
Proof. repeat split. intros H; discriminate H. Qed.

(* Every instantiated object of any history has exactly one type and exactly
   one water basis. *)
Theorem C07_classification_exclusive :
  forall ops p, p = prun prop_new ops -> is_instantiated p = true ->
    exactly_one3 (fst (q_is_mass p)) (fst (q_is_volume p)) (fst (q_is_number p)) /\
    exactly_one3 (fst (q_is_dry p)) (fst (q_is_moist p)) (fst (q_is_wet p)).
Proof. exact classified_reachable. Qed.
Print Assumptions C07_classification_exclusive.

Example C07_classification_example :
  is_instantiated (prun prop_new [PInstantiate ex_args; PSetIndex 2; PSetWater false]) = true.
Proof. reflexivity. Qed.

(* each setter changes its own attribute and no other *)
Theorem C07_setters_change_only_their_attribute :
  forall p, is_instantiated p = true ->
  forall o, keeps o = true ->
  q_standard_name (fst (pstep p o)) = q_standard_name p /\
  q_units (fst (pstep p o)) = q_units p /\
  q_is_advected (fst (pstep p o)) = q_is_advected p /\
  q_default_value (fst (pstep p o)) = q_default_value p /\
  q_long_name (fst (pstep p o)) = q_long_name p /\
  q_vertical_dimension (fst (pstep p o)) = q_vertical_dimension p /\
  (q_is_mass (fst (pstep p o)), q_is_volume (fst (pstep p o)), q_is_number (fst (pstep p o)))
    = (q_is_mass p, q_is_volume p, q_is_number p) /\
  (q_is_dry (fst (pstep p o)), q_is_moist (fst (pstep p o)), q_is_wet (fst (pstep p o)))
    = (q_is_dry p, q_is_moist p, q_is_wet p) /\
  q_is_thermo_active (fst (pstep p o)) = (match o with PSetThermo b => (b, 0) | _ => q_is_thermo_active p end) /\
  q_is_water_species (fst (pstep p o)) = (match o with PSetWater b => (b, 0) | _ => q_is_water_species p end) /\
  q_minimum (fst (pstep p o)) = (match o with PSetMin b => (b, 0) | _ => q_minimum p end) /\
  q_molar_mass (fst (pstep p o)) = (match o with PSetMolar b => (b, 0) | _ => q_molar_mass p end).
Proof. exact setters_frame. Qed.
Print Assumptions C07_setters_change_only_their_attribute.

(* assignment copies every observable property *)
Theorem C07_copy_is_complete :
  forall p, observe (copy_constituent p) = observe p.
Proof. exact copy_observe. Qed.
Print Assumptions C07_copy_is_complete.
