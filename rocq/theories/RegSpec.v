(* RegSpec.v: what the user of the constituent interface of a host cap relies on. *)
From Verif Require Import Base PyStr ConstPropModel ConstSpec RegModel.
Open Scope nat_scope.
Open Scope list_scope.

(* ---- texts ---- *)
Definition has (w s : str) : Prop := exists a b, s = a ++ w ++ b.
(* a tendency is named after its constituent; other names do not speak of tendencies *)
Definition tendency (x n : str) : Prop := n = L "tendency_of_" ++ x /\ ~ has (L "tendency_of") x.
Definition state (n : str) : Prop := ~ has (L "tendency_of") n.
Definition regular (n : str) : Prop := state n \/ exists x, tendency x n.
(* the upper bound of a dimension: the name after the last colon *)
Definition upper_bound (n d : str) : Prop := ~ In ":"%char n /\ (d = n \/ exists lo, d = lo ++ L ":" ++ n).
Definition on_layers (v : cvar) : Prop :=
  exists h l n, cv_dims v = [h; l] /\ upper_bound n h /\ upper_bound (L "vertical_layer_dimension") l /\
    In n [L "horizontal_dimension"; L "horizontal_loop_extent"; L "horizontal_loop_end"].
(* the variable whose description is used: the first of its name *)
Definition chosen (suites : list (list cvar)) (v : cvar) : Prop :=
  exists a b, List.concat suites = a ++ v :: b /\ ~ In (cv_name v) (map cv_name a).

(* ---- objects ---- *)
Definition named (p : cprop) (n : string) : Prop := rtrim (ostr (p_std_name p)) = rtrim n.
Definition same_object_name (p q : cprop) : Prop := rtrim (ostr (p_std_name p)) = rtrim (ostr (p_std_name q)).
Definition offered (p : cprop) : Prop := is_instantiated p = true /\ p_const_ind p = int_unassigned /\ is_layer_var p = true.
(* objects of one name have the same properties, as far as they are compared (C06) *)
Definition consistent (l : list cprop) : Prop := forall p q, In p l -> In q l -> same_object_name p q -> agree p q = true.
(* the object made from the metadata of a constituent of a suite *)
Definition made_from (v : cvar) (p : cprop) : Prop :=
  q_standard_name p = (rtrim (sos (cv_name v)), 0%Z) /\ q_long_name p = (rtrim (sos (cv_long v)), 0%Z) /\
  q_units p = (rtrim (sos (cv_units v)), 0%Z) /\ q_is_advected p = (cv_adv v, 0%Z) /\
  (forall x, cv_default v = Some x -> q_default_value p = (x, 0%Z)) /\
  p_const_ind p = int_unassigned /\ p_thermo_active p = false /\ p_water_species p = false.
(* the constituents of a suite: no tendencies *)
Inductive suite_objects : list cvar -> list cprop -> Prop :=
| so_nil : suite_objects [] []
| so_tend v d ps x : cv_name v = L "tendency_of_" ++ x -> suite_objects d ps -> suite_objects (v :: d) ps
| so_member v d p ps : (forall x, cv_name v <> L "tendency_of_" ++ x) -> made_from v p -> suite_objects d ps -> suite_objects (v :: d) (p :: ps).

(* ---- the life of a cap: registrations, with any objects, initialisations of the data, and
   cleanups; [data] says whether the data was initialised ---- *)
Inductive history (ds : list (list cvar)) (names : list str) : bool -> cap_st -> Prop :=
| hi_new : history ds names false (cap_new (length ds) names)
| hi_register b k host dyn : history ds names b k -> history ds names b (fst (register ds names host dyn k))
| hi_data b k ncols nlev : history ds names b k -> history ds names true (fst (init_data ncols nlev k))
| hi_cleanup b k : history ds names b k -> history ds names b (cleanup k).

(* what a successful registration leaves: the constituents, in the order of the table *)
Definition registered (all : list cprop) (names : list str) (k : cap_st) (fields : list cprop) : Prop :=
  (forall q, In q fields -> exists a b, all = a ++ q :: b /\ forall p, In p a -> ~ same_object_name p q) /\
  (forall p, In p all -> exists q, In q fields /\ same_object_name p q /\ agree p q = true) /\
  NoDup (map (fun q => rtrim (ostr (p_std_name q))) fields) /\
  (forall i j p q, nth_error fields i = Some p -> nth_error fields j = Some q -> p_advected p = true -> p_advected q = false -> i < j) /\
  (forall i q n, nth_error fields i = Some q -> named q n -> ConstModel.mc_const_index (k_obj k) n = (Z.of_nat i + 1)%Z) /\
  (forall n, (forall q, In q fields -> ~ named q n) -> ConstModel.mc_const_index (k_obj k) n = int_unassigned) /\
  length (k_indices k) = length names /\
  (forall j n, nth_error names j = Some n ->
     exists i q, nth_error fields i = Some q /\ named q (sos n) /\ nth_error (k_indices k) j = Some (Z.of_nat i + 1)%Z).

(* the states of the data of a suite cap: at the start, and after the number of constituents
   was asked for *)
Inductive suite_state (d : list cvar) : bool -> suite_st -> Prop :=
| sst_new : suite_state d false ss_new
| sst_counted b s : suite_state d b s -> suite_state d true (fst (fst (num_consts d s))).
(* the same cap later *)
Inductive later (ds : list (list cvar)) (names : list str) (k0 : cap_st) : cap_st -> Prop :=
| la_same : later ds names k0 k0
| la_register k host dyn : later ds names k0 k -> later ds names k0 (fst (register ds names host dyn k))
| la_data k ncols nlev : later ds names k0 k -> later ds names k0 (fst (init_data ncols nlev k))
| la_cleanup k : later ds names k0 k -> later ds names k0 (cleanup k).
