(* DimSpec.v: when a needed dimension is met by an offered one. *)
From Verif Require Import PyStr CompatModel DimModel.
Open Scope nat_scope.
Open Scope list_scope.

Definition one_hdim := L "ccpp_constant_one:horizontal_dimension".
Definition one_hext := L "ccpp_constant_one:horizontal_loop_extent".
Definition begin_end := L "horizontal_loop_begin:horizontal_loop_end".

(* needed [n] is met by offered [h]; [m] is used in the call *)
Inductive meets (e : env) (n h m : str) : Prop :=
| Same : n = h -> m = n -> meets e n h m
| Run_extent : e_run e = true -> (n = L "horizontal_loop_extent" \/ n = one_hext) -> is_horizontal h = true -> n <> h ->
    e_avail e (L "horizontal_loop_begin") = true -> e_avail e (L "horizontal_loop_end") = true ->
    m = begin_end -> meets e n h m
| NonRun_extent : e_run e = false -> (n = one_hext \/ n = begin_end) -> h = one_hdim -> m = h -> meets e n h m.

(* the index standing for a vertical dimension *)
Definition vertical_index (h : str) : option str :=
  if str_eqb h (L "vertical_layer_dimension") || str_eqb h (L "ccpp_constant_one:vertical_layer_dimension")
  then Some (L "vertical_layer_index")
  else if str_eqb h (L "vertical_interface_dimension") || str_eqb h (L "ccpp_constant_one:vertical_interface_dimension")
  then Some (L "vertical_interface_index") else None.

Definition has_vertical (l : list str) : Prop := exists d, In d l /\ is_vertical d = true.
Definition first_vertical (l : list str) (v : nat) (h : str) : Prop :=
  nth_error l v = Some h /\ is_vertical h = true /\ forall j d, j < v -> nth_error l j = Some d -> is_vertical d = false.
(* the permutation is reported, or left out when it is the identity *)
Definition reports (o : option (list nat)) (q : list nat) (n : nat) : Prop :=
  (o = Some q /\ q <> seq 0 n) \/ (o = None /\ q = seq 0 n).
Definition one_horizontal (l : list str) : Prop :=
  forall i j a b, nth_error l i = Some a -> nth_error l j = Some b -> is_horizontal a = true -> is_horizontal b = true -> i = j.
