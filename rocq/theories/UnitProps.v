(* UnitProps.v: theorems for C16. *)
From Verif Require Import UnitModel UnitSpec UnitProofs.
Open Scope list_scope.

(* A conversion preserves the physical quantity and is strictly increasing. *)
Theorem C16_conversion_preserves_quantity :
  forall u1 u2 f r, get_unit_convstrs u1 u2 = Ok (f, r) ->
  exists n1 d1 n2 d2, In (n1, d1) si /\ In (n2, d2) si /\
    units_to_string u1 = units_to_string (L n1) /\ units_to_string u2 = units_to_string (L n2) /\
    u_dim d1 = u_dim d2 /\
    (forall x, exists y, apply_template f x = Some y /\ (quantity d2 y == quantity d1 x)%Q) /\
    (forall x x' y y', (x < x')%Q -> apply_template f x = Some y -> apply_template f x' = Some y' -> (y < y')%Q).
Proof.
  intros u1 u2 f r H.
  destruct (convert_quantity _ _ _ _ H) as (n1 & d1 & n2 & d2 & p & q & I1 & I2 & E1 & E2 & D & A & P & S & Qt).
  exists n1, d1, n2, d2. do 5 (split; [assumption|]). split.
  - intros x. unfold apply_template. rewrite A. eexists. split; [reflexivity|apply Qt].
  - intros x x' y y' Hx. unfold apply_template. rewrite A. intros K K'. injection K as <-. injection K' as <-.
    apply Qplus_lt_l. now apply Qmult_lt_l.
Qed.
Print Assumptions C16_conversion_preserves_quantity.

(* The two conversions of a pair are inverse to each other. *)
Theorem C16_round_trip :
  forall u1 u2 f r, get_unit_convstrs u1 u2 = Ok (f, r) ->
    (forall x, exists y z, apply_template f x = Some y /\ apply_template r y = Some z /\ (z == x)%Q) /\
    (forall x, exists y z, apply_template r x = Some y /\ apply_template f y = Some z /\ (z == x)%Q) /\
    get_unit_convstrs u2 u1 = Ok (r, f).
Proof.
  intros u1 u2 f r H. split; [now apply convert_roundtrip with (u1 := u1) (u2 := u2)|].
  pose proof (convert_symmetric _ _ _ _ H) as H'. split; [|exact H'].
  now apply convert_roundtrip with (u1 := u2) (u2 := u1).
Qed.
Print Assumptions C16_round_trip.

(* Converting in two steps gives the same as converting at once. *)
Theorem C16_two_steps :
  forall u1 u2 u3 f12 r12 f23 r23 f13 r13,
  get_unit_convstrs u1 u2 = Ok (f12, r12) -> get_unit_convstrs u2 u3 = Ok (f23, r23) ->
  get_unit_convstrs u1 u3 = Ok (f13, r13) ->
  forall x, exists y z z', apply_template f12 x = Some y /\ apply_template f23 y = Some z /\
    apply_template f13 x = Some z' /\ (z == z')%Q.
Proof. exact convert_triangle. Qed.
Print Assumptions C16_two_steps.

Example C16_example :
  get_unit_convstrs (L "km h-1") (L "m s-1") = Ok (L "{var}/3.6E+0{kind}", L "3.6E+0{kind}*{var}") /\
  (exists a b, get_unit_convstrs (L "mm") (L "m") = Ok a /\ get_unit_convstrs (L "m") (L "km") = Ok b) /\
  (exists c, get_unit_convstrs (L "mm") (L "km") = Ok c) /\
  (exists v, apply_template (L "{var}-273.15{kind}") 300 = Some v /\ (v == 2685 # 100)%Q) /\
  get_unit_convstrs (L "C") (L "m") = Raise "ParseSyntaxError".
Proof. repeat split; try (eexists; try eexists; vm_compute; repeat split; reflexivity). Qed.
