(* ReqSpec.v: which variables a suite-variables query should return. *)
From Verif Require Import PyStr ReqModel.
Open Scope list_scope.

(* a constituent initialised by the physics in the init phase *)
Definition initialised (before : list cvar) (x : str) : Prop :=
  exists u, In u before /\ v_std u = x /\ v_const u = true /\ v_intent u = Out_ /\ v_init u = true.

(* the suite needs x as input: some group takes it as (unprotected) intent in and
   the physics has not initialised it before; x is passed in and out; x is set *)
Definition wants_in (vars : list cvar) (x : str) : Prop :=
  exists before v after, vars = before ++ v :: after /\ v_std v = x /\ v_intent v = In_ /\
    v_prot v = false /\ ~ initialised before x.
Definition wants_io (vars : list cvar) (x : str) : Prop :=
  exists before v after, vars = before ++ v :: after /\ v_std v = x /\ v_intent v = InOut_ /\
    ~ initialised before x.
Definition wants_out (vars : list cvar) (x : str) : Prop :=
  exists v, In v vars /\ v_std v = x /\ v_intent v = Out_ /\ (v_const v && v_init v = false).

Definition requested (vars : list cvar) (f : flags) (x : str) : Prop :=
  (f_in f = true /\ (wants_in vars x \/ wants_io vars x)) \/
  (f_out f = true /\ (wants_out vars x \/ wants_io vars x)).

(* a structure is replaced by its elements on request *)
Definition expand (el : str -> list str) (f : flags) (x : str) : list str :=
  match el x with [] => [x] | e => if f_elems f then e else [x] end.
Definition answer (el : str -> list str) (vars : list cvar) (f : flags) (y : str) : Prop :=
  exists x, requested vars f x /\ In y (expand el f x).

(* element names belong to one structure only and are not passed themselves *)
Definition well_separated (el : str -> list str) (vars : list cvar) : Prop :=
  (forall x y z, In x (map v_std vars) -> In y (map v_std vars) -> In z (el x) -> In z (el y) -> x = y) /\
  (forall x z, In x (map v_std vars) -> In z (el x) -> ~ In z (map v_std vars)).
Definition no_structs (el : str -> list str) (vars : list cvar) : Prop :=
  forall x, In x (map v_std vars) -> el x = [].
(* no variable is an input of one group and an output of another *)
Definition no_cross (vars : list cvar) : Prop :=
  forall x, wants_in vars x -> wants_out vars x -> wants_io vars x.
