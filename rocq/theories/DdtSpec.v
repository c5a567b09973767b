(* DdtSpec.v: components of derived types. *)
From Verif Require Import PyStr DdtModel.
Open Scope nat_scope.
Open Scope list_scope.

Definition defines_type (lib : library) (t : str) (fs : list field) : Prop :=
  exists a b, lib = a ++ (t, fs) :: b /\ forall x, In x a -> fst x <> t.
(* f is itself a structure with the components fs *)
Definition expands (lib : library) (f : field) (fs : list field) : Prop := f_ddt f = true /\ defines_type lib (f_type f) fs.
(* the components reachable from a list of components, as paths *)
Inductive component (lib : library) : list field -> list field -> Prop :=
| comp_here fs f : In f fs -> component lib fs [f]
| comp_deep fs f gs p : In f fs -> expands lib f gs -> component lib gs p -> component lib fs (f :: p).
(* the same in the order in which they are met, the parts of a component before itself;
   exists only if no type contains itself *)
Inductive listing (lib : library) : list field -> list field -> Prop :=
| list_nil : listing lib [] []
| list_leaf f fs l : (forall gs, ~ expands lib f gs) -> listing lib fs l -> listing lib (f :: fs) (f :: l)
| list_ddt f gs fs m l : expands lib f gs -> listing lib gs m -> listing lib fs l -> listing lib (f :: fs) (m ++ f :: l).
(* the Fortran reference to a component *)
Definition full_path (v : field) (p : list field) : str := join (L "%") (map f_local (v :: p)).
