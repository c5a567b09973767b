(* DictSpec.v: specification vocabulary for variable dictionaries. *)
From Verif Require Import PyStr ReqModel DictModel.
Open Scope list_scope.

Definition same_but_intent (w w' : var) : Prop :=
  x_std w' = x_std w /\ x_local w' = x_local w /\ x_prot w' = x_prot w.
Definition only_adds (ops : list op) : Prop := forall o, In o ops -> match o with Add _ _ _ _ => True | Remove _ => False end.
Definition no_renames (ops : list op) : Prop :=
  forall o, In o ops -> match o with Add _ _ g _ => g = false | Remove _ => False end.
(* local names (compared without case, as Fortran does) held by a dictionary *)
Definition local_names (d : dict) : list str := map (fun kv => lower (x_local (snd kv))) (d_vars d).

(* merging a list of uses, one after the other *)
Fixpoint merge_all (v : var) (l : list var) : res var :=
  match l with [] => Ok v | w :: r => v' <- adjust_intent v w ;; merge_all v' r end.
Definition reads (i : intent) : bool := match i with Out_ => false | _ => true end.
Definition writes (i : intent) : bool := match i with In_ => false | _ => true end.
