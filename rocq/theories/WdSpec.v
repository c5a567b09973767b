(* WdSpec.v: which declaration a variable of the metadata should have, and when a
   declaration is allowed by Fortran.  The text of declarations is specified in DeclSpec. *)
From Verif Require Import PyStr PhaseSpec CheckSpec DeclSpec CsModel WdModel.
Open Scope nat_scope.
Open Scope list_scope.

(* ---- the metadata side ---- *)
(* the Fortran type of a variable, as type name, kind and derived or not *)
Inductive readable_type (w : wvar) : str -> option str -> Prop :=
| RT_plain : w_ddt w = false -> intrinsic_name (w_type w) -> w_kind w = [] -> readable_type w (w_type w) None
| RT_kind : w_ddt w = false -> intrinsic_name (w_type w) -> kind_value (w_kind w) -> readable_type w (w_type w) (Some (w_kind w))
| RT_len le l : w_ddt w = false -> spells (w_type w) (L "character") -> spells le (L "len") -> length_value l ->
    w_kind w = le ++ L "=" ++ l -> readable_type w (w_type w) (Some (L "len=" ++ l))
| RT_ddt : w_ddt w = true -> identifier (w_kind w) -> readable_type w (w_kind w) (Some (w_kind w)).
(* the object to declare: the local name, or the array of which it names a section *)
Definition object_name (v : var) (n : str) : Prop :=
  (fortran_name (v_local v) /\ n = v_local v) \/ exists subs, array_ref (v_local v) n subs.
Definition intent_ok (i : str) : Prop := In (lower i) (map L ["in"; "out"; "inout"]%string).
(* the intent an argument is declared with: a protected variable may only be read *)
Definition declared_intent (w : wvar) (add : option str) (i : str) : Prop :=
  if w_protected w then i = L "in" else
  match w_intent w with Some x => i = x | None => add = Some i end.
Definition output (i : str) : Prop := lower i = L "out" \/ lower i = L "inout".
(* a shape of this rank without bounds *)
Definition open_shape (n : nat) : option str :=
  match n with 0 => None | S k => Some (join (L ",") (List.repeat (L ":") (S k))) end.

(* ---- the Fortran side ---- *)
Definition has (n : string) (al : list attr) : Prop := is_set n al.
Definition has_intent (i : str) (al : list attr) : Prop := last_arg "intent" al = Some i.
Definition no_intent (al : list attr) : Prop := forall a, In a al -> named "intent" a = false.
(* no attribute is repeated *)
Definition once (al : list attr) : Prop := NoDup (map (fun a => lower (a_name a)) al).
Definition unshaped (d : option str) : Prop := exists n, d = open_shape (S n).
Definition polymorphic_type (h : str) : Prop := exists t r, h = t ++ r /\ spells t (L "class").
(* constraints of the standard on a declaration of a dummy argument or of a local variable *)
Record legal (dummy : bool) (h : str) (al : list attr) (e : ent) : Prop := {
  lg_once : once al;
  lg_dummy : has "optional" al \/ ~ no_intent al -> dummy = true;
  lg_intent : forall i, has_intent i al -> intent_ok i;
  lg_shape : unshaped (e_dims e) -> dummy = true \/ has "allocatable" al \/ has "pointer" al;
  lg_alloc : has "allocatable" al -> e_dims e = None \/ unshaped (e_dims e);
  lg_class : polymorphic_type h -> dummy = true \/ has "allocatable" al \/ has "pointer" al;
  lg_pointer : ~ (has "pointer" al /\ (has "allocatable" al \/ has "target" al \/ ~ no_intent al)) }.
