(* What the properties about transformed and optional arguments say, without
   reference to how the generator writes the code. *)
From Coq Require Import List Ascii String ZArith QArith Bool.
From Verif Require Import PyStr UnitModel VtModel.
Import ListNotations.
Open Scope nat_scope. Open Scope list_scope.

(* the vertical range of an argument in the scheme, as values: [lo] the start, [hi]
   the value of the group's name for the end; no range: every index *)
Definition in_range (r : option (Z * Z)) (i : Z) : Prop :=
  match r with None => True | Some (lo, hi) => (lo <= i <= hi)%Z end.
(* the index of the host's array that holds level i of the scheme's array *)
Definition same_level (r : option (Z * Z)) (opposite : bool) (i : Z) : Z :=
  match r with Some (lo, hi) => if opposite then (lo + hi - i)%Z else i | None => i end.

(* an argument is transformed when units, kind or orientation differ from the host's *)
Definition transformed (a : arg) : Prop :=
  exists h, a_host a = Some h /\ (h_unit h <> None \/ h_kind h = true \/ h_flip h = true).
Definition active (truth : str -> bool) (a : arg) : Prop :=
  exists h, a_host a = Some h /\ truth (h_cond h) = true.

(* a vertical range, in numbers *)
Definition range_of (iv : str -> Z) (hi_name : arg -> str) (a : arg) : option (Z * Z) :=
  match a_vert a with None => None | Some (lo, _) => Some (iv lo, iv (hi_name a)) end.
Definition opposite (a : arg) : bool := match a_host a with Some h => h_flip h | None => false end.
(* conversion of a value from host to scheme and from scheme to host *)
Definition to_scheme (a : arg) (x : option Q) : option Q :=
  match a_host a with
  | Some h => match h_unit h, x with Some (_, r), Some v => apply_template r v | _, _ => x end
  | None => x
  end.
Definition to_host (a : arg) (x : option Q) : option Q :=
  match a_host a with
  | Some h => match h_unit h, x with Some (f, _), Some v => apply_template f v | _, _ => x end
  | None => x
  end.

(* A call of a scheme in a group: [gn] is the group's name of the variable behind an
   argument, [hi_name] its name for the end of the vertical range.  Names do not
   clash, every variable of the call tree is in the group's call list, the others
   are the group's own, an untransformed optional argument has its scheme name in
   the group; arrays are allocated unless the argument is optional and inactive,
   the copies are allocated and the pointers are null. *)
Record ready (truth : str -> bool) (g : VtModel.group) (gn hi_name : arg -> str) (as_ : list arg) (m : store) : Prop := {
  r_std : NoDup (map a_std as_);
  r_lname : NoDup (map a_lname as_);
  r_gn : NoDup (map gn as_);
  r_keys : NoDup (map fst (own g) ++ map fst (calls g));
  r_in : forall a, In a as_ ->
    match a_host a with
    | Some _ => In (a_std a, mkGE (gn a) (a_opt a)) (calls g)
    | None => In (a_std a, mkGE (gn a) (a_opt a)) (own g)
    end;
  r_end : forall a lo e, In a as_ -> a_vert a = Some (lo, e) -> exists o, In (e, mkGE (hi_name a) o) (calls g);
  r_local : forall a b, In a as_ -> In b as_ -> transformed b -> gn a <> a_lname b ++ L "_local";
  r_ptr : forall a b, In a as_ -> In b as_ -> a_opt b = true -> gn a <> a_lname b ++ L "_ptr";
  r_name : forall a, In a as_ -> a_opt a = true -> ~ transformed a -> gn a = a_lname a;
  r_present : forall a, In a as_ -> a_opt a = false \/ active truth a -> exists c, m (gn a) = Arr c;
  r_copy : forall a, In a as_ -> transformed a -> exists c, m (a_lname a ++ L "_local") = Arr c;
  r_null : forall a, In a as_ -> a_opt a = true -> m (a_lname a ++ L "_ptr") = PNull;
  r_inactive : forall a, In a as_ -> transformed a -> a_opt a = true -> active truth a
}.

(* the content of a variable of the group *)
Definition content (m : store) (n : str) (c : arr) : Prop := m n = Arr c.
