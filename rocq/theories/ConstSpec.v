(* ConstSpec.v: the documented protocol of ccpp_model_constituents_t: a set of
   constituents is collected, frozen, then given data.  No hash table, no
   indices.  [h] describes the property objects given by the client. *)
From Verif Require Import Base ConstPropModel ConstModel.
Open Scope Z_scope.

Inductive phase :=
| CNone                     (* not initialised *)
| COpen (l : list nat)      (* collecting; registered objects in order *)
| CLocked (l : list nat)    (* table locked *)
| CData (l : list nat).     (* table and data locked *)

(* dead: objects destroyed by a reset; they must not be used again *)
Record cspec := mkSpec { sp_phase : phase; sp_dead : list nat }.

Definition name_of (h : nat -> cprop) (id : nat) : string := ostr (p_std_name (h id)).

(* properties that must agree when a name is registered twice *)
Definition agree (p q : cprop) : bool :=
  Bool.eqb (p_advected p) (p_advected q) && Bool.eqb (p_thermo_active p) (p_thermo_active q) &&
  Bool.eqb (p_water_species p) (p_water_species q) && feqb (ostr (p_units p)) (ostr (p_units q)).

Definition registered_as (h : nat -> cprop) (l : list nat) (k : string) : option nat :=
  find (fun c => feqb (name_of h c) k) l.

Definition held (p : phase) : list nat :=
  match p with CLocked l | CData l => l | _ => [] end.

Definition spec_step (h : nat -> cprop) (s : cspec) (o : mop) : cspec * mout :=
  match o with
  | MInit n => if n <=? 0 then (s, MUndef)
               else (mkSpec (COpen []) (held (sp_phase s) ++ sp_dead s), MOk)
  | MReset => (mkSpec CNone (held (sp_phase s) ++ sp_dead s), MOk)
  | MNew id =>
      match sp_phase s with
      | COpen l =>
          if existsb (Nat.eqb id) (sp_dead s) then (s, MUndef)
          else match registered_as h l (name_of h id) with
               | Some c => (s, if agree (h c) (h id) then MOk else MErr)
               | None => (mkSpec (COpen (l ++ [id])) (sp_dead s), MOk)
               end
      | _ => (s, MErr)
      end
  | MLock =>
      match sp_phase s with
      | COpen (c :: l) => (mkSpec (CLocked (c :: l)) (sp_dead s), MOk)
      | COpen [] | CNone => (s, MUndef)     (* the code runs off the table, see C03 *)
      | _ => (s, MErr)
      end
  | MLockData _ _ =>
      match sp_phase s with
      | CLocked l => (mkSpec (CData l) (sp_dead s), MOk)
      | _ => (s, MErr)
      end
  end.

Fixpoint spec_run (h : nat -> cprop) (s : cspec) (ops : list mop) : cspec * list mout :=
  match ops with
  | [] => (s, [])
  | o :: r => match spec_step h s o with
              | (s', MUndef) => (s', [MUndef])
              | (s', out) => let '(s2, outs) := spec_run h s' r in (s2, out :: outs)
              end
  end.

Definition spec_new : cspec := mkSpec CNone [].

(* The client's objects: instantiated, index not assigned, on layers. *)
Definition fresh_objects (h : nat -> cprop) : Prop :=
  forall id, is_instantiated (h id) = true /\ p_const_ind (h id) = int_unassigned /\
             is_layer_var (h id) = true.

(* No initialize_table after a lock_data (and a reset ends the use of the object). *)
Fixpoint no_init_after_data (seen : bool) (ops : list mop) : bool :=
  match ops with
  | [] => true
  | MInit _ :: r => negb seen && no_init_after_data seen r
  | MLockData _ _ :: r => no_init_after_data true r
  | _ :: r => no_init_after_data seen r
  end.

(* ---- fields selected by an attribute filter (C08), by position ---- *)
(* does a constituent described by [p] satisfy the filter? *)
Definition satisfies (f : filter) (p : cprop) : bool :=
  match f_adv f with Some b => Bool.eqb b (p_advected p) | None => true end &&
  match f_thermo f with Some b => Bool.eqb b (p_thermo_active p) | None => true end &&
  match f_water f with Some b => Bool.eqb b (p_water_species p) | None => true end.

(* the entries of [v] at the positions where [sel] is true *)
Fixpoint pick {A} (sel : list bool) (v : list A) : list A :=
  match sel, v with
  | true :: sel', x :: v' => x :: pick sel' v'
  | false :: sel', _ :: v' => pick sel' v'
  | _, _ => []
  end.

(* [v] with its selected entries replaced, in order, by those of [a] *)
Fixpoint put {A} (sel : list bool) (v a : list A) : list A :=
  match sel, v with
  | true :: sel', x :: v' =>
      match a with y :: a' => y :: put sel' v' a' | [] => v end
  | false :: sel', x :: v' => x :: put sel' v' a
  | _, _ => v
  end.

Definition number_of (sel : list bool) : nat := length (List.filter (fun b => b) sel).
