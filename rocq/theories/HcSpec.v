(* Specification of the host cap properties (C126-C129). *)
From Coq Require Import List Ascii String Bool Arith ZArith.
Import ListNotations.
From Verif Require Import PyStr HcModel.
Open Scope string_scope.
Open Scope list_scope.
Open Scope nat_scope.

(* Two character values are the same to a Fortran comparison: equal up to trailing
   blanks. *)
Definition same (a b : str) : Prop :=
  exists x i j, a = x ++ List.repeat " "%char i /\ b = x ++ List.repeat " "%char j.

(* The names capgen gives to the phases of a suite: not available to groups. *)
Definition phase_names : list str :=
  [L "register"; L "initialize"; L "timestep_initial"; L "timestep_final"; L "finalize"].

(* x is the first element of l with property P. *)
Definition first {T} (P : T -> Prop) (l : list T) (x : T) : Prop :=
  exists b a, l = b ++ x :: a /\ P x /\ forall y, In y b -> ~ P y.

(* The suite a caller who passes sn gets. *)
Definition chosen_suite (ss : list suite) (sn : str) (s : suite) : Prop :=
  first (fun s => same sn (s_name s)) ss s.

(* The group of the suite file a caller who passes pn gets. *)
Definition chosen_group (s : suite) (pn : str) (g : str * (list dummy * list str)) : Prop :=
  first (fun g => ~ In (fst g) phase_names /\ same pn (fst g)) (s_groups s) g.

(* Every suite has a group with a name of its own. *)
Definition has_part (s : suite) : Prop := exists g, In g (s_groups s) /\ ~ In (fst g) phase_names.

(* A call of the cap: a fresh activation of the subroutine. *)
Definition start {A} (e : Z) (n : nat) (m : str -> option (list (option A))) : @state A :=
  mkSt e [] false (fun _ => None) m n None.

(* The values of the two character arguments. *)
Definition args2 (sn pn : str) (v : cvar) : str :=
  match v with SuiteName => sn | SuitePart => pn end.

(* Dummy argument d is passed as k = v: the variable of the host model of that
   standard name or else the constituent variable; a runtime constituent array is
   passed the local variable of the same name. *)
Definition passes (h : hostdicts) (d : dummy) (kv : str * str) : Prop :=
  fst kv = d_lname d /\
  (d_type d = L "ccpp_constituent_properties_t" -> snd kv = d_lname d) /\
  (d_type d <> L "ccpp_constituent_properties_t" ->
     h_host h (d_std d) = Some (snd kv) \/
     (h_host h (d_std d) = None /\ h_cons h (d_std d) = Some (snd kv))).

(* The dummy arguments of a subroutine that are not constants. *)
Definition real_dummies (l : list dummy) : list dummy := List.filter (fun d => negb (d_const d)) l.

(* The parts of a suite in a stage: full name and dummy arguments. *)
Definition part_of (s : suite) (t : stage) (name : str) (ds : list dummy) : Prop :=
  match t with
  | Run => exists g, In g (s_groups s) /\ ~ In (fst g) phase_names /\
                     name = s_name s ++ L "_" ++ fst g /\ ds = fst (snd g)
  | _ => name = s_name s ++ L "_" ++ stage_name t /\ ds = fst (s_phase s t)
  end.

(* The runtime constituent arrays a suite registers. *)
Definition runtime (s : suite) : list dummy :=
  List.filter (fun d => str_eqb (d_type d) (L "ccpp_constituent_properties_t")) (fst (s_phase s Reg)).

(* character(len=k) assignment: y is x cut off or padded with blanks to length k. *)
Definition fits (k : nat) (x y : str) : Prop :=
  length y = k /\ ((exists z, x = y ++ z) \/ (exists n, y = x ++ List.repeat " "%char n)).

(* Loop variables and constants are integers, not constituent property arrays. *)
Definition typed (d : dummy) : Prop :=
  d_type d = L "ccpp_constituent_properties_t" -> d_loop d = false /\ d_const d = false.

(* The names of the parts of a suite: the groups of the suite file, in order, except
   those named like a phase. *)
Definition part_names (s : suite) : list str :=
  List.filter (fun n => negb (existsb (str_eqb n) phase_names)) (map fst (s_groups s)).

(* Every element of the list was assigned: x as a character(len=k) value. *)
Definition filled (k : nat) (l : list str) (out : list (option str)) : Prop :=
  Forall2 (fun x o => exists y, o = Some y /\ fits k x y) l out.
