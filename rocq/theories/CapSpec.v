(* CapSpec.v: the documented life cycle of a suite, independent of generated code. *)
From Verif Require Import Base CapModel.
Open Scope Z_scope.

Inductive life := Uninit | Ready | InStep.

Definition requires (p : phase) : life :=
  match p with
  | Register | Initialize => Uninit
  | TimestepInitial | Finalize => Ready
  | Run | TimestepFinal => InStep
  end.
Definition leads_to (p : phase) : life :=
  match p with
  | Register | Finalize => Uninit
  | Initialize | TimestepFinal => Ready
  | TimestepInitial | Run => InStep
  end.
Definition life_eqb (a b : life) : bool :=
  match a, b with Uninit, Uninit | Ready, Ready | InStep, InStep => true | _, _ => false end.
Definition life_name (l : life) : string :=
  match l with Uninit => "uninitialized" | Ready => "initialized" | InStep => "in_time_step" end.

(* phases other than run must not be called by a thread other than 0 (the
   generated test lets thread 1 pass, see C44) *)
Definition thread_refused (k : hcall) : bool :=
  negb (phase_eqb (k_phase k) Run) && (w_thread (k_world k) >? 1).

(* is call k a call of an existing part of suite number i? *)
Definition addressed (sus : list suite) (k : hcall) : option (nat * group * suite) :=
  match find_suite sus (k_suite k) with
  | None => None
  | Some (i, su) => match find_part su (k_phase k) (k_part k) with
                    | None => None
                    | Some g => Some (i, g, su)
                    end
  end.

(* the life cycle of every suite after a call *)
Definition life_step (sus : list suite) (L : nat -> life) (k : hcall) : nat -> life :=
  match addressed sus k with
  | Some (i, _, _) =>
      if life_eqb (L i) (requires (k_phase k)) && negb (thread_refused k)
      then hupd L i (leads_to (k_phase k)) else L
  | None => L
  end.
Definition life_run (sus : list suite) (ks : list hcall) : nat -> life :=
  fold_left (life_step sus) ks (fun _ => Uninit).

(* the calls a group should make, in order, when nothing fails *)
Fixpoint calls_of (dim : string -> nat) (p : part) : list string :=
  match p with
  | PScheme sub has_phase _ => if has_phase then [sub] else []
  | PTimeSplit ps => flat_map (calls_of dim) ps
  | PVLoop d ps => List.concat (List.repeat (flat_map (calls_of dim) ps) (dim d))
  end.

(* call them one after the other until one reports an error *)
Fixpoint until_error (res : list string -> string -> Z) (tr : list string) (l : list string)
  : list string * Z :=
  match l with
  | [] => ([], 0)
  | s :: r => if res tr s =? 0
              then let '(m, e) := until_error res (tr ++ [s]) r in (s :: m, e)
              else ([s], res tr s)
  end.

(* no generated debug size checks *)
Fixpoint unchecked (p : part) : bool :=
  match p with
  | PScheme _ _ cs => match cs with [] => true | _ => false end
  | PTimeSplit ps => forallb unchecked ps
  | PVLoop _ ps => forallb unchecked ps
  end.
Definition unchecked_group (g : group) : bool := forallb unchecked (g_parts g).
Definition unchecked_suite (su : suite) : bool := forallb unchecked_group (s_groups su).

(* a suite's array variables have distinct names *)
Definition distinct_vars (su : suite) : Prop :=
  NoDup (map sv_name (List.filter sv_dims (s_vars su))).

(* which suite variables should be allocated in which life state *)
Definition should_be_allocated (su : suite) (l : life) (x : string) : Prop :=
  exists v, In v (s_vars su) /\ sv_dims v = true /\ sv_name v = x /\
    match sv_persist v with PRunLong => l <> Uninit | PTimestep => l = InStep end.

Definition is_register (k : hcall) : bool := phase_eqb (k_phase k) Register.
(* no suite is registered twice *)
Definition registers_once (sus : list suite) (ks : list hcall) : Prop :=
  NoDup (map (fun k => option_map fst (find_suite sus (k_suite k))) (List.filter is_register ks)).
