(* CapModel.v: the Fortran code that capgen generates for a suite and the meaning
   of that code.
   Part 1 models the generator (scripts/ccpp_suite.py Suite.check_suite_state,
   set_suite_state, write; scripts/suite_objects.py Group.write, Scheme.write,
   VerticalLoop.write, TimeSplit.write; scripts/host_cap.py write_host_cap): it
   yields a list of statements.
   Part 2 interprets these statements.
   Simplifications: only statements that can influence control flow, the suite
   state, allocation status, error code or scheme calls are kept (declarations,
   use statements, comments, transforms, pointer association are dropped);
   schemes are external and only seen through the error code they return;
   Subcycle.write never produces code (property C41) and is not part of a group
   here; error messages are dropped. *)
From Verif Require Import Base.
Open Scope Z_scope.

(* ---------- the state machine table, scripts/ccpp_state_machine.py L16-27 ---------- *)
Inductive phase := Register | Initialize | TimestepInitial | Run | TimestepFinal | Finalize.

Definition phase_eqb (a b : phase) : bool :=
  match a, b with
  | Register, Register | Initialize, Initialize | TimestepInitial, TimestepInitial
  | Run, Run | TimestepFinal, TimestepFinal | Finalize, Finalize => true
  | _, _ => false
  end.

Definition initial_state (p : phase) : string :=
  match p with
  | Register => "uninitialized" | Initialize => "uninitialized"
  | TimestepInitial => "initialized" | Run => "in_time_step"
  | TimestepFinal => "in_time_step" | Finalize => "initialized"
  end.
Definition final_state (p : phase) : string :=
  match p with
  | Register => "uninitialized" | Initialize => "initialized"
  | TimestepInitial => "in_time_step" | Run => "in_time_step"
  | TimestepFinal => "initialized" | Finalize => "uninitialized"
  end.

(* ---------- generated statements ---------- *)
Inductive stmt :=
| SErr0                               (* errcode = 0 *)
| SThreadCheck                        (* if (omp_get_thread_num() > 1) then errcode = 1; return *)
| SStateCheck (prev : string)         (* if (trim(ccpp_suite_state) /= prev) then errcode = 1; return *)
| SAllocate (x : string)
| SDeallocate (x : string)
| SSizeCheck (x : string)             (* if (size(x) /= ...) then errcode = 1; return *)
| SCall (sub : string)
| SIfOk (body : list stmt)            (* if (errcode == 0) then ... end if *)
| SDo (dim : string) (body : list stmt)  (* do i = 1, dim *)
| SSetState (s : string).

(* ---------- what the generator starts from ---------- *)
Inductive part :=
| PScheme (sub : string) (has_phase : bool) (checks : list string)
| PTimeSplit (parts : list part)
| PVLoop (dim : string) (parts : list part).

(* persistence property of a suite variable, metavar.py L201 *)
Inductive persist := PTimestep | PRunLong.
Record svar := mkSV { sv_name : string; sv_dims : bool; sv_persist : persist }.

Record group := mkGroup { g_name : string; g_phase : phase; g_locals : list string; g_parts : list part }.

(* ccpp_suite.py L130-149 check_suite_state *)
Definition check_suite_state (p : phase) : list stmt := [SStateCheck (initial_state p)].
(* ccpp_suite.py L152-163 set_suite_state *)
Definition set_suite_state (p : phase) : list stmt :=
  if String.eqb (initial_state p) (final_state p) then [] else [SSetState (final_state p)].

(* suite_objects.py L1742-1840 Scheme.write (checks: L1428-1588, array case),
   L1959-1968 VerticalLoop.write, L2074-2080 TimeSplit.write *)
Fixpoint part_write (p : part) : list stmt :=
  match p with
  | PScheme sub has_phase checks =>
      [SIfOk (map SSizeCheck checks ++ (if has_phase then [SCall sub] else []))]
  | PTimeSplit ps => flat_map part_write ps
  | PVLoop dim ps => [SDo dim (flat_map part_write ps)]
  end.

(* suite_objects.py L375-379 timestep_phase, L2367-2371 group_type *)
Definition group_type (p : phase) : persist :=
  match p with TimestepInitial | TimestepFinal => PTimestep | _ => PRunLong end.
Definition persist_eqb (a b : persist) : bool :=
  match a, b with PTimestep, PTimestep | PRunLong, PRunLong => true | _, _ => false end.

(* the suite variables that a (de)allocating group handles, L2600-2609, L2637-2645 *)
Definition group_vars (p : phase) (svars : list svar) : list string :=
  map sv_name (List.filter (fun v => sv_dims v && persist_eqb (group_type p) (sv_persist v)) svars).

(* suite_objects.py L2360-2649 Group.write.  Local arrays: 'deallocate' is guarded
   by allocated() and Fortran frees them on return, so only the SAllocate of names
   that are never allocated before would matter; they are dropped. *)
Definition group_write (g : group) (svars : list svar) (alloc dealloc : bool) : list stmt :=
  [SErr0]
  ++ (if phase_eqb (g_phase g) Run then [] else [SThreadCheck])
  ++ check_suite_state (g_phase g)
  ++ (if alloc then map SAllocate (group_vars (g_phase g) svars) else [])
  ++ flat_map part_write (g_parts g)
  ++ (if dealloc then map SDeallocate (group_vars (g_phase g) svars) else [])
  ++ set_suite_state (g_phase g).

(* ccpp_suite.py L223-227 _beg_groups/_end_groups and L566-584 of Suite.write *)
Definition suite_group_code (g : group) (svars : list svar) : list stmt :=
  match g_phase g with
  | Register => group_write g svars false false
  | Initialize | TimestepInitial => group_write g svars true false
  | TimestepFinal | Finalize => group_write g svars false true
  | Run => group_write g svars false false
  end.

(* ---------- meaning of the generated code ---------- *)
(* What the world decides: error code of a scheme call after a given call
   history, outcome of a size check, loop extents, OpenMP thread number. *)
Record world := mkW {
  w_result : list string -> string -> Z;
  w_size_ok : list string -> string -> bool;
  w_dim : string -> nat;
  w_thread : Z }.

(* module data of a suite cap plus the caller's errcode and the calls made so far *)
Record cap := mkCap {
  c_state : string; c_alloc : string -> bool; c_err : Z; c_trace : list string }.

(* normal end of a statement, return from the subroutine, run-time abort
   (allocate of an allocated array, deallocate of an unallocated one) *)
Inductive flow := FNext | FReturn | FAbort.

Definition set_err (c : cap) (e : Z) : cap := mkCap (c_state c) (c_alloc c) e (c_trace c).
Definition set_alloc (c : cap) (x : string) (b : bool) : cap :=
  mkCap (c_state c) (fun y => if String.eqb x y then b else c_alloc c y) (c_err c) (c_trace c).

(* a scheme call: intent(out) errcode *)
Definition do_call (w : world) (sub : string) (c : cap) : cap :=
  mkCap (c_state c) (c_alloc c) (w_result w (c_trace c) sub) (c_trace c ++ [sub]).

Section Exec.
Variable w : world.
Definition seq (f : cap -> cap * flow) (g : cap -> cap * flow) : cap -> cap * flow :=
  fun c => match f c with (c', FNext) => g c' | r => r end.
Fixpoint times (n : nat) (f : cap -> cap * flow) : cap -> cap * flow :=
  match n with O => fun c => (c, FNext) | S k => seq f (times k f) end.

Fixpoint exec (s : stmt) : cap -> cap * flow :=
  let execs := fix execs (l : list stmt) : cap -> cap * flow :=
    match l with [] => fun c => (c, FNext) | x :: r => seq (exec x) (execs r) end in
  match s with
  | SErr0 => fun c => (set_err c 0, FNext)
  | SThreadCheck => fun c => if w_thread w >? 1 then (set_err c 1, FReturn) else (c, FNext)
  | SStateCheck prev => fun c =>
      if negb (feqb (c_state c) prev) then (set_err c 1, FReturn) else (c, FNext)
  | SAllocate x => fun c => if c_alloc c x then (c, FAbort) else (set_alloc c x true, FNext)
  | SDeallocate x => fun c => if c_alloc c x then (set_alloc c x false, FNext) else (c, FAbort)
  | SSizeCheck x => fun c =>
      if w_size_ok w (c_trace c) x then (c, FNext) else (set_err c 1, FReturn)
  | SCall sub => fun c => (do_call w sub c, FNext)
  | SIfOk body => fun c => if c_err c =? 0 then execs body c else (c, FNext)
  | SDo dim body => times (w_dim w dim) (execs body)
  | SSetState s => fun c => (mkCap s (c_alloc c) (c_err c) (c_trace c), FNext)
  end.
Fixpoint execs (l : list stmt) : cap -> cap * flow :=
  match l with [] => fun c => (c, FNext) | x :: r => seq (exec x) (execs r) end.
End Exec.

(* ---------- host cap: dispatch on suite and part name ---------- *)
Record suite := mkSuite { s_name : string; s_vars : list svar; s_groups : list group }.

(* host_cap.py L65-79 suite_part_list: run groups, or the one group of the phase *)
Definition find_part (su : suite) (p : phase) (part_name : string) : option group :=
  find (fun g => phase_eqb (g_phase g) p &&
                 (if phase_eqb p Run then feqb part_name (g_name g) else true)) (s_groups su).

Definition find_suite (sus : list suite) (n : string) : option (nat * suite) :=
  (fix go (i : nat) (l : list suite) :=
     match l with
     | [] => None
     | su :: r => if feqb n (s_name su) then Some (i, su) else go (S i) r
     end) 0%nat sus.

(* Host state: one cap per suite, and whether the suite's dynamic constituent
   array is allocated. *)
Record host := mkHost { h_caps : nat -> cap; h_dyn : nat -> bool }.

(* A host call: stage, suite_name, suite_part (run only) *)
Record hcall := mkCall { k_phase : phase; k_suite : string; k_part : string; k_world : world }.

Definition hupd {A} (f : nat -> A) (i : nat) (x : A) : nat -> A :=
  fun j => if Nat.eqb i j then x else f j.

(* host_cap.py L690-789: (new host state, error code, aborted?) *)
Definition host_step (sus : list suite) (h : host) (k : hcall) : host * Z * bool :=
  match find_suite sus (k_suite k) with
  | None => (h, 1, false)
  | Some (i, su) =>
      match find_part su (k_phase k) (k_part k) with
      | None => (h, 1, false)
      | Some g =>
          let '(c, fl) := execs (k_world k) (suite_group_code g (s_vars su)) (h_caps h i) in
          let h1 := mkHost (hupd (h_caps h) i c) (h_dyn h) in
          match fl with
          | FAbort => (h1, c_err c, true)
          | _ =>
              match k_phase k with
              | Register =>
                  if c_err c =? 0 then
                    (* allocate(dyn_const_array(...)), L761 *)
                    if h_dyn h i then (h1, 0, true)
                    else (mkHost (h_caps h1) (hupd (h_dyn h) i true), 0, false)
                  else (h1, c_err c, false)
              | _ => (h1, c_err c, false)
              end
          end
      end
  end.

(* ccpp_suite.py L552-553: initial value of ccpp_suite_state; nothing allocated *)
Definition cap_new : cap := mkCap "uninitialized" (fun _ => false) 0 [].
Definition host_new : host := mkHost (fun _ => cap_new) (fun _ => false).

Fixpoint host_run (sus : list suite) (h : host) (ks : list hcall) : host * list Z * bool :=
  match ks with
  | [] => (h, [], false)
  | k :: r => match host_step sus h k with
              | (h', e, true) => (h', [e], true)
              | (h', e, false) => let '(h2, es, a) := host_run sus h' r in (h2, e :: es, a)
              end
  end.
