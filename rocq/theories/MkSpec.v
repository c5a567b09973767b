(* MkSpec.v: vocabulary for C87 and C88. *)
From Verif Require Import PyStr ReqModel MkModel.
From Coq Require Import Lia.
Open Scope nat_scope.
Open Scope list_scope.

(* the three files hold the given texts and no temporary file is left *)
Definition current (f : fs) (m c s : str) : Prop :=
  f (Mk, false) = Some m /\ f (Cm, false) = Some c /\ f (Src, false) = Some s /\ forall t, f (t, true) = None.
Definition one_line (x : str) : Prop := ~ In nl x.
(* file names the makefile of schemes knows *)
Definition known_suffix (x : str) : Prop := exists b, x = b ++ L ".F" \/ x = b ++ L ".F90" \/ x = b ++ L ".f" \/ x = b ++ L ".f90".
(* a cap file: up to date before the run; written by run number n; content *)
Definition up_to_date (p : str * cfile) : Prop := exists t, cf_file (snd p) = Some (fst p, t).
Definition written_at (n : nat) (f : cfile) : Prop := exists c, cf_file f = Some (c, n).
Definition holds (c : str) (f : cfile) : Prop := exists t, cf_file f = Some (c, t).
