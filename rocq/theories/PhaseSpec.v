(* PhaseSpec.v: which subroutine names belong to which phase. *)
From Verif Require Import Regex.
Open Scope nat_scope.
Open Scope list_scope.

(* a letter followed by letters, digits and underscores *)
Definition fortran_name (s : str) : Prop :=
  exists c t, s = c :: t /\ is_alpha c = true /\ forall d, In d t -> is_word d = true.

(* the suffixes of each phase *)
Definition phase_words : list (str * list str) :=
  [(L "register", [L "register"]);
   (L "initialize", [L "init"; L "initial"; L "initialize"]);
   (L "timestep_initial", [L "timestep_init"; L "timestep_initial"; L "timestep_initialize"]);
   (L "run", [L "run"]);
   (L "timestep_final", [L "timestep_final"; L "timestep_finalize"]);
   (L "finalize", [L "final"; L "finalize"])].

(* scheme [f] with suffix [t] of phase [p] *)
Definition scheme_phase (f t p : str) : Prop :=
  fortran_name f /\ exists ws, In (p, ws) phase_words /\ In (lower t) ws.
(* f_timestep_init belongs to f, not to f_timestep *)
Definition shadowed (f p : str) : Prop :=
  (p = L "initialize" \/ p = L "finalize") /\
  exists g u, fortran_name g /\ f = g ++ L "_" ++ u /\ lower u = L "timestep".
