(* NmSpec.v: what ccpp_prebuild is told about the variables of a table. *)
From Coq Require Import List Ascii String ZArith Bool.
From Verif Require Import PyStr ArModel NmModel.
Import ListNotations.
Open Scope nat_scope. Open Scope list_scope.

(* the words of a text *)
Inductive words_in : str -> list str -> Prop :=
| W_end s : (forall c, In c s -> is_space c = true) -> words_in s []
| W_word b w s ws : (forall c, In c b -> is_space c = true) -> w <> [] -> (forall c, In c w -> is_space c = false) ->
    (s = [] \/ exists c t, s = c :: t /\ is_space c = true) -> words_in s ws -> words_in (b ++ w ++ s) (w :: ws).
(* T, F or the condition with single blanks *)
Inductive activity : str -> str -> Prop :=
| A_true a : lower a = L ".true." -> activity a (L "T")
| A_false a : lower a = L ".false." -> activity a (L "F")
| A_cond a ws : lower a <> L ".true." -> lower a <> L ".false." -> words_in a ws -> activity a (join (L " ") ws).
(* the variable [v] of ccpp_prebuild describes the variable [r] of the metadata *)
Record describes (container : str) (r : raw) (v : prevar) : Prop := {
  d_std : pv_std (pre_var v) = r_std r;
  d_long : pre_long v = r_long r;
  d_units : pre_units v = r_units r;
  d_local : pv_local (pre_var v) = r_local r;
  d_type : pv_type (pre_var v) = lower (r_type r);
  d_kind : (r_ddt r = true -> pv_kind (pre_var v) = []) /\ (r_ddt r = false -> pv_kind (pre_var v) = r_kind r);
  d_dims : pv_dims (pre_var v) = r_dims r;
  d_intent : pv_intent (pre_var v) = r_intent r;
  d_active : exists a, r_active r = Some a /\ a <> [] /\ activity a (pv_active (pre_var v));
  d_optional : (pv_optional (pre_var v) = L "T" /\ r_optional r = Some true) \/ (pv_optional (pre_var v) = L "F" /\ r_optional r = Some false);
  d_container : pv_container (pre_var v) = container }.
(* where the variables of a table are: a module, a type of it, a subroutine of a scheme *)
Inductive located (module table : str) : option str -> str -> Prop :=
| L_module : table = module -> located module table None (L "MODULE_" ++ module)
| L_type : table <> module -> located module table None (L "MODULE_" ++ module ++ L " TYPE_" ++ table)
| L_scheme s : located module table (Some s) (L "MODULE_" ++ module ++ L " SCHEME_" ++ s ++ L " SUBROUTINE_" ++ table).
(* the variables of the sections with the table's name, in order *)
Inductive of_table (table : str) : list section -> list raw -> Prop :=
| T_nil : of_table table [] []
| T_skip s l r : s_title s <> table -> of_table table l r -> of_table table (s :: l) r
| T_take s l r : s_title s = table -> of_table table l r -> of_table table (s :: l) (s_vars s ++ r).
Definition all_sections (hs : list header) : list section := List.concat (map h_sections hs).
(* names and dimensions that do not exist in the phase of a scheme's subroutine *)
Definition ends (e s : str) : Prop := exists p, s = p ++ e.
Definition acceptable (scheme : bool) (table : str) (r : raw) : Prop :=
  (scheme = true -> (ends (L "_init") table \/ ends (L "_finalize") table) -> r_std r <> L "horizontal_loop_extent" /\ ~ In (L "horizontal_loop_extent") (r_dims r)) /\
  (scheme = true -> ends (L "_run") table -> r_std r <> L "horizontal_dimension" /\ ~ In (L "horizontal_dimension") (r_dims r)) /\
  (scheme = false -> ~ In (L "horizontal_dimension") (r_dims r)) /\
  (exists a, r_active r = Some a /\ a <> [] /\ (scheme = true -> lower a = L ".true.")) /\
  (exists o, r_optional r = Some o /\ (scheme = false -> o = false)).
(* a file the tables of a section depend on, from the directory of the metadata file *)
Inductive below (path x : str) : str -> Prop :=
| B_none : path = [] -> below path x x
| B_abs y : path <> [] -> x = L "/" ++ y -> below path x x
| B_slash q : path = q ++ L "/" -> (forall y, x <> L "/" ++ y) -> below path x (q ++ L "/" ++ x)
| B_add : path <> [] -> (forall q, path <> q ++ L "/") -> (forall y, x <> L "/" ++ y) -> below path x (path ++ L "/" ++ x).
(* the files the sections with the table's name depend on, in order *)
Inductive needed (table : str) : list (header * section) -> list str -> Prop :=
| N_nil : needed table [] []
| N_skip h s l r : s_title s <> table -> needed table l r -> needed table ((h, s) :: l) r
| N_take h s l ds r : s_title s = table -> Forall2 (below (h_path h)) (h_deps h) ds -> needed table l r -> needed table ((h, s) :: l) (ds ++ r).
Definition sections_of (h : header) : list (header * section) := map (fun s => (h, s)) (h_sections h).
(* the entry of the metadata for a variable: by its standard name *)
Definition entry (container : str) (r : raw) (e : str * prevar) : Prop := fst e = r_std r /\ describes container r (snd e).
