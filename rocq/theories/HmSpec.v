(* HmSpec.v: what a host model offers and what its cap imports. *)
From Verif Require Import PyStr DdtModel DdtSpec CheckSpec HmModel.
Open Scope nat_scope.
Open Scope list_scope.

(* the components of a variable, in order *)
Definition parts_of (lib : library) (v : field) (m : list field) : Prop :=
  (f_ddt v = false /\ m = []) \/
  (f_ddt v = true /\ exists fs, defines_type lib (f_type v) fs /\ listing lib fs m).
(* c is a component of v, at any depth *)
Definition component_of (lib : library) (v c : field) : Prop :=
  f_ddt v = true /\ exists fs p, defines_type lib (f_type v) fs /\ component lib fs (p ++ [c]).
Definition part (lib : library) (v c : field) : Prop := c = v \/ component_of lib v c.
(* the variables of the tables *)
Definition table_vars (ts : list table) : list field := List.concat (map t_vars ts).
(* a subscript of an array reference other than a colon ('$' in the pattern of references
   also matches before a newline at the end) *)
Definition index_in (l i : str) : Prop :=
  exists t nm dims, (l = t \/ l = t ++ [nl]) /\ array_ref t nm dims /\ In i dims /\ i <> L ":".
(* the standard names looked for: those requested, and the subscripts of variables looked for *)
Inductive reached (lib : library) (vs : list field) (reqs : list str) : str -> Prop :=
| reached_req s : In s reqs -> reached lib vs reqs s
| reached_idx s v c i : reached lib vs reqs s -> In v vs -> part lib v c -> f_std c = s -> index_in (f_local c) i -> reached lib vs reqs i.
(* a variable is used if it, or a component of it, is looked for *)
Definition used (lib : library) (vs : list field) (reqs : list str) (v : field) : Prop :=
  In v vs /\ exists c, part lib v c /\ reached lib vs reqs (f_std c).
(* the name of the host model: the one given, or that of the first host table *)
Fixpoint first_host (ts : list table) : option str :=
  match ts with [] => None | t :: ts => if str_eqb (t_type t) (L "host") then Some (t_name t) else first_host ts end.
Definition named (name : option str) (ts : list table) : option str := match name with Some n => Some n | None => first_host ts end.
(* the object the constituents of the host are kept in: <name>_constituents_obj *)
Definition constituents_object (n : str) : field :=
  mkF (n ++ L "_constituents_obj") (L "ccpp_model_constituents_object") (L "ccpp_model_constituents_t") true.
Definition all_vars (consts : bool) (n : str) (ts : list table) : list field :=
  table_vars ts ++ (if consts then [constituents_object n] else []).

(* variables vs with components ms that can be in one host model: the type of every
   structure is known and contains no type twice, no standard name occurs twice among
   variables and components, none is that of the constant one, and no local name occurs
   twice, whatever the case, among the variables or among the components *)
Definition consistent (lib : library) (vs : list field) (ms : list (list field)) : Prop :=
  Forall2 (parts_of lib) vs ms /\
  NoDup (map f_std vs ++ map f_std (List.concat ms)) /\
  (forall c, In c (vs ++ List.concat ms) -> f_std c <> L "ccpp_constant_one") /\
  NoDup (map (fun v => lower (f_local v)) vs) /\
  NoDup (map (fun v => lower (f_local v)) (List.concat ms)).
(* the standard names of loop variables *)
Definition loop_std (s : str) : Prop :=
  In s (map L ["horizontal_loop_extent"; "horizontal_loop_begin"; "horizontal_loop_end"; "vertical_layer_index"; "vertical_interface_index"]%string).
(* no loop variable of a host table has the local name of a component that is one *)
Definition loops_distinct (lib : library) (before : list field) (ts : list table) : Prop :=
  forall a t b v r c, ts = a ++ t :: b -> t_type t = L "host" -> In v (t_vars t) -> loop_std (f_std v) ->
    In r (before ++ table_vars (a ++ [t])) -> component_of lib r c -> loop_std (f_std c) -> lower (f_local v) <> lower (f_local c).
