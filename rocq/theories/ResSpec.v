(* ResSpec.v: vocabulary for the sources of scheme arguments. *)
From Verif Require Import PyStr ReqModel CompatModel DictModel ResModel.
Open Scope nat_scope.
Open Scope list_scope.

(* a suite: its groups in call order; each has "run phase" and its schemes' arguments *)
Definition suite := list (bool * list (list arg)).
(* the host model has a variable of this standard name *)
Definition provided (host : list hvar) (s : str) : Prop := exists h, In h host /\ h_std h = s.
(* a scheme of group number k has an argument of this standard name *)
Definition uses (sdf : suite) (k : nat) (s : str) : Prop :=
  exists run schemes sch a, nth_error sdf k = Some (run, schemes) /\ In sch schemes /\ In a sch /\ a_std a = s.
(* all arguments in call order, with the number of their group *)
Fixpoint number {A} (k : nat) (l : list A) : list (nat * A) :=
  match l with [] => [] | x :: t => (k, x) :: number (S k) t end.
Definition in_order_args (sdf : suite) : list (nat * arg) :=
  flat_map (fun kg => map (fun a => (fst kg, a)) (List.concat (snd (snd kg)))) (number 0 sdf).
(* the intent of a use; no intent means "in" *)
Definition intent_of (a : arg) : intent := match x_intent (a_var a) with Some i => i | None => In_ end.
(* the intent of a dummy argument that serves these uses: theirs if they agree, else inout *)
Definition merged_intent (l : list intent) (i : intent) : Prop :=
  l <> [] /\ ((forall j, In j l -> j = i) \/ (i = InOut_ /\ exists j k, In j l /\ In k l /\ j <> k)).
(* metadata of schemes: standard and local names (without case) occur once *)
Definition header_ok (sch : list arg) : Prop :=
  NoDup (map a_std sch) /\ NoDup (map (fun a => lower (x_local (a_var a))) sch).
(* the names a dictionary holds *)
Definition holds (d : dict) (s : str) : Prop := exists v, In (s, v) (d_vars d).
(* the error variables every group has *)
Definition error_names : list str := [L "ccpp_error_code"; L "ccpp_error_message"].
(* one Fortran name (without case) never stands for two standard names, and the names of the
   error variables are not used for anything else *)
Definition names_agree (sdf : suite) : Prop :=
  (forall j a j' b, In (j, a) (in_order_args sdf) -> In (j', b) (in_order_args sdf) ->
     lower (x_local (a_var a)) = lower (x_local (a_var b)) -> a_std a = a_std b) /\
  (forall j a, In (j, a) (in_order_args sdf) -> lower (x_local (a_var a)) = L "errflg" -> a_std a = L "ccpp_error_code") /\
  (forall j a, In (j, a) (in_order_args sdf) -> lower (x_local (a_var a)) = L "errmsg" -> a_std a = L "ccpp_error_message").
(* the first use of every variable the host lacks defines it *)
Definition defined_first (host : list hvar) (sdf : suite) : Prop :=
  forall before j a after, in_order_args sdf = before ++ (j, a) :: after -> ~ provided host (a_std a) ->
    (forall j' a', In (j', a') before -> a_std a' <> a_std a) -> x_intent (a_var a) = Some Out_ \/ a_default a = true.
(* the host has all loop variables (and vertical dimensions) the suite uses *)
Definition loops_provided (host : list hvar) (sdf : suite) : Prop :=
  forall j a, In (j, a) (in_order_args sdf) -> In (a_std a) (loop_names ++ map fst loop_substs) -> provided host (a_std a).
(* loop variables appear in run phases only *)
Definition phases_ok (sdf : suite) : Prop :=
  forall k s, uses sdf k s -> In s loop_names -> exists schemes, nth_error sdf k = Some (true, schemes).
(* an optional host variable is passed to optional arguments only *)
Definition active_ok (host : list hvar) (sdf : suite) : Prop :=
  forall j a h, In (j, a) (in_order_args sdf) -> In h host -> h_std h = a_std a -> h_always h = true \/ a_opt a = true.
(* no argument writes the horizontal loop bounds *)
Definition bounds_read_only (sdf : suite) : Prop :=
  forall j a, In (j, a) (in_order_args sdf) -> In (a_std a) [L "horizontal_loop_extent"; L "horizontal_loop_begin"; L "horizontal_loop_end"] ->
    x_intent (a_var a) <> Some Out_ /\ a_default a = false.
(* the names of the pointers a group declares (suite_objects.py L2411-2430) *)
Definition pointers (g : gst) : list str :=
  map (fun kv => x_local (snd kv) ++ L "_ptr") (List.filter (fun kv => opt_of (fst kv) (g_copt g)) (d_vars (g_call g))).
(* all Fortran names of variables of a group: its own, its dummies, the suite's *)
Definition group_names (g : gst) (suite_vars : dict) : list str :=
  map (fun kv => lower (x_local (snd kv))) (d_vars (g_dict g) ++ d_vars (g_call g) ++ d_vars suite_vars).
