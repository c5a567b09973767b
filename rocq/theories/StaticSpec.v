(* StaticSpec.v: what the calls of the static CCPP API are expected to do, in terms of the
   log of scheme calls and completed group functions. *)
From Verif Require Import PyStr StaticModel.
From Coq Require Import ZArith Lia.
Open Scope nat_scope.
Open Scope list_scope.

(* the counter values of a subcycle: 1, 2, ..., loop in the run stage, once otherwise *)
Fixpoint upto (k : Z) (n : nat) : list Z := match n with 0 => [] | S m => k :: upto (k + 1) m end.
Definition passes (s : stage) (loop : Z) : list Z :=
  if stage_eqb s Run then upto 1 (Z.to_nat loop) else [1%Z].
Definition extent (s : stage) (loop : Z) : Z := if stage_eqb s Run then loop else 1%Z.

Section Spec.
Variable has : str -> stage -> bool.
Variable behaves : list event -> str -> stage -> Z -> Z * str.

(* the calls one stage of a group owes instance i: subcycle by subcycle, pass by pass,
   scheme by scheme, skipping schemes without a routine for the stage *)
Definition owed (s : stage) (i : Z) (g : group) : list event :=
  flat_map (fun c =>
    flat_map (fun k =>
      flat_map (fun n => if has n s then [ECall n s i k (extent s (sc_loop c))] else []) (sc_schemes c))
      (passes s (sc_loop c))) (g_subs g).

(* the error code a scheme call leaves, given what happened before *)
Definition code (before : list event) (e : event) : Z :=
  match e with ECall n s i _ _ => fst (behaves before n s i) | EDone _ _ _ _ => 0%Z end.
(* nothing in [evs] fails when it happens after [before] *)
Fixpoint all_ok (before evs : list event) : Prop :=
  match evs with [] => True | e :: t => code before e = 0%Z /\ all_ok (before ++ [e]) t end.
End Spec.

(* a group is initialised for instance i: its init stage has completed for i, and its
   finalize stage has not completed since (for whatever instance: see C77) *)
Definition initialised (log : list event) (sn gn : str) (i : Z) : Prop :=
  exists l1 l2, log = l1 ++ EDone sn gn Init i :: l2 /\ forall j, ~ In (EDone sn gn Final j) l2.

(* the entry of the host model's list of suites that a suite name selects, and the group
   that a group name selects: the first one of that name, trailing blanks ignored *)
Definition same_name (a b : str) : Prop :=
  exists c m n, a = c ++ List.repeat " "%char m /\ b = c ++ List.repeat " "%char n.
Definition selects_suite (us : list suite) (un : str) (u : suite) : Prop :=
  exists a b, us = a ++ u :: b /\ same_name un (s_name u) /\ forall v, In v a -> ~ same_name un (s_name v).
(* a group exists in a stage: the special groups exist in their stage only *)
Definition exists_in (s : stage) (g : group) : Prop :=
  g_kind g = GRegular \/ (g_kind g = GInit /\ s = Init) \/ (g_kind g = GFinalize /\ s = Final).
Definition selects_group (s : stage) (u : suite) (gn : str) (g : group) : Prop :=
  exists a b, s_groups u = a ++ g :: b /\ same_name gn (g_name g) /\ exists_in s g /\
    forall h, In h a -> exists_in s h -> ~ same_name gn (g_name h).
(* a group has something to do in a stage *)
Definition active_in (has : str -> stage -> bool) (s : stage) (g : group) : Prop :=
  exists c n, In c (g_subs g) /\ In n (sc_schemes c) /\ has n s = true.
(* the groups of a suite that exist in a stage, in order *)
Definition groups_of (s : stage) (u : suite) : list group :=
  List.filter (fun g => match g_kind g, s with
                        | GRegular, _ | GInit, Init | GFinalize, Final => true
                        | _, _ => false
                        end) (s_groups u).
(* everything in [evs] is done by stage s of group g of suite u for instance i *)
Definition done_by (s : stage) (i : Z) (u : suite) (g : group) (evs : list event) : Prop :=
  (forall n s' j k x, In (ECall n s' j k x) evs ->
     s' = s /\ j = i /\ exists c, In c (g_subs g) /\ In n (sc_schemes c)) /\
  (forall a b s' j, In (EDone a b s' j) evs -> a = s_name u /\ b = g_name g /\ s' = s /\ j = i).
