(* StaticProps.v: C76-C81, the static API and the caps it calls. *)
From Verif Require Import PyStr StaticModel StaticSpec StaticProofs.
From Coq Require Import ZArith Lia.
Open Scope nat_scope.
Open Scope list_scope.

(* ---- a concrete host model: one suite, two groups, a suite-level init and finalize ---- *)
Definition ex_has (n : str) (s : stage) : bool := true.
Definition ex_ok : list event -> str -> stage -> Z -> Z * str := fun _ _ _ _ => (0%Z, []).
Definition ex_g1 := mkGroup (L "physics") GRegular [mkSub 2 [L "a"; L "b"]; mkSub 1 [L "c"]].
Definition ex_g2 := mkGroup (L "radiation") GRegular [mkSub 1 [L "d"]].
Definition ex_gi := mkGroup (L "init") GInit [mkSub 1 [L "setup"]].
Definition ex_gf := mkGroup (L "finalize") GFinalize [mkSub 1 [L "cleanup"]].
Definition ex_u := mkSuite (L "S") [ex_gi; ex_g1; ex_g2; ex_gf].
Definition ex_us := [mkSuite (L "other") [ex_g2]; ex_u].
Lemma same_refl a : same_name a a.
Proof. exists a, 0, 0. cbn. now rewrite app_nil_r. Qed.
Lemma ex_sel_u : selects_suite ex_us (L "S") ex_u.
Proof.
  exists [mkSuite (L "other") [ex_g2]], []. split; [reflexivity|]. split; [apply same_refl|].
  intros v [<-|[]] H. apply f_eq_spec in H. discriminate H.
Qed.
Lemma ex_sel_g s : selects_group s ex_u (L "physics") ex_g1.
Proof.
  exists [ex_gi], [ex_g2; ex_gf]. split; [reflexivity|]. split; [apply same_refl|]. split; [now left|].
  intros v [<-|[]] _ H. apply f_eq_spec in H. discriminate H.
Qed.

(* ---- C76: dispatch ---- *)
(* a call for one group of one suite: only that group's stage is executed, for that instance *)
Theorem C76_group_call : forall has behaves us s i un u gn g st,
  selects_suite us un u -> selects_group s u gn g ->
  let '(st', ierr) := api_call has behaves us s i un (Some gn) st in
  exists evs, st_log st' = st_log st ++ evs /\ done_by s i u g evs /\ st_flag st' = ierr.
Proof.
  intros has behaves us s i un u gn g st Hu Hg. rewrite (api_call_group _ _ _ _ _ _ _ _ _ _ Hu Hg).
  pose proof (group_fn_done_by has behaves s i u g st) as H.
  destruct (group_fn has behaves (s_name u) s i g st) as [st1 e].
  destruct H as (evs & H1 & H2 & _). now exists evs.
Qed.
Print Assumptions C76_group_call.
Example C76_group_call_ex :
  st_log (fst (api_call ex_has ex_ok ex_us Init 1 (L "S") (Some (L "physics")) (start 0 [] 0 0))) =
  [ECall (L "a") Init 1 1 1; ECall (L "b") Init 1 1 1; ECall (L "c") Init 1 1 1; EDone (L "S") (L "physics") Init 1].
Proof. vm_compute. reflexivity. Qed.

(* a call for the whole suite: the groups of that stage, in the order of the suite file;
   all of them if the call returns 0 *)
Theorem C76_suite_call : forall has behaves us s i un u st,
  selects_suite us un u ->
  let '(st', ierr) := api_call has behaves us s i un None st in
  st_flag st' = ierr /\
  exists gs rest parts, groups_of s u = gs ++ rest /\ (ierr = 0%Z -> rest = []) /\
    st_log st' = st_log st ++ List.concat parts /\ Forall2 (done_by s i u) gs parts.
Proof.
  intros has behaves us s i un u st Hu. unfold api_call. rewrite (api_suite _ _ _ _ _ _ _ _ _ Hu).
  unfold suite_fn. rewrite <- in_stage_groups_of.
  assert (H : let '(st1, e) := groups_fn has behaves (s_name u) s i (s_groups u) st in
    exists gs rest parts, List.filter (in_stage s) (s_groups u) = gs ++ rest /\ (e = 0%Z -> rest = []) /\
    st_log st1 = st_log st ++ List.concat parts /\ Forall2 (done_by s i u) gs parts).
  { revert st. induction (s_groups u) as [|g gs IH]; intros st; cbn [groups_fn List.filter].
    - exists [], [], []. cbn. rewrite app_nil_r. auto.
    - destruct (in_stage s g) eqn:E; [|apply IH].
      pose proof (group_fn_done_by has behaves s i u g st) as H.
      destruct (group_fn has behaves (s_name u) s i g st) as [st1 e].
      destruct H as (evs & H1 & H2 & H3). destruct (e =? 0)%Z eqn:Z0.
      + specialize (IH st1). destruct (groups_fn has behaves (s_name u) s i gs st1) as [st2 e2].
        destruct IH as (gs' & rest & parts & I1 & I2 & I3 & I4).
        exists (g :: gs'), rest, (evs :: parts). cbn [app List.concat]. rewrite I1.
        split; [reflexivity|]. split; [exact I2|]. split; [rewrite I3, H1; now rewrite <- app_assoc|now constructor].
      + apply Z.eqb_neq in Z0. exists [g], (List.filter (in_stage s) gs), [evs]. cbn [app List.concat].
        rewrite app_nil_r. split; [reflexivity|]. split; [contradiction|]. split; [exact H1|]. constructor; [exact H2|constructor]. }
  destruct (groups_fn has behaves (s_name u) s i (s_groups u) st) as [st1 e]. cbn [st_flag st_log set_err].
  split; [reflexivity|exact H].
Qed.
Print Assumptions C76_suite_call.
Example C76_suite_call_ex :
  groups_of Init ex_u = [ex_gi; ex_g1; ex_g2] /\
  st_log (fst (api_call ex_has ex_ok ex_us Init 7 (L "S  ") None (start 0 [] 0 0))) =
  [ECall (L "setup") Init 7 1 1; EDone (L "S") (L "init") Init 7;
   ECall (L "a") Init 7 1 1; ECall (L "b") Init 7 1 1; ECall (L "c") Init 7 1 1; EDone (L "S") (L "physics") Init 7;
   ECall (L "d") Init 7 1 1; EDone (L "S") (L "radiation") Init 7].
Proof. split; vm_compute; reflexivity. Qed.

(* unknown names: nothing runs, and the call returns 1 with a message naming the culprit *)
Theorem C76_unknown_suite : forall has behaves us s i un gn st,
  (forall u, In u us -> ~ same_name un (s_name u)) ->
  let '(st', ierr) := api_call has behaves us s i un gn st in
  ierr = 1%Z /\ st_flag st' = 1%Z /\ st_log st' = st_log st /\ st_init st' = st_init st /\
  exists t m, st_msg st' = L "Invalid suite " ++ t /\ un = t ++ List.repeat " "%char m.
Proof.
  intros has behaves us s i un gn st H. unfold api_call.
  replace (suite_switch has behaves s i un gn us st) with (set_err (st_flag st) (L "Invalid suite " ++ rtrim un) st, 1%Z).
  - cbn -[L app]. repeat split. destruct (rtrim_split un) as [m E]. exists (rtrim un), m. split; [reflexivity|exact E].
  - induction us as [|u us IH]; cbn [suite_switch]; [reflexivity|].
    destruct (f_eq un (s_name u)) eqn:E; [|apply IH; intros v Hv; apply H; now right].
    exfalso. apply (H u); [now left|]. now apply f_eq_spec.
Qed.
Print Assumptions C76_unknown_suite.
Example C76_unknown_suite_ex : let r := api_call ex_has ex_ok ex_us Run 1 (L "T ") None (start 0 [] 0 0) in
  snd r = 1%Z /\ st_msg (fst r) = L "Invalid suite T".
Proof. split; vm_compute; reflexivity. Qed.

Theorem C76_unknown_group : forall has behaves us s i un u gn st,
  selects_suite us un u -> (forall g, In g (groups_of s u) -> ~ same_name gn (g_name g)) ->
  let '(st', ierr) := api_call has behaves us s i un (Some gn) st in
  ierr = 1%Z /\ st_flag st' = 1%Z /\ st_log st' = st_log st /\ st_init st' = st_init st /\
  exists t m, st_msg st' = L "Group " ++ t ++ L " not found" /\ gn = t ++ List.repeat " "%char m.
Proof.
  intros has behaves us s i un u gn st Hu H. unfold api_call. rewrite (api_suite _ _ _ _ _ _ _ _ _ Hu).
  rewrite <- in_stage_groups_of in H.
  replace (group_switch has behaves (s_name u) s i gn (s_groups u) st)
    with (set_err (st_flag st) (L "Group " ++ rtrim gn ++ L " not found") st, 1%Z).
  - cbn -[L app]. repeat split. destruct (rtrim_split gn) as [m E]. exists (rtrim gn), m. split; [reflexivity|exact E].
  - induction (s_groups u) as [|g gs IH]; cbn [group_switch]; [reflexivity|]. cbn [List.filter] in H.
    destruct (in_stage s g) eqn:E1; cbn [andb].
    + destruct (f_eq gn (g_name g)) eqn:E2; [|apply IH; intros v Hv; apply H; now right].
      exfalso. apply (H g); [now left|]. now apply f_eq_spec.
    + now apply IH.
Qed.
Print Assumptions C76_unknown_group.
Example C76_unknown_group_ex : let r := api_call ex_has ex_ok ex_us Run 1 (L "S") (Some (L "init")) (start 0 [] 0 0) in
  snd r = 1%Z /\ st_msg (fst r) = L "Group init not found".
Proof. split; vm_compute; reflexivity. Qed.

(* finding: where no group of a suite exists in a stage, the generated chain of branches
   starts with "else", which is not Fortran; in every other case it starts with "if" and
   goes on with "else if" *)
Theorem C76_finding_else_without_if : forall s u,
  (groups_of s u = [] -> group_clauses s (s_groups u) = [(L "else", None)]) /\
  (forall g gs, groups_of s u = g :: gs ->
     group_clauses s (s_groups u) =
     (L "if", Some (g_name g)) :: map (fun h => (L "else if", Some (g_name h))) gs ++ [(L "else", None)]).
Proof.
  intros s u. rewrite <- in_stage_groups_of. unfold group_clauses.
  set (F := fun (acc : list (str * option str)) g => if in_stage s g
                          then acc ++ [(match acc with [] => L "if" | _ => L "else if" end, Some (g_name g))]
                          else acc).
  assert (H : forall gs acc, acc <> [] ->
    fold_left F gs acc = acc ++ map (fun h => (L "else if", Some (g_name h))) (List.filter (in_stage s) gs)).
  { induction gs as [|g gs IH]; intros acc N; cbn [fold_left List.filter map]; [now rewrite app_nil_r|].
    unfold F at 2. destruct (in_stage s g).
    - rewrite IH; [|destruct acc; discriminate]. rewrite <- app_assoc. cbn [map app]. destruct acc; [contradiction|reflexivity].
    - now apply IH. }
  induction (s_groups u) as [|g gs IH]; cbn [fold_left List.filter].
  - split; [reflexivity|discriminate].
  - unfold F at 2 4. destruct (in_stage s g); [|exact IH]. split; [discriminate|].
    intros g' gs' E. injection E as -> <-. rewrite H by discriminate. reflexivity.
Qed.
Print Assumptions C76_finding_else_without_if.
Example C76_finding_ex : group_clauses Run [ex_gi; ex_gf] = [(L "else", None)] /\
  group_clauses Init [ex_gi; ex_g1; ex_gf] = [(L "if", Some (L "init")); (L "else if", Some (L "physics")); (L "else", None)].
Proof. split; vm_compute; reflexivity. Qed.

(* ---- C77: the life cycle of a group ---- *)
Definition reachable has behaves us st : Prop :=
  exists h flag msg cnt ext, st = history has behaves us h (start flag msg cnt ext).
Lemma reach_inv has behaves us st : reachable has behaves us st -> inv st.
Proof. intros (h & a & b & c & d & ->). apply history_inv, start_inv. Qed.

(* a group call does all the group owes in this stage, or stops at the first failing scheme *)
Definition performs_group has behaves (s : stage) (i : Z) (u : suite) (g : group) (st st' : state) (ierr : Z) : Prop :=
  (ierr = 0%Z /\ all_ok behaves (st_log st) (owed has s i g) /\
     st_log st' = st_log st ++ owed has s i g ++ [EDone (s_name u) (g_name g) s i]) \/
  (ierr <> 0%Z /\ exists p x q, owed has s i g = p ++ x :: q /\ all_ok behaves (st_log st) p /\
     code behaves (st_log st ++ p) x = ierr /\ st_log st' = st_log st ++ p ++ [x]).
Definition positive_loops (s : stage) (g : group) : Prop :=
  s = Run -> forall c, In c (g_subs g) -> (1 <= sc_loop c)%Z.

Lemma group_performs has behaves s i u g st : positive_loops s g ->
  passes_guard has s g (st_init st (s_name u) (g_name g) i) = true ->
  let '(st', e) := group_fn has behaves (s_name u) s i g st in performs_group has behaves s i u g st st' e.
Proof.
  intros HL G. pose proof (group_fn_admitted has behaves (s_name u) s i g st G) as H.
  destruct (group_fn has behaves (s_name u) s i g st) as [st' e]. rewrite (gen_events_owed has s i g HL) in H.
  destruct H as [(-> & A & L1 & _)|(E0 & F & _ & p & x & q & E & A & B & L1)].
  - left. auto.
  - right. split; [exact E0|]. now exists p, x, q.
Qed.

Theorem C77_init_runs_once_partial : forall has behaves us i un u gn g st,
  reachable has behaves us st -> selects_suite us un u -> selects_group Init u gn g ->
  let '(st', ierr) := api_call has behaves us Init i un (Some gn) st in
  (initialised (st_log st) (s_name u) (g_name g) i -> st_log st' = st_log st /\ ierr = 0%Z) /\
  (~ initialised (st_log st) (s_name u) (g_name g) i -> performs_group has behaves Init i u g st st' ierr).
Proof.
  intros has behaves us i un u gn g st R Hu Hg. pose proof (reach_inv _ _ _ _ R (s_name u) (g_name g) i) as I.
  rewrite (api_call_group _ _ _ _ _ _ _ _ _ _ Hu Hg).
  destruct (st_init st (s_name u) (g_name g) i) eqn:E.
  - rewrite group_fn_refused by (cbn; now rewrite E). cbn. split; [now split|]. intros N. exfalso. now apply N, I.
  - assert (HL : positive_loops Init g) by discriminate.
    assert (G : passes_guard has Init g (st_init st (s_name u) (g_name g) i) = true) by (cbn; now rewrite E).
    pose proof (group_performs has behaves Init i u g st HL G) as H.
    destruct (group_fn has behaves (s_name u) Init i g st) as [st' e]. split.
    + intros N. apply I in N. discriminate.
    + intros _. exact H.
Qed.
Print Assumptions C77_init_runs_once_partial.
Example C77_init_ex :
  let st1 := history ex_has ex_ok ex_us [mkCall Init 1 (L "S") None] (start 0 [] 0 0) in
  initialised (st_log st1) (L "S") (L "physics") 1 /\ ~ initialised (st_log st1) (L "S") (L "physics") 2.
Proof.
  split.
  - exists [ECall (L "setup") Init 1 1 1; EDone (L "S") (L "init") Init 1;
      ECall (L "a") Init 1 1 1; ECall (L "b") Init 1 1 1; ECall (L "c") Init 1 1 1],
      [ECall (L "d") Init 1 1 1; EDone (L "S") (L "radiation") Init 1]. split; [reflexivity|].
    intros j [H|[H|[]]]; discriminate.
  - intros H. apply (reach_inv ex_has ex_ok ex_us) in H; [discriminate H|].
    exists [mkCall Init 1 (L "S") None], 0%Z, [], 0%Z, 0%Z. reflexivity.
Qed.

Theorem C77_other_stages_partial : forall has behaves us s i un u gn g st,
  reachable has behaves us st -> selects_suite us un u -> selects_group s u gn g -> s <> Init ->
  active_in has s g -> positive_loops s g ->
  let '(st', ierr) := api_call has behaves us s i un (Some gn) st in
  (initialised (st_log st) (s_name u) (g_name g) i -> performs_group has behaves s i u g st st' ierr) /\
  (~ initialised (st_log st) (s_name u) (g_name g) i -> st_log st' = st_log st).
Proof.
  intros has behaves us s i un u gn g st R Hu Hg Hs Ha HL. pose proof (reach_inv _ _ _ _ R (s_name u) (g_name g) i) as I.
  apply has_args_spec in Ha.
  rewrite (api_call_group _ _ _ _ _ _ _ _ _ _ Hu Hg).
  destruct (st_init st (s_name u) (g_name g) i) eqn:E.
  - assert (G : passes_guard has s g (st_init st (s_name u) (g_name g) i) = true)
      by (rewrite E; unfold passes_guard; destruct s; try contradiction; apply orb_true_r).
    pose proof (group_performs has behaves s i u g st HL G) as H.
    destruct (group_fn has behaves (s_name u) s i g st) as [st' e]. split; [intros _; exact H|].
    intros N. exfalso. now apply N, I.
  - rewrite group_fn_refused by (rewrite E; unfold passes_guard; destruct s; try contradiction; now rewrite Ha).
    cbn. split; [intros N; apply I in N; discriminate|]. intros _. destruct s; reflexivity.
Qed.
Print Assumptions C77_other_stages_partial.
Example C77_other_stages_ex :
  let st1 := history ex_has ex_ok ex_us [mkCall Init 1 (L "S") None] (start 0 [] 0 0) in
  st_log (fst (api_call ex_has ex_ok ex_us Run 1 (L "S") (Some (L "physics")) st1)) = st_log st1 ++
  [ECall (L "a") Run 1 1 2; ECall (L "b") Run 1 1 2; ECall (L "a") Run 1 2 2; ECall (L "b") Run 1 2 2;
   ECall (L "c") Run 1 1 1; EDone (L "S") (L "physics") Run 1].
Proof. vm_compute. reflexivity. Qed.

(* refuted: instances are not independent.  Once the finalize stage of a group has
   completed for one instance, no other instance is initialised any more: its calls do
   nothing although it has not been finalized itself *)
Theorem C77_instances_refuted :
  (forall has behaves us s i j un u gn g st before,
     reachable has behaves us st -> selects_suite us un u -> selects_group s u gn g -> s <> Init ->
     active_in has s g -> st_log st = before ++ [EDone (s_name u) (g_name g) Final j] ->
     st_log (fst (api_call has behaves us s i un (Some gn) st)) = st_log st) /\
  exists h st, st = history ex_has ex_ok ex_us h (start 0 [] 0 0) /\
    st_log st = [ECall (L "d") Init 1 1 1; EDone (L "S") (L "radiation") Init 1;
                 ECall (L "d") Init 2 1 1; EDone (L "S") (L "radiation") Init 2;
                 ECall (L "d") Final 1 1 1; EDone (L "S") (L "radiation") Final 1] /\
    st_log (fst (api_call ex_has ex_ok ex_us Run 2 (L "S") (Some (L "radiation")) st)) = st_log st.
Proof.
  split.
  - intros has behaves us s i j un u gn g st before R Hu Hg Hs Ha E.
    pose proof (reach_inv _ _ _ _ R (s_name u) (g_name g) i) as I. apply has_args_spec in Ha.
    rewrite (api_call_group _ _ _ _ _ _ _ _ _ _ Hu Hg).
    assert (N : st_init st (s_name u) (g_name g) i = false).
    { destruct (st_init st (s_name u) (g_name g) i); [|reflexivity]. exfalso.
      assert (X : initialised (st_log st) (s_name u) (g_name g) i) by now apply I.
      rewrite E in X. apply initialised_done in X. rewrite !str_eqb_refl in X. exact X. }
    rewrite group_fn_refused by (rewrite N; unfold passes_guard; destruct s; try contradiction; now rewrite Ha).
    cbn. destruct s; reflexivity.
  - exists [mkCall Init 1 (L "S") (Some (L "radiation")); mkCall Init 2 (L "S") (Some (L "radiation"));
            mkCall Final 1 (L "S") (Some (L "radiation"))].
    eexists. split; [reflexivity|]. split; vm_compute; reflexivity.
Qed.
Print Assumptions C77_instances_refuted.

(* ---- C78: calls out of order are reported ---- *)
Definition needs_init (s : stage) : Prop := s = TsInit \/ s = Run \/ s = TsFinal.
Theorem C78_refused_call_message_partial : forall has behaves us s i un u gn g st,
  reachable has behaves us st -> selects_suite us un u -> selects_group s u gn g -> needs_init s ->
  active_in has s g -> ~ initialised (st_log st) (s_name u) (g_name g) i ->
  let '(st', _) := api_call has behaves us s i un (Some gn) st in
  st_log st' = st_log st /\
  st_msg st' = g_name g ++ L "_" ++ stage_name s ++ L " called before " ++ g_name g ++ L "_init".
Proof.
  intros has behaves us s i un u gn g st R Hu Hg Hs Ha N. pose proof (reach_inv _ _ _ _ R (s_name u) (g_name g) i) as I.
  apply has_args_spec in Ha. rewrite (api_call_group _ _ _ _ _ _ _ _ _ _ Hu Hg).
  assert (E : st_init st (s_name u) (g_name g) i = false).
  { destruct (st_init st (s_name u) (g_name g) i); [|reflexivity]. exfalso. now apply N, I. }
  rewrite group_fn_refused by (rewrite E; unfold passes_guard; destruct Hs as [-> | [-> | ->]]; now rewrite Ha).
  destruct Hs as [-> | [-> | ->]]; split; reflexivity.
Qed.
Print Assumptions C78_refused_call_message_partial.
(* refuted: the error is not returned.  Whatever the host model, a timestep_init, run or
   timestep_finalize call for a group that is not initialised returns ierr = 0 and leaves
   the error flag 0; so does such a call for a whole suite whose groups are not
   initialised *)
Theorem C78_refused_call_returns_zero_refuted :
  (forall has behaves us s i un u gn g st,
    reachable has behaves us st -> selects_suite us un u -> selects_group s u gn g -> needs_init s ->
    active_in has s g -> ~ initialised (st_log st) (s_name u) (g_name g) i ->
    let '(st', ierr) := api_call has behaves us s i un (Some gn) st in ierr = 0%Z /\ st_flag st' = 0%Z) /\
  (forall has behaves us s i un u st,
    reachable has behaves us st -> selects_suite us un u -> needs_init s ->
    (forall g, In g (groups_of s u) -> active_in has s g /\ ~ initialised (st_log st) (s_name u) (g_name g) i) ->
    let '(st', ierr) := api_call has behaves us s i un None st in
    ierr = 0%Z /\ st_flag st' = 0%Z /\ st_log st' = st_log st).
Proof.
  split.
  - intros has behaves us s i un u gn g st R Hu Hg Hs Ha N.
    pose proof (reach_inv _ _ _ _ R (s_name u) (g_name g) i) as I.
    apply has_args_spec in Ha. rewrite (api_call_group _ _ _ _ _ _ _ _ _ _ Hu Hg).
    assert (E : st_init st (s_name u) (g_name g) i = false).
    { destruct (st_init st (s_name u) (g_name g) i); [|reflexivity]. exfalso. now apply N, I. }
    rewrite group_fn_refused by (rewrite E; unfold passes_guard; destruct Hs as [-> | [-> | ->]]; now rewrite Ha).
    split; reflexivity.
  - intros has behaves us s i un u st R Hu Hs H. unfold api_call. rewrite (api_suite _ _ _ _ _ _ _ _ _ Hu).
    unfold suite_fn. rewrite <- in_stage_groups_of in H.
    pose proof (reach_inv _ _ _ _ R) as I0.
    assert (K : forall st0, st_log st0 = st_log st -> st_init st0 = st_init st ->
      let '(st1, e) := groups_fn has behaves (s_name u) s i (s_groups u) st0 in e = 0%Z /\ st_log st1 = st_log st).
    { induction (s_groups u) as [|g gs IH]; intros st0 E1 E2; cbn [groups_fn]; [now split|]. cbn [List.filter] in H.
      destruct (in_stage s g) eqn:E; [|now apply IH].
      destruct (H g (or_introl eq_refl)) as [Ha N]. apply has_args_spec in Ha.
      assert (F : st_init st0 (s_name u) (g_name g) i = false).
      { rewrite E2. destruct (st_init st (s_name u) (g_name g) i) eqn:EE; [|reflexivity]. exfalso. now apply N, I0. }
      rewrite group_fn_refused by (rewrite F; unfold passes_guard; destruct Hs as [-> | [-> | ->]]; now rewrite Ha).
      apply IH; [intros x Hx; apply H; now right| |]; destruct s; assumption. }
    specialize (K st eq_refl eq_refl). destruct (groups_fn has behaves (s_name u) s i (s_groups u) st) as [st1 e].
    cbn. destruct K as [-> K]. auto.
Qed.
Print Assumptions C78_refused_call_returns_zero_refuted.
Example C78_ex : let r := api_call ex_has ex_ok ex_us Run 1 (L "S") None (start 0 [] 0 0) in
  snd r = 0%Z /\ st_flag (fst r) = 0%Z /\ st_log (fst r) = [] /\ st_msg (fst r) = L "radiation_run called before radiation_init".
Proof. repeat split; vm_compute; reflexivity. Qed.

(* ---- C79: suite-level init and finalize schemes ---- *)
(* refuted: a suite-level finalize scheme is never called, in any history of any host
   model (its group has no init stage, so it is never initialised) *)
Definition groups_in (us : list suite) (u : suite) (g : group) : Prop := In u us /\ In g (s_groups u).

Lemma groups_fn_step has behaves (P : state -> Prop) u s i st gs :
  (forall st0 g, In g gs -> in_stage s g = true -> P st0 -> P (fst (group_fn has behaves (s_name u) s i g st0))) ->
  P st -> P (fst (groups_fn has behaves (s_name u) s i gs st)).
Proof.
  revert st; induction gs as [|g gs IH]; intros st H HP; cbn [groups_fn]; [exact HP|].
  destruct (in_stage s g) eqn:E.
  - pose proof (H st g (or_introl eq_refl) E HP) as H1.
    destruct (group_fn has behaves (s_name u) s i g st) as [st1 e]. destruct (e =? 0)%Z; [|exact H1].
    apply IH; [|exact H1]. intros st0 g0 Hg0. apply H. now right.
  - apply IH; [|exact HP]. intros st0 g0 Hg0. apply H. now right.
Qed.
(* what every group function preserves (and the error variables cannot break) holds after
   every history *)
Lemma history_step has behaves (P : state -> Prop) us h st :
  (forall e m st0, P st0 -> P (set_err e m st0)) ->
  (forall st0 u g s i, groups_in us u g -> in_stage s g = true -> P st0 ->
     P (fst (group_fn has behaves (s_name u) s i g st0))) ->
  P st -> P (history has behaves us h st).
Proof.
  intros HE HG. revert st; induction h as [|c h IH]; intros st HP; cbn [history]; [exact HP|]. apply IH.
  unfold do_call, api_call.
  assert (K : P (fst (suite_switch has behaves (c_stage c) (c_inst c) (c_suite c) (c_group c) us st))).
  { assert (G : forall l, incl l us -> P (fst (suite_switch has behaves (c_stage c) (c_inst c) (c_suite c) (c_group c) l st))).
    { induction l as [|u l IHl]; intros Hl; cbn [suite_switch]; [now apply HE|].
      destruct (f_eq (c_suite c) (s_name u)); [|apply IHl; intros x Hx; apply Hl; now right].
      assert (Hu : In u us) by (apply Hl; now left).
      destruct (c_group c) as [gn|].
      - assert (Q : forall gs, incl gs (s_groups u) ->
          P (fst (group_switch has behaves (s_name u) (c_stage c) (c_inst c) gn gs st))).
        { induction gs as [|g gs IHg]; intros Hgs; cbn [group_switch]; [now apply HE|].
          destruct (in_stage (c_stage c) g && f_eq gn (g_name g)) eqn:E; [|apply IHg; intros x Hx; apply Hgs; now right].
          apply andb_true_iff in E. apply HG; [split; [exact Hu|apply Hgs; now left]|apply E|exact HP]. }
        apply Q, incl_refl.
      - unfold suite_fn. apply (groups_fn_step has behaves P); [|exact HP]. intros st0 g Hg. apply HG. now split. }
    apply G, incl_refl. }
  destruct (suite_switch _ _ _ _ _ _ _ _) as [st1 e]. now apply HE.
Qed.

Theorem C79_finalize_scheme_never_called_refuted : forall has behaves us u g n,
  groups_in us u g -> g_kind g = GFinalize ->
  (* no other group has this scheme, and groups of different kinds have different names *)
  (forall u' g' c, groups_in us u' g' -> In c (g_subs g') -> In n (sc_schemes c) -> s_name u' = s_name u /\ g' = g) ->
  (forall u' g', groups_in us u' g' -> s_name u' = s_name u -> g_name g' = g_name g -> g_kind g' = GFinalize) ->
  forall h flag msg cnt ext s i k x,
    ~ In (ECall n s i k x) (st_log (history has behaves us h (start flag msg cnt ext))).
Proof.
  intros has behaves us u g n Hg HK Honly Hname h flag msg cnt ext s i k x.
  set (P := fun st => (forall j, st_init st (s_name u) (g_name g) j = false) /\
                      forall s j k x, ~ In (ECall n s j k x) (st_log st)).
  assert (H : P (history has behaves us h (start flag msg cnt ext))).
  { apply history_step.
    - intros e m st [H1 H2]. split; [exact H1|exact H2].
    - intros st u' g' s' i' Hg' Hst [H1 H2].
      destruct (passes_guard has s' g' (st_init st (s_name u') (g_name g') i')) eqn:G.
      + pose proof (group_fn_admitted has behaves (s_name u') s' i' g' st G) as H.
        destruct (group_fn has behaves (s_name u') s' i' g' st) as [st' e]. cbn [fst].
        assert (NC : forall s j k x, ~ In (ECall n s j k x) (gen_events has s' i' (g_subs g'))).
        { intros s0 j0 k0 x0 Hin. apply gen_events_call in Hin. destruct Hin as (n' & k' & x' & c & E & Hc & Hn & Hh).
          injection E as -> -> -> -> ->. destruct (Honly u' g' c Hg' Hc Hn) as [En ->].
          unfold in_stage in Hst. rewrite HK in Hst. apply stage_eqb_eq in Hst. subst s'.
          cbn in G. rewrite En in G. rewrite H1 in G.
          assert (A : has_args has Final g = true) by (apply has_args_spec; now exists c, n').
          rewrite A in G. discriminate. }
        destruct H as [(_ & _ & L1 & J)|(_ & _ & J & p & y & q & E & _ & _ & L1)]; split.
        * intros j. rewrite J. unfold new_init.
          destruct s'; try apply H1; unfold upd_init;
            destruct (str_eqb (s_name u) (s_name u') && str_eqb (g_name g) (g_name g')) eqn:EQ; try apply H1.
          -- apply andb_true_iff in EQ. destruct EQ as [E1 E2]. apply str_eqb_eq in E1, E2.
             assert (KF : g_kind g' = GFinalize) by (apply (Hname u'); [exact Hg'|now rewrite E1|now rewrite E2]).
             unfold in_stage in Hst. rewrite KF in Hst. discriminate.
          -- reflexivity.
        * intros s0 j0 k0 x0 Hin. rewrite L1 in Hin. apply in_app_or in Hin. destruct Hin as [Hin|Hin]; [now apply H2 in Hin|].
          apply in_app_or in Hin. destruct Hin as [Hin|[Hin|[]]]; [now apply NC in Hin|discriminate].
        * intros j. rewrite J. apply H1.
        * intros s0 j0 k0 x0 Hin. rewrite L1 in Hin. apply in_app_or in Hin. destruct Hin as [Hin|Hin]; [now apply H2 in Hin|].
          apply (NC s0 j0 k0 x0). rewrite E. apply in_app_or in Hin. apply in_or_app.
          destruct Hin as [Hin|[Hin|[]]]; [now left|]. subst y. right. now left.
      + rewrite group_fn_refused by exact G. cbn [fst]. split; [intros j|intros s0 j0 k0 x0]; destruct s'; solve [apply H1|apply H2].
    - split; [reflexivity|]. intros s0 j0 k0 x0 []. }
  apply H.
Qed.
Print Assumptions C79_finalize_scheme_never_called_refuted.
Example C79_finalize_ex :
  (groups_in ex_us ex_u ex_gf /\ g_kind ex_gf = GFinalize) /\
  st_log (history ex_has ex_ok ex_us [mkCall Init 1 (L "S") (Some (L "radiation")); mkCall Final 1 (L "S") None;
                                      mkCall Final 1 (L "S") (Some (L "finalize"))] (start 0 [] 0 0)) =
  [ECall (L "d") Init 1 1 1; EDone (L "S") (L "radiation") Init 1;
   ECall (L "d") Final 1 1 1; EDone (L "S") (L "radiation") Final 1].
Proof. split; [split; [split; [now right; left|now right; right; right; left]|reflexivity]|vm_compute; reflexivity]. Qed.

(* a suite-level init scheme is called at most until it succeeds once per instance *)
Theorem C79_init_scheme_runs_once_partial : forall has behaves us u g,
  groups_in us u g -> g_kind g = GInit ->
  (forall u' g', groups_in us u' g' -> s_name u' = s_name u -> g_name g' = g_name g -> g_kind g' = GInit) ->
  forall h flag msg cnt ext i st un gn,
    st = history has behaves us h (start flag msg cnt ext) ->
    selects_suite us un u -> selects_group Init u gn g ->
    let '(st', ierr) := api_call has behaves us Init i un (Some gn) st in
    (In (EDone (s_name u) (g_name g) Init i) (st_log st) -> st_log st' = st_log st /\ ierr = 0%Z) /\
    (~ In (EDone (s_name u) (g_name g) Init i) (st_log st) -> performs_group has behaves Init i u g st st' ierr).
Proof.
  intros has behaves us u g Hg HK Hname h flag msg cnt ext i st un gn Est Hu Hgn.
  assert (NF : forall j, ~ In (EDone (s_name u) (g_name g) Final j) (st_log st)).
  { subst st. pattern (history has behaves us h (start flag msg cnt ext)). apply history_step.
    - intros e m st0 H. exact H.
    - intros st0 u' g' s' i' Hg' Hst H j.
      pose proof (group_fn_done_by has behaves s' i' u' g' st0) as D.
      destruct (group_fn has behaves (s_name u') s' i' g' st0) as [st1 e]. cbn [fst].
      destruct D as (evs & L1 & [_ D2] & _). rewrite L1. intros Hin. apply in_app_or in Hin.
      destruct Hin as [Hin|Hin]; [now apply H in Hin|]. apply D2 in Hin. destruct Hin as (E1 & E2 & E3 & _).
      assert (KF : g_kind g' = GInit) by (apply (Hname u'); [exact Hg'|now rewrite E1|now rewrite E2]).
      unfold in_stage in Hst. rewrite KF in Hst. apply stage_eqb_eq in Hst. congruence.
    - intros j []. }
  assert (R : reachable has behaves us st) by (now exists h, flag, msg, cnt, ext).
  pose proof (C77_init_runs_once_partial has behaves us i un u gn g st R Hu Hgn) as H.
  destruct (api_call has behaves us Init i un (Some gn) st) as [st' e]. destruct H as [H1 H2].
  split.
  - intros Hin. apply H1. apply in_split in Hin. destruct Hin as (l1 & l2 & E). exists l1, l2. split; [exact E|].
    intros j Hj. apply (NF j). rewrite E. apply in_or_app. right. now right.
  - intros Hout. apply H2. intros (l1 & l2 & E & _). apply Hout. rewrite E. apply in_or_app. right. now left.
Qed.
Print Assumptions C79_init_scheme_runs_once_partial.
Example C79_init_ex : groups_in ex_us ex_u ex_gi /\ g_kind ex_gi = GInit /\ selects_group Init ex_u (L "init") ex_gi /\
  In (EDone (L "S") (L "init") Init 1) (st_log (history ex_has ex_ok ex_us [mkCall Init 1 (L "S") None] (start 0 [] 0 0))).
Proof.
  split; [split; [now right; left|now left]|]. split; [reflexivity|]. split; [|vm_compute; right; left; reflexivity].
  exists [], [ex_g1; ex_g2; ex_gf]. split; [reflexivity|]. split; [apply same_refl|]. split; [right; now left|]. intros h [].
Qed.
(* refuted: after init, finalize, init of the whole suite the init scheme has run once only *)
Theorem C79_init_scheme_not_run_again_refuted :
  let st := history ex_has ex_ok ex_us [mkCall Init 1 (L "S") None; mkCall Final 1 (L "S") None; mkCall Init 1 (L "S") None]
              (start 0 [] 0 0) in
  List.filter (fun e => match e with ECall n Init _ _ _ => str_eqb n (L "a") || str_eqb n (L "setup") | _ => false end) (st_log st) =
  [ECall (L "setup") Init 1 1 1; ECall (L "a") Init 1 1 1; ECall (L "a") Init 1 1 1].
Proof. vm_compute. reflexivity. Qed.
Print Assumptions C79_init_scheme_not_run_again_refuted.

(* ---- C80: scheme failure ---- *)
(* whatever is called: either the call returns 0 and no scheme it called failed; or a
   scheme failed, it is the last thing that happened, and its error code is returned and
   left in the error flag; or a name was unknown and nothing happened *)
Theorem C80_failure_stops_the_call : forall has behaves us s i un gn st,
  let '(st', ierr) := api_call has behaves us s i un gn st in
  st_flag st' = ierr /\
  exists evs, st_log st' = st_log st ++ evs /\
    ((ierr = 0%Z /\ all_ok behaves (st_log st) evs) \/
     (ierr <> 0%Z /\ exists p n s' j k x, evs = p ++ [ECall n s' j k x] /\ all_ok behaves (st_log st) p /\
        code behaves (st_log st ++ p) (ECall n s' j k x) = ierr) \/
     (ierr = 1%Z /\ evs = [] /\ forall u, selects_suite us un u -> exists g, gn = Some g /\
        forall h, In h (groups_of s u) -> ~ same_name g (g_name h))).
Proof.
  intros has behaves us s i un gn st. unfold api_call.
  set (Good := fun (st : state) (r : state * Z) => exists evs, st_log (fst r) = st_log st ++ evs /\
      ((snd r = 0%Z /\ all_ok behaves (st_log st) evs) \/
       (snd r <> 0%Z /\ exists p n s' j k x, evs = p ++ [ECall n s' j k x] /\ all_ok behaves (st_log st) p /\
        code behaves (st_log st ++ p) (ECall n s' j k x) = snd r))).
  assert (G1 : forall u g st, Good st (group_fn has behaves (s_name u) s i g st)).
  { intros u g st0. pose proof (group_fn_done_by has behaves s i u g st0) as D.
    destruct (group_fn has behaves (s_name u) s i g st0) as [st1 e].
    destruct D as (evs & L1 & _ & D). exists evs. cbn [fst snd]. split; [exact L1|].
    destruct D as [D|(D1 & D2 & p & x & D3 & D4 & D5 & D6)]; [now left|right]. split; [exact D1|].
    destruct x as [n s' j k x|]; [|discriminate]. now exists p, n, s', j, k, x. }
  assert (G2 : forall u gs st, Good st (groups_fn has behaves (s_name u) s i gs st)).
  { intros u. induction gs as [|g gs IH]; intros st0; cbn [groups_fn].
    - exists []. cbn. rewrite app_nil_r. auto.
    - destruct (in_stage s g); [|apply IH]. pose proof (G1 u g st0) as D.
      destruct (group_fn has behaves (s_name u) s i g st0) as [st1 e]. destruct (e =? 0)%Z eqn:Z0.
      + apply Z.eqb_eq in Z0. subst e. destruct D as (evs & L1 & [[_ D]|[D _]]); [|now cbn in D]. cbn [fst] in L1.
        destruct (IH st1) as (evs2 & L2 & H2). rewrite L1 in L2, H2.
        exists (evs ++ evs2). split; [rewrite L2; now rewrite app_assoc|].
        destruct H2 as [[H2 H3]|(H2 & p & n & s' & j & k & x & H3 & H4 & H5)]; [left|right].
        * split; [exact H2|]. apply all_ok_app. now split.
        * split; [exact H2|]. exists (evs ++ p), n, s', j, k, x.
          split; [rewrite H3; now rewrite app_assoc|]. split; [apply all_ok_app; now split|]. now rewrite app_assoc.
      + exact D. }
  assert (K : Good st (suite_switch has behaves s i un gn us st) \/
    (snd (suite_switch has behaves s i un gn us st) = 1%Z /\ st_log (fst (suite_switch has behaves s i un gn us st)) = st_log st /\
     forall u, selects_suite us un u -> exists g, gn = Some g /\ forall h, In h (groups_of s u) -> ~ same_name g (g_name h))).
  { destruct (Exists_dec (fun u => f_eq un (s_name u) = true) us (fun u => bool_dec _ _)) as [E|E].
    - assert (S : exists u, selects_suite us un u).
      { clear -E. induction us as [|v us IH]; [inversion E|]. destruct (f_eq un (s_name v)) eqn:F.
        - exists v, [], us. split; [reflexivity|]. split; [now apply f_eq_spec|]. intros w [].
        - inversion E as [? ? H|? ? H]; subst; [congruence|]. destruct (IH H) as (u & a & b & -> & H1 & H2).
          exists u, (v :: a), b. split; [reflexivity|]. split; [exact H1|]. intros w [<-|Hw]; [|now apply H2].
          now apply f_eq_false. }
      destruct S as (u & Hu). rewrite (api_suite _ _ _ _ _ _ _ _ _ Hu). destruct gn as [gn|]; [|left; apply G2].
      destruct (Exists_dec (fun g => f_eq gn (g_name g) = true) (groups_of s u) (fun u => bool_dec _ _)) as [F|F].
      + left. rewrite <- in_stage_groups_of in F. induction (s_groups u) as [|g gs IH]; cbn [List.filter] in F; [inversion F|].
        cbn [group_switch]. destruct (in_stage s g); cbn [andb].
        * destruct (f_eq gn (g_name g)) eqn:FE; [apply G1|]. apply IH. inversion F; subst; [congruence|assumption].
        * apply IH, F.
      + right. assert (N : forall g, In g (groups_of s u) -> ~ same_name gn (g_name g)).
        { intros g Hg Hs. apply F. apply Exists_exists. exists g. split; [exact Hg|]. now apply f_eq_spec. }
        pose proof (C76_unknown_group has behaves us s i un u gn st Hu N) as C. unfold api_call in C.
        rewrite (api_suite _ _ _ _ _ _ _ _ _ Hu) in C.
        destruct (group_switch has behaves (s_name u) s i gn (s_groups u) st) as [st1 e]. cbn [fst snd].
        destruct C as (C1 & _ & C3 & _). split; [exact C1|]. split; [exact C3|].
        intros u2 Hu2. exists gn. split; [reflexivity|].
        assert (EU : u2 = u).
        { clear -Hu Hu2. destruct Hu as (a & b & E1 & H1 & H2). destruct Hu2 as (a2 & b2 & E2 & H3 & H4). subst us.
          revert a2 E2 H4. induction a as [|v a IH]; intros [|v2 a2] E2 H4; cbn in E2.
          - congruence.
          - exfalso. injection E2 as -> _. apply (H4 v2); [now left|exact H1].
          - exfalso. injection E2 as -> _. apply (H2 u2); [now left|exact H3].
          - injection E2 as -> E2. apply (IH (fun w Hw => H2 w (or_intror Hw)) a2 E2). intros w Hw. apply H4. now right. }
        subst u2. exact N.
    - right. assert (N : forall u, In u us -> ~ same_name un (s_name u)).
      { intros u Hu2 Hs. apply E. apply Exists_exists. exists u. split; [exact Hu2|]. now apply f_eq_spec. }
      pose proof (C76_unknown_suite has behaves us s i un gn st N) as C. unfold api_call in C.
      destruct (suite_switch has behaves s i un gn us st) as [st1 e]. cbn [fst snd]. destruct C as (C1 & _ & C3 & _).
      split; [exact C1|]. split; [exact C3|]. intros u (a & b & E2 & H & _). exfalso. apply (N u); [|exact H].
      rewrite E2. apply in_or_app. right. now left. }
  destruct (suite_switch has behaves s i un gn us st) as [st1 e]. cbn [st_flag st_log set_err fst snd] in *.
  split; [reflexivity|]. destruct K as [(evs & K1 & K2)|(K1 & K2 & K3)].
  - exists evs. split; [exact K1|]. destruct K2 as [K2|K2]; [now left|right; left; exact K2].
  - exists []. rewrite app_nil_r. split; [exact K2|]. right. right. auto.
Qed.
Print Assumptions C80_failure_stops_the_call.
Definition ex_fail : list event -> str -> stage -> Z -> Z * str :=
  fun log n s _ => if str_eqb n (L "b") && stage_eqb s Init then (5%Z, L "bad input  ") else (0%Z, []).
Example C80_ex : let r := api_call ex_has ex_fail ex_us Init 1 (L "S") None (start 0 [] 0 0) in
  snd r = 5%Z /\ st_flag (fst r) = 5%Z /\ st_msg (fst r) = L "An error occured in b_init: bad input" /\
  st_log (fst r) = [ECall (L "setup") Init 1 1 1; EDone (L "S") (L "init") Init 1; ECall (L "a") Init 1 1 1; ECall (L "b") Init 1 1 1].
Proof. repeat split; vm_compute; reflexivity. Qed.
(* a group whose init stage failed is not initialised *)
Theorem C80_failed_group_not_initialised : forall has behaves us i un u gn g st,
  reachable has behaves us st -> selects_suite us un u -> selects_group Init u gn g ->
  ~ initialised (st_log st) (s_name u) (g_name g) i ->
  let '(st', ierr) := api_call has behaves us Init i un (Some gn) st in
  initialised (st_log st') (s_name u) (g_name g) i <-> ierr = 0%Z.
Proof.
  intros has behaves us i un u gn g st R Hu Hg N.
  pose proof (C77_init_runs_once_partial has behaves us i un u gn g st R Hu Hg) as H.
  destruct (api_call has behaves us Init i un (Some gn) st) as [st' e]. destruct H as [_ H].
  assert (ND : forall x, In x (owed has Init i g) -> is_done x = false).
  { intros x Hx. rewrite <- gen_events_owed in Hx by discriminate. apply gen_events_call in Hx.
    destruct Hx as (n & k & y & c & -> & _). reflexivity. }
  destruct (H N) as [(-> & A & L1)|(E0 & p & x & q & E & A & B & L1)].
  - rewrite L1, app_assoc. split; [reflexivity|]. intros _. apply initialised_done. rewrite !str_eqb_refl. now left.
  - rewrite L1. split; [|contradiction]. intros I. exfalso. apply N. apply initialised_app in I; [exact I|].
    intros y Hy. apply ND. rewrite E. apply in_app_or in Hy. apply in_or_app.
    destruct Hy as [Hy|[Hy|[]]]; [now left|]. subst y. right. now left.
Qed.
Print Assumptions C80_failed_group_not_initialised.
Example C80_failed_ex : let st := start 0 [] 0 0 in
  reachable ex_has ex_fail ex_us st /\ ~ initialised (st_log st) (L "S") (L "physics") 1 /\
  snd (api_call ex_has ex_fail ex_us Init 1 (L "S") (Some (L "physics")) st) = 5%Z.
Proof.
  split; [|split; [|reflexivity]].
  - exists [], 0%Z, [], 0%Z, 0%Z. reflexivity.
  - intros (l1 & l2 & E & _). destruct l1; discriminate.
Qed.

(* ---- C81: subcycles ---- *)
(* in the run stage a subcycle with loop="n" makes n passes over its schemes, with the
   loop counter going from 1 to n and the loop extent n; in the other stages one pass.
   "owed" spells this out *)
Theorem C81_subcycles_partial : forall has behaves us s i un u gn g st,
  reachable has behaves us st -> selects_suite us un u -> selects_group s u gn g ->
  initialised (st_log st) (s_name u) (g_name g) i -> s <> Init ->
  (forall c, In c (g_subs g) -> (1 <= sc_loop c)%Z) ->
  (forall log n s' j, fst (behaves log n s' j) = 0%Z) ->
  let '(st', ierr) := api_call has behaves us s i un (Some gn) st in
  ierr = 0%Z /\
  st_log st' = st_log st ++
    flat_map (fun c =>
      flat_map (fun k =>
        flat_map (fun n => if has n s then [ECall n s i k (if stage_eqb s Run then sc_loop c else 1%Z)] else []) (sc_schemes c))
      (if stage_eqb s Run then upto 1 (Z.to_nat (sc_loop c)) else [1%Z])) (g_subs g)
    ++ [EDone (s_name u) (g_name g) s i].
Proof.
  intros has behaves us s i un u gn g st R Hu Hg N Hs HL Hok.
  pose proof (reach_inv _ _ _ _ R (s_name u) (g_name g) i) as I. apply I in N.
  rewrite (api_call_group _ _ _ _ _ _ _ _ _ _ Hu Hg).
  assert (G : passes_guard has s g (st_init st (s_name u) (g_name g) i) = true)
    by (rewrite N; unfold passes_guard; destruct s; try contradiction; apply orb_true_r).
  pose proof (group_performs has behaves s i u g st (fun _ => HL) G) as H.
  destruct (group_fn has behaves (s_name u) s i g st) as [st' e].
  destruct H as [(-> & A & L1)|(E0 & p & x & q & E & A & B & L1)]; [split; [reflexivity|exact L1]|].
  exfalso. apply E0. rewrite <- B. destruct x; cbn; [apply Hok|reflexivity].
Qed.
Print Assumptions C81_subcycles_partial.
Example C81_ex : let st1 := history ex_has ex_ok ex_us [mkCall Init 1 (L "S") None] (start 0 [] 0 0) in
  initialised (st_log st1) (L "S") (L "physics") 1 /\ (forall c, In c (g_subs ex_g1) -> (1 <= sc_loop c)%Z).
Proof.
  split; [apply C77_init_ex|]. intros c [<-|[<-|[]]]; cbn; lia.
Qed.
(* refuted: a loop of 0 (or less) makes one pass, not none *)
Theorem C81_loop_zero_refuted :
  exists g u us st, g_subs g = [mkSub 0 [L "a"]] /\ selects_suite us (L "S") u /\ selects_group Run u (L "g") g /\
    st = history ex_has ex_ok us [mkCall Init 1 (L "S") None] (start 0 [] 0 0) /\
    st_log (fst (api_call ex_has ex_ok us Run 1 (L "S") (Some (L "g")) st)) =
      st_log st ++ [ECall (L "a") Run 1 1 0; EDone (L "S") (L "g") Run 1].
Proof.
  set (g := mkGroup (L "g") GRegular [mkSub 0 [L "a"]]). set (u := mkSuite (L "S") [g]).
  exists g, u, [u]. eexists. split; [reflexivity|]. split.
  - exists [], []. split; [reflexivity|]. split; [apply same_refl|]. intros v [].
  - split; [|split; [reflexivity|vm_compute; reflexivity]]. exists [], []. split; [reflexivity|]. split; [apply same_refl|]. split; [now left|].
    intros v [].
Qed.
Print Assumptions C81_loop_zero_refuted.
