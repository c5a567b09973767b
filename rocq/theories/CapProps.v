(* CapProps.v: properties C09, C10, C11, C44 of generated suite and host caps. *)
From Verif Require Import Base CapModel CapSpec CapProofs.
Open Scope Z_scope.

(* ---- an example suite ---- *)
Definition w_ok : world := mkW (fun _ _ => 0) (fun _ _ => true) (fun _ => 2%nat) 0.
Definition w_fail_b : world := mkW (fun _ s => if String.eqb s "b_init" then 7 else 0) (fun _ _ => true) (fun _ => 2%nat) 0.
Definition w_badsize : world := mkW (fun _ _ => 0) (fun _ _ => false) (fun _ => 2%nat) 0.
Definition ex_suite (checks : list string) : suite :=
  mkSuite "s1" [mkSV "q" true PRunLong; mkSV "t" true PTimestep; mkSV "n" false PRunLong]
   [mkGroup "register" Register [] [];
    mkGroup "initialize" Initialize [] [PScheme "a_init" true checks; PScheme "b_init" true []; PScheme "c_init" true []];
    mkGroup "timestep_initial" TimestepInitial [] [];
    mkGroup "physics" Run [] [PTimeSplit [PScheme "a_run" true []; PVLoop "pver" [PScheme "b_run" true []]]];
    mkGroup "timestep_final" TimestepFinal [] [];
    mkGroup "finalize" Finalize [] [PScheme "a_final" true []]].
Definition call (p : phase) : hcall := mkCall p "s1" "physics" w_ok.
Definition with_world (k : hcall) (w : world) : hcall := mkCall (k_phase k) (k_suite k) (k_part k) w.

Lemma ex_good : good_suites [ex_suite []].
Proof.
  intros su [<-|[]]. split; [reflexivity|]. unfold distinct_vars. simpl.
  repeat constructor; simpl; intuition discriminate.
Qed.

(* ---- C09 ---- *)
(* Any suites (also with debug checks), any history: a call to a phase in a state
   other than the one it requires returns error 1, calls no scheme and changes no
   suite's state, data or constituent array. *)
Theorem C09_wrong_state_call_has_no_effect :
  forall sus ks k i g su,
    addressed sus k = Some (i, g, su) ->
    let h := fst (fst (host_run sus host_new ks)) in
    c_state (h_caps h i) <> life_name (requires (k_phase k)) ->
    let '(h', e, aborted) := host_step sus h k in
    e = 1 /\ aborted = false /\ h_dyn h' i = h_dyn h i /\
    c_state (h_caps h' i) = c_state (h_caps h i) /\
    c_alloc (h_caps h' i) = c_alloc (h_caps h i) /\
    c_trace (h_caps h' i) = c_trace (h_caps h i) /\
    (forall j, j <> i -> h_caps h' j = h_caps h j /\ h_dyn h' j = h_dyn h j).
Proof.
  intros sus ks k i g su HA h HS.
  pose proof (host_run_any sus ks host_new (fun _ => Uninit) (fun _ => eq_refl)) as R.
  destruct (host_run sus host_new ks) as [[h0 es] ab]. destruct R as (L & R). subst h. simpl in HS |- *.
  pose proof (host_step_any sus h0 L k R) as S.
  destruct (host_step sus h0 k) as [[h' e] ab']. rewrite HA in S. destruct S as [_ [S1 S2]].
  destruct S2 as (E1 & E2 & E3 & E4).
  { left. intros X. apply HS. rewrite (R i), X. reflexivity. }
  rewrite E3, E4. repeat split; auto; apply S1; auto.
Qed.
Print Assumptions C09_wrong_state_call_has_no_effect.

(* a call with an unknown suite or part name: error 1 and nothing changes *)
Theorem C09_unknown_name_has_no_effect :
  forall sus h k, addressed sus k = None -> host_step sus h k = (h, 1, false).
Proof.
  intros sus h k. unfold addressed, host_step.
  destruct (find_suite sus (k_suite k)) as [[i su]|]; auto.
  destruct (find_part su (k_phase k) (k_part k)); [discriminate|auto].
Qed.
Print Assumptions C09_unknown_name_has_no_effect.

(* which group a call reaches: the first suite of that name, a group of the
   requested phase, and for the run phase the group of the requested name (names
   compared as Fortran does, without trailing blanks); none is reached only when
   there is no such suite or that suite has no such group *)
Theorem C09_which_group_a_call_reaches :
  forall sus k,
    let reaches su g := In g (s_groups su) /\ g_phase g = k_phase k /\
                        (k_phase k = Run -> rtrim (k_part k) = rtrim (g_name g)) in
    match addressed sus k with
    | Some (i, g, su) =>
        nth_error sus i = Some su /\ rtrim (k_suite k) = rtrim (s_name su) /\
        (forall j sj, (j < i)%nat -> nth_error sus j = Some sj -> rtrim (k_suite k) <> rtrim (s_name sj)) /\
        reaches su g
    | None =>
        (forall su, In su sus -> rtrim (k_suite k) <> rtrim (s_name su)) \/
        (exists su, In su sus /\ rtrim (k_suite k) = rtrim (s_name su) /\ forall g, ~ reaches su g)
    end.
Proof.
  intros sus k reaches. unfold addressed. pose proof (find_suite_spec sus (k_suite k)) as FS.
  destruct (find_suite sus (k_suite k)) as [[i su]|].
  - destruct FS as (N & E & B).
    assert (P : forall g, phase_eqb (g_phase g) (k_phase k) &&
                  (if phase_eqb (k_phase k) Run then feqb (k_part k) (g_name g) else true) = true <->
                g_phase g = k_phase k /\ (k_phase k = Run -> rtrim (k_part k) = rtrim (g_name g))).
    { intros g. rewrite andb_true_iff.
      assert (PE : phase_eqb (g_phase g) (k_phase k) = true <-> g_phase g = k_phase k)
        by (destruct (g_phase g), (k_phase k); cbn; split; congruence).
      rewrite PE. destruct (k_phase k); cbn [phase_eqb]; rewrite ?feqb_spec; intuition congruence. }
    unfold find_part. match goal with |- context [find ?f ?l] => destruct (find f l) as [g|] eqn:F0 end.
    + apply find_some in F0 as [I F]. apply P in F. subst reaches. cbn. intuition.
    + right. exists su. split; [now apply nth_error_In with i|]. split; [exact E|].
      intros g (I & F). apply P in F. pose proof (find_none _ _ F0 g I). cbn in H. congruence.
  - left. exact FS.
Qed.
Print Assumptions C09_which_group_a_call_reaches.
Example C09_reach_example :
  addressed [ex_suite []] (call Run) <> None /\
  addressed [ex_suite []] (mkCall Run "s1" "phys" w_ok) = None /\
  addressed [ex_suite []] (mkCall Run "s2" "physics" w_ok) = None.
Proof. vm_compute. repeat split; discriminate. Qed.

(* whatever the suites, the state variable changes only along the life cycle *)
Theorem C09_state_moves_along_life_cycle :
  forall sus ks k,
    let h := fst (fst (host_run sus host_new ks)) in
    let h' := fst (fst (host_step sus h k)) in
    exists L L', (forall i, c_state (h_caps h i) = life_name (L i)) /\
                 (forall i, c_state (h_caps h' i) = life_name (L' i)) /\
      forall i, L' i = L i \/
        (exists g su, addressed sus k = Some (i, g, su) /\ L i = requires (k_phase k) /\
                      L' i = leads_to (k_phase k)).
Proof.
  intros sus ks k h h'.
  pose proof (host_run_any sus ks host_new (fun _ => Uninit) (fun _ => eq_refl)) as R.
  subst h h'. destruct (host_run sus host_new ks) as [[h0 es] ab]. destruct R as (L & R).
  pose proof (host_step_any sus h0 L k R) as S. simpl.
  destruct (host_step sus h0 k) as [[h' e] ab']. destruct S as [(L' & R' & M) _].
  exists L, L'. repeat split; auto. intros i. destruct (M i) as [X|(g & su & X1 & X2 & _ & X3)]; auto.
  right. exists g, su. auto.
Qed.
Print Assumptions C09_state_moves_along_life_cycle.

(* without debug checks, the state after every history is the one of the
   documented automaton run over the calls *)
Theorem C09_state_is_the_life_cycle_state :
  forall sus ks i, good_suites sus ->
    let '(h, es, aborted) := host_run sus host_new ks in
    aborted = false -> c_state (h_caps h i) = life_name (life_run sus ks i).
Proof.
  intros sus ks i G. pose proof (host_run_rel sus ks G host_new _ (host_rel_new sus)) as R.
  destruct (host_run sus host_new ks) as [[h es] ab]. intros A. apply (R A i).
Qed.
Print Assumptions C09_state_is_the_life_cycle_state.

Example C09_example :
  let ks := [call Run; call Initialize; call Initialize; call TimestepInitial; call Run; call Finalize;
             call TimestepFinal; call Finalize] in
  let '(h, es, ab) := host_run [ex_suite []] host_new ks in
  es = [1; 0; 1; 0; 0; 1; 0; 0] /\ ab = false /\
  c_trace (h_caps h 0%nat) = ["a_init"; "b_init"; "c_init"; "a_run"; "b_run"; "b_run"; "a_final"].
Proof. vm_compute. repeat split. Qed.

(* ---- C10 ---- *)
(* An accepted call makes the group's scheme calls in suite order (loops
   unrolled) up to and including the first that reports an error, and returns
   that error code (0 if there is none). *)
Theorem C10_calls_in_order_until_first_error :
  forall sus ks k i g su,
    good_suites sus -> addressed sus k = Some (i, g, su) ->
    let '(h, es, aborted) := host_run sus host_new ks in
    aborted = false ->
    life_run sus ks i = requires (k_phase k) -> thread_refused k = false ->
    let '(h', e, _) := host_step sus h k in
    let '(made, err) := until_error (w_result (k_world k)) (c_trace (h_caps h i))
                          (flat_map (calls_of (w_dim (k_world k))) (g_parts g)) in
    e = err /\ c_trace (h_caps h' i) = c_trace (h_caps h i) ++ made.
Proof.
  intros sus ks k i g su G HA.
  pose proof (host_run_rel sus ks G host_new _ (host_rel_new sus)) as R.
  destruct (host_run sus host_new ks) as [[h es] ab]. intros A HL HT. specialize (R A).
  destruct (host_step_ok sus h _ k G R) as [S _]. unfold step_spec in S.
  destruct (host_step sus h k) as [[h' e] ab']. destruct S as [_ S]. rewrite HA in S.
  fold (life_run sus ks) in S. rewrite HL, HT in S.
  replace (life_eqb (requires (k_phase k)) (requires (k_phase k))) with true in S
    by (symmetry; now apply life_eqb_eq).
  simpl in S. destruct S as (_ & _ & S). destruct (until_error _ _ _). exact S.
Qed.
Print Assumptions C10_calls_in_order_until_first_error.

(* until_error means what it says *)
Theorem C10_until_error_meaning :
  forall res tr l, let '(made, e) := until_error res tr l in
    (exists rest, l = made ++ rest /\ (e = 0 -> rest = [])) /\
    (forall j s, nth_error made j = Some s ->
       res (tr ++ firstn j made) s = if (S j =? length made)%nat then e else 0) /\
    (e <> 0 -> made <> []).
Proof.
  intros res tr l. revert tr. induction l as [|s l IH]; intros tr; simpl.
  - split; [exists []; auto|]. split; [|congruence]. intros [|j] x H; discriminate.
  - destruct (res tr s =? 0) eqn:E.
    + specialize (IH (tr ++ [s])). destruct (until_error res (tr ++ [s]) l) as [m e].
      destruct IH as ((r & E1 & E2) & IH & NE). split; [exists r; split; [simpl; congruence|auto]|].
      split; [|discriminate].
      intros [|j] x H; simpl in *.
      * injection H as <-. rewrite app_nil_r. destruct m as [|y m]; simpl.
        -- apply Z.eqb_eq in E. rewrite E. destruct (Z.eq_dec e 0); [congruence|]. exfalso. now apply NE.
        -- now apply Z.eqb_eq.
      * rewrite <- (IH _ _ H). now rewrite <- app_assoc.
    + apply Z.eqb_neq in E. split; [exists l; split; [reflexivity|congruence]|]. split; [|discriminate].
      intros [|[|j]] x H; simpl in *; try discriminate. injection H as <-. now rewrite app_nil_r.
Qed.
Print Assumptions C10_until_error_meaning.

Example C10_example :
  let '(h, es, ab) := host_run [ex_suite []] host_new [with_world (call Initialize) w_fail_b] in
  es = [7] /\ ab = false /\ c_trace (h_caps h 0%nat) = ["a_init"; "b_init"].
Proof. vm_compute. repeat split. Qed.

(* Refuted part: a failed initialize leaves the suite "initialized"; the next
   timestep_initial and run are accepted although c_init never ran. *)
Theorem C10_failed_phase_does_not_advance_refuted :
  exists sus ks, good_suites sus /\
    let '(h, es, ab) := host_run sus host_new ks in
    es = [7; 0; 0] /\ ab = false /\ c_state (h_caps h 0%nat) = "in_time_step" /\
    ~ In "c_init" (c_trace (h_caps h 0%nat)).
Proof.
  exists [ex_suite []], [with_world (call Initialize) w_fail_b; call TimestepInitial; call Run].
  split; [apply ex_good|]. vm_compute. repeat split. intuition discriminate.
Qed.
Print Assumptions C10_failed_phase_does_not_advance_refuted.

(* ---- C11 ---- *)
(* Suites without debug checks, registered at most once each: nothing is ever
   allocated twice or deallocated when not allocated (that would abort), and
   after every history exactly the variables that belong to the state are
   allocated. *)
Theorem C11_allocation_balanced_partial :
  forall sus ks, good_suites sus -> registers_once sus ks ->
    let '(h, es, aborted) := host_run sus host_new ks in
    aborted = false /\
    forall i su, nth_error sus i = Some su ->
      forall x, c_alloc (h_caps h i) x = true <-> should_be_allocated su (life_run sus ks i) x.
Proof.
  intros sus ks G RO.
  pose proof (host_run_rel sus ks G host_new _ (host_rel_new sus)) as R.
  pose proof (host_run_noabort sus ks G host_new _ [] (host_rel_new sus)) as N.
  destruct (host_run sus host_new ks) as [[h es] ab]. simpl in N.
  assert (A : ab = false) by (apply N; [discriminate|exact RO]).
  split; [exact A|]. intros i su Hs. apply (proj2 (R A i)). exact Hs.
Qed.
Print Assumptions C11_allocation_balanced_partial.

Example C11_example :
  registers_once [ex_suite []] [call Register; call Initialize; call TimestepInitial] /\
  let '(h, es, ab) := host_run [ex_suite []] host_new [call Register; call Initialize; call TimestepInitial] in
  map (c_alloc (h_caps h 0%nat)) ["q"; "t"; "n"] = [true; true; false].
Proof. split; [unfold registers_once; simpl; repeat constructor; simpl; tauto|vm_compute; reflexivity]. Qed.

(* Refuted: a failing debug size check returns after the allocation and before
   the state change; repeating initialize aborts on the double allocation. *)
Theorem C11_retry_after_failed_check_refuted :
  exists sus ks, (forall su, In su sus -> distinct_vars su) /\
    let '(h, es, ab) := host_run sus host_new ks in es = [1; 0] /\ ab = true.
Proof.
  exists [ex_suite ["q"]], [with_world (call Initialize) w_badsize; call Initialize].
  split.
  - intros su [<-|[]]. unfold distinct_vars. simpl. repeat constructor; simpl; intuition discriminate.
  - vm_compute. repeat split.
Qed.
Print Assumptions C11_retry_after_failed_check_refuted.

(* Refuted: register is allowed in state uninitialized and stays there, but a
   second register of the same suite allocates its constituent array again. *)
Theorem C11_register_twice_refuted :
  exists sus ks, good_suites sus /\
    let '(h, es, ab) := host_run sus host_new ks in es = [0; 0] /\ ab = true.
Proof.
  exists [ex_suite []], [call Register; call Register]. split; [apply ex_good|]. vm_compute. repeat split.
Qed.
Print Assumptions C11_register_twice_refuted.

(* ---- C44 ---- *)
(* Non-run phases refuse a call from thread number 2 or higher ... *)
Theorem C44_threads_refused_partial :
  forall sus ks k i g su, addressed sus k = Some (i, g, su) ->
    k_phase k <> Run -> 1 < w_thread (k_world k) ->
    let h := fst (fst (host_run sus host_new ks)) in
    let '(h', e, aborted) := host_step sus h k in
    e = 1 /\ aborted = false /\ c_trace (h_caps h' i) = c_trace (h_caps h i) /\
    c_state (h_caps h' i) = c_state (h_caps h i).
Proof.
  intros sus ks k i g su HA HP HT h.
  pose proof (host_run_any sus ks host_new (fun _ => Uninit) (fun _ => eq_refl)) as R.
  destruct (host_run sus host_new ks) as [[h0 es] ab]. destruct R as (L & R). subst h. simpl.
  pose proof (host_step_any sus h0 L k R) as S.
  destruct (host_step sus h0 k) as [[h' e] ab']. rewrite HA in S. destruct S as [_ [S1 S2]].
  destruct S2 as (E1 & E2 & E3 & E4).
  { right. unfold thread_refused. destruct (k_phase k); try congruence; simpl; lia. }
  rewrite E4. repeat split; auto.
Qed.
Print Assumptions C44_threads_refused_partial.

(* ... but the second thread (number 1) of a parallel region is let through. *)
Theorem C44_second_thread_refuted :
  exists sus k, w_thread (k_world k) = 1 /\ k_phase k = Initialize /\
    let '(h, e, ab) := host_step sus host_new k in
    e = 0 /\ c_trace (h_caps h 0%nat) = ["a_init"; "b_init"; "c_init"].
Proof.
  exists [ex_suite []], (with_world (call Initialize) (mkW (fun _ _ => 0) (fun _ _ => true) (fun _ => 1%nat) 1)).
  vm_compute. repeat split.
Qed.
Print Assumptions C44_second_thread_refuted.
