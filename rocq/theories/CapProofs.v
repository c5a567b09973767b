From Verif Require Import Base CapModel CapSpec.
Open Scope Z_scope.

Lemma exec_ifok w b c : exec w (SIfOk b) c = if c_err c =? 0 then execs w b c else (c, FNext).
Proof. reflexivity. Qed.
Lemma exec_do w d b c : exec w (SDo d b) c = times (w_dim w d) (execs w b) c.
Proof. reflexivity. Qed.

Lemma execs_one w x c : execs w [x] c = exec w x c.
Proof. cbn [execs]. unfold seq. destruct (exec w x c) as [c' [| |]]; reflexivity. Qed.

Lemma execs_app w a b c : execs w (a ++ b) c = seq (execs w a) (execs w b) c.
Proof.
  revert c. induction a as [|x a IH]; intros c; [reflexivity|].
  simpl. unfold seq. destruct (exec w x c) as [c' [| |]]; auto. rewrite IH. reflexivity.
Qed.

(* ---- parts: induction principle ---- *)
Section PartInd.
Variable P : part -> Prop.
Hypothesis H1 : forall s b cs, P (PScheme s b cs).
Hypothesis H2 : forall ps, Forall P ps -> P (PTimeSplit ps).
Hypothesis H3 : forall d ps, Forall P ps -> P (PVLoop d ps).
Fixpoint part_ind' (p : part) : P p :=
  match p with
  | PScheme s b cs => H1 s b cs
  | PTimeSplit ps => H2 ps ((fix go l : Forall P l := match l with [] => Forall_nil _ | x :: r => Forall_cons _ (part_ind' x) (go r) end) ps)
  | PVLoop d ps => H3 d ps ((fix go l : Forall P l := match l with [] => Forall_nil _ | x :: r => Forall_cons _ (part_ind' x) (go r) end) ps)
  end.
End PartInd.

(* ---- C10: unchecked parts run their calls until the first error ---- *)
Definition runs_calls (w : world) (f : cap -> cap * flow) (l : list string) : Prop :=
  forall c, f c = if c_err c =? 0 then
     let '(m, e) := until_error (w_result w) (c_trace c) l in
     (mkCap (c_state c) (c_alloc c) e (c_trace c ++ m), FNext)
   else (c, FNext).

Lemma until_error_app res : forall l1 l2 tr,
  until_error res tr (l1 ++ l2) =
  let '(m1, e1) := until_error res tr l1 in
  if e1 =? 0 then let '(m2, e2) := until_error res (tr ++ m1) l2 in (m1 ++ m2, e2)
  else (m1, e1).
Proof.
  induction l1 as [|s l1 IH]; intros l2 tr; simpl.
  - rewrite app_nil_r. destruct (until_error res tr l2). reflexivity.
  - destruct (res tr s =? 0) eqn:E.
    + rewrite IH. destruct (until_error res (tr ++ [s]) l1) as [m1 e1].
      destruct (e1 =? 0); auto.
      rewrite <- app_assoc. simpl. destruct (until_error res (tr ++ s :: m1) l2). reflexivity.
    + rewrite E. reflexivity.
Qed.

Lemma cap_eta c : mkCap (c_state c) (c_alloc c) (c_err c) (c_trace c) = c.
Proof. destruct c; reflexivity. Qed.

Lemma runs_nil w : runs_calls w (fun c => (c, FNext)) [].
Proof.
  intros c. simpl. destruct (c_err c =? 0) eqn:E; auto.
  apply Z.eqb_eq in E. rewrite app_nil_r. rewrite <- E. now rewrite cap_eta.
Qed.

Lemma runs_seq w f g l1 l2 : runs_calls w f l1 -> runs_calls w g l2 -> runs_calls w (seq f g) (l1 ++ l2).
Proof.
  intros F G c. unfold seq. rewrite F. destruct (c_err c =? 0) eqn:E.
  - rewrite until_error_app. destruct (until_error (w_result w) (c_trace c) l1) as [m1 e1] eqn:E1.
    rewrite G. simpl. destruct (e1 =? 0) eqn:E2.
    + destruct (until_error (w_result w) (c_trace c ++ m1) l2) as [m2 e2]. now rewrite app_assoc.
    + reflexivity.
  - rewrite G, E. reflexivity.
Qed.

Lemma runs_times w f l n : runs_calls w f l -> runs_calls w (times n f) (List.concat (List.repeat l n)).
Proof.
  intros F. induction n as [|n IH]; [apply runs_nil|]. simpl. now apply runs_seq.
Qed.

Lemma runs_execs_flat w (parts : list part) (cf : part -> list string) :
  Forall (fun p => unchecked p = true -> runs_calls w (execs w (part_write p)) (cf p)) parts ->
  forallb unchecked parts = true ->
  runs_calls w (execs w (flat_map part_write parts)) (flat_map cf parts).
Proof.
  induction 1 as [|p ps Hp _ IH]; intros U; [apply runs_nil|].
  simpl in U. apply andb_prop in U as [U1 U2]. simpl.
  intros c. rewrite execs_app. apply (runs_seq w _ _ _ _ (Hp U1) (IH U2)).
Qed.

Lemma part_runs w p : unchecked p = true -> runs_calls w (execs w (part_write p)) (calls_of (w_dim w) p).
Proof.
  induction p as [s b cs|ps IH|d ps IH] using part_ind'; intros U.
  - simpl in U. destruct cs; [|discriminate]. cbn [part_write map app calls_of]. intros c. rewrite execs_one, exec_ifok.
    destruct (c_err c =? 0) eqn:E; auto.
    destruct b; simpl.
    + unfold seq, do_call. simpl. destruct (w_result w (c_trace c) s =? 0) eqn:E1; simpl; auto.
      apply Z.eqb_eq in E1. now rewrite E1.
    + apply Z.eqb_eq in E. rewrite app_nil_r. rewrite <- E. now rewrite cap_eta.
  - simpl. simpl in U. apply runs_execs_flat; auto.
  - cbn [part_write calls_of]. simpl in U. intros c. rewrite execs_one, exec_do.
    pose proof (runs_times w _ _ (w_dim w d) (runs_execs_flat w ps _ IH U)) as T.
    rewrite T. reflexivity.
Qed.

Lemma parts_run w ps : forallb unchecked ps = true ->
  runs_calls w (execs w (flat_map part_write ps)) (flat_map (calls_of (w_dim w)) ps).
Proof.
  intros U. apply runs_execs_flat; auto. apply Forall_forall. intros p _. apply part_runs.
Qed.

(* ---- any parts (with checks): suite state and allocation untouched, no abort ---- *)
Definition tame (f : cap -> cap * flow) : Prop :=
  forall c, let '(c', fl) := f c in
    c_state c' = c_state c /\ c_alloc c' = c_alloc c /\ (exists m, c_trace c' = c_trace c ++ m) /\
    fl <> FAbort /\ (fl = FReturn -> c_err c' = 1).

Lemma tame_nil : tame (fun c => (c, FNext)).
Proof. intros c. repeat split; try discriminate. exists []. now rewrite app_nil_r. Qed.

Lemma tame_seq f g : tame f -> tame g -> tame (seq f g).
Proof.
  intros F G c. unfold seq. specialize (F c). destruct (f c) as [c1 fl1].
  destruct F as (A1 & A2 & (m1 & A3) & A4 & A5). destruct fl1.
  - specialize (G c1). destruct (g c1) as [c2 fl2]. destruct G as (B1 & B2 & (m2 & B3) & B4 & B5).
    repeat split; auto; try congruence. exists (m1 ++ m2). rewrite B3, A3. now rewrite app_assoc.
  - repeat split; eauto.
  - congruence.
Qed.

Lemma tame_times f n : tame f -> tame (times n f).
Proof. intros F. induction n; [apply tame_nil|]. simpl. now apply tame_seq. Qed.

Lemma tame_flat w (ps : list part) : Forall (fun p => tame (execs w (part_write p))) ps ->
  tame (execs w (flat_map part_write ps)).
Proof.
  induction 1 as [|p ps Hp _ IH]; [apply tame_nil|]. simpl. intros c. rewrite execs_app.
  apply (tame_seq _ _ Hp IH c).
Qed.

Lemma tame_part w p : tame (execs w (part_write p)).
Proof.
  induction p as [s b cs|ps IH|d ps IH] using part_ind'.
  - cbn [part_write]. intros c. rewrite execs_one, exec_ifok. destruct (c_err c =? 0); [|apply tame_nil].
    rewrite execs_app. revert c. apply tame_seq.
    + induction cs as [|x cs IH]; [apply tame_nil|]. simpl. apply tame_seq; auto.
      intros c. simpl. destruct (w_size_ok w (c_trace c) x); simpl.
      * apply tame_nil.
      * repeat split; try discriminate. exists []. now rewrite app_nil_r.
    + destruct b; [|apply tame_nil]. intros c. rewrite execs_one. simpl. repeat split; try discriminate. eauto.
  - simpl. now apply tame_flat.
  - cbn [part_write]. intros c. rewrite execs_one, exec_do. apply tame_times. now apply tame_flat.
Qed.

Lemma tame_parts w ps : tame (execs w (flat_map part_write ps)).
Proof. apply tame_flat. apply Forall_forall. intros p _. apply tame_part. Qed.

(* ---- allocation sequences ---- *)
Lemma allocs_ok w : forall xs c, NoDup xs -> (forall x, In x xs -> c_alloc c x = false) ->
  exists c', execs w (map SAllocate xs) c = (c', FNext) /\
    c_state c' = c_state c /\ c_err c' = c_err c /\ c_trace c' = c_trace c /\
    forall y, c_alloc c' y = true <-> c_alloc c y = true \/ In y xs.
Proof.
  induction xs as [|x xs IH]; intros c ND F.
  - exists c. simpl. repeat split; auto. intros [H|[]]; auto.
  - inversion ND as [|? ? N1 N2]; subst. simpl. unfold seq. simpl.
    rewrite (F x) by (simpl; auto).
    destruct (IH (set_alloc c x true)) as (c' & E & A1 & A2 & A3 & A4); auto.
    { intros y Hy. simpl. destruct (String.eqb_spec x y); [subst; contradiction|]. apply F. simpl; auto. }
    exists c'. rewrite E. repeat split; auto.
    + intros H. apply A4 in H as [H|H]; auto. simpl in H. destruct (String.eqb_spec x y); auto.
    + intros H. apply A4. simpl. destruct (String.eqb_spec x y); auto. destruct H as [H|[H|H]]; auto; contradiction.
Qed.

Lemma deallocs_ok w : forall xs c, NoDup xs -> (forall x, In x xs -> c_alloc c x = true) ->
  exists c', execs w (map SDeallocate xs) c = (c', FNext) /\
    c_state c' = c_state c /\ c_err c' = c_err c /\ c_trace c' = c_trace c /\
    forall y, c_alloc c' y = true <-> c_alloc c y = true /\ ~ In y xs.
Proof.
  induction xs as [|x xs IH]; intros c ND F.
  - exists c. simpl. repeat split; auto. intros [H _]; auto.
  - inversion ND as [|? ? N1 N2]; subst. simpl. unfold seq. simpl.
    rewrite (F x) by (simpl; auto).
    destruct (IH (set_alloc c x false)) as (c' & E & A1 & A2 & A3 & A4); auto.
    { intros y Hy. simpl. destruct (String.eqb_spec x y); [subst; contradiction|]. apply F. simpl; auto. }
    exists c'. rewrite E. repeat split; auto.
    + apply A4 in H as [H1 H2]. simpl in H1. destruct (String.eqb_spec x y); [discriminate|auto].
    + apply A4 in H as [H1 H2]. simpl in H1. destruct (String.eqb_spec x y); [discriminate|]. intros [K|K]; auto.
    + intros [H1 H2]. apply A4. simpl. destruct (String.eqb_spec x y); [exfalso; auto|]. auto.
Qed.

(* ---- a group call ---- *)
Lemma state_names p : initial_state p = life_name (requires p) /\ final_state p = life_name (leads_to p).
Proof. destruct p; split; reflexivity. Qed.

Lemma feqb_life a b : feqb (life_name a) (life_name b) = life_eqb a b.
Proof. destruct a, b; reflexivity. Qed.

Lemma life_eqb_eq a b : life_eqb a b = true <-> a = b.
Proof. destruct a, b; simpl; split; congruence. Qed.

Definition pre_code (g : group) : list stmt :=
  [SErr0] ++ (if phase_eqb (g_phase g) Run then [] else [SThreadCheck]) ++ check_suite_state (g_phase g).

Lemma pre_reject w g c l : c_state c = life_name l ->
  (life_eqb l (requires (g_phase g)) = false \/
   negb (phase_eqb (g_phase g) Run) && (w_thread w >? 1) = true) ->
  execs w (pre_code g) c = (set_err c 1, FReturn).
Proof.
  intros S H. unfold pre_code, check_suite_state.
  rewrite (proj1 (state_names (g_phase g))).
  assert (E : feqb (c_state c) (life_name (requires (g_phase g))) = life_eqb l (requires (g_phase g)))
    by (rewrite S; apply feqb_life).
  destruct (phase_eqb (g_phase g) Run) eqn:EP.
  - destruct H as [H|H]; [|discriminate H]. rewrite H in E.
    cbn [app execs]. unfold seq. cbn [exec set_err c_state c_err]. rewrite E. reflexivity.
  - cbn [app execs]. unfold seq. cbn [exec set_err c_state c_err]. destruct (w_thread w >? 1) eqn:ET; [reflexivity|].
    destruct H as [H|H]; [|discriminate H]. rewrite H in E. cbn [exec set_err c_state c_err]. rewrite E. reflexivity.
Qed.

Lemma pre_accept w g c l : c_state c = life_name l ->
  life_eqb l (requires (g_phase g)) = true ->
  negb (phase_eqb (g_phase g) Run) && (w_thread w >? 1) = false ->
  execs w (pre_code g) c = (set_err c 0, FNext).
Proof.
  intros S H HT. unfold pre_code, check_suite_state.
  rewrite (proj1 (state_names (g_phase g))).
  assert (E : feqb (c_state c) (life_name (requires (g_phase g))) = true)
    by (rewrite S, feqb_life; exact H).
  destruct (phase_eqb (g_phase g) Run) eqn:EP.
  - cbn [app execs]. unfold seq. cbn [exec set_err c_state c_err]. rewrite E. reflexivity.
  - simpl in HT. cbn [app execs]. unfold seq. cbn [exec set_err c_state c_err]. rewrite HT. cbn [exec set_err c_state c_err]. rewrite E. reflexivity.
Qed.

Definition alloc_flag (p : phase) : bool :=
  match p with Initialize | TimestepInitial => true | _ => false end.
Definition dealloc_flag (p : phase) : bool :=
  match p with Finalize | TimestepFinal => true | _ => false end.

Lemma group_code_eq g svars : suite_group_code g svars =
  pre_code g
  ++ (if alloc_flag (g_phase g) then map SAllocate (group_vars (g_phase g) svars) else [])
  ++ flat_map part_write (g_parts g)
  ++ (if dealloc_flag (g_phase g) then map SDeallocate (group_vars (g_phase g) svars) else [])
  ++ set_suite_state (g_phase g).
Proof.
  unfold suite_group_code, group_write, pre_code. destruct (g_phase g); simpl; rewrite ?app_assoc; reflexivity.
Qed.

Lemma set_state_exec w p c : exists c', execs w (set_suite_state p) c = (c', FNext) /\
  (c_state c = life_name (requires p) -> c_state c' = life_name (leads_to p)) /\
  c_alloc c' = c_alloc c /\ c_err c' = c_err c /\ c_trace c' = c_trace c.
Proof.
  unfold set_suite_state. destruct (state_names p) as [E1 E2].
  destruct (String.eqb_spec (initial_state p) (final_state p)) as [E|E].
  - exists c. simpl. repeat split; auto. intros H. congruence.
  - eexists. simpl. unfold seq. simpl. split; [reflexivity|]. simpl. rewrite E2. auto.
Qed.

(* rejected call *)
Lemma group_reject w g svars c l : c_state c = life_name l ->
  (life_eqb l (requires (g_phase g)) = false \/
   negb (phase_eqb (g_phase g) Run) && (w_thread w >? 1) = true) ->
  execs w (suite_group_code g svars) c = (set_err c 1, FReturn).
Proof.
  intros S H. rewrite group_code_eq, execs_app. unfold seq. now rewrite (pre_reject _ _ _ _ S H).
Qed.

(* any call, with or without checks: the state afterwards is the old one or the
   phase's final state *)
Lemma alloc_any w xs : forall c, let '(c', fl) := execs w (map SAllocate xs) c in
  c_state c' = c_state c /\ c_err c' = c_err c /\ c_trace c' = c_trace c /\ fl <> FReturn.
Proof.
  induction xs as [|x xs IH]; intros c; simpl; [repeat split; discriminate|].
  unfold seq. simpl. destruct (c_alloc c x); [repeat split; discriminate|].
  specialize (IH (set_alloc c x true)). destruct (execs w (map SAllocate xs) _) as [c' fl]. simpl in IH. exact IH.
Qed.
Lemma dealloc_any w xs : forall c, let '(c', fl) := execs w (map SDeallocate xs) c in
  c_state c' = c_state c /\ c_err c' = c_err c /\ c_trace c' = c_trace c /\ fl <> FReturn.
Proof.
  induction xs as [|x xs IH]; intros c; simpl; [repeat split; discriminate|].
  unfold seq. simpl. destruct (c_alloc c x); [|repeat split; discriminate].
  specialize (IH (set_alloc c x false)). destruct (execs w (map SDeallocate xs) _) as [c' fl]. simpl in IH. exact IH.
Qed.

Lemma group_any w g svars c l : c_state c = life_name l ->
  let '(c', fl) := execs w (suite_group_code g svars) c in
  exists l', c_state c' = life_name l' /\
    (l' = l \/ (life_eqb l (requires (g_phase g)) = true /\ l' = leads_to (g_phase g))).
Proof.
  intros S.
  destruct (life_eqb l (requires (g_phase g))) eqn:EL.
  2:{ rewrite (group_reject w g svars c l S (or_introl EL)). simpl. eauto. }
  destruct (negb (phase_eqb (g_phase g) Run) && (w_thread w >? 1)) eqn:ET.
  { rewrite (group_reject w g svars c l S (or_intror ET)). simpl. eauto. }
  rewrite group_code_eq, !execs_app. unfold seq at 1. rewrite (pre_accept w g c l S EL ET).
  set (c0 := set_err c 0). assert (S0 : c_state c0 = life_name l) by exact S.
  rewrite execs_app. unfold seq at 1.
  pose proof (alloc_any w (group_vars (g_phase g) svars) c0) as A.
  assert (A' : let '(c1, fl) := execs w (if alloc_flag (g_phase g) then map SAllocate (group_vars (g_phase g) svars) else []) c0 in
     c_state c1 = c_state c0 /\ c_err c1 = c_err c0 /\ c_trace c1 = c_trace c0 /\ fl <> FReturn).
  { destruct (alloc_flag (g_phase g)); [exact A|simpl; repeat split; discriminate]. }
  destruct (execs w (if alloc_flag (g_phase g) then _ else _) c0) as [c1 fl1].
  destruct A' as (A1 & A2 & A3 & A4). destruct fl1; [|congruence|exists l; split; [congruence|auto]].
  rewrite execs_app. unfold seq at 1.
  pose proof (tame_parts w (g_parts g) c1) as T. destruct (execs w (flat_map part_write (g_parts g)) c1) as [c2 fl2].
  destruct T as (T1 & _). destruct fl2; try (exists l; split; [congruence|auto]; fail).
  rewrite execs_app. unfold seq at 1.
  pose proof (dealloc_any w (group_vars (g_phase g) svars) c2) as D.
  assert (D' : let '(c3, fl) := execs w (if dealloc_flag (g_phase g) then map SDeallocate (group_vars (g_phase g) svars) else []) c2 in
     c_state c3 = c_state c2 /\ c_err c3 = c_err c2 /\ c_trace c3 = c_trace c2 /\ fl <> FReturn).
  { destruct (dealloc_flag (g_phase g)); [exact D|simpl; repeat split; discriminate]. }
  destruct (execs w (if dealloc_flag (g_phase g) then _ else _) c2) as [c3 fl3].
  destruct D' as (D1 & D2 & D3 & D4). destruct fl3; [|congruence|exists l; split; [congruence|auto]].
  destruct (set_state_exec w (g_phase g) c3) as (c4 & E4 & F1 & _). rewrite E4.
  exists (leads_to (g_phase g)). split; auto. apply F1. apply life_eqb_eq in EL. subst l. congruence.
Qed.

(* ---- suite variables of a group ---- *)
Lemma in_group_vars p svars x : In x (group_vars p svars) <->
  exists v, In v svars /\ sv_dims v = true /\ sv_name v = x /\ sv_persist v = group_type p.
Proof.
  unfold group_vars. rewrite in_map_iff. split.
  - intros (v & E & H). apply filter_In in H as [H1 H2]. apply andb_prop in H2 as [H2 H3].
    exists v. repeat split; auto. destruct (group_type p), (sv_persist v); simpl in H3; congruence.
  - intros (v & H1 & H2 & H3 & H4). exists v. split; auto. apply filter_In. split; auto.
    rewrite H2, H4. destruct (group_type p); reflexivity.
Qed.

Lemma NoDup_map_subfilter {A B} (f : A -> B) (p q : A -> bool) l :
  (forall x, q x = true -> p x = true) ->
  NoDup (map f (List.filter p l)) -> NoDup (map f (List.filter q l)).
Proof.
  intros I. induction l as [|x l IH]; intros ND; simpl in *; auto.
  destruct (q x) eqn:Q.
  - rewrite (I _ Q) in ND. simpl in *. inversion ND as [|? ? N1 N2]; subst. constructor; auto.
    intros H. apply N1. apply in_map_iff in H as (y & E & H). apply filter_In in H as [H1 H2].
    apply in_map_iff. exists y. split; auto. apply filter_In. auto.
  - destruct (p x); simpl in *; auto. inversion ND; auto.
Qed.

Lemma group_vars_nodup su p : distinct_vars su -> NoDup (group_vars p (s_vars su)).
Proof.
  intros D. eapply NoDup_map_subfilter; [|exact D]. intros x H. now apply andb_prop in H as [H _].
Qed.

Lemma NoDup_map_inj {A B} (f : A -> B) l x y : NoDup (map f l) -> In x l -> In y l -> f x = f y -> x = y.
Proof.
  induction l as [|z l IH]; intros ND Hx Hy E; [destruct Hx|].
  simpl in ND. inversion ND as [|? ? N1 N2]; subst.
  destruct Hx as [->|Hx], Hy as [->|Hy]; auto.
  - exfalso. apply N1. rewrite E. now apply in_map.
  - exfalso. apply N1. rewrite <- E. now apply in_map.
Qed.

Lemma var_unique su v1 v2 : distinct_vars su -> In v1 (s_vars su) -> In v2 (s_vars su) ->
  sv_dims v1 = true -> sv_dims v2 = true -> sv_name v1 = sv_name v2 -> v1 = v2.
Proof.
  intros D I1 I2 D1 D2 E. eapply (NoDup_map_inj sv_name _ v1 v2 D); auto; now apply filter_In.
Qed.

Definition alloc_ok (su : suite) (l : life) (c : cap) : Prop :=
  forall x, c_alloc c x = true <-> should_be_allocated su l x.

Lemma alloc_before su p c : alloc_ok su (requires p) c -> alloc_flag p = true -> distinct_vars su ->
  forall x, In x (group_vars p (s_vars su)) -> c_alloc c x = false.
Proof.
  intros A F D x H. apply in_group_vars in H as (v & I1 & I2 & I3 & I4).
  destruct (c_alloc c x) eqn:E; auto. apply A in E as (v2 & J1 & J2 & J3 & J4).
  assert (v2 = v) by (eapply var_unique; eauto; congruence). subst v2.
  rewrite I4 in J4. destruct p; try discriminate F; simpl in J4; congruence.
Qed.

Lemma dealloc_before su p c : alloc_ok su (requires p) c -> dealloc_flag p = true ->
  forall x, In x (group_vars p (s_vars su)) -> c_alloc c x = true.
Proof.
  intros A F x H. apply in_group_vars in H as (v & I1 & I2 & I3 & I4).
  apply A. exists v. repeat split; auto. rewrite I4. destruct p; try discriminate F; simpl; congruence.
Qed.

Lemma group_accept w g su c :
  distinct_vars su -> unchecked_group g = true ->
  c_state c = life_name (requires (g_phase g)) -> alloc_ok su (requires (g_phase g)) c ->
  negb (phase_eqb (g_phase g) Run) && (w_thread w >? 1) = false ->
  let '(m, e) := until_error (w_result w) (c_trace c) (flat_map (calls_of (w_dim w)) (g_parts g)) in
  exists c', execs w (suite_group_code g (s_vars su)) c = (c', FNext) /\
    c_state c' = life_name (leads_to (g_phase g)) /\ alloc_ok su (leads_to (g_phase g)) c' /\
    c_trace c' = c_trace c ++ m /\ c_err c' = e.
Proof.
  intros D U S A T.
  assert (EL : life_eqb (requires (g_phase g)) (requires (g_phase g)) = true) by now apply life_eqb_eq.
  destruct (until_error _ _ _) as [m e] eqn:EU.
  rewrite group_code_eq, !execs_app. unfold seq at 1. rewrite (pre_accept w g c _ S EL T).
  set (c0 := set_err c 0).
  (* allocations *)
  assert (HA : exists c1, execs w (if alloc_flag (g_phase g) then map SAllocate (group_vars (g_phase g) (s_vars su)) else []) c0 = (c1, FNext)
     /\ c_state c1 = c_state c0 /\ c_err c1 = 0 /\ c_trace c1 = c_trace c /\
     forall y, c_alloc c1 y = true <-> c_alloc c y = true \/ (alloc_flag (g_phase g) = true /\ In y (group_vars (g_phase g) (s_vars su)))).
  { destruct (alloc_flag (g_phase g)) eqn:EF.
    - destruct (allocs_ok w (group_vars (g_phase g) (s_vars su)) c0) as (c1 & E & X1 & X2 & X3 & X4).
      + now apply group_vars_nodup.
      + intros x Hx. simpl. eapply alloc_before; eauto.
      + exists c1. repeat split; auto.
        * intros H. apply X4 in H as [H|H]; auto.
        * intros [H|[_ H]]; apply X4; auto.
    - exists c0. simpl. repeat split; auto. intros [H|[H _]]; [auto|discriminate]. }
  destruct HA as (c1 & E1 & X1 & X2 & X3 & X4).
  rewrite execs_app. unfold seq at 1. rewrite E1.
  rewrite execs_app. unfold seq at 1.
  rewrite (parts_run w (g_parts g) U c1), X2, X3. cbn [Z.eqb]. rewrite EU.
  set (c2 := mkCap (c_state c1) (c_alloc c1) e (c_trace c ++ m)).
  (* deallocations *)
  assert (HD : exists c3, execs w (if dealloc_flag (g_phase g) then map SDeallocate (group_vars (g_phase g) (s_vars su)) else []) c2 = (c3, FNext)
     /\ c_state c3 = c_state c2 /\ c_err c3 = e /\ c_trace c3 = c_trace c2 /\
     forall y, c_alloc c3 y = true <-> c_alloc c1 y = true /\ (dealloc_flag (g_phase g) = true -> ~ In y (group_vars (g_phase g) (s_vars su)))).
  { destruct (dealloc_flag (g_phase g)) eqn:EF.
    - destruct (deallocs_ok w (group_vars (g_phase g) (s_vars su)) c2) as (c3 & E & Y1 & Y2 & Y3 & Y4).
      + now apply group_vars_nodup.
      + intros x Hx. simpl. apply X4. left. eapply dealloc_before; eauto.
      + exists c3. repeat split; auto.
        * apply Y4 in H as [H _]; auto.
        * intros _. apply Y4 in H as [_ H]; auto.
        * intros [H1 H2]. apply Y4. auto.
    - exists c2. simpl. repeat split; auto; try discriminate. tauto. }
  destruct HD as (c3 & E3 & Y1 & Y2 & Y3 & Y4).
  rewrite execs_app. unfold seq at 1. rewrite E3.
  destruct (set_state_exec w (g_phase g) c3) as (c4 & E4 & F1 & F2 & F3 & F4).
  exists c4. split; [exact E4|]. split; [apply F1; rewrite Y1; simpl; rewrite X1; exact S|].
  split; [|split; [rewrite F4, Y3; reflexivity|rewrite F3; exact Y2]].
  intros x. rewrite F2. rewrite Y4, X4.
  destruct (g_phase g) eqn:EP; cbn [alloc_flag dealloc_flag] in *.
  - (* Register *) rewrite (A x). simpl. split; [intros [[H|[H _]] _]; [exact H|discriminate]|].
    intros H. split; auto. discriminate.
  - (* Initialize *) rewrite (A x). simpl. rewrite in_group_vars. simpl. split.
    + intros [[(v & I1 & I2 & I3 & I4)|[_ (v & I1 & I2 & I3 & I4)]] _].
      * exfalso. destruct (sv_persist v); congruence.
      * exists v. repeat split; auto. rewrite I4. discriminate.
    + intros (v & I1 & I2 & I3 & I4). split; [|discriminate]. right. split; auto. exists v.
      repeat split; auto. destruct (sv_persist v); [discriminate|reflexivity].
  - (* TimestepInitial *) rewrite (A x). simpl. rewrite in_group_vars. simpl. split.
    + intros [[(v & I1 & I2 & I3 & I4)|[_ (v & I1 & I2 & I3 & I4)]] _].
      * exists v. repeat split; auto. destruct (sv_persist v); congruence.
      * exists v. repeat split; auto. rewrite I4. reflexivity.
    + intros (v & I1 & I2 & I3 & I4). split; [|discriminate].
      destruct (sv_persist v) eqn:EV.
      * right. split; auto. exists v. auto.
      * left. exists v. rewrite EV. repeat split; auto. discriminate.
  - (* Run *) rewrite (A x). simpl. split; [intros [[H|[H _]] _]; [exact H|discriminate]|].
    intros H. split; auto. discriminate.
  - (* TimestepFinal *) rewrite (A x). simpl. split.
    + intros [[(v & I1 & I2 & I3 & I4)|[H _]] N]; [|discriminate]. specialize (N eq_refl).
      exists v. repeat split; auto. destruct (sv_persist v) eqn:EV; [|discriminate].
      exfalso. apply N. apply in_group_vars. exists v. auto.
    + intros (v & I1 & I2 & I3 & I4). destruct (sv_persist v) eqn:EV; [discriminate|]. split.
      * left. exists v. rewrite EV. repeat split; auto. discriminate.
      * intros _ H. apply in_group_vars in H as (v2 & J1 & J2 & J3 & J4).
        assert (v2 = v) by (eapply var_unique; eauto; congruence). subst v2. simpl in J4. congruence.
  - (* Finalize *) rewrite (A x). simpl. split.
    + intros [[(v & I1 & I2 & I3 & I4)|[H _]] N]; [|discriminate]. specialize (N eq_refl).
      exfalso. apply N. apply in_group_vars. exists v. repeat split; auto.
      destruct (sv_persist v) eqn:EV; [discriminate|reflexivity].
    + intros (v & I1 & I2 & I3 & I4). exfalso. destruct (sv_persist v); congruence.
Qed.

(* ---- the host ---- *)
Lemma find_suite_go n : forall l i j su,
  (fix go (i : nat) (l : list suite) :=
     match l with
     | [] => None
     | su :: r => if feqb n (s_name su) then Some (i, su) else go (S i) r
     end) i l = Some (j, su) -> exists k, j = (i + k)%nat /\ nth_error l k = Some su.
Proof.
  induction l as [|x l IH]; intros i j su H; [discriminate|].
  destruct (feqb n (s_name x)).
  - injection H as <- <-. exists 0%nat. split; [lia|reflexivity].
  - apply IH in H as (k & E & N). exists (S k). split; [lia|exact N].
Qed.

Lemma find_suite_spec sus n :
  match find_suite sus n with
  | Some (i, su) => nth_error sus i = Some su /\ rtrim n = rtrim (s_name su) /\
      forall j sj, (j < i)%nat -> nth_error sus j = Some sj -> rtrim n <> rtrim (s_name sj)
  | None => forall su, In su sus -> rtrim n <> rtrim (s_name su)
  end.
Proof.
  unfold find_suite.
  assert (G : forall l i0, match (fix go (i : nat) (l : list suite) : option (nat * suite) :=
      match l with [] => None | su :: r => if feqb n (s_name su) then Some (i, su) else go (S i) r end) i0 l with
    | Some (i, su) => exists k, i = (i0 + k)%nat /\ nth_error l k = Some su /\ rtrim n = rtrim (s_name su) /\
        forall j sj, (j < k)%nat -> nth_error l j = Some sj -> rtrim n <> rtrim (s_name sj)
    | None => forall su, In su l -> rtrim n <> rtrim (s_name su) end).
  { induction l as [|su l IH]; intros i0; [intros su []|].
    destruct (feqb n (s_name su)) eqn:E.
    - exists 0%nat. split; [lia|]. split; [reflexivity|]. split; [now apply feqb_spec|]. intros; lia.
    - apply feqb_false in E. specialize (IH (S i0)).
      match goal with |- match ?x with _ => _ end => destruct x as [[i s]|] end.
      + destruct IH as (k & -> & N & EQ & B). exists (S k). split; [lia|]. split; [exact N|]. split; [exact EQ|].
        intros [|j] sj L X; [cbn in X; congruence|]. apply (B j); [lia|exact X].
      + intros s [<-|I]; auto. }
  specialize (G sus 0%nat).
  match goal with |- match ?x with _ => _ end => destruct x as [[i s]|] end; [|exact G].
  destruct G as (k & -> & G). exact G.
Qed.
Lemma find_suite_nth sus n i su : find_suite sus n = Some (i, su) -> nth_error sus i = Some su.
Proof. intros H. apply find_suite_go in H as (k & E & N). simpl in E. now subst. Qed.

Lemma find_part_in su p n g : find_part su p n = Some g -> In g (s_groups su) /\ g_phase g = p.
Proof.
  intros H. apply find_some in H as [H1 H2]. split; auto. apply andb_prop in H2 as [H2 _].
  destruct (g_phase g), p; simpl in H2; congruence.
Qed.

Lemma hupd_same {A} (f : nat -> A) i x : hupd f i x i = x.
Proof. unfold hupd. now rewrite Nat.eqb_refl. Qed.
Lemma hupd_other {A} (f : nat -> A) i j x : i <> j -> hupd f i x j = f j.
Proof. intros H. unfold hupd. destruct (Nat.eqb_spec i j); congruence. Qed.

Definition good_suites (sus : list suite) : Prop :=
  forall su, In su sus -> unchecked_suite su = true /\ distinct_vars su.

Definition host_rel (sus : list suite) (h : host) (L : nat -> life) : Prop :=
  forall i, c_state (h_caps h i) = life_name (L i) /\
    forall su, nth_error sus i = Some su -> alloc_ok su (L i) (h_caps h i).

Lemma host_rel_new sus : host_rel sus host_new (fun _ => Uninit).
Proof.
  intros i. split; [reflexivity|]. intros su _ x. simpl. split; [discriminate|].
  intros (v & _ & _ & _ & H). destruct (sv_persist v); congruence.
Qed.

(* what one host call does, for suites without checks *)
Definition step_spec (sus : list suite) (h : host) (L : nat -> life) (k : hcall) : Prop :=
  let '(h', e, ab) := host_step sus h k in
  (ab = true -> exists i g su, addressed sus k = Some (i, g, su) /\ k_phase k = Register /\ h_dyn h i = true) /\
  match addressed sus k with
  | None => h' = h /\ e = 1
  | Some (i, g, su) =>
      (forall j, j <> i -> h_caps h' j = h_caps h j /\ h_dyn h' j = h_dyn h j) /\
      (h_dyn h' i = h_dyn h i \/ (k_phase k = Register /\ h_dyn h' i = true)) /\
      if life_eqb (L i) (requires (k_phase k)) && negb (thread_refused k) then
        let '(m, e') := until_error (w_result (k_world k)) (c_trace (h_caps h i))
                          (flat_map (calls_of (w_dim (k_world k))) (g_parts g)) in
        e = e' /\ c_trace (h_caps h' i) = c_trace (h_caps h i) ++ m
      else e = 1 /\ h_dyn h' = h_dyn h /\ h_caps h' i = set_err (h_caps h i) 1
  end.

Lemma host_step_ok sus h L k : good_suites sus -> host_rel sus h L ->
  step_spec sus h L k /\ host_rel sus (fst (fst (host_step sus h k))) (life_step sus L k).
Proof.
  intros G R. unfold step_spec, host_step, life_step, addressed.
  destruct (find_suite sus (k_suite k)) as [[i su]|] eqn:ES; [|split; [split; [discriminate|auto]|exact R]].
  destruct (find_part su (k_phase k) (k_part k)) as [g|] eqn:EP; [|split; [split; [discriminate|auto]|exact R]].
  pose proof (find_suite_nth _ _ _ _ ES) as NS.
  destruct (find_part_in _ _ _ _ EP) as [IG PG].
  destruct (G su (nth_error_In _ _ NS)) as [GU GD].
  assert (UG : unchecked_group g = true).
  { unfold unchecked_suite in GU. rewrite forallb_forall in GU. auto. }
  destruct (R i) as [RS RA]. specialize (RA _ NS).
  destruct (life_eqb (L i) (requires (k_phase k)) && negb (thread_refused k)) eqn:EA.
  - apply andb_prop in EA as [EL ET]. apply negb_true_iff in ET. unfold thread_refused in ET.
    apply life_eqb_eq in EL. rewrite EL in RS, RA. rewrite <- PG in ET, RS, RA.
    pose proof (group_accept (k_world k) g su (h_caps h i) GD UG RS RA ET) as GA.
    destruct (until_error _ _ _) as [m e'] eqn:EU.
    destruct GA as (c' & E & S' & A' & T' & Er). rewrite E.
    assert (NR : forall dy, host_rel sus (mkHost (hupd (h_caps h) i c') dy) (hupd L i (leads_to (k_phase k)))).
    { intros dy j. simpl. destruct (Nat.eq_dec i j) as [<-|N].
      - rewrite !hupd_same. rewrite <- PG. split; auto. intros su' Hs. rewrite NS in Hs. injection Hs as <-. exact A'.
      - rewrite !hupd_other by exact N. apply R. }
    assert (FR : forall j, j <> i -> hupd (h_caps h) i c' j = h_caps h j) by (intros; apply hupd_other; auto).
    destruct (k_phase k) eqn:EK.
    + destruct (c_err c' =? 0) eqn:E0.
      * destruct (h_dyn h i) eqn:ED; simpl.
        -- split; [|apply NR]. repeat split; auto; try congruence.
           ++ intros _. exists i, g, su. auto.
           ++ apply Z.eqb_eq in E0. congruence.
           ++ now rewrite hupd_same.
        -- split; [|apply NR]. repeat split; auto; try discriminate.
           ++ rewrite hupd_other; auto.
           ++ right. split; auto. now rewrite hupd_same.
           ++ apply Z.eqb_eq in E0. congruence.
           ++ now rewrite hupd_same.
      * simpl. split; [|apply NR]. repeat split; auto; try discriminate. now rewrite hupd_same.
    + simpl. split; [|apply NR]. repeat split; auto; try discriminate. now rewrite hupd_same.
    + simpl. split; [|apply NR]. repeat split; auto; try discriminate. now rewrite hupd_same.
    + simpl. split; [|apply NR]. repeat split; auto; try discriminate. now rewrite hupd_same.
    + simpl. split; [|apply NR]. repeat split; auto; try discriminate. now rewrite hupd_same.
    + simpl. split; [|apply NR]. repeat split; auto; try discriminate. now rewrite hupd_same.
  - assert (HR : life_eqb (L i) (requires (g_phase g)) = false \/
       negb (phase_eqb (g_phase g) Run) && (w_thread (k_world k) >? 1) = true).
    { rewrite PG. apply andb_false_iff in EA as [EA|EA]; auto. right.
      apply negb_false_iff in EA. exact EA. }
    rewrite (group_reject (k_world k) g (s_vars su) (h_caps h i) (L i) RS HR).
    assert (NR : host_rel sus (mkHost (hupd (h_caps h) i (set_err (h_caps h i) 1)) (h_dyn h)) L).
    { intros j. simpl. destruct (Nat.eq_dec i j) as [<-|N].
      - rewrite !hupd_same. split; [exact RS|]. intros su' Hs. rewrite NS in Hs. injection Hs as <-. exact RA.
      - rewrite !hupd_other by exact N. apply R. }
    assert (FR : forall j, j <> i -> hupd (h_caps h) i (set_err (h_caps h i) 1) j = h_caps h j)
      by (intros; apply hupd_other; auto).
    destruct (k_phase k) eqn:EK; simpl; (split; [|apply NR]);
      repeat split; auto; try discriminate; now rewrite hupd_same.
Qed.

Lemma host_run_rel sus ks : good_suites sus -> forall h L, host_rel sus h L ->
  let '(h', es, ab) := host_run sus h ks in
  ab = false -> host_rel sus h' (fold_left (life_step sus) ks L).
Proof.
  intros G. induction ks as [|k ks IH]; intros h L R; [simpl; auto|].
  cbn [host_run]. destruct (host_step_ok sus h L k G R) as [S1 S2].
  unfold step_spec in S1. destruct (host_step sus h k) as [[h1 e1] ab1]. cbn [fst] in S2.
  destruct ab1; [discriminate|].
  specialize (IH h1 _ S2). destruct (host_run sus h1 ks) as [[h2 es] ab2]. exact IH.
Qed.

(* no abort when suites are registered at most once *)
Lemma host_run_noabort sus ks : good_suites sus -> forall h L done,
  host_rel sus h L ->
  (forall i, h_dyn h i = true -> In (Some i) done) ->
  NoDup (done ++ map (fun k => option_map fst (find_suite sus (k_suite k))) (List.filter is_register ks)) ->
  snd (host_run sus h ks) = false.
Proof.
  intros G. induction ks as [|k ks IH]; intros h L done R D N; [reflexivity|].
  cbn [host_run]. destruct (host_step_ok sus h L k G R) as [S1 S2].
  unfold step_spec in S1. destruct (host_step sus h k) as [[h1 e1] ab1] eqn:EH. cbn [fst] in S2.
  destruct S1 as [SA SB].
  assert (NA : ab1 = false).
  { destruct ab1; auto. destruct (SA eq_refl) as (i & g & su & E1 & E2 & E3).
    specialize (D _ E3). cbn [List.filter] in N. unfold is_register at 1 in N. rewrite E2 in N. cbn [phase_eqb map] in N.
    unfold addressed in E1. destruct (find_suite sus (k_suite k)) as [[i' su']|] eqn:EF; [|discriminate].
    destruct (find_part su' (k_phase k) (k_part k)); [|discriminate]. injection E1 as -> -> ->.
    cbn [option_map fst] in N. apply NoDup_remove_2 in N. exfalso. apply N. apply in_or_app. auto. }
  subst ab1.
  assert (D' : forall i, h_dyn h1 i = true ->
     In (Some i) (done ++ (if is_register k then [option_map fst (find_suite sus (k_suite k))] else []))).
  { intros i Hi. apply in_or_app. unfold addressed in SB.
    destruct (find_suite sus (k_suite k)) as [[i' su']|] eqn:EF.
    - destruct (find_part su' (k_phase k) (k_part k)).
      + destruct SB as (B1 & B2 & _). destruct (Nat.eq_dec i i') as [->|NE].
        * destruct B2 as [B2|[B2 _]]; [left; apply D; congruence|].
          right. unfold is_register. rewrite B2. simpl. auto.
        * left. apply D. destruct (B1 i NE) as [_ B]. congruence.
      + destruct SB as [-> _]. auto.
    - destruct SB as [-> _]. auto. }
  assert (N' : NoDup ((done ++ (if is_register k then [option_map fst (find_suite sus (k_suite k))] else []))
     ++ map (fun k => option_map fst (find_suite sus (k_suite k))) (List.filter is_register ks))).
  { cbn [List.filter] in N. destruct (is_register k); [|now rewrite app_nil_r].
    rewrite <- app_assoc. exact N. }
  specialize (IH h1 _ _ S2 D' N').
  destruct (host_run sus h1 ks) as [[h2 es] ab2]. exact IH.
Qed.

(* suites of any kind: states are life cycle states; a call in a wrong state has no effect *)
Definition life_rel (h : host) (L : nat -> life) : Prop := forall i, c_state (h_caps h i) = life_name (L i).

Lemma host_step_any sus h L k : life_rel h L ->
  let '(h', e, ab) := host_step sus h k in
  (exists L', life_rel h' L' /\ forall i, L' i = L i \/
     (exists g su, addressed sus k = Some (i, g, su) /\ L i = requires (k_phase k) /\
        thread_refused k = false /\ L' i = leads_to (k_phase k))) /\
  match addressed sus k with
  | None => h' = h /\ e = 1 /\ ab = false
  | Some (i, g, su) =>
      (forall j, j <> i -> h_caps h' j = h_caps h j /\ h_dyn h' j = h_dyn h j) /\
      (L i <> requires (k_phase k) \/ thread_refused k = true ->
        e = 1 /\ ab = false /\ h_dyn h' = h_dyn h /\ h_caps h' i = set_err (h_caps h i) 1)
  end.
Proof.
  intros R. unfold host_step, addressed.
  destruct (find_suite sus (k_suite k)) as [[i su]|] eqn:ES; [|simpl; repeat split; auto; exists L; auto].
  destruct (find_part su (k_phase k) (k_part k)) as [g|] eqn:EP; [|simpl; repeat split; auto; exists L; auto].
  destruct (find_part_in _ _ _ _ EP) as [IG PG].
  destruct (life_eqb (L i) (requires (k_phase k)) && negb (thread_refused k)) eqn:EA.
  - apply andb_prop in EA as [EL ET]. apply negb_true_iff in ET. apply life_eqb_eq in EL.
    pose proof (group_any (k_world k) g (s_vars su) (h_caps h i) (L i) (R i)) as GA.
    destruct (execs (k_world k) (suite_group_code g (s_vars su)) (h_caps h i)) as [c fl].
    destruct GA as (l' & Sc & Hl).
    assert (NL : forall dy, exists L', life_rel (mkHost (hupd (h_caps h) i c) dy) L' /\ forall j, L' j = L j \/
      (exists g0 su0, Some (i, g, su) = Some (j, g0, su0) /\ L j = requires (k_phase k) /\
        thread_refused k = false /\ L' j = leads_to (k_phase k))).
    { intros dy. exists (hupd L i l'). split.
      - intros j. simpl. destruct (Nat.eq_dec i j) as [<-|N]; [rewrite !hupd_same; exact Sc|rewrite !hupd_other by exact N; apply R].
      - intros j. destruct (Nat.eq_dec i j) as [<-|N]; [rewrite hupd_same|rewrite hupd_other by exact N; auto].
        destruct Hl as [->|[_ ->]]; auto. right. exists g, su. rewrite PG. auto. }
    assert (FR : forall j, j <> i -> hupd (h_caps h) i c j = h_caps h j) by (intros; apply hupd_other; auto).
    assert (NO : L i <> requires (k_phase k) \/ thread_refused k = true -> False) by (intros [X|X]; congruence).
    destruct fl.
    1,2: destruct (k_phase k) eqn:EK; try (split; [apply NL|split; [intros j Hj; split; [apply FR, Hj|reflexivity]|intros X; destruct (NO X)]]; fail);
      (destruct (c_err c =? 0); [destruct (h_dyn h i)|]);
      (split; [apply NL|split; [intros j Hj; split; [apply FR, Hj|try reflexivity; apply hupd_other; auto]|intros X; destruct (NO X)]]).
    split; [apply NL|split; [intros j Hj; split; [apply FR, Hj|reflexivity]|intros X; destruct (NO X)]].
  - assert (HR : life_eqb (L i) (requires (g_phase g)) = false \/
       negb (phase_eqb (g_phase g) Run) && (w_thread (k_world k) >? 1) = true).
    { rewrite PG. apply andb_false_iff in EA as [EA|EA]; auto. right.
      apply negb_false_iff in EA. exact EA. }
    rewrite (group_reject (k_world k) g (s_vars su) (h_caps h i) (L i) (R i) HR).
    assert (FR : forall j, j <> i -> hupd (h_caps h) i (set_err (h_caps h i) 1) j = h_caps h j)
      by (intros; apply hupd_other; auto).
    assert (NL : life_rel (mkHost (hupd (h_caps h) i (set_err (h_caps h i) 1)) (h_dyn h)) L).
    { intros j. simpl. destruct (Nat.eq_dec i j) as [<-|N]; [rewrite !hupd_same; apply R|rewrite !hupd_other by exact N; apply R]. }
    destruct (k_phase k) eqn:EK; cbn [set_err c_err Z.eqb];
      (split; [exists L; split; [exact NL|auto]|]); 
      (split; [intros j Hj; split; [apply FR, Hj|reflexivity]|]); intros _; repeat split; simpl; now rewrite hupd_same.
Qed.

Lemma host_run_any sus ks : forall h L, life_rel h L ->
  let '(h', _, _) := host_run sus h ks in exists L', life_rel h' L'.
Proof.
  induction ks as [|k ks IH]; intros h L R; [simpl; eauto|].
  cbn [host_run]. pose proof (host_step_any sus h L k R) as S.
  destruct (host_step sus h k) as [[h1 e1] ab1]. destruct S as [(L' & R' & _) _].
  destruct ab1; eauto.
  specialize (IH h1 L' R'). destruct (host_run sus h1 ks) as [[h2 es] ab2]. exact IH.
Qed.
