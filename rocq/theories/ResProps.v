(* ResProps.v: theorems C106-C112 on the sources of scheme arguments. *)
From Coq Require Import ZArith.
From Verif Require Import PyStr PyNum Base CompatModel ReqModel ReqProofs DictModel DictSpec DictProofs ResModel ResSpec ResProofs ResNames ResLoops ResMore.
Open Scope nat_scope.
Open Scope list_scope.

Definition host_ok (host : list hvar) : Prop := forall s, In s error_names -> provided host s.
Lemma final compat host sdf (P : list (nat * arg) -> st -> Prop) groups su so : host_ok host ->
  (forall dn x a x', inv host dn x -> P dn x -> astep compat host x a x' -> (mem (a_std a) loop_names = true -> g_run (s_cur x) = true) -> P (dn ++ [(kk x, a)]) x') ->
  (forall dn x scl, P dn x -> P dn (end_scheme x scl)) ->
  (forall dn x run, inv host dn x -> P dn x -> P dn (end_group x run)) ->
  (forall run, P [] (mkSt [] (new_group run) d_empty [] [])) ->
  suite_analyze compat host sdf = Ok (groups, su, so) ->
  exists x, inv host (in_order_args sdf) x /\ P (in_order_args sdf) x /\ su = s_suite x /\ length groups = length sdf /\
    (forall k g, nth_error groups k = Some g -> d_vars (g_dict g) = gd x k /\ d_vars (g_call g) = gc x k) /\
    (forall k g, nth_error groups k = Some g -> keys_ok (g_dict g) /\ keys_ok (g_call g)).
Proof.
  intros HE P1 P2 P3 P4 R.
  destruct (ind_suite compat host HE P P1 ltac:(auto) P3 sdf groups su so P4 R) as (x & I & PP & -> & -> & _ & _ & K).
  exists x. split; auto. split; auto. split; auto. split; [exact K|]. split; [|apply (i_past _ _ _ I)]. intros k g G. assert (LT : k < kk x) by (apply nth_error_Some; congruence).
  unfold gd, gc, pd, pc. destruct (Nat.eqb_spec k (kk x)); [lia|]. now rewrite G.
Qed.

Theorem C106_sources : forall compat host sdf groups suite_vars so,
  host_ok host -> suite_analyze compat host sdf = Ok (groups, suite_vars, so) ->
  length groups = length sdf /\
  forall k g, nth_error groups k = Some g ->
    (forall s, uses sdf k s -> s <> const_one ->
      (provided host s -> holds (g_call g) s /\ ~ holds (g_dict g) s /\ ~ holds suite_vars s) /\
      (~ provided host s -> ~ holds (g_call g) s) /\
      (~ provided host s -> In s loop_names -> holds (g_dict g) s /\ ~ holds suite_vars s) /\
      (~ provided host s -> ~ In s loop_names -> (forall k', uses sdf k' s -> k' = k) -> holds (g_dict g) s /\ ~ holds suite_vars s) /\
      (~ provided host s -> ~ In s loop_names -> (exists k', k' <> k /\ uses sdf k' s) -> ~ holds (g_dict g) s /\ holds suite_vars s)) /\
    (forall s, holds (g_dict g) s -> uses sdf k s) /\
    (forall s, holds (g_call g) s -> provided host s) /\
    (forall s, holds suite_vars s -> exists k1 k2, k1 <> k2 /\ uses sdf k1 s /\ uses sdf k2 s).
Proof.
  intros compat host sdf groups su so HE R.
  destruct (final compat host sdf (fun _ _ => True) groups su so HE (fun _ _ _ _ _ _ _ _ => Logic.I) (fun _ _ _ _ => Logic.I) (fun _ _ _ _ _ => Logic.I) (fun _ => Logic.I) R) as (x & I & _ & -> & LEN & G & GK).
  split; [exact LEN|]. intros k g K. destruct (G k g K) as [GD GC]. clear G.
  assert (HP : forall s, provided host s <-> host_find host s <> None).
  { intros s. rewrite host_find_some. destruct (host_find host s); split; [discriminate|eauto|intros [h ?]; discriminate|congruence]. }
  assert (HC : forall s, holds (g_call g) s -> host_find host s <> None). { intros s H. apply holds_get in H. rewrite GC in H. now apply (i_call _ _ _ I k). }
  assert (HD : forall s, holds (g_dict g) s -> host_find host s = None). { intros s H. apply holds_get in H. rewrite GD in H. now apply (i_loc _ _ _ I k). }
  assert (HS : forall s, holds (s_suite x) s -> host_find host s = None). { intros s H. apply holds_get in H. now apply (i_suite _ _ _ I). }
  assert (SRC : forall s, uses sdf k s -> s <> const_one -> holds (g_dict g) s \/ holds (g_call g) s \/ holds (s_suite x) s).
  { intros s U C. apply uses_usedD in U. rewrite !holds_get, GD, GC. now apply (i_src _ _ _ I). }
  assert (LN : forall s, In s loop_names <-> mem s loop_names = true) by (intros s; symmetry; apply mem_in).
  split; [|split; [|split]].
  - intros s U C. destruct (SRC s U C) as [D|[D|D]].
    + pose proof (HD s D) as N. split; [intros Q; apply HP in Q; congruence|]. split; [intros _ Q; apply HC in Q; congruence|].
      split; [|split].
      * intros _ Q. split; auto. intros V. apply holds_get in V. apply (i_suite _ _ _ I) in V as (_ & _ & V & _). apply LN in Q. congruence.
      * intros _ Q _. split; auto. intros V. apply holds_get in V. apply holds_get in D. rewrite GD in D.
        destruct (i_only _ _ _ I k s D) as [O _]; [|unfold sv in O; congruence]. destruct (mem s loop_names) eqn:M; auto. apply LN in M. contradiction.
      * intros _ Q (k' & K' & U'). exfalso. apply K'. apply holds_get in D. rewrite GD in D. apply uses_usedD in U'.
        destruct (i_only _ _ _ I k s D) as [_ O]; [|auto]. destruct (mem s loop_names) eqn:M; auto. apply LN in M. contradiction.
    + pose proof (HC s D) as N. split; [|split; [|split; [|split]]]; try (intros Q; exfalso; apply Q; now apply HP).
      intros _. split; [exact D|]. split; intros Q; [apply HD in Q|apply HS in Q]; congruence.
    + pose proof (HS s D) as N. pose proof D as D'. apply holds_get in D'. destruct (i_suite _ _ _ I s D') as (_ & _ & NL & k1 & k2 & K12 & U1 & U2).
      split; [intros Q; apply HP in Q; congruence|]. split; [intros _ Q; apply HC in Q; congruence|].
      split; [intros _ Q; apply LN in Q; congruence|]. apply uses_usedD in U1, U2. split.
      * intros _ _ O. apply O in U1, U2. congruence.
      * intros _ _ _. split; auto. intros V. apply holds_get in V. rewrite GD in V. destruct (i_only _ _ _ I k s V NL) as [O _]. unfold sv in O. congruence.
  - intros s H. apply holds_get in H. rewrite GD in H. apply uses_usedD. now apply (i_loc _ _ _ I k).
  - intros s H. apply HP. auto.
  - intros s H. apply holds_get in H. destruct (i_suite _ _ _ I s H) as (_ & _ & _ & k1 & k2 & K12 & U1 & U2). exists k1, k2. rewrite !uses_usedD. auto.
Qed.
Print Assumptions C106_sources.

(* when the group is written every argument of every call finds its actual argument *)
Lemma actuals_ok g su so l : (forall s v, In (s, v) l -> s <> const_one -> x_std v = s /\ lookup g su so s <> None) -> exists r, actuals g su so l = Ok r.
Proof.
  induction l as [|[s v] l IH]; intros H; cbn [actuals]; [eauto|].
  destruct IH as [r R]; [intros; apply H; auto; now right|]. destruct (str_eqb s const_one) eqn:C; [eauto|]. apply str_eqb_neq in C.
  destruct (H s v (or_introl eq_refl) C) as [E N]. unfold actual. rewrite E, R. destruct (lookup g su so s) as [[d o]|]; [cbn [bind]; eauto|congruence].
Qed.
Theorem C106_calls_resolve : forall compat host sdf groups suite_vars so,
  host_ok host -> suite_analyze compat host sdf = Ok (groups, suite_vars, so) ->
  forall k g run schemes, nth_error groups k = Some g -> nth_error sdf k = Some (run, schemes) ->
    length (g_schemes g) = length schemes /\
    forall scl, In scl (g_schemes g) -> exists text, call_string g suite_vars so scl = Ok text.
Proof.
  intros compat host sdf groups su so HE R k g run schemes K N.
  pose proof (groups_gs compat host HE sdf [] (mkSt [] (new_group true) d_empty [] []) groups su so (inv_start host HE true) (ex_intro _ true eq_refl) R) as [_ B].
  specialize (B k run schemes N). cbn [kk s_past length Nat.add] in B. unfold ps in B. rewrite K in B.
  split. { symmetry. clear -B. induction B; cbn; auto. }
  intros scl I. unfold call_string. destruct (actuals_ok g su so (d_vars scl)) as [r Q]; [|rewrite Q; cbn [bind]; eauto].
  assert (Q : exists sch, In sch schemes /\ added compat d_empty sch scl).
  { clear -B I. induction B as [|a b l l' H1 H2 IH]; [destruct I|]. destruct I as [<-|I]; [exists a; split; [now left|auto]|]. destruct (IH I) as (c & C1 & C2). exists c. split; [now right|auto]. }
  destruct Q as (sch & I1 & AD). intros s v H C.
  assert (KO : keys_ok scl).
  { assert (G : forall l d, keys_ok d -> added compat d l scl -> keys_ok scl).
    { clear. induction l as [|a l IH]; intros d KO A; inversion A as [|? ? e d' ? ? AV A']; subst; auto. apply (IH d'); auto.
      pose proof (keys_step compat d (Add (with_intent (a_var a)) e false true) KO) as S1. cbn [step] in S1. now rewrite AV in S1. }
    apply (G sch d_empty); auto. split; [constructor|intros ? ? []]. }
  split; [now apply KO|]. destruct (added_in _ _ _ _ AD s v H) as [(w & [])|(a & A1 & A2)].
  assert (U : uses sdf k s) by (exists run, schemes, sch, a; auto).
  destruct (C106_sources compat host sdf groups su so HE R) as [_ S1]. destruct (S1 k g K) as (S2 & _). specialize (S2 s U C).
  destruct (final compat host sdf (fun _ _ => True) groups su so HE (fun _ _ _ _ _ _ _ _ => Logic.I) (fun _ _ _ _ => Logic.I) (fun _ _ _ _ _ => Logic.I) (fun _ => Logic.I) R) as (x & IV & _ & -> & LEN & G & GK).
  destruct (G k g K) as [GD GC]. apply uses_usedD in U. pose proof (i_src _ _ _ IV k s U C) as SR. rewrite <- GD, <- GC in SR. unfold sv in SR.
  unfold lookup. destruct (get s (d_vars (g_dict g))); [discriminate|]. destruct (get s (d_vars (g_call g))); [discriminate|]. destruct (get s (d_vars (s_suite x))); [discriminate|].
  destruct SR as [SR|[SR|SR]]; congruence.
Qed.
Print Assumptions C106_calls_resolve.

(* non-trivial case *)
Definition hv (s l : string) : hvar := mkHV (mkV (L s) (L l) None false) true.
Definition ar (s l : string) (i : intent) : arg := mkArg (mkV (L s) (L l) (Some i) false) false false.
Definition host1 : list hvar := [hv "ccpp_error_code" "errflg"; hv "ccpp_error_message" "errmsg"; hv "temperature" "t"; hv "horizontal_loop_begin" "ib"; hv "horizontal_loop_end" "ie"].
Definition errs : list arg := [ar "ccpp_error_code" "errflg" Out_; ar "ccpp_error_message" "errmsg" Out_].
Definition sdf1 : suite :=
  [(true, [[ar "horizontal_loop_extent" "ncol" In_; ar "temperature" "temp" In_; ar "shared" "sh" Out_; ar "tmp" "w" Out_] ++ errs;
           [ar "tmp" "w" In_; ar "temperature" "t" Out_] ++ errs]);
   (true, [[ar "shared" "sh2" InOut_; ar "temperature" "tt" In_] ++ errs])].
Example C106_example : host_ok host1 /\ exists groups su so, suite_analyze (fun _ _ => true) host1 sdf1 = Ok (groups, su, so) /\
  map (fun g => (map fst (d_vars (g_dict g)), map fst (d_vars (g_call g)))) groups =
    [([L "horizontal_loop_extent"; L "tmp"], [L "ccpp_error_code"; L "ccpp_error_message"; L "horizontal_loop_begin"; L "horizontal_loop_end"; L "temperature"]);
     ([], [L "ccpp_error_code"; L "ccpp_error_message"; L "temperature"])] /\ map fst (d_vars su) = [L "shared"].
Proof.
  split; [intros s [<-|[<-|[]]]; [exists (hv "ccpp_error_code" "errflg")|exists (hv "ccpp_error_message" "errmsg")]; cbn; auto|].
  do 3 eexists. split; [vm_compute; reflexivity|]. split; vm_compute; reflexivity.
Qed.

Theorem C107_defined_before_use : forall compat host sdf groups suite_vars so,
  host_ok host -> suite_analyze compat host sdf = Ok (groups, suite_vars, so) ->
  forall k s, uses sdf k s -> s <> const_one -> ~ provided host s -> ~ In s loop_names -> ~ In s (map fst loop_substs) ->
  exists before j a after, in_order_args sdf = before ++ (j, a) :: after /\ a_std a = s /\
    (x_intent (a_var a) = Some Out_ \/ a_default a = true) /\
    forall j' a', In (j', a') before -> a_std a' <> s.
Proof.
  intros compat host sdf groups su so HE R k s U C NP NL NS.
  destruct (final compat host sdf (Pfirst host) groups su so HE) as (x & I & P & _); auto.
  - intros. eapply Pfirst_arg; eauto.
  - intros run j t (a & [] & _).
  - apply uses_usedD in U. apply (P k s U C); [now apply host_find_none| |now apply get_none].
    destruct (mem s loop_names) eqn:M; auto. apply mem_in in M. contradiction.
Qed.
Print Assumptions C107_defined_before_use.

Theorem C108_dummy_intents : forall compat host sdf groups suite_vars so,
  host_ok host -> suite_analyze compat host sdf = Ok (groups, suite_vars, so) ->
  forall k g run schemes s v, nth_error groups k = Some g -> nth_error sdf k = Some (run, schemes) ->
    In (s, v) (d_vars (g_call g)) -> ~ In s loop_names ->
  exists i, x_intent v = Some i /\
    (In s error_names -> merged_intent (Out_ :: map intent_of (List.filter (fun a => str_eqb (a_std a) s) (List.concat schemes))) i) /\
    (~ In s error_names -> merged_intent (map intent_of (List.filter (fun a => str_eqb (a_std a) s) (List.concat schemes))) i).
Proof.
  intros compat host sdf groups su so HE R k g run schemes s v K N IN NL.
  destruct (final compat host sdf Pint groups su so HE) as (x & I & P & _ & _ & G & GK); auto.
  - intros. eapply Pint_arg; eauto.
  - intros. now apply (Pint_group host).
  - apply Pint_start.
  - destruct (G k g K) as [GD GC].
    pose proof (proj2 (GK k g K)) as KC.
    apply (in_get _ _ _ (proj1 KC)) in IN. rewrite GC in IN. destruct P as [P _].
    destruct (P k s v IN) as (i & X & MI). { destruct (mem s loop_names) eqn:M; auto. apply mem_in in M. contradiction. }
    exists i. split; auto. change (in_order_args sdf) with (args_from 0 sdf) in MI. change k with (0 + k) in MI. rewrite uses_of_args, N in MI. unfold base in MI.
    split; intros E.
    + now rewrite (proj2 (mem_in _ _) E) in MI.
    + destruct (mem s error_names) eqn:M; [apply mem_in in M; contradiction|exact MI].
Qed.
Print Assumptions C108_dummy_intents.

Example C107_example : forall k s, uses sdf1 k s -> s = L "tmp" -> s <> const_one /\ ~ provided host1 s /\ ~ In s loop_names /\ ~ In s (map fst loop_substs).
Proof.
  intros k s _ ->. split; [vm_compute; discriminate|]. split; [intros (h & H & E); vm_compute in H; destruct H as [<-|[<-|[<-|[<-|[<-|[]]]]]]; vm_compute in E; discriminate|].
  split; vm_compute; intuition discriminate.
Qed.
Example C107_example_uses : uses sdf1 0 (L "tmp").
Proof. eexists true, _, _, (ar "tmp" "w" In_). split; [reflexivity|]. split; [right; left; reflexivity|]. split; [left; reflexivity|reflexivity]. Qed.
Example C107_example_undefined : exists e, suite_analyze (fun _ _ => true) host1 [(true, [[ar "tmp" "w" In_] ++ errs; [ar "tmp" "w" Out_] ++ errs])] = Raise e.
Proof. eexists. vm_compute. reflexivity. Qed.

(* the converse: such a suite is accepted *)
Theorem C107_defined_suffices : forall compat host sdf,
  host_ok host -> (forall v w, compat v w = true) -> names_agree sdf -> loops_provided host sdf -> phases_ok sdf -> active_ok host sdf ->
  (forall run schemes sch, In (run, schemes) sdf -> In sch schemes -> header_ok sch) ->
  (forall j a, In (j, a) (in_order_args sdf) -> a_std a <> const_one /\ x_prot (a_var a) = false /\ length (x_local (a_var a)) <= 63) ->
  length (in_order_args sdf) <= 10 ^ 50 ->
  defined_first host sdf ->
  exists r, suite_analyze compat host sdf = Ok r.
Proof.
  intros compat host sdf HE CT (N1 & N2 & N3) LP PH AC HO PL NUM DF. unfold suite_analyze.
  set (isrun := fun j => match nth_error sdf j with Some (r, _) => r | None => false end).
  assert (CS : consistent (in_order_args sdf)).
  { split; [exact N1|]. intros j a l s I [[= <- <-]|[[= <- <-]|[]]] E; [eapply N2; eauto|eapply N3; eauto]. }
  change (exists r, groups_analyze compat host (s_past (mkSt [] (new_group true) d_empty [] [])) (s_suite (mkSt [] (new_group true) d_empty [] [])) (s_sopt (mkSt [] (new_group true) d_empty [] []))
    (s_gvars (mkSt [] (new_group true) d_empty [] [])) sdf = Ok r).
  apply (groups_total compat host (in_order_args sdf) isrun CT CS) with (dn := []).
  - intros j a I. apply (PL j a I).
  - intros j a I. apply (PL j a I).
  - intros j a I. apply (PL j a I).
  - exact NUM.
  - exact AC.
  - intros j a I L0. split; [apply (LP j a I); apply in_app_iff; left; exact L0|].
    destruct (PH j (a_std a)) as (sc & E); [apply uses_usedD; exists a; split; [exact I|reflexivity]|exact L0|]. unfold isrun. now rewrite E.
  - intros j a I L0. apply (LP j a I). apply in_app_iff. right. exact L0.
  - exact DF.
  - exact HE.
  - now apply inv_start.
  - intros run. apply Pname_start.
  - now exists true.
  - reflexivity.
  - intros i run schemes E. unfold isrun. cbn [kk s_past length Nat.add]. now rewrite E.
  - intros run schemes sch I1 I2. apply (HO run schemes sch I1 I2).
Qed.
Print Assumptions C107_defined_suffices.
Definition sdf2 : suite := [(true, [[ar "tmp" "w" Out_; ar "temperature" "t" In_]; [ar "tmp" "W" In_]])].
Lemma sdf2_args : in_order_args sdf2 = [(0, ar "tmp" "w" Out_); (0, ar "temperature" "t" In_); (0, ar "tmp" "W" In_)].
Proof. reflexivity. Qed.
Ltac each H := rewrite sdf2_args in H; destruct H as [[= <- <-]|[[= <- <-]|[[= <- <-]|[]]]].
Example C107_example_suffices : host_ok host1 /\ names_agree sdf2 /\ loops_provided host1 sdf2 /\ phases_ok sdf2 /\ active_ok host1 sdf2 /\
  (forall run schemes sch, In (run, schemes) sdf2 -> In sch schemes -> header_ok sch) /\
  (forall j a, In (j, a) (in_order_args sdf2) -> a_std a <> const_one /\ x_prot (a_var a) = false /\ length (x_local (a_var a)) <= 63) /\
  length (in_order_args sdf2) <= 10 ^ 50 /\ defined_first host1 sdf2.
Proof.
  split; [apply C106_example|]. split; [|split; [|split; [|split; [|split; [|split; [|split]]]]]].
  - split; [|split].
    + intros j a j' b H1 H2. each H1; each H2; vm_compute; congruence.
    + intros j a H. each H; vm_compute; congruence.
    + intros j a H. each H; vm_compute; congruence.
  - intros j a H. each H; intros K; exfalso; vm_compute in K; intuition discriminate.
  - intros k s U K. exfalso. apply uses_usedD in U as (a & H & <-). each H; vm_compute in K; intuition discriminate.
  - intros j a h _ H _. vm_compute in H. destruct H as [<-|[<-|[<-|[<-|[<-|[]]]]]]; left; reflexivity.
  - intros run schemes sch [[= <- <-]|[]] [<-|[<-|[]]]; (split; [repeat constructor; vm_compute; intuition discriminate|repeat constructor; vm_compute; intuition discriminate]).
  - intros j a H. each H; (split; [vm_compute; discriminate|split; [reflexivity|vm_compute; lia]]).
  - rewrite sdf2_args. cbn [length]. apply (Nat.le_trans _ (10 ^ 1)); [vm_compute; lia|]. apply Nat.pow_le_mono_r; [discriminate|lia].
  - intros before j a after E. rewrite sdf2_args in E. destruct before as [|p [|q [|r [|u before]]]]; cbn [app] in E.
    + injection E as <- <- _. intros _ _. left. reflexivity.
    + injection E as _ <- <- _. intros N _. exfalso. apply N. exists (hv "temperature" "t"). split; [cbn; auto|reflexivity].
    + injection E as <- _ <- <- _. intros _ N. exfalso. apply (N 0 (ar "tmp" "w" Out_)); [left; reflexivity|reflexivity].
    + discriminate.
    + discriminate.
Qed.

Example C108_example : exists groups su so, suite_analyze (fun _ _ => true) host1 sdf1 = Ok (groups, su, so) /\
  map (fun g => map (fun kv => (fst kv, x_intent (snd kv))) (d_vars (g_call g))) groups =
  [[(L "ccpp_error_code", Some Out_); (L "ccpp_error_message", Some Out_); (L "horizontal_loop_begin", Some In_); (L "horizontal_loop_end", Some In_); (L "temperature", Some InOut_)];
   [(L "ccpp_error_code", Some Out_); (L "ccpp_error_message", Some Out_); (L "temperature", Some In_)]].
Proof. do 3 eexists. split; vm_compute; reflexivity. Qed.

(* the groups are the past of the last state *)
Lemma final2 compat host sdf (P : list (nat * arg) -> st -> Prop) groups su so : host_ok host ->
  (forall dn x a x', inv host dn x -> P dn x -> astep compat host x a x' -> (mem (a_std a) loop_names = true -> g_run (s_cur x) = true) -> P (dn ++ [(kk x, a)]) x') ->
  (forall dn x scl, P dn x -> P dn (end_scheme x scl)) ->
  (forall dn x run, inv host dn x -> P dn x -> P dn (end_group x run)) ->
  (forall run, P [] (mkSt [] (new_group run) d_empty [] [])) ->
  suite_analyze compat host sdf = Ok (groups, su, so) ->
  exists x, inv host (in_order_args sdf) x /\ P (in_order_args sdf) x /\ su = s_suite x /\ groups = s_past x /\ kk x = length sdf /\
    (forall k g, nth_error groups k = Some g -> k < kk x /\ d_vars (g_dict g) = gd x k /\ d_vars (g_call g) = gc x k).
Proof.
  intros HE P1 P2 P3 P4 R.
  destruct (ind_suite compat host HE P P1 ltac:(auto) P3 sdf groups su so P4 R) as (x & I & PP & -> & -> & _ & _ & K).
  exists x. split; auto. split; auto. split; auto. split; auto. split; [exact K|]. intros k g G. assert (LT : k < kk x) by (apply nth_error_Some; congruence).
  unfold gd, gc, pd, pc. destruct (Nat.eqb_spec k (kk x)); [lia|]. now rewrite G.
Qed.

Lemma nodup_names (l : list (str * var)) : NoDup (map fst l) ->
  (forall s v t w, In (s, v) l -> In (t, w) l -> lower (x_local v) = lower (x_local w) -> s = t) ->
  NoDup (map (fun kv => lower (x_local (snd kv))) l).
Proof.
  induction l as [|[s v] l IH]; intros N F; cbn [map snd]; constructor; inversion N as [|? ? N1 N2]; subst.
  - intros H. apply in_map_iff in H as ([t w] & E & I). cbn [snd] in E. apply N1. rewrite <- (F t w s v); [apply (in_map fst) in I; exact I|now right|now left|exact E].
  - apply IH; auto. intros s' v' t w I1 I2. apply F; now right.
Qed.
Theorem C109_distinct_names : forall compat host sdf groups suite_vars so,
  host_ok host -> suite_analyze compat host sdf = Ok (groups, suite_vars, so) ->
  names_agree sdf -> loops_provided host sdf ->
  forall k g, nth_error groups k = Some g -> NoDup (group_names g suite_vars).
Proof.
  intros compat host sdf groups su so HE R (N1 & N2 & N3) LP k g K.
  destruct (final2 compat host sdf (Pname host) groups su so HE) as (x & I & P & -> & EG & _ & G); auto.
  { intros. eapply Pname_arg; eauto. } { intros. now apply Pname_scheme. } { intros. now apply Pname_group. } { intros. apply Pname_start. }
  assert (CS : consistent (in_order_args sdf)).
  { split; [exact N1|]. intros j a l s J [[= <- <-]|[[= <- <-]|[]]] E; [eapply N2; eauto|eapply N3; eauto]. }
  destruct (P CS) as [ND NC NV _ _ _ _ _ _ _]. { intros j a J L0. apply (LP j a J). apply in_app_iff. auto. }
  destruct (G k g K) as (LT & GD & GC). clear G. assert (KG : keys_ok (g_dict g) /\ keys_ok (g_call g)) by (apply (i_past _ _ _ I k); now rewrite <- EG). destruct KG as [KD KC].
  pose proof (i_suitek _ _ _ I) as KS.
  assert (IN : forall d s v, keys_ok d -> In (s, v) (d_vars d) -> get s (d_vars d) = Some v) by (intros d s v KO; apply in_get, KO).
  assert (DD : forall s v, In (s, v) (d_vars (g_dict g)) -> get s (gd x k) = Some v) by (intros; rewrite <- GD; auto).
  assert (DC : forall s v, In (s, v) (d_vars (g_call g)) -> get s (gc x k) = Some v) by (intros; rewrite <- GC; auto).
  assert (DS : forall s v, In (s, v) (d_vars (s_suite x)) -> get s (sv x) = Some v) by (intros; unfold sv; auto).
  apply nodup_names.
  - rewrite !map_app. apply NoDup_app_intro; [apply KD|apply NoDup_app_intro; [apply KC|apply KS|]|].
    + intros s H1 H2. apply in_map_iff in H1 as ([? v] & E1 & H1). apply in_map_iff in H2 as ([? w] & E2 & H2). cbn [fst] in E1, E2. subst. apply DC in H1. apply DS in H2.
      destruct (i_call _ _ _ I k s) as [A _]; [congruence|]. destruct (i_suite _ _ _ I s) as [B _]; congruence.
    + intros s H1 H2. apply in_map_iff in H1 as ([? v] & E1 & H1). cbn [fst] in E1. subst. apply DD in H1.
      destruct (i_loc _ _ _ I k s) as (A & _ & U); [congruence|].
      apply in_app_iff in H2 as [H2|H2]; apply in_map_iff in H2 as ([? w] & E2 & H2); cbn [fst] in E2; subst.
      * apply DC in H2. destruct (i_call _ _ _ I k s) as [B _]; congruence.
      * apply DS in H2. destruct (i_suite _ _ _ I s) as (_ & _ & M & _); [congruence|]. destruct (i_only _ _ _ I k s) as [Q _]; [congruence|auto|congruence].
  - assert (FR : forall s v, In (s, v) (d_vars (g_dict g) ++ d_vars (g_call g) ++ d_vars (s_suite x)) -> fromE (in_order_args sdf) s v).
    { intros s v H. rewrite !in_app_iff in H. destruct H as [H|[H|H]]; [left; eapply ND; eauto|eapply NC; eauto|left; eapply NV; eauto]. }
    intros s v t w H1 H2 E. apply FR in H1, H2. destruct CS as [C1 C2].
    destruct H1 as [(j & a & A1 & A2 & A3 & _)|[A1 _]]; destruct H2 as [(j' & b & B1 & B2 & B3 & _)|[B1 _]].
    + rewrite <- A2, <- B2. apply (C1 j a j' b); auto. now rewrite <- A3, <- B3.
    + rewrite <- A2. eapply C2; eauto. now rewrite <- A3, E.
    + rewrite <- B2. symmetry. eapply C2; eauto. now rewrite <- B3, <- E.
    + rewrite E in A1. destruct A1 as [[= A1 <-]|[[= A1 <-]|[]]]; destruct B1 as [[= B1 <-]|[[= B1 <-]|[]]]; auto; rewrite <- A1 in B1; discriminate.
Qed.
Print Assumptions C109_distinct_names.
Example C109_example : names_agree sdf2 /\ loops_provided host1 sdf2 /\ exists groups su so, suite_analyze (fun _ _ => true) host1 sdf2 = Ok (groups, su, so) /\
  map (fun g => group_names g su) groups = [[L "w"; L "errflg"; L "errmsg"; L "t"]].
Proof. split; [apply C107_example_suffices|]. split; [apply C107_example_suffices|]. do 3 eexists. split; vm_compute; reflexivity. Qed.
(* without agreement of names: a local variable and a dummy argument share a name; and two
   local variables do; and the name of a computed loop extent is that of a dummy argument *)
Theorem C109_names_refuted : forall l, In l
    [ [(true, [[ar "tmp" "t" Out_]; [ar "temperature" "t" In_]])];
      [(true, [[ar "tmp" "w" Out_]; [ar "tmp2" "w" Out_]])];
      [(true, [[ar "temperature" "ncol" In_]; [ar "horizontal_loop_extent" "n" In_]])] ] ->
  host_ok host1 /\ exists g su so, suite_analyze (fun _ _ => true) host1 l = Ok ([g], su, so) /\ ~ NoDup (group_names g su).
Proof.
  intros l H. split; [apply C106_example|].
  assert (D : forall (a b : list str) x, NoDup (a ++ x :: b) -> In x (a ++ b) -> False) by (intros a b x N; now apply NoDup_remove_2).
  destruct H as [<-|[<-|[<-|[]]]]; do 3 eexists; (split; [vm_compute; reflexivity|]); intros N.
  - apply (D [] _ (L "t") N). vm_compute. intuition.
  - apply (D [] _ (L "w") N). vm_compute. intuition.
  - apply (D [] _ (L "ncol") N). vm_compute. intuition.
Qed.
Print Assumptions C109_names_refuted.

Theorem C110_uses_compatible : forall compat host sdf groups suite_vars so,
  host_ok host -> suite_analyze compat host sdf = Ok (groups, suite_vars, so) ->
  forall k g before a after, nth_error groups k = Some g -> in_order_args sdf = before ++ (k, a) :: after ->
    a_std a <> const_one -> provided host (a_std a) -> ~ In (a_std a) loop_names ->
    (In (a_std a) error_names \/ exists b, In (k, b) before /\ a_std b = a_std a) ->
  exists v i use, In (a_std a, v) (d_vars (g_call g)) /\ compat (mkV (x_std v) (x_local v) i (x_prot v)) use = true /\
    x_std use = a_std a /\ x_local use = x_local (a_var a) /\ x_prot use = x_prot (a_var a) /\ x_intent use = Some (intent_of a).
Proof.
  intros compat host sdf groups su so HE R k g before a after K E C HP NL FI.
  destruct (final2 compat host sdf (Pcompat compat host) groups su so HE) as (x & I & P & _ & _ & _ & G); auto.
  { intros. eapply Pcompat_arg; eauto. } { intros. now apply Pcompat_group. } { intros. apply Pcompat_start. }
  destruct (G k g K) as (_ & _ & GC). destruct P as [_ P].
  destruct (P before k a after E C) as (c & gv & GV & (S1 & S2 & S3) & CO); auto.
  { apply host_find_some in HP as [h HP]. congruence. } { destruct (mem (a_std a) loop_names) eqn:M; auto. apply mem_in in M. contradiction. }
  exists gv, (x_intent c), (with_intent (a_var a)). rewrite <- GC in GV. split; [now apply get_in|]. split.
  { rewrite S1, S2, S3. now destruct c. }
  split; [apply with_intent_std|]. unfold with_intent, intent_of. destruct (x_intent (a_var a)) as [i|] eqn:Q; cbn; auto.
Qed.
Print Assumptions C110_uses_compatible.
Example C110_example : exists groups su so, suite_analyze (fun _ _ => true) host1 sdf1 = Ok (groups, su, so) /\
  exists before a after, in_order_args sdf1 = before ++ (0, a) :: after /\ a_std a = L "temperature" /\ (exists b, In (0, b) before /\ a_std b = a_std a) /\ length before = 7.
Proof.
  do 3 eexists. split; [vm_compute; reflexivity|]. exists (firstn 7 (in_order_args sdf1)), (ar "temperature" "t" Out_), (skipn 8 (in_order_args sdf1)).
  split; [reflexivity|]. split; [reflexivity|]. split; [|reflexivity]. exists (ar "temperature" "temp" In_). split; [vm_compute; auto|reflexivity].
Qed.
Example C110_rejects : exists e, suite_analyze (fun v w => str_eqb (x_local v) (x_local w)) host1 [(true, [[ar "temperature" "t" In_]; [ar "temperature" "u" In_]])] = Raise e.
Proof. eexists. vm_compute. reflexivity. Qed.
(* nothing is compared with the host's own variable, nor between groups, nor with the
   variable a group declares itself, whatever Var.compatible says *)
Theorem C110_host_refuted : forall l, In l
    [ [(true, [[ar "temperature" "t" In_]])];
      [(true, [[ar "temperature" "t" In_]]); (true, [[ar "temperature" "t" In_]])];
      [(true, [[ar "tmp" "w" Out_]; [ar "tmp" "w" In_]])];
      [(true, [[ar "tmp" "w" Out_]]); (true, [[ar "tmp" "w" In_]])] ] ->
  host_ok host1 /\ exists r, suite_analyze (fun _ _ => false) host1 l = Ok r.
Proof. intros l H. split; [apply C106_example|]. destruct H as [<-|[<-|[<-|[<-|[]]]]]; eexists; vm_compute; reflexivity. Qed.
Print Assumptions C110_host_refuted.
(* a protected variable of the host may be written by a scheme *)
Theorem C110_protected_refuted : exists host groups su so g v, host_ok host /\
  In (mkHV (mkV (L "gravity") (L "g") None true) true) host /\
  suite_analyze (fun _ _ => true) host [(true, [[ar "gravity" "grav" Out_]])] = Ok (groups, su, so) /\
  nth_error groups 0 = Some g /\ In (L "gravity", v) (d_vars (g_call g)) /\ x_intent v = Some Out_.
Proof.
  exists (host1 ++ [mkHV (mkV (L "gravity") (L "g") None true) true]). do 5 eexists. split.
  { intros s [<-|[<-|[]]]; [exists (hv "ccpp_error_code" "errflg")|exists (hv "ccpp_error_message" "errmsg")]; cbn; auto. }
  split; [apply in_app_iff; right; left; reflexivity|]. split; [vm_compute; reflexivity|]. split; [reflexivity|]. split; [cbn; right; right; left; reflexivity|reflexivity].
Qed.
Print Assumptions C110_protected_refuted.

Theorem C111_loop_variables_in_run_phases : forall compat host sdf groups suite_vars so,
  host_ok host -> suite_analyze compat host sdf = Ok (groups, suite_vars, so) -> phases_ok sdf.
Proof.
  intros compat host sdf groups su so HE R k s U NL.
  destruct (final2 compat host sdf Ploops groups su so HE) as (x & I & P & _ & EG & LEN & G); auto.
  { intros. eapply Ploops_arg; eauto. } { intros. now apply Ploops_group. } { intros run j a []. }
  pose proof (groups_gr compat host HE sdf [] (mkSt [] (new_group true) d_empty [] []) groups su so (inv_start host HE true) (ex_intro _ true eq_refl) R) as B. cbn [s_past map app] in B.
  apply uses_usedD in U as (a & A & <-). assert (M : mem (a_std a) loop_names = true) by (now apply mem_in). specialize (P k a A M).
  assert (KL : k < length sdf).
  { change (in_order_args sdf) with (args_from 0 sdf) in A. apply in_args_from in A as (i & run & schemes & -> & NE & _). apply nth_error_Some. cbn. congruence. }
  unfold gr in P. rewrite <- EG, B in P. rewrite nth_error_app1 in P by (now rewrite map_length). rewrite nth_error_map in P. destruct (nth_error sdf k) as [[run schemes]|]; [|discriminate].
  cbn in P. injection P as ->. eauto.
Qed.
Print Assumptions C111_loop_variables_in_run_phases.

(* the horizontal loop bounds the schemes of a group see *)
Theorem C111_loop_bounds : forall compat host sdf groups suite_vars so,
  host_ok host -> suite_analyze compat host sdf = Ok (groups, suite_vars, so) -> bounds_read_only sdf ->
  let X := L "horizontal_loop_extent" in let B := L "horizontal_loop_begin" in let E := L "horizontal_loop_end" in
  forall k g (entry : str -> Z), nth_error groups k = Some g ->
  let val := run_loops entry (g_loops g) in
  (forall s, provided host s -> val s = entry s) /\
  (uses sdf k B -> ~ provided host B -> val B = 1%Z) /\
  (uses sdf k X -> ~ provided host X -> val X = (val E - val B + 1)%Z) /\
  (uses sdf k E -> ~ provided host E -> val E = val X) /\
  (uses sdf k X -> uses sdf k B -> uses sdf k E -> (provided host X -> (provided host B <-> provided host E)) ->
     (provided host X -> provided host B -> provided host E -> entry X = (entry E - entry B + 1)%Z) ->
   val X = (val E - val B + 1)%Z).
Proof.
  intros compat host sdf groups su so HE R RO X B E k g entry K val.
  destruct (final2 compat host sdf (Ploop host) groups su so HE) as (x & I & P & _ & EG & LEN & G); auto.
  { intros. eapply Ploop_arg; eauto. } { intros. now apply (Ploop_group host _ _ run). } { intros. apply Ploop_start. }
  destruct P as (P1 & P2 & P3).
  { intros j a A T. apply (RO j a A). destruct T as [->|[->| ->]]; cbn; auto. }
  destruct (G k g K) as (LT & GD & GC).
  assert (EL : gl x k = g_loops g). { unfold gl, pl. destruct (Nat.eqb_spec k (kk x)); [lia|]. rewrite <- EG, K. reflexivity. }
  assert (O : ordered host (g_loops g)) by (rewrite <- EL; apply P1).
  assert (EQ : forall s, three s -> uses sdf k s -> ~ provided host s -> equation val s).
  { intros s T U N. apply run_equations with (host := host); auto. rewrite <- EL. apply P3; auto. apply uses_usedD in U. apply host_find_none in N.
    destruct (i_src _ _ _ I k s U) as [Q|[Q|Q]]; auto.
    - destruct T as [->|[->| ->]]; vm_compute; discriminate.
    - apply (i_call _ _ _ I) in Q. tauto.
    - apply (i_suite _ _ _ I) in Q as (_ & _ & Q & _). pose proof (three_loop s T). congruence. }
  assert (UN : forall s, provided host s -> val s = entry s).
  { intros s H. apply run_other. intros IN. apply in_split in IN as (l1 & l2 & IN). destruct (O l1 s l2 IN) as (Q & _). apply host_find_some in H as [h H]. congruence. }
  assert (EX : uses sdf k X -> ~ provided host X -> val X = (val E - val B + 1)%Z) by (intros U N; apply (EQ X); unfold three; auto).
  assert (EB : uses sdf k B -> ~ provided host B -> val B = 1%Z) by (intros U N; apply (EQ B); unfold three; auto).
  assert (EE : uses sdf k E -> ~ provided host E -> val E = val X) by (intros U N; apply (EQ E); unfold three; auto).
  split; [exact UN|]. split; [exact EB|]. split; [exact EX|]. split; [exact EE|].
  intros UX UB UE IFF ALL.
  assert (DEC : forall s, provided host s \/ ~ provided host s).
  { intros s. destruct (host_find host s) eqn:H; [left; apply host_find_some; eauto|right; now apply host_find_none]. }
  destruct (DEC X) as [PX|PX]; [|auto]. destruct (DEC B) as [PB|PB].
  - assert (PE : provided host E) by (now apply IFF). rewrite !UN by auto. auto.
  - assert (PE : ~ provided host E) by (intros Q; apply PB; now apply IFF). rewrite EE, EB by auto. lia.
Qed.
Print Assumptions C111_loop_bounds.
Definition ext_host (l : list string) : list hvar := hv "ccpp_error_code" "errflg" :: hv "ccpp_error_message" "errmsg" :: map (fun s => hv s s) l.
Definition bounds_sdf : suite := [(true, [[ar "horizontal_loop_begin" "ib" In_; ar "horizontal_loop_extent" "n" In_; ar "horizontal_loop_end" "ie" In_]])].
Lemma ext_host_ok l : host_ok (ext_host l).
Proof. intros s [<-|[<-|[]]]; [exists (hv "ccpp_error_code" "errflg")|exists (hv "ccpp_error_message" "errmsg")]; cbn; auto. Qed.
Example C111_example : bounds_read_only bounds_sdf /\ forall l, In l [["horizontal_loop_begin"; "horizontal_loop_end"]; ["horizontal_loop_extent"]; ["horizontal_loop_end"]]%string ->
  exists g su so, suite_analyze (fun _ _ => true) (ext_host l) bounds_sdf = Ok ([g], su, so) /\ g_loops g <> [].
Proof.
  split.
  - intros j a H _. change (in_order_args bounds_sdf) with [(0, ar "horizontal_loop_begin" "ib" In_); (0, ar "horizontal_loop_extent" "n" In_); (0, ar "horizontal_loop_end" "ie" In_)] in H.
    destruct H as [[= <- <-]|[[= <- <-]|[[= <- <-]|[]]]]; cbn; (split; [discriminate|reflexivity]).
  - intros l [<-|[<-|[<-|[]]]]; do 3 eexists; (split; [vm_compute; reflexivity|discriminate]).
Qed.
(* a host with the extent and only one of the bounds: the other bound is wrong unless the
   loop begins at one *)
Theorem C111_bounds_refuted : forall l, In l [["horizontal_loop_begin"; "horizontal_loop_extent"]; ["horizontal_loop_end"; "horizontal_loop_extent"]]%string ->
  host_ok (ext_host l) /\ exists g su so (entry : str -> Z), suite_analyze (fun _ _ => true) (ext_host l) bounds_sdf = Ok ([g], su, so) /\
    (* columns 5 to 7 *)
    (provided (ext_host l) (L "horizontal_loop_begin") -> entry (L "horizontal_loop_begin") = 5%Z) /\ (provided (ext_host l) (L "horizontal_loop_end") -> entry (L "horizontal_loop_end") = 7%Z) /\
    entry (L "horizontal_loop_extent") = 3%Z /\
    run_loops entry (g_loops g) (L "horizontal_loop_extent") <> (run_loops entry (g_loops g) (L "horizontal_loop_end") - run_loops entry (g_loops g) (L "horizontal_loop_begin") + 1)%Z.
Proof.
  intros l H. split; [apply ext_host_ok|].
  destruct H as [<-|[<-|[]]]; do 3 eexists; exists (fun s => if str_eqb s (L "horizontal_loop_begin") then 5%Z else if str_eqb s (L "horizontal_loop_end") then 7%Z else 3%Z);
    (split; [vm_compute; reflexivity|]); (split; [intros _; reflexivity|]); (split; [intros _; reflexivity|]); (split; [reflexivity|]); vm_compute; discriminate.
Qed.
Print Assumptions C111_bounds_refuted.

(* the text of a call: one dummy=actual for every argument, in the order of the metadata *)
Theorem C112_call_text : forall compat host sdf groups suite_vars so,
  host_ok host -> suite_analyze compat host sdf = Ok (groups, suite_vars, so) ->
  (forall run schemes sch, In (run, schemes) sdf -> In sch schemes -> header_ok sch /\ forall a, In a sch -> a_std a <> const_one /\ a_opt a = false) ->
  forall k g run schemes i sch scl, nth_error groups k = Some g -> nth_error sdf k = Some (run, schemes) ->
    nth_error schemes i = Some sch -> nth_error (g_schemes g) i = Some scl ->
  exists names, call_string g suite_vars so scl = Ok (join (L ", ") (map (fun p => x_local (a_var (fst p)) ++ L "=" ++ snd p) (combine sch names))) /\
    Forall2 (fun a n => exists v, n = x_local v /\ In (a_std a, v) (d_vars (g_dict g) ++ d_vars (g_call g) ++ d_vars suite_vars)) sch names.
Proof.
  intros compat host sdf groups su so HE R HO k g run schemes i sch scl K N NI NS.
  pose proof (groups_gs compat host HE sdf [] (mkSt [] (new_group true) d_empty [] []) groups su so (inv_start host HE true) (ex_intro _ true eq_refl) R) as [_ BB].
  specialize (BB k run schemes N). cbn [kk s_past length Nat.add] in BB. unfold ps in BB. rewrite K in BB.
  assert (AD : added compat d_empty sch scl).
  { clear -BB NI NS. revert i NI NS. induction BB as [|? ? ? ? H _ IH]; intros [|i] A B; cbn in *; try discriminate; [injection A as <-; injection B as <-; auto|eauto]. }
  pose proof (nth_error_In _ _ N) as I1. pose proof (nth_error_In _ _ NI) as I2. destruct (HO run schemes sch I1 I2) as [[H1 H2] H3].
  apply added_entries in AD; [|split; [constructor|intros ? ? []]|intros a A; now apply H3|exact H1|exact H2]. cbn [d_empty d_vars app] in AD.
  destruct (groups_nopt compat host sdf [] d_empty [] [] groups su so) as [FS FG]; auto; [intros ? []|intros ? ? []|intros r sc s a A1 A2 A3; now apply (HO r sc s A1 A2)|].
  destruct (FG g (nth_error_In _ _ K)) as [FL FC].
  destruct (final compat host sdf (fun _ _ => True) groups su so HE (fun _ _ _ _ _ _ _ _ => Logic.I) (fun _ _ _ _ => Logic.I) (fun _ _ _ _ _ => Logic.I) (fun _ => Logic.I) R) as (x & IV & _ & -> & LEN & G & GK).
  destruct (G k g K) as [GD GC].
  assert (LK : forall a, In a sch -> exists v, lookup g (s_suite x) so (a_std a) = Some (v, false) /\ In (a_std a, v) (d_vars (g_dict g) ++ d_vars (g_call g) ++ d_vars (s_suite x))).
  { intros a A. assert (U : usedD (in_order_args sdf) k (a_std a)) by (apply uses_usedD; exists run, schemes, sch, a; auto).
    pose proof (i_src _ _ _ IV k (a_std a) U ltac:(now apply H3)) as SR. rewrite <- GD, <- GC in SR. unfold sv in SR. unfold lookup. rewrite !all_false_of by auto.
    destruct (get (a_std a) (d_vars (g_dict g))) as [v|] eqn:E1; [exists v; split; auto; apply in_app_iff; left; now apply get_in|].
    destruct (get (a_std a) (d_vars (g_call g))) as [v|] eqn:E2; [exists v; split; auto; rewrite !in_app_iff; right; left; now apply get_in|].
    destruct (get (a_std a) (d_vars (s_suite x))) as [v|] eqn:E3; [exists v; split; auto; rewrite !in_app_iff; right; right; now apply get_in|].
    destruct SR as [SR|[SR|SR]]; congruence. }
  assert (AC : exists names, actuals g (s_suite x) so (map entry_of sch) = Ok (map (fun p => (x_local (a_var (fst p)), snd p)) (combine sch names)) /\
    Forall2 (fun a n => exists v, n = x_local v /\ In (a_std a, v) (d_vars (g_dict g) ++ d_vars (g_call g) ++ d_vars (s_suite x))) sch names).
  { assert (CC : forall a, In a sch -> a_std a <> const_one) by (intros a A; now apply H3). clear -LK CC. induction sch as [|a sch IH]; [exists []; cbn; auto|].
    destruct IH as (names & E & F); [intros; apply LK; now right|intros; apply CC; now right|]. destruct (LK a (or_introl eq_refl)) as (v & L1 & L2).
    exists (x_local v :: names). split; [|constructor; eauto]. cbn [map entry_of actuals]. rewrite (proj2 (str_eqb_neq _ _) (CC a (or_introl eq_refl))).
    assert (WL : x_local (with_intent (a_var a)) = x_local (a_var a)) by (unfold with_intent; now destruct (x_intent (a_var a))).
    unfold actual. rewrite with_intent_std. change (x_std (a_var a)) with (a_std a). rewrite L1, WL. cbn [bind]. rewrite E. cbn [bind combine map fst snd]. reflexivity. }
  destruct AC as (names & A1 & A2). exists names. split; [|exact A2]. unfold call_string. rewrite AD, A1. cbn [bind]. rewrite map_map. reflexivity.
Qed.
Print Assumptions C112_call_text.
Example C112_example : (forall run schemes sch, In (run, schemes) sdf1 -> In sch schemes -> header_ok sch /\ forall a, In a sch -> a_std a <> const_one /\ a_opt a = false) /\
  exists groups su so, suite_analyze (fun _ _ => true) host1 sdf1 = Ok (groups, su, so) /\
  map (fun g => map (call_string g su so) (g_schemes g)) groups =
  [[Ok (L "ncol=ncol, temp=temp, sh=sh, w=w, errflg=errflg, errmsg=errmsg"); Ok (L "w=w, t=temp, errflg=errflg, errmsg=errmsg")];
   [Ok (L "sh2=sh, tt=tt, errflg=errflg, errmsg=errmsg")]].
Proof.
  split.
  - assert (F : forall sch, In sch (List.concat (map snd sdf1)) -> header_ok sch /\ forall a, In a sch -> a_std a <> const_one /\ a_opt a = false).
    { intros sch H0. cbn [sdf1 map snd List.concat app] in H0. destruct H0 as [<-|[<-|[<-|[]]]]; (split; [split; repeat constructor; vm_compute; intuition discriminate|]);
      intros a A; cbn [app errs] in A; repeat (destruct A as [<-|A]; [split; [vm_compute; discriminate|reflexivity]|]); destruct A. }
    intros run schemes sch A B. apply F. apply in_concat. exists schemes. split; auto. now apply (in_map snd) in A.
  - do 3 eexists. split; vm_compute; reflexivity.
Qed.
(* optional arguments: the call passes a pointer named after the dummy argument of the
   scheme, while the pointers a group declares are named after its own dummy arguments; and
   a mandatory argument is passed such a pointer too when the first use was optional *)
Definition opt (a : arg) : arg := mkArg (a_var a) (a_default a) true.
Theorem C112_optional_refuted : forall second, In second [opt (ar "temperature" "tt" In_); ar "temperature" "tt" In_] ->
  host_ok host1 /\ exists g su so scl text,
    suite_analyze (fun _ _ => true) host1 [(true, [[opt (ar "temperature" "t" In_)]; [second]])] = Ok ([g], su, so) /\
    nth_error (g_schemes g) 1 = Some scl /\ call_string g su so scl = Ok (L "tt=" ++ text) /\
    ~ In text (map (fun kv => x_local (snd kv)) (d_vars (g_dict g) ++ d_vars (g_call g) ++ d_vars su)) /\
    ~ In text (pointers g) /\ pointers g <> [].
Proof.
  intros second H. split; [apply C106_example|].
  destruct H as [<-|[<-|[]]]; do 4 eexists; exists (L "tt_ptr"); (split; [vm_compute; reflexivity|]); (split; [reflexivity|]); (split; [vm_compute; reflexivity|]);
    (split; [vm_compute; intuition discriminate|]); (split; [vm_compute; intuition discriminate|vm_compute; discriminate]).
Qed.
Print Assumptions C112_optional_refuted.
