(* RegProps.v: the constituent part of host caps (C122-C125). *)
From Coq Require Import Sorted.
From Verif Require Import Base HashModel PyStr ReqModel ReqProofs DfSpec DfProps ConstPropModel ConstModel ConstSpec ConstProofs RegModel RegSpec RegProofs RegRun.
Open Scope nat_scope.
Open Scope list_scope.

(* ================= C122: the constituents of a host cap ================= *)
(* Every name is that of a state variable or of the tendency of one: the generation fails iff
   a constituent is not on layers of the horizontal dimension, or a tendency has no compatible
   state variable; otherwise the array of names has the state variables once, in alphabetical
   order, and each variable is passed as the column of its name: of the constituent array, or
   of the tendency array. *)
Theorem C122_generate : forall (compat : cvar -> cvar -> bool) suites,
  (forall v, In v (List.concat suites) -> regular (cv_name v)) ->
  ((forall v, chosen suites v -> on_layers v) /\
   (forall t x, chosen suites t -> tendency x (cv_name t) -> exists s, chosen suites s /\ cv_name s = x /\ compat (clone t) (clone s) = true) ->
   exists entries names, generate compat suites = Ok (entries, names) /\
     in_order names /\ NoDup names /\
     (forall n, In n names <-> state n /\ exists v, In v (List.concat suites) /\ cv_name v = n) /\
     (forall v, In v (List.concat suites) -> state (cv_name v) ->
        exists k, passed entries names (cv_name v) = Some (false, k) /\ nth_error names k = Some (cv_name v)) /\
     (forall v x, In v (List.concat suites) -> tendency x (cv_name v) ->
        exists k, passed entries names (cv_name v) = Some (true, k) /\ nth_error names k = Some x)) /\
  (~ ((forall v, chosen suites v -> on_layers v) /\
      (forall t x, chosen suites t -> tendency x (cv_name t) -> exists s, chosen suites s /\ cv_name s = x /\ compat (clone t) (clone s) = true)) ->
   exists e, generate compat suites = Raise e).
Proof.
  intros compat suites Rg. destruct (generate_spec compat suites Rg) as [(Gd & g & E & G)|(Nd & e & E)].
  2:{ split; [intros Gd; now destruct Nd|]. intros _. eauto. }
  split; [|intros N; now destruct N]. intros _.
  set (names := sorted (map cv_name (g_consts g))) in *. exists (g_entries g), names. split; [exact E|].
  assert (HN : forall n, In n names <-> In n (map cv_name (g_consts g))) by (intros n; apply in_sorted).
  assert (CH : forall v, In v (List.concat suites) -> exists u, chosen suites u /\ cv_name u = cv_name v /\ first (map clone (List.concat suites)) (clone u)).
  { intros v I. destruct (first_name (List.concat suites) (cv_name v) (in_map _ _ _ I)) as (u & F & Q). exists u. split; [exact F|]. split; [exact Q|]. apply first_clone. eauto. }
  split; [apply in_order_sorted|]. split; [apply nd_sorted, G|]. split; [|split].
  - intros n. rewrite HN. split.
    + intros I. apply in_map_iff in I as (c & <- & I). apply (gi_c _ _ G) in I as [F St]. split; auto.
      apply first_clone in F as (u & F & ->). exists u. split; [now apply first_in in F|reflexivity].
    + intros [St (v & I & <-)]. destruct (CH v I) as (u & F & Q & F'). apply in_map_iff. exists (clone u). split; [exact Q|].
      apply (gi_c _ _ G). split; auto. cbn. now rewrite Q.
  - intros v I St. destruct (CH v I) as (u & F & Q & F'). destruct (passed_spec g _ (clone u) names G F' HN) as [P _].
    cbn in P. rewrite Q in P. auto.
  - intros v x I T. destruct (CH v I) as (u & F & Q & F'). destruct (passed_spec g _ (clone u) names G F' HN) as [_ P].
    cbn in P. rewrite Q in P. apply P; auto. destruct Gd as [_ Gd]. rewrite <- Q in T. destruct (Gd u x F T) as (s & Fs & Qs & _).
    exists (clone s). split; [|exact Qs]. apply (gi_c _ _ G). split; [apply first_clone; eauto|]. cbn. rewrite Qs. now apply tendency_state in T.
Qed.
Print Assumptions C122_generate.
Definition ex_dims : list str := [L "ccpp_constant_one:horizontal_loop_extent"; L "vertical_layer_dimension"].
Definition ex_water : cvar := mkCV (L "water_vapor") (L "water vapor") (L "kg kg-1") ex_dims true None.
Definition ex_cloud : cvar := mkCV (L "cloud_liquid") (L "cloud") (L "kg kg-1") ex_dims false (Some 1%Z).
Definition ex_tend : cvar := mkCV (L "tendency_of_water_vapor") (L "tendency") (L "kg kg-1 s-1") ex_dims false None.
Example C122_example :
  exists entries, generate (fun _ _ => true) [[ex_water; ex_tend]; [ex_cloud; ex_water]] = Ok (entries, [L "cloud_liquid"; L "water_vapor"]) /\
  passed entries [L "cloud_liquid"; L "water_vapor"] (L "tendency_of_water_vapor") = Some (true, 1) /\
  passed entries [L "cloud_liquid"; L "water_vapor"] (L "water_vapor") = Some (false, 1).
Proof. vm_compute. eexists. repeat split. Qed.
Example C122_hypothesis : forall v, In v (List.concat [[ex_water; ex_tend]; [ex_cloud; ex_water]]) -> regular (cv_name v).
Proof.
  assert (S1 : state (L "water_vapor")) by (apply within_not; reflexivity).
  assert (S2 : state (L "cloud_liquid")) by (apply within_not; reflexivity).
  intros v H. cbn [List.concat app In] in H. destruct H as [<-|[<-|[<-|[<-|[]]]]]; [now left| |now left|now left].
  right. exists (L "water_vapor"). now split.
Qed.
(* A name that has tendency_of not at its start is the name of a constituent for the suite
   cap, which registers it, and of a tendency for the host cap, which needs a state variable. *)
Theorem C122_elsewhere_refuted : forall compat v, has (L "tendency_of") (cv_name v) -> (forall x, cv_name v <> L "tendency_of_" ++ x) ->
  (forall objs, suite_objects [v] objs -> exists p, objs = [p] /\ made_from v p) /\
  (exists e, generate compat [[v]] = Raise e).
Proof.
  intros compat v H N. split.
  - intros objs S. inversion S as [|? ? ? x E|? ? p ps ? M S']; subst; [now apply N in E|]. inversion S'; subst. eauto.
  - unfold generate. cbn [map List.concat app add_all]. unfold add_one. cbn [g_consts g_tends map mem existsb orb clone cv_name].
    apply within_has in H. rewrite H.
    destruct (cv_dims (clone v)) as [|h [|d [|? ?]]]; [cbn; eauto| | |cbn; eauto].
    + destruct (str_eqb (last_part h) (L "horizontal_dimension")); cbn; eauto.
    + destruct (str_eqb (last_part h) (L "horizontal_dimension")); cbn [negb bind]; eauto.
      destruct (str_eqb (last_part d) (L "vertical_layer_dimension")); cbn [bind]; eauto.
      destruct (second (L "tendency_of_") (cv_name v)) as [n|e] eqn:E; cbn [bind]; eauto.
      cbn [g_tends g_consts g_entries app check_tends clone cv_name]. rewrite E. cbn. eauto.
Qed.
Print Assumptions C122_elsewhere_refuted.
Example C122_elsewhere_example :
  let v := mkCV (L "physics_tendency_of_water_vapor") (L "t") (L "kg kg-1 s-1") ex_dims false None in
  has (L "tendency_of") (cv_name v) /\ members [v] = [v] /\
  exists entries, generate (fun _ _ => true) [[ex_water; v]] = Ok (entries, [L "water_vapor"]) /\
    passed entries [L "water_vapor"] (cv_name v) = Some (true, 0).
Proof. split; [exists (L "physics_"), (L "_water_vapor"); reflexivity|]. split; [reflexivity|]. vm_compute. eexists. split; reflexivity. Qed.

(* ================= C123: the registration routine ================= *)
(* Whatever was registered and cleaned up before, as long as the data was not initialised: the
   registration of the objects of the host, of the dynamic ones and of those of the suites fails
   iff two of one name do not agree; otherwise every name has one place, the indices are those
   places, and each of the names of the host cap has its index. *)
Theorem C123_register : forall compat ds entries names k host dyn,
  (forall v, In v (List.concat ds) -> regular (cv_name v) /\ on_layers v) ->
  generate compat ds = Ok (entries, names) -> history ds names false k ->
  (forall p, In p (host ++ dyn) -> offered p) ->
  exists objs, suite_objects (List.concat ds) objs /\ (forall p, In p objs -> offered p) /\
    (host ++ objs <> [] ->
      let all := host ++ dyn ++ objs in
      (~ consistent all -> snd (register ds names host dyn k) = MErr) /\
      (consistent all -> snd (register ds names host dyn k) = MOk /\
         exists fields, registered all names (fst (register ds names host dyn k)) fields)).
Proof.
  intros compat ds entries names k host dyn HV HG HH HO. exists (objs_of ds). split; [apply suite_objects_all|].
  assert (OF : forall p, In p (objs_of ds) -> offered p).
  { intros p I. unfold objs_of in I. apply in_concat in I as (l & Il & Ip). apply in_map_iff in Il as (d & <- & Id).
    apply in_map_iff in Ip as (v & <- & Iv). apply obj_offered. apply filter_In in Iv as [Iv _]. apply HV. apply in_concat. eauto. }
  split; [exact OF|]. intros NE all.
  assert (RV : forall v, In v (List.concat ds) -> regular (cv_name v)) by (intros v I; now apply HV).
  pose proof (names_registered compat ds entries names host dyn RV HG) as HN.
  destruct (register_spec ds names false k host dyn (history_inv _ _ _ _ HH) eq_refl) as [[E N]|(E & C & F)]; auto.
  - intros p I. apply in_app_iff in I as [I|I]; [apply HO; apply in_app_iff; auto|]. apply in_app_iff in I as [I|I]; auto. apply HO; apply in_app_iff; auto.
  - fold all in N. rewrite E. split; auto. contradiction.
  - fold all in C, F. rewrite E. split; auto. contradiction.
Qed.
Print Assumptions C123_register.
Definition ex_ds : list (list cvar) := [[ex_water; ex_tend]; [ex_cloud; ex_water]].
Definition ex_names : list str := [L "cloud_liquid"; L "water_vapor"].
Definition ex_ozone : cprop := obj (mkCV (L "ozone") (L "ozone") (L "kg kg-1") ex_dims false None).
Example C123_example :
  let r := register ex_ds ex_names [ex_ozone] [] (cap_new 2 ex_names) in
  snd r = MOk /\ k_indices (fst r) = [2%Z; 1%Z] /\
  mc_const_index (k_obj (fst r)) "ozone" = 3%Z /\ mc_const_index (k_obj (fst r)) "water_vapor" = 1%Z.
Proof. vm_compute. repeat split. Qed.
Example C123_hypotheses : (forall p, In p ([ex_ozone] ++ []) -> offered p) /\ history ex_ds ex_names false (cap_new 2 ex_names) /\
  (forall v, In v (List.concat ex_ds) -> regular (cv_name v) /\ on_layers v).
Proof.
  assert (OL : forall n l u a d, on_layers (mkCV n l u ex_dims a d)).
  { intros. apply on_layers_clone. unfold dims_ok. eexists _, _. vm_compute. repeat split. }
  split; [intros p [<-|[]]; apply obj_offered; apply OL|]. split; [exact (hi_new ex_ds ex_names)|].
  intros v H. split; [now apply C122_hypothesis|]. cbn in H. destruct H as [<-|[<-|[<-|[<-|[]]]]]; apply OL.
Qed.
(* Constituents of schemes that are made at run time do not count for the size of the table:
   if there are no others, the registration computes the logarithm of zero. *)
Theorem C123_only_dynamic_refuted : forall ds names dyn k, history ds names false k ->
  (forall objs, suite_objects (List.concat ds) objs -> objs = []) ->
  snd (register ds names [] dyn k) = MUndef.
Proof.
  intros ds names dyn k HH N. destruct (history_inv _ _ _ _ HH) as (I1 & _ & _).
  rewrite (register_eq _ _ _ _ _ I1), (N _ (suite_objects_all ds)). reflexivity.
Qed.
Print Assumptions C123_only_dynamic_refuted.
Example C123_only_dynamic_example : offered ex_ozone /\ snd (register [[]] [] [] [ex_ozone] (cap_new 1 [])) = MUndef.
Proof. split; [apply obj_offered, on_layers_clone; eexists _, _; vm_compute; repeat split|]. reflexivity. Qed.

(* ================= C124: the constituents of one suite ================= *)
(* Once the number of constituents of a suite was asked for, that number and, for the indices
   from one to it, the names and the copies are those of the constituents of the suite that
   are no tendencies, in their order. *)
Theorem C124_queries : forall d b s, suite_state d b s ->
  exists objs, suite_objects d objs /\
    snd (fst (num_consts d s)) = Z.of_nat (length objs) /\ snd (num_consts d s) = 0%Z /\
    (b = true -> fst (fst (num_consts d s)) = s /\
       forall i p, nth_error objs i = Some p ->
         const_name d s (Z.of_nat i + 1) = Gives (fst (q_standard_name p)) 0 /\ copy_const d s (Z.of_nat i + 1) = Gives p 0).
Proof.
  intros d b s H. exists (map obj (members d)). split; [apply suite_objects_members|].
  assert (OK : suite_ok d s /\ (b = true -> s = suite_ready d)).
  { induction H as [|b s H [I1 I2]]; [split; [now left|discriminate]|]. rewrite (num_consts_ok _ _ I1). cbn. split; auto. now right. }
  destruct OK as [OK RD]. rewrite (num_consts_ok _ _ OK). cbn [fst snd]. rewrite map_length. split; [reflexivity|]. split; [reflexivity|].
  intros Hb. specialize (RD Hb). subst s. split; [reflexivity|]. intros i p Hp. rewrite nth_error_map in Hp. destruct (nth_error (members d) i) as [v|] eqn:E; [|discriminate].
  cbn in Hp. injection Hp as <-. split; [|now apply copy_const_ready].
  unfold const_name. rewrite checks_ready by (apply nth_error_Some; congruence). rewrite (pick_ne d _ _ (members_ne _ _ _ E)), (element_ready _ _ _ E).
  destruct (obj_eq v) as [w ->]. reflexivity.
Qed.
Print Assumptions C124_queries.
Example C124_example :
  let d := [ex_tend; ex_water; ex_cloud] in let s := fst (fst (num_consts d ss_new)) in
  snd (fst (num_consts d s)) = 2%Z /\ const_name d s 2 = Gives "cloud_liquid"%string 0%Z /\ suite_state d true s.
Proof. split; [reflexivity|]. split; [reflexivity|]. apply (sst_counted _ false). constructor. Qed.
(* The errors are only reported by a suite that has no constituents: otherwise a wrong index, or
   a suite that was not initialised, sets the error code, and the array is read all the same. *)
Theorem C124_errors_refuted : forall d b s i, suite_state d b s ->
  (forall objs, suite_objects d objs -> b = true -> (i < 1 \/ Z.of_nat (length objs) < i)%Z) ->
  (d = [] -> const_name d s i = Fails 1 /\ copy_const d s i = Fails 1) /\
  (d <> [] -> const_name d s i = Undefined /\ copy_const d s i = Undefined).
Proof.
  intros d b s i H W. specialize (W _ (suite_objects_members d)). rewrite map_length in W.
  assert (OK : (b = false /\ s = ss_new) \/ (b = true /\ s = suite_ready d)).
  { assert (OK : suite_ok d s /\ ((b = false /\ s = ss_new) \/ (b = true /\ s = suite_ready d))); [|tauto].
    induction H as [|b s H IH]; [split; [now left|now left]|]. destruct IH as [I1 I2]; [|rewrite (num_consts_ok _ _ I1); cbn; split; [now right|now right]].
    intros ->. apply W. reflexivity. }
  split.
  - intros ->. split; reflexivity.
  - intros N. unfold const_name, copy_const, checks. rewrite !(pick_ne d _ _ N).
    destruct OK as [[-> ->]|[-> ->]].
    + cbn. destruct (i <? 1)%Z; rewrite ?(pick_ne d _ _ N); split; reflexivity.
    + specialize (W eq_refl). rewrite (ready_props d N). rewrite map_length.
      assert (El : element (suite_ready d) i = None).
      { unfold element. rewrite (ready_props d N). destruct (i <? 1)%Z eqn:E; auto. apply nth_error_None. rewrite map_length. apply Z.ltb_ge in E. lia. }
      destruct (i <? 1)%Z; rewrite ?(pick_ne d _ _ N), El; split; reflexivity.
Qed.
Print Assumptions C124_errors_refuted.
Example C124_errors_example :
  const_name [ex_water] (fst (fst (num_consts [ex_water] ss_new))) 2 = Undefined /\ const_name [ex_water] ss_new 1 = Undefined.
Proof. split; reflexivity. Qed.

(* ================= C125: another registration ================= *)
(* Once the data was initialised, no registration of objects succeeds again, whatever is cleaned
   up in between. *)
Theorem C125_again_refuted : forall ds names b k ncols nlev k' host dyn objs,
  history ds names b k -> snd (init_data ncols nlev k) = MOk ->
  later ds names (fst (init_data ncols nlev k)) k' ->
  suite_objects (List.concat ds) objs -> host ++ objs <> [] ->
  snd (register ds names host dyn k') = MErr.
Proof.
  intros ds names b k ncols nlev k' host dyn objs HH HM HL HS NE.
  assert (D0 : m_dlock (k_obj (fst (init_data ncols nlev k))) = true) by now apply init_data_locked.
  assert (K : m_dlock (k_obj k') = true /\ exists b', history ds names b' k').
  { clear NE HS. induction HL as [|k' h d HL (I & b' & I')|k' c l HL (I & b' & I')|k' HL (I & b' & I')].
    - split; auto. exists true. now apply (hi_data _ _ b).
    - split; [|exists b'; now constructor]. destruct (history_inv _ _ _ _ I') as (I1 & _ & _). now apply register_locked.
    - split; [|exists true; now apply (hi_data _ _ b')]. now apply data_keeps_lock.
    - split; [|exists b'; now constructor]. unfold cleanup. cbn. now rewrite resets_dlock. }
  destruct K as (K & b' & HK). destruct (history_inv _ _ _ _ HK) as (I1 & _ & _). apply register_fails; auto.
  apply suite_objects_length in HS. destruct (host ++ objs) eqn:E; [congruence|]. apply (f_equal (@length _)) in E. rewrite app_length in E. cbn in E. lia.
Qed.
Print Assumptions C125_again_refuted.
Example C125_again_example :
  let k := fst (register ex_ds ex_names [ex_ozone] [] (cap_new 2 ex_names)) in
  snd (init_data 3 2 k) = MOk /\ snd (register ex_ds ex_names [ex_ozone] [] (cleanup (fst (init_data 3 2 k)))) = MErr.
Proof. vm_compute. split; reflexivity. Qed.
(* The clean-up of at least one suite empties the table, but the indices the cap has for its
   names stay. *)
Theorem C125_stale_refuted : forall ds names b k n, history ds names b k -> ds <> [] ->
  mc_const_index (k_obj (cleanup k)) n = int_unassigned /\ k_indices (cleanup k) = k_indices k.
Proof.
  intros ds names b k n H N. split; [|reflexivity]. destruct (history_inv _ _ _ _ H) as (I1 & _ & _).
  unfold cleanup. cbn [k_obj]. assert (L0 : length (k_suites k) <> 0) by (inversion I1; subst; cbn; congruence).
  destruct (length (k_suites k)) as [|m]; [congruence|]. cbn [resets].
  assert (X : forall m o, ht_is_initialized (m_hash o) = false -> ht_is_initialized (m_hash (resets m o)) = false).
  { clear. induction m as [|m IH]; intros o E; auto. cbn [resets]. now apply IH. }
  unfold mc_const_index, mc_props_locked. rewrite X; reflexivity.
Qed.
Print Assumptions C125_stale_refuted.
Example C125_stale_example :
  let k := fst (register ex_ds ex_names [ex_ozone] [] (cap_new 2 ex_names)) in
  k_indices (cleanup k) = [2%Z; 1%Z] /\ mc_const_index (k_obj (cleanup k)) "water_vapor" = int_unassigned.
Proof. vm_compute. split; reflexivity. Qed.
(* Without data, registrations can be repeated: each one stands alone. *)
Theorem C125_without_data : forall compat ds entries names k host dyn,
  (forall v, In v (List.concat ds) -> regular (cv_name v) /\ on_layers v) ->
  generate compat ds = Ok (entries, names) -> history ds names false k ->
  (forall p, In p (host ++ dyn) -> offered p) -> host <> [] ->
  snd (register ds names host dyn k) = snd (register ds names host dyn (cap_new (length ds) names)).
Proof.
  intros compat ds entries names k host dyn HV HG HH HO HN.
  assert (X : forall k, history ds names false k -> exists objs, objs = objs_of ds /\ (~ consistent (host ++ dyn ++ objs) /\ snd (register ds names host dyn k) = MErr \/ consistent (host ++ dyn ++ objs) /\ snd (register ds names host dyn k) = MOk)).
  { clear k HH. intros k HH. exists (objs_of ds). split; auto.
    assert (OF : forall p, In p (objs_of ds) -> offered p).
    { intros p I. unfold objs_of in I. apply in_concat in I as (l & Il & Ip). apply in_map_iff in Il as (d & <- & Id).
      apply in_map_iff in Ip as (v & <- & Iv). apply obj_offered. apply filter_In in Iv as [Iv _]. apply HV. apply in_concat. eauto. }
    assert (NE : host ++ objs_of ds <> []) by (destruct host; [congruence|discriminate]).
    destruct (register_spec ds names false k host dyn (history_inv _ _ _ _ HH) eq_refl) as [[E N]|(E & C & F)]; auto.
    - intros p I. apply in_app_iff in I as [I|I]; [apply HO; apply in_app_iff; auto|]. apply in_app_iff in I as [I|I]; auto. apply HO; apply in_app_iff; auto.
    - apply (names_registered compat ds entries); auto. intros v I. now apply HV. }
  destruct (X k HH) as (o & -> & Y). destruct (X _ (hi_new ds names)) as (o' & -> & Y').
  destruct Y as [[Y ->]|[Y ->]], Y' as [[Y' ->]|[Y' ->]]; auto; contradiction.
Qed.
Print Assumptions C125_without_data.
Example C125_without_data_example :
  let k := fst (register ex_ds ex_names [ex_ozone] [] (cap_new 2 ex_names)) in
  history ex_ds ex_names false (cleanup k) /\ snd (register ex_ds ex_names [ex_ozone] [] (cleanup k)) = MOk.
Proof. split; [|vm_compute; reflexivity]. constructor. constructor. exact (hi_new ex_ds ex_names). Qed.
