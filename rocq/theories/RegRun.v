(* RegRun.v: lemmas about the suite routines and the registration routine. *)
From Coq Require Import Permutation.
From Verif Require Import Base HashModel HashSpec HashProofs PyStr ReqModel ReqProofs CheckProofs ConstPropModel ConstPropSpec ConstPropProofs ConstModel ConstSpec ConstProofs RegModel RegSpec RegProofs.
Open Scope nat_scope.
Open Scope list_scope.

(* ---- the objects of the suites ---- *)
Definition obj (v : cvar) : cprop := fst (prop_instantiate prop_new (inst_args v)).
Lemma obj_err v : snd (prop_instantiate prop_new (inst_args v)) = 0%Z.
Proof. apply (instantiate_fresh prop_new (inst_args v) eq_refl). reflexivity. Qed.
Lemma instantiate_all_spec l : instantiate_all l 0 = (map obj l, 0%Z).
Proof.
  induction l as [|v l IH]; [reflexivity|]. cbn [instantiate_all map]. change (0 =? 0)%Z with true. cbn iota.
  pose proof (obj_err v) as E. unfold obj at 1. destruct (prop_instantiate prop_new (inst_args v)) as [p e]. cbn in E. subst e.
  now rewrite IH.
Qed.
Lemma obj_eq v : exists w, obj v = mkProp (Some (rtrim (sos (cv_name v)))) (Some (rtrim (sos (cv_long v)))) (Some (rtrim (sos (cv_units v))))
  (Some (rtrim (sos (vertical v)))) int_unassigned (cv_adv v) false false (const_type_of (rtrim (sos (cv_name v)))) w 0 kphys_unassigned (or_else (cv_default v) kphys_unassigned).
Proof.
  destruct (proj1 (const_water_of_valid (rtrim (sos (cv_name v))) (inst_args v)) eq_refl) as [w Hw]. exists w.
  unfold obj, prop_instantiate. change (is_instantiated prop_new) with false. cbv iota. change (a_std_name (inst_args v)) with (sos (cv_name v)). now rewrite Hw.
Qed.
Lemma obj_made v : made_from v (obj v).
Proof.
  destruct (obj_eq v) as [w ->]. unfold made_from. split; [reflexivity|]. split; [reflexivity|]. split; [reflexivity|]. split; [reflexivity|].
  split; [|split; [reflexivity|]; split; reflexivity]. intros x H. rewrite H. reflexivity.
Qed.
Lemma copy_same p : copy_constituent p = p.
Proof. now destruct p. Qed.
Lemma is_tendency_iff v : is_tendency v = true <-> exists x, cv_name v = L "tendency_of_" ++ x.
Proof.
  unfold is_tendency, startswith. destruct (after_prefix (L "tendency_of_") (cv_name v)) as [x|] eqn:E; split; intros H; try discriminate; auto.
  - exists x. now apply after_prefix_some in E.
  - destruct H as (x & H). apply after_prefix_some in H. congruence.
Qed.
Lemma suite_objects_members d : suite_objects d (map obj (members d)).
Proof.
  induction d as [|v d IH]; [constructor|]. cbn [members List.filter]. destruct (is_tendency v) eqn:E; cbn [negb].
  - apply is_tendency_iff in E as (x & E). econstructor 2; eauto.
  - constructor 3; auto using obj_made. intros x H. assert (is_tendency v = true) by (apply is_tendency_iff; eauto). congruence.
Qed.
Lemma suite_objects_app a b p q : suite_objects a p -> suite_objects b q -> suite_objects (a ++ b) (p ++ q).
Proof. induction 1; intros H'; cbn; [auto|econstructor 2; eauto|constructor 3; auto]. Qed.
Definition objs_of (ds : list (list cvar)) : list cprop := List.concat (map (fun d => map obj (members d)) ds).
Lemma suite_objects_all ds : suite_objects (List.concat ds) (objs_of ds).
Proof. induction ds as [|d ds IH]; [constructor|]. cbn. apply suite_objects_app; auto using suite_objects_members. Qed.

(* the state of a suite: not initialised, or with its objects *)
Definition suite_ready (d : list cvar) : suite_st := mkSS (match d with [] => None | _ => Some (map obj (members d)) end) true.
Definition suite_ok (d : list cvar) (s : suite_st) : Prop := s = ss_new \/ s = suite_ready d.
Lemma num_consts_ok d s : suite_ok d s -> num_consts d s = (suite_ready d, Z.of_nat (length (members d)), 0%Z).
Proof.
  unfold num_consts. intros [->| ->]; cbn [ss_init ss_new suite_ready]; auto.
  unfold init_consts. rewrite instantiate_all_spec. unfold suite_ready, ss_new. destruct d; reflexivity.
Qed.
Lemma count_all_ok ds ss : Forall2 suite_ok ds ss -> forall n,
  count_all ds ss n = Some (map suite_ready ds, (n + Z.of_nat (length (objs_of ds)))%Z).
Proof.
  induction 1 as [|d s ds ss H F IH]; intros n; cbn [count_all map].
  - unfold objs_of. cbn. now rewrite Z.add_0_r.
  - rewrite (num_consts_ok _ _ H). cbn [fst snd]. change (0 =? 0)%Z with true. cbn iota. rewrite IH. do 2 f_equal.
    unfold objs_of. cbn [map List.concat]. rewrite app_length, map_length. lia.
Qed.
Lemma ready_ok ds : Forall2 suite_ok ds (map suite_ready ds).
Proof. induction ds; constructor; auto. now right. Qed.
Lemma pick_ne {A B} (d : list A) (x y : B) : d <> [] -> match d with [] => x | _ => y end = y.
Proof. now destruct d. Qed.
Lemma ready_props d : d <> [] -> ss_props (suite_ready d) = Some (map obj (members d)).
Proof. intros N. unfold suite_ready. cbn [ss_props]. now apply pick_ne. Qed.
Lemma members_ne d i p : nth_error (members d) i = Some p -> d <> [].
Proof. intros H ->. now destruct i. Qed.
Lemma checks_ready d i : i < length (members d) -> checks d (suite_ready d) (Z.of_nat i + 1) = Some 0%Z.
Proof.
  intros H. assert (N : d <> []) by (intros ->; cbn in H; lia). unfold checks. rewrite pick_ne by exact N.
  replace (Z.of_nat i + 1 <? 1)%Z with false by (symmetry; apply Z.ltb_ge; lia).
  rewrite (ready_props d N), map_length. replace (Z.of_nat (length (members d)) <? Z.of_nat i + 1)%Z with false by (symmetry; apply Z.ltb_ge; lia). reflexivity.
Qed.
Lemma element_ready d i p : nth_error (members d) i = Some p -> element (suite_ready d) (Z.of_nat i + 1) = Some (obj p).
Proof.
  intros H. unfold element. rewrite (ready_props d (members_ne _ _ _ H)).
  replace (Z.of_nat i + 1 <? 1)%Z with false by (symmetry; apply Z.ltb_ge; lia).
  replace (Z.to_nat (Z.of_nat i + 1 - 1)) with i by lia. now rewrite nth_error_map, H.
Qed.
Lemma copy_const_ready d i p : nth_error (members d) i = Some p ->
  copy_const d (suite_ready d) (Z.of_nat i + 1) = Gives (obj p) 0.
Proof.
  intros H. unfold copy_const. rewrite checks_ready by (apply nth_error_Some; congruence).
  rewrite (pick_ne d _ _ (members_ne _ _ _ H)), (element_ready _ _ _ H). now rewrite copy_same.
Qed.
Lemma copies_spec d : forall fuel i, i + fuel = length (members d) ->
  copies d (suite_ready d) (Z.of_nat i + 1) fuel = Some (skipn i (map obj (members d))).
Proof.
  induction fuel as [|fuel IH]; intros i H.
  - cbn. rewrite skipn_all2; [reflexivity|]. rewrite map_length. lia.
  - cbn [copies]. destruct (nth_error (members d) i) as [p|] eqn:E; [|apply nth_error_None in E; lia].
    rewrite (copy_const_ready _ _ _ E). change (0 =? 0)%Z with true. cbn iota.
    replace (Z.of_nat i + 1 + 1)%Z with (Z.of_nat (S i) + 1)%Z by lia. rewrite IH by lia. cbn [option_map]. f_equal.
    assert (X : nth_error (map obj (members d)) i = Some (obj p)) by (rewrite nth_error_map, E; reflexivity).
    revert X. generalize (map obj (members d)) as l. clear. induction i as [|i IH]; intros [|x l]; try discriminate.
    + cbn. intros [= ->]. reflexivity.
    + intros H. exact (IH l H).
Qed.
Lemma all_copies_ok ds : all_copies ds (map suite_ready ds) = Some (objs_of ds).
Proof.
  induction ds as [|d ds IH]; [reflexivity|]. cbn [all_copies map]. rewrite IH. change 1%Z with (Z.of_nat 0 + 1)%Z. rewrite copies_spec by reflexivity.
  reflexivity.
Qed.
Lemma obj_offered v : on_layers v -> offered (obj v).
Proof.
  intros (h & l & n & E & H & V & I). split; [destruct (obj_eq v) as [w ->]; reflexivity|]. split; [destruct (obj_eq v) as [w ->]; reflexivity|].
  assert (S : In (L "vertical_layer_dimension") (split_on ":" l)).
  { apply upper_bound_last in V; [|cbn; intuition discriminate]. unfold last_part in V.
    destruct (exists_last (split_on_nonempty ":" l)) as (m & x & Em). rewrite Em in *. rewrite last_snoc in V. subst x. apply in_elt. }
  assert (X : vertical v = L "vertical_layer_dimension").
  { unfold vertical. rewrite E. cbn [map List.concat].
    replace (mem (L "vertical_layer_dimension") _) with true; [reflexivity|]. symmetry. apply mem_in. rewrite app_nil_r. apply in_app_iff. now right. }
  destruct (obj_eq v) as [w ->]. rewrite X. reflexivity.
Qed.
Lemma on_layers_all suites v : (forall u, chosen suites u -> on_layers u) -> In v (List.concat suites) -> exists u, chosen suites u /\ cv_name u = cv_name v.
Proof. intros _ H. apply (first_name (List.concat suites) (cv_name v)). now apply in_map. Qed.

(* ---- agreement is an equivalence ---- *)
Lemma feqb_sym a b : feqb a b = feqb b a.
Proof. unfold feqb. apply String.eqb_sym. Qed.
Lemma feqb_trans a b c : feqb a b = true -> feqb b c = true -> feqb a c = true.
Proof. unfold feqb. rewrite !String.eqb_eq. congruence. Qed.
Lemma agree_iff p q : agree p q = true <-> p_advected p = p_advected q /\ p_thermo_active p = p_thermo_active q /\ p_water_species p = p_water_species q /\ rtrim (ostr (p_units p)) = rtrim (ostr (p_units q)).
Proof. unfold agree, feqb. rewrite !andb_true_iff, !Bool.eqb_true_iff, String.eqb_eq. tauto. Qed.
Lemma agree_refl p : agree p p = true. Proof. apply agree_iff. auto. Qed.
Lemma agree_sym p q : agree p q = true -> agree q p = true. Proof. rewrite !agree_iff. intuition congruence. Qed.
Lemma agree_trans p q r : agree p q = true -> agree q r = true -> agree p r = true. Proof. rewrite !agree_iff. intuition congruence. Qed.

(* ---- new_field one after the other ---- *)
Section Fields.
Variable h : nat -> cprop.
Hypothesis HF : fresh_objects h.
Definition same (i j : nat) : Prop := rtrim (name_of h i) = rtrim (name_of h j).
Definition ninv (pre l : list nat) : Prop :=
  (forall i, In i l -> In i pre) /\
  (forall i, In i pre -> exists c, In c l /\ same c i /\ agree (h c) (h i) = true) /\
  (forall c i, In c l -> In i pre -> same c i -> c <= i).
Definition rising (ids : list nat) : Prop := forall a i b, ids = a ++ i :: b -> forall j, In j a -> j < i.
Lemma reg_some l i c : registered_as h l (name_of h i) = Some c -> In c l /\ same c i.
Proof. intros H. apply find_some in H as [H1 H2]. split; auto. unfold feqb in H2. now apply String.eqb_eq in H2. Qed.
Lemma reg_none l i : registered_as h l (name_of h i) = None -> forall c, In c l -> ~ same c i.
Proof. intros H c I S. eapply find_none in H; eauto. cbn in H. unfold feqb in H. unfold same in S. rewrite S, String.eqb_refl in H. discriminate. Qed.
Lemma new_fields_spec : forall ids pre l s, R h s (mkSpec (COpen l) []) -> rising (pre ++ ids) -> ninv pre l ->
  let r := new_fields s ids in
  (snd r = MOk /\ exists l', R h (fst r) (mkSpec (COpen l') []) /\ ninv (pre ++ ids) l') \/
  (snd r = MErr /\ exists i j, In i (pre ++ ids) /\ In j (pre ++ ids) /\ same i j /\ agree (h i) (h j) = false).
Proof using HF.
  induction ids as [|i ids IH]; intros pre l s HR HS N.
  - left. cbn. split; auto. exists l. rewrite app_nil_r. auto.
  - assert (LT : forall j, In j pre -> j < i) by (apply (HS pre i ids eq_refl)).
    assert (HS' : rising ((pre ++ [i]) ++ ids)) by (rewrite <- app_assoc; exact HS).
    destruct N as (N1 & N2 & N3).
    cbn [new_fields]. destruct (step_sim h HF s (mkSpec (COpen l) []) (MNew i) HR ltac:(discriminate)) as [S1 S2].
    cbn [mstep] in *. cbn [spec_step sp_phase sp_dead existsb] in *.
    destruct (registered_as h l (name_of h i)) as [c|] eqn:E.
    + apply reg_some in E as [Ic Sc]. cbn [snd fst] in *. destruct (agree (h c) (h i)) eqn:A.
      * destruct (mc_new_field s i) as [s' o]. cbn in S1. subst o. cbn in S2.
        destruct (IH (pre ++ [i]) l s') as [(P & l' & Q & Q')|(P & a & b & Q)]; auto.
        { apply S2. discriminate. }
        { split; [|split].
          - intros x X. apply in_app_iff. left. auto.
          - intros x X. apply in_app_iff in X as [X|[<-|[]]]; auto. now exists c.
          - intros x y X Y Sy. apply in_app_iff in Y as [Y|[<-|[]]]; [now apply N3|]. apply N1, LT in X. lia. }
        { left. split; auto. exists l'. rewrite <- app_assoc in Q'. auto. }
        { right. split; auto. exists a, b. rewrite <- app_assoc in Q. exact Q. }
      * destruct (mc_new_field s i) as [s' o]. cbn in S1. subst o. right. split; [reflexivity|].
        exists c, i. split; [apply in_app_iff; left; now apply N1|]. split; [apply in_elt|]. auto.
    + cbn [snd fst] in *. destruct (mc_new_field s i) as [s' o]. cbn in S1. subst o. cbn in S2.
      destruct (IH (pre ++ [i]) (l ++ [i]) s') as [(P & l' & Q & Q')|(P & a & b & Q)]; auto.
      { apply S2. discriminate. }
      { split; [|split].
        - intros x X. apply in_app_iff in X as [X|[<-|[]]]; apply in_app_iff; [left; auto|right; now left].
        - intros x X. apply in_app_iff in X as [X|[<-|[]]].
          + destruct (N2 x X) as (c & C1 & C2). exists c. split; auto. apply in_app_iff. now left.
          + exists i. split; [apply in_elt|]. split; [reflexivity|apply agree_refl].
        - intros x y X Y Sy. apply in_app_iff in X as [X|[<-|[]]], Y as [Y|[<-|[]]].
          + now apply N3.
          + apply N1, LT in X. lia.
          + exfalso. destruct (N2 y Y) as (c & C1 & C2 & _). apply (reg_none l i E c C1). unfold same in *. congruence.
          + lia. }
      { left. split; auto. exists l'. rewrite <- app_assoc in Q'. auto. }
      { right. split; auto. exists a, b. rewrite <- app_assoc in Q. exact Q. }
Qed.
(* registering all and locking *)
Lemma register_lock s ids : R h s (mkSpec (COpen []) []) -> rising ids -> ids <> [] ->
  let r := new_fields s ids in
  (snd r = MErr /\ exists i j, In i ids /\ In j ids /\ same i j /\ agree (h i) (h j) = false) \/
  (snd r = MOk /\ (forall i j, In i ids -> In j ids -> same i j -> agree (h i) (h j) = true) /\
   exists l, R h (fst (mc_lock_table (fst r))) (mkSpec (CLocked l) []) /\ snd (mc_lock_table (fst r)) = MOk /\ ninv ids l).
Proof using HF.
  intros HR HS NE r. destruct (new_fields_spec ids [] [] s HR HS) as [(P & l & Q & N)|(P & i & j & Q)].
  { split; [intros i []|split; [intros i []|intros c i []]]. }
  2:{ left. split; auto. now exists i, j. }
  right. split; auto. cbn [app] in N. fold r in P, Q. pose proof Q as (_ & _ & (n & tb & I) & _). split.
  - intros i j Ii Ij S. destruct N as (_ & N & _). destruct (N i Ii) as (c & C1 & C2 & C3). destruct (N j Ij) as (c' & C1' & C2' & C3').
    assert (c = c') as <-.
    { pose proof (reg_self h _ _ _ _ _ I C1) as X. pose proof (reg_self h _ _ _ _ _ I C1') as X'.
      assert (Y : registered_as h l (name_of h c) = registered_as h l (name_of h c')).
      { unfold registered_as, feqb. unfold same in *. replace (rtrim (name_of h c')) with (rtrim (name_of h c)) by congruence. reflexivity. }
      congruence. }
    eapply agree_trans; [apply agree_sym; eauto|eauto].
  - destruct (step_sim h HF (fst r) (mkSpec (COpen l) []) MLock Q ltac:(discriminate)) as [S1 S2].
    cbn [mstep spec_step sp_phase sp_dead] in *. destruct l as [|c l].
    { exfalso. destruct ids as [|i ids]; [congruence|]. destruct N as (_ & N & _). destruct (N i (or_introl eq_refl)) as (c & [] & _). }
    exists (c :: l). cbn [fst snd] in *. split; [|split; auto]. apply S2. rewrite S1. discriminate.
Qed.
End Fields.

(* ---- the table after initialize_table ---- *)
Lemma init_heap o n h : fresh_objects h -> m_dlock o = false -> (0 < n)%Z ->
  R h (with_heap (fst (mc_initialize o n)) h) (mkSpec (COpen []) []) /\ snd (mc_initialize o n) = MOk.
Proof.
  intros HF D N.
  set (s0 := with_heap (mc_reset o true) h).
  assert (R0 : R h s0 spec_new).
  { unfold s0, R, with_heap, mc_reset, spec_new. cbn. repeat split; auto; try lia; intros id []. }
  assert (En : (n <=? 0)%Z = false) by (apply Z.leb_gt; lia).
  assert (E : with_heap (fst (mc_initialize o n)) h = fst (mstep s0 (MInit n))).
  { cbn [mstep]. unfold mc_initialize. rewrite En. reflexivity. }
  destruct (step_sim h HF s0 spec_new (MInit n) R0) as [S1 S2].
  { intros m _. exact D. }
  split; [|unfold mc_initialize; rewrite En; reflexivity].
  rewrite E. cbn [spec_step] in S1, S2. rewrite En in S1, S2. cbn [fst snd] in S1, S2. cbn [held spec_new sp_phase sp_dead app] in S2. apply S2. rewrite S1. discriminate.
Qed.

(* ---- histories ---- *)
Lemma set_indices_length s names : forall cur, length (fst (set_indices s names cur)) = length cur.
Proof.
  induction names as [|n names IH]; intros [|c cur]; cbn [set_indices]; auto.
  destruct (0 <? mc_const_index s (sos n))%Z; [|reflexivity]. specialize (IH cur). destruct (set_indices s names cur). cbn in *. lia.
Qed.
Lemma new_fields_dlock ids : forall s, m_dlock (fst (new_fields s ids)) = true -> m_dlock s = true.
Proof.
  induction ids as [|i ids IH]; intros s; cbn [new_fields]; auto.
  pose proof (dlock_step s (MNew i)) as D. cbn [mstep] in D. destruct (mc_new_field s i) as [s' o]. cbn [fst] in D.
  intros H. assert (X : m_dlock s' = true) by (destruct o; auto). destruct (D X) as [?|(a & b & ?)]; [auto|discriminate].
Qed.
Lemma lock_dlock s : m_dlock (fst (mc_lock_table s)) = true -> m_dlock s = true.
Proof. intros H. destruct (dlock_step s MLock H) as [?|(a & b & ?)]; [auto|discriminate]. Qed.
Lemma resets_dlock n : forall o, m_dlock (resets n o) = m_dlock o.
Proof. induction n as [|n IH]; intros o; cbn [resets]; auto. now rewrite IH. Qed.
Definition kinv (ds : list (list cvar)) (names : list str) (b : bool) (k : cap_st) : Prop :=
  Forall2 suite_ok ds (k_suites k) /\ length (k_indices k) = length names /\ (b = false -> m_dlock (k_obj k) = false).
Lemma register_eq ds names host dyn k : Forall2 suite_ok ds (k_suites k) ->
  register ds names host dyn k =
  match mc_initialize (k_obj k) (Z.of_nat (length host + length (objs_of ds))) with
  | (_, MUndef) => (k, MUndef)
  | (o, _) =>
      let l := host ++ dyn ++ objs_of ds in
      let '(o, r) := new_fields (with_heap o (heap_of l)) (seq 0 (length l)) in
      match r with
      | MOk => match mc_lock_table o with
               | (o, MOk) => let (ix, r) := set_indices o names (k_indices k) in (mkCap o (map suite_ready ds) ix, r)
               | (o, r) => (mkCap o (map suite_ready ds) (k_indices k), r)
               end
      | r => (mkCap o (map suite_ready ds) (k_indices k), r)
      end
  end.
Proof.
  intros F. unfold register. rewrite (count_all_ok _ _ F). replace (Z.of_nat (length host) + Z.of_nat (length (objs_of ds)))%Z with (Z.of_nat (length host + length (objs_of ds))) by lia.
  rewrite all_copies_ok. destruct (mc_initialize _ _) as [o [| |]]; reflexivity.
Qed.
Lemma init_dlock o n : m_dlock (fst (mc_initialize o n)) = m_dlock o.
Proof. unfold mc_initialize. destruct (n <=? 0)%Z; reflexivity. Qed.
Lemma history_inv ds names b k : history ds names b k -> kinv ds names b k.
Proof.
  induction 1 as [|b k host dyn H (I1 & I2 & I3)|b k c l H (I1 & I2 & I3)|b k H (I1 & I2 & I3)]; unfold kinv.
  - unfold cap_new. cbn. split; [|split; [apply repeat_length|auto]]. clear. induction ds as [|d ds IH]; constructor; auto. now left.
  - rewrite (register_eq _ _ _ _ _ I1). pose proof (init_dlock (k_obj k) (Z.of_nat (length host + length (objs_of ds)))) as ID.
    destruct (mc_initialize _ _) as [o r]. cbn [fst] in ID.
    assert (G : forall x : cap_st * mout, (x = (k, MUndef) \/ (k_suites (fst x) = map suite_ready ds /\ length (k_indices (fst x)) = length (k_indices k) /\ (m_dlock (k_obj (fst x)) = true -> m_dlock o = true))) ->
       Forall2 suite_ok ds (k_suites (fst x)) /\ length (k_indices (fst x)) = length names /\ (b = false -> m_dlock (k_obj (fst x)) = false)).
    { intros x [->|(G1 & G2 & G3)]; [cbn; auto|]. rewrite G1, G2. split; [apply ready_ok|]. split; auto. intros Hb. specialize (I3 Hb).
      destruct (m_dlock (k_obj (fst x))); auto. rewrite <- ID, G3 in I3; auto. }
    apply G. destruct r; [| |now left].
    all: right; cbv zeta; match goal with |- context [new_fields ?a ?b] => pose proof (new_fields_dlock b a) as ND; destruct (new_fields a b) as [o1 r1] end; cbn [fst with_heap m_dlock] in ND.
    all: destruct r1; cbn [fst k_suites k_indices k_obj]; auto.
    all: pose proof (lock_dlock o1) as LD; destruct (mc_lock_table o1) as [o2 r2]; cbn [fst] in LD.
    all: destruct r2; cbn [fst k_suites k_indices k_obj]; auto.
    all: pose proof (set_indices_length o2 names (k_indices k)) as SL; destruct (set_indices o2 names (k_indices k)) as [ix r3]; cbn [fst k_suites k_indices k_obj] in *; auto.
  - unfold init_data. destruct (mc_lock_data (k_obj k) c l) as [o r]. cbn. split; [exact I1|]. split; [exact I2|]. discriminate.
  - unfold cleanup. cbn. split; [exact I1|]. split; [exact I2|]. rewrite resets_dlock. exact I3.
Qed.

(* ---- the registration ---- *)
Lemma heap_fresh l : l <> [] -> (forall p, In p l -> offered p) -> fresh_objects (heap_of l).
Proof.
  intros N H i. unfold heap_of. destruct (nth_in_or_default i l (hd prop_new l)) as [I| ->]; [now apply H in I|].
  destruct l as [|p l]; [congruence|]. apply (H p). now left.
Qed.
Lemma heap_at l i p : nth_error l i = Some p -> heap_of l i = p.
Proof. intros H. unfold heap_of. now apply nth_error_nth. Qed.
Lemma rising_seq n : rising (seq 0 n).
Proof.
  intros a i b E j H. assert (X : forall m a i b, seq m n = a ++ i :: b -> i = m + length a).
  { clear. revert n. intros n m a. revert n m. induction a as [|x a IH]; intros n m i b E; destruct n; cbn in E; try discriminate.
    - injection E as <- _. cbn. lia.
    - injection E as <- E. apply IH in E. cbn. lia. }
  pose proof (X _ _ _ _ E) as Ei. apply in_split in H as (a1 & a2 & ->). rewrite <- app_assoc in E. cbn in E. apply X in E. rewrite app_length in Ei. cbn in Ei. lia.
Qed.
Lemma set_indices_ok s names : forall cur, length cur = length names -> (forall n, In n names -> (0 < mc_const_index s (sos n))%Z) ->
  set_indices s names cur = (map (fun n => mc_const_index s (sos n)) names, MOk).
Proof.
  induction names as [|n names IH]; intros [|c cur] H P; cbn in H; try discriminate; auto.
  cbn [set_indices map]. replace (0 <? mc_const_index s (sos n))%Z with true by (symmetry; apply Z.ltb_lt; apply P; now left).
  rewrite IH; auto. intros m I. apply P. now right.
Qed.
Lemma map_Some_inj {A} (a b : list A) : map Some a = map Some b -> a = b.
Proof. revert b. induction a as [|x a IH]; intros [|y b] H; cbn in H; try discriminate; auto. injection H as -> H. f_equal. auto. Qed.

Lemma register_spec ds names b k host dyn : kinv ds names b k -> b = false ->
  let all := host ++ dyn ++ objs_of ds in
  (forall p, In p all -> offered p) -> host ++ objs_of ds <> [] ->
  (forall n, In n names -> exists p, In p all /\ named p (sos n)) ->
  (snd (register ds names host dyn k) = MErr /\ ~ consistent all) \/
  (snd (register ds names host dyn k) = MOk /\ consistent all /\ exists fields, registered all names (fst (register ds names host dyn k)) fields).
Proof.
  intros (I1 & I2 & I3) Hb all OF NE HN. specialize (I3 Hb). rewrite (register_eq _ _ _ _ _ I1). fold all.
  assert (NA : all <> []) by (unfold all; destruct host, dyn, (objs_of ds); cbn in *; congruence).
  set (h := heap_of all). assert (HF : fresh_objects h) by now apply heap_fresh.
  assert (Np : (0 < Z.of_nat (length host + length (objs_of ds)))%Z) by (destruct host, (objs_of ds); cbn in *; try congruence; lia).
  destruct (init_heap (k_obj k) _ h HF I3 Np) as [HR HI]. destruct (mc_initialize _ _) as [o r]. cbn [fst snd] in HR, HI. subst r.
  cbv zeta. fold h.
  assert (Ns : seq 0 (length all) <> []) by (destruct all; [congruence|discriminate]).
  pose proof (register_lock h HF (with_heap o h) (seq 0 (length all)) HR (rising_seq _) Ns) as RL.
  destruct (new_fields (with_heap o h) (seq 0 (length all))) as [o1 r1]. cbn [fst snd] in RL.
  assert (AT : forall i, i < length all -> nth_error all i = Some (h i)).
  { intros i Hi. destruct (nth_error all i) eqn:E; [|apply nth_error_None in E; lia]. unfold h. now rewrite (heap_at _ _ _ E). }
  assert (IN : forall p, In p all -> exists i, In i (seq 0 (length all)) /\ h i = p).
  { intros p Hp. apply In_nth_error in Hp as [i Hi]. exists i. split; [|now apply heap_at]. apply in_seq. split; [lia|]. apply nth_error_Some. congruence. }
  destruct RL as [(-> & i & j & Ii & Ij & S & A)|(-> & C & l & HL & E & N)].
  - left. split; [reflexivity|]. intros C. apply in_seq in Ii, Ij.
    assert (X : agree (h i) (h j) = true); [|congruence]. apply C.
    + eapply nth_error_In, AT. lia.
    + eapply nth_error_In, AT. lia.
    + exact S.
  - right. destruct (mc_lock_table o1) as [o2 r2]. cbn [fst snd] in HL, E. subst r2.
    destruct HL as (_ & _ & HL). cbn [phase_rel sp_phase sp_dead] in HL. destruct HL as (FZ & _ & _ & _).
    destruct (frozen_full h HF o2 l FZ) as (m & PM & MM & MI & MA & MN & MU).
    destruct N as (N1 & N2 & N3).
    assert (ML : forall c, In c m <-> In c l) by (intros c; split; apply Permutation_in; auto; now symmetry).
    destruct FZ as (_ & (n0 & tb & INV) & _).
    assert (NDl : NoDup (map (fun c => rtrim (name_of h c)) l)) by exact (I_nodup INV).
    assert (NDm : NoDup (map (fun c => rtrim (name_of h c)) m)).
    { eapply Permutation_NoDup; [|exact NDl]. apply Permutation_map. now symmetry. }
    assert (IX : forall i c n, nth_error m i = Some c -> named (h c) n -> mc_const_index o2 n = (Z.of_nat i + 1)%Z).
    { intros i c n Hi Hn. destruct (MI _ _ Hi) as [_ <-].
      unfold mc_const_index, mc_find. destruct (mc_props_locked o2); auto.
      assert (X : ht_value (okey (m_heap o2)) (m_hash o2) n = ht_value (okey (m_heap o2)) (m_hash o2) (name_of h c)); [|now rewrite X].
      assert (EK : forall v, In v l -> okey h v = okey (m_heap o2) v).
      { intros v Hv. apply ML in Hv. apply In_nth_error in Hv as [j Hj]. unfold okey. destruct (MI _ _ Hj) as [-> _]. reflexivity. }
      pose proof (Inv_ext _ _ _ _ _ _ EK INV) as I'. rewrite (ht_value_spec n I'), (ht_value_spec (name_of h c) I').
      assert (Y : lookup (okey (m_heap o2)) l n = lookup (okey (m_heap o2)) l (name_of h c)); [|now rewrite Y].
      unfold lookup, feqb. unfold named in Hn. unfold name_of. now rewrite Hn. }
    assert (POS : forall n, In n names -> exists i c, nth_error m i = Some c /\ named (h c) (sos n)).
    { intros n Hn. destruct (HN n Hn) as (p & Hp & Q). destruct (IN p Hp) as (i & Ii & <-). destruct (N2 i Ii) as (c & C1 & C2 & _).
      apply ML in C1. apply In_nth_error in C1 as [j Hj]. exists j, c. split; auto. unfold named, same, name_of in *. congruence. }
    rewrite (set_indices_ok o2 names (k_indices k) I2).
    2:{ intros n Hn. destruct (POS n Hn) as (i & c & Hi & Q). rewrite (IX i c _ Hi Q). lia. }
    split; [reflexivity|]. split.
    { intros p q Hp Hq S. destruct (IN p Hp) as (i & Ii & <-), (IN q Hq) as (j & Ij & <-). now apply C. }
    exists (map h m). unfold registered. cbn [fst k_obj k_indices]. repeat split.
    + intros q Hq. apply in_map_iff in Hq as (c & <- & Hc). apply ML in Hc. pose proof (N1 c Hc) as Hs. apply in_seq in Hs.
      destruct (nth_error_split _ _ (AT c ltac:(lia))) as (a & b' & Ea & La). exists a, b'. split; auto.
      intros p Hp S. assert (Hi : exists i, i < c /\ nth_error all i = Some p).
      { apply In_nth_error in Hp as [i Hi]. exists i. assert (i < length a) by (apply nth_error_Some; congruence). split; [lia|].
        rewrite Ea, nth_error_app1; auto. }
      destruct Hi as (i & Li & Hi). assert (X : c <= i); [|lia]. apply N3; auto.
      * apply in_seq. split; [lia|]. apply nth_error_Some. congruence.
      * unfold same, name_of. unfold h at 2. rewrite (heap_at _ _ _ Hi). symmetry. exact S.
    + intros p Hp. destruct (IN p Hp) as (i & Ii & <-). destruct (N2 i Ii) as (c & C1 & C2 & C3). exists (h c).
      split; [apply in_map; now apply ML|]. split; [symmetry; exact C2|now apply agree_sym].
    + rewrite map_map. exact NDm.
    + intros i j p q Hi Hj. rewrite nth_error_map in Hi, Hj. destruct (nth_error m i) as [c|] eqn:Ei; [|discriminate].
      destruct (nth_error m j) as [c'|] eqn:Ej; [|discriminate]. cbn in Hi, Hj. injection Hi as <-. injection Hj as <-. now apply MA.
    + intros i q n Hi Q. rewrite nth_error_map in Hi. destruct (nth_error m i) as [c|] eqn:Ei; [|discriminate]. cbn in Hi. injection Hi as <-. eapply IX; eauto.
    + intros n Hn. apply MU. destruct (registered_as h l n) as [c|] eqn:Er; auto. exfalso. apply find_some in Er as [Hc Er].
      apply (Hn (h c)); [apply in_map; now apply ML|]. unfold named. unfold feqb in Er. now apply String.eqb_eq in Er.
    + now rewrite map_length.
    + intros j n Hj. destruct (POS n (nth_error_In _ _ Hj)) as (i & c & Hi & Q). exists i, (h c). split; [now rewrite nth_error_map, Hi|]. split; auto.
      rewrite nth_error_map, Hj. cbn. f_equal. eapply IX; eauto.
Qed.

(* ---- the names of the cap are registered ---- *)
Lemma names_registered compat ds entries names host dyn :
  (forall v, In v (List.concat ds) -> regular (cv_name v)) -> generate compat ds = Ok (entries, names) ->
  forall n, In n names -> exists p, In p (host ++ dyn ++ objs_of ds) /\ named p (sos n).
Proof.
  intros RV HG n Hn. destruct (generate_spec compat ds RV) as [(_ & g & E & G)|(_ & e & E)]; rewrite HG in E; [|discriminate].
  injection E as -> ->. apply (proj1 (in_sorted _ _)) in Hn. apply in_map_iff in Hn as (c & <- & I). apply (gi_c _ _ G) in I as [F St].
  apply first_clone in F as (u & F & ->). apply first_in in F. exists (obj u). split.
  - apply in_app_iff. right. apply in_app_iff. right. unfold objs_of. apply in_concat in F as (d & Id & Iu).
    apply in_concat. exists (map obj (members d)). split; [apply in_map_iff; eauto|]. apply in_map. apply filter_In. split; auto.
    destruct (is_tendency u) eqn:T; auto. exfalso. apply is_tendency_iff in T as (x & T). apply St. cbn. rewrite T. exists [], (L "_" ++ x). reflexivity.
  - unfold named. destruct (obj_eq u) as [w ->]. cbn. apply rtrim_idem.
Qed.

(* ---- locked data ---- *)
Lemma init_data_locked ncols nlev k : snd (init_data ncols nlev k) = MOk -> m_dlock (k_obj (fst (init_data ncols nlev k))) = true.
Proof.
  unfold init_data. intros H. destruct (mc_lock_data (k_obj k) ncols nlev) as [o r] eqn:E. cbn in *. subst r.
  unfold mc_lock_data in E. destruct (mc_data_locked _); [discriminate|]. destruct (negb _); [discriminate|].
  destruct (m_vars _); [discriminate|]. destruct (m_meta _) as [m|]; [|discriminate].
  destruct (_ =? 0)%Z eqn:Z0 in E; [|discriminate]. injection E as <-. reflexivity.
Qed.
Lemma data_keeps_lock c l k : m_dlock (k_obj k) = true -> m_dlock (k_obj (fst (init_data c l k))) = true.
Proof.
  intros D. unfold init_data, mc_lock_data, mc_data_locked, mc_props_locked. rewrite D. destruct (ht_is_initialized _); cbn; auto.
Qed.
Lemma new_field_locked s i : m_dlock s = true -> m_dlock (fst (mc_new_field s i)) = true.
Proof.
  intros D. unfold mc_new_field. destruct (mc_okay_to_add s); auto. destruct (negb _); auto.
  destruct (mc_find s _); auto. { destruct (is_match _ _); auto. }
  destruct (ht_add _ _ _) as [[| |] t]; auto.
Qed.
Lemma new_fields_locked ids : forall s, m_dlock s = true -> m_dlock (fst (new_fields s ids)) = true.
Proof.
  induction ids as [|i ids IH]; intros s D; cbn [new_fields]; auto.
  pose proof (new_field_locked s i D) as X. destruct (mc_new_field s i) as [s' [| |]]; cbn [fst] in *; auto.
Qed.
Lemma lock_table_locked s : m_dlock s = true -> m_dlock (fst (mc_lock_table s)) = true.
Proof.
  intros D. unfold mc_lock_table. destruct (mc_props_locked s); auto. destruct (tbl_entries _); auto.
  destruct (_ <? _)%Z; auto.
Qed.
Lemma register_locked ds names host dyn k : Forall2 suite_ok ds (k_suites k) -> m_dlock (k_obj k) = true ->
  m_dlock (k_obj (fst (register ds names host dyn k))) = true.
Proof.
  intros I1 D. rewrite (register_eq _ _ _ _ _ I1). pose proof (init_dlock (k_obj k) (Z.of_nat (length host + length (objs_of ds)))) as ID.
  destruct (mc_initialize _ _) as [o r]. cbn [fst] in ID. rewrite D in ID. destruct r; auto; cbv zeta.
  all: match goal with |- context [new_fields ?a ?b] => pose proof (new_fields_locked b a ID) as ND; destruct (new_fields a b) as [o1 r1] end; cbn [fst] in ND.
  all: destruct r1; auto; pose proof (lock_table_locked o1 ND) as LD; destruct (mc_lock_table o1) as [o2 [| |]]; auto; destruct (set_indices o2 names (k_indices k)); auto.
Qed.
Lemma register_fails ds names host dyn k : Forall2 suite_ok ds (k_suites k) -> m_dlock (k_obj k) = true ->
  0 < length host + length (objs_of ds) -> snd (register ds names host dyn k) = MErr.
Proof.
  intros I1 D N. rewrite (register_eq _ _ _ _ _ I1). unfold mc_initialize.
  replace (Z.of_nat (length host + length (objs_of ds)) <=? 0)%Z with false by (symmetry; apply Z.leb_gt; lia). cbv zeta.
  assert (X : exists m, length (host ++ dyn ++ objs_of ds) = S m) by (rewrite !app_length; exists (length host + length dyn + length (objs_of ds) - 1); lia).
  destruct X as (m & X). rewrite X. cbn [seq new_fields]. unfold mc_new_field, mc_okay_to_add, mc_props_locked, mc_data_locked. cbn [with_heap m_dlock m_hash m_tlock mc_reset]. rewrite D. reflexivity.
Qed.
Lemma suite_objects_length ds objs : suite_objects (List.concat ds) objs -> length objs = length (objs_of ds).
Proof.
  assert (X : forall d objs, suite_objects d objs -> length objs = length (members d)).
  { intros d o. induction 1 as [|v d ps x E S IH|v d p ps E M S IH]; cbn [members List.filter]; auto.
    - replace (is_tendency v) with true by (symmetry; apply is_tendency_iff; eauto). auto.
    - replace (is_tendency v) with false; [cbn; f_equal; exact IH|]. destruct (is_tendency v) eqn:T; auto. apply is_tendency_iff in T as (x & T). now apply E in T. }
  intros H. rewrite (X _ _ H). clear. unfold objs_of. induction ds as [|d ds IH]; auto. cbn [map List.concat].
  unfold members in *. rewrite filter_app, !app_length, map_length. now f_equal.
Qed.
