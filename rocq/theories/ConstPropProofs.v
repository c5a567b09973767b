From Verif Require Import Base ConstPropModel ConstPropSpec.
Open Scope Z_scope.

Lemma const_water_of_valid name a :
  valid_mixing a = true <-> exists w, const_water_of name (a_mixing a) = Some w.
Proof.
  unfold valid_mixing, const_water_of. destruct (a_mixing a) as [m|].
  - destruct (feqb m "wet"), (feqb m "moist"), (feqb m "dry"); simpl; split; eauto;
      try discriminate; intros [w H]; discriminate H.
  - split; auto. intros _. repeat destruct (contains _ _); eauto.
Qed.

Lemma const_water_of_invalid name a :
  valid_mixing a = false <-> const_water_of name (a_mixing a) = None.
Proof.
  unfold valid_mixing, const_water_of. destruct (a_mixing a) as [m|].
  - destruct (feqb m "wet"), (feqb m "moist"), (feqb m "dry"); simpl; split; congruence.
  - split; [congruence|]. repeat destruct (contains _ _); congruence.
Qed.

Lemma instantiate_fresh p a : is_instantiated p = false ->
  (valid_mixing a = true -> snd (prop_instantiate p a) = 0 /\
      is_instantiated (fst (prop_instantiate p a)) = true) /\
  (valid_mixing a = false -> snd (prop_instantiate p a) = 1 /\
      is_instantiated (fst (prop_instantiate p a)) = false).
Proof.
  intros H. unfold prop_instantiate. rewrite H. split; intros Hv.
  - apply (const_water_of_valid (rtrim (a_std_name a))) in Hv as [w Hw]. rewrite Hw. auto.
  - apply (const_water_of_invalid (rtrim (a_std_name a))) in Hv. rewrite Hv. auto.
Qed.

Lemma instantiate_twice p a : is_instantiated p = true ->
  snd (prop_instantiate p a) = 1 /\ is_instantiated (fst (prop_instantiate p a)) = false.
Proof. intros H. unfold prop_instantiate. rewrite H. auto. Qed.

(* which values a re-instantiated object has *)
Lemma reinstantiate_explicit p a :
  a_min a <> None -> a_molar a <> None -> a_water a <> None ->
  p_thermo_active p = false -> valid_mixing a = true ->
  observe (fst (prop_instantiate (prop_deallocate p) a)) = observe (fst (prop_instantiate prop_new a)).
Proof.
  intros Hm Hmo Hw Ht Hv.
  apply (const_water_of_valid (rtrim (a_std_name a))) in Hv as [w Hwt].
  unfold prop_instantiate. simpl is_instantiated. cbv iota. rewrite Hwt.
  destruct (a_min a); [|congruence]. destruct (a_molar a); [|congruence].
  destruct (a_water a); [|congruence].
  unfold observe, query. simpl. rewrite Ht. reflexivity.
Qed.

Lemma reinstantiate_stale :
  exists p a, is_instantiated p = true /\ valid_mixing a = true /\
    q_minimum (fst (prop_instantiate (prop_deallocate p) a))
      <> q_minimum (fst (prop_instantiate prop_new a)) /\
    q_molar_mass (fst (prop_instantiate (prop_deallocate p) a))
      <> q_molar_mass (fst (prop_instantiate prop_new a)) /\
    q_is_water_species (fst (prop_instantiate (prop_deallocate p) a))
      <> q_is_water_species (fst (prop_instantiate prop_new a)) /\
    q_is_thermo_active (fst (prop_instantiate (prop_deallocate p) a))
      <> q_is_thermo_active (fst (prop_instantiate prop_new a)).
Proof.
  set (a0 := mkArgs "qv" "vapor" "kg kg-1" "vertical_layer_dimension" None None (Some 5) (Some 18) (Some true) None).
  set (a1 := mkArgs "qc" "cloud" "kg kg-1" "vertical_layer_dimension" None None None None None None).
  exists (fst (set_thermo_active (fst (prop_instantiate prop_new a0)) true)), a1.
  split; [reflexivity|]. split; [reflexivity|].
  vm_compute. repeat split; intros H; discriminate H.
Qed.

Lemma pstep_keeps p o : keeps o = true -> is_instantiated p = true ->
  p_const_ind p <> int_unassigned ->
  is_instantiated (fst (pstep p o)) = true /\ p_const_ind (fst (pstep p o)) = p_const_ind p.
Proof.
  intros Ho Hi Hc. destruct o; try discriminate Ho; simpl;
    unfold set_const_index, set_thermo_active, set_water_species, set_min_val, set_molar_mass;
    rewrite Hi; auto.
  destruct (Z.eqb_spec (p_const_ind p) int_unassigned) as [E|E]; [congruence|]. auto.
Qed.

Lemma index_once p i ops :
  snd (set_const_index p i) = 0 -> i <> int_unassigned ->
  forallb keeps ops = true ->
  q_const_index (prun (fst (set_const_index p i)) ops) = (i, 0) /\
  forall j, set_const_index (prun (fst (set_const_index p i)) ops) j
            = (prun (fst (set_const_index p i)) ops, 1).
Proof.
  intros H Hi Hk. unfold set_const_index in H.
  destruct (is_instantiated p) eqn:EI; [|discriminate H].
  destruct (Z.eqb_spec (p_const_ind p) int_unassigned) as [E|E]; [|discriminate H].
  set (q := fst (set_const_index p i)).
  assert (Q1 : is_instantiated q = true).
  { unfold q, set_const_index. rewrite EI, E, Z.eqb_refl. exact EI. }
  assert (Q2 : p_const_ind q = i).
  { unfold q, set_const_index. rewrite EI, E, Z.eqb_refl. reflexivity. }
  assert (G : is_instantiated (prun q ops) = true /\ p_const_ind (prun q ops) = i).
  { clearbody q. revert q Q1 Q2. induction ops as [|o ops IH]; intros q Q1 Q2; simpl; auto.
    simpl in Hk. apply andb_prop in Hk as [Hk1 Hk2].
    destruct (pstep_keeps q o Hk1 Q1) as [K1 K2]; [congruence|].
    apply IH; auto. congruence. }
  fold q. clearbody q. destruct G as [G1 G2]. split.
  - unfold q_const_index, query. now rewrite G1, G2.
  - intros j. unfold set_const_index at 1. rewrite G1, G2.
    destruct (Z.eqb_spec i int_unassigned); [congruence|reflexivity].
Qed.

Definition classified (p : cprop) : Prop :=
  is_instantiated p = true ->
    In (p_const_type p) [mass_mixing_ratio; volume_mixing_ratio; number_concentration] /\
    In (p_const_water p) [dry_mixing_ratio; moist_mixing_ratio; wet_mixing_ratio].

Lemma pstep_classified p o : classified p -> classified (fst (pstep p o)).
Proof.
  intros C. destruct o; simpl;
    unfold set_const_index, set_thermo_active, set_water_species, set_min_val, set_molar_mass;
    try (destruct (is_instantiated p) eqn:E; [|exact C];
         try (destruct (p_const_ind p =? int_unassigned)); auto;
         intros _; simpl; apply C; exact E).
  - unfold prop_instantiate. destruct (is_instantiated p); [intros H; discriminate H|].
    destruct (const_water_of _ _) as [w|] eqn:Ew; [|intros H; discriminate H].
    intros _. cbn [fst p_const_type p_const_water]. split.
    + unfold const_type_of. repeat destruct (contains _ _); simpl; auto.
    + unfold const_water_of in Ew. destruct (a_mixing a);
      [destruct (feqb s "wet"); [|destruct (feqb s "moist"); [|destruct (feqb s "dry"); [|discriminate Ew]]]
      |destruct (contains _ _); [|destruct (contains "wrt_moist_air" _)]];
      injection Ew as <-; simpl; auto.
  - intros H; discriminate H.
Qed.

Lemma prun_classified ops : forall p, classified p -> classified (prun p ops).
Proof.
  induction ops as [|o ops IH]; simpl; auto. intros p C. apply IH. now apply pstep_classified.
Qed.

Lemma classified_reachable ops p : p = prun prop_new ops -> is_instantiated p = true ->
  exactly_one3 (fst (q_is_mass p)) (fst (q_is_volume p)) (fst (q_is_number p)) /\
  exactly_one3 (fst (q_is_dry p)) (fst (q_is_moist p)) (fst (q_is_wet p)).
Proof.
  intros -> HI.
  assert (C : classified (prun prop_new ops)) by (apply prun_classified; intros H; discriminate H).
  destruct (C HI) as [C1 C2]. unfold q_is_mass, q_is_volume, q_is_number, q_is_dry, q_is_moist, q_is_wet, query.
  rewrite HI. unfold exactly_one3. simpl in C1, C2.
  split.
  - destruct C1 as [<-|[<-|[<-|[]]]]; vm_compute; auto 10.
  - destruct C2 as [<-|[<-|[<-|[]]]]; vm_compute; auto 10.
Qed.

Lemma setters_frame p : is_instantiated p = true ->
  forall o, keeps o = true ->
  q_standard_name (fst (pstep p o)) = q_standard_name p /\
  q_units (fst (pstep p o)) = q_units p /\
  q_is_advected (fst (pstep p o)) = q_is_advected p /\
  q_default_value (fst (pstep p o)) = q_default_value p /\
  q_long_name (fst (pstep p o)) = q_long_name p /\
  q_vertical_dimension (fst (pstep p o)) = q_vertical_dimension p /\
  (q_is_mass (fst (pstep p o)), q_is_volume (fst (pstep p o)), q_is_number (fst (pstep p o)))
    = (q_is_mass p, q_is_volume p, q_is_number p) /\
  (q_is_dry (fst (pstep p o)), q_is_moist (fst (pstep p o)), q_is_wet (fst (pstep p o)))
    = (q_is_dry p, q_is_moist p, q_is_wet p) /\
  q_is_thermo_active (fst (pstep p o)) = (match o with PSetThermo b => (b, 0) | _ => q_is_thermo_active p end) /\
  q_is_water_species (fst (pstep p o)) = (match o with PSetWater b => (b, 0) | _ => q_is_water_species p end) /\
  q_minimum (fst (pstep p o)) = (match o with PSetMin b => (b, 0) | _ => q_minimum p end) /\
  q_molar_mass (fst (pstep p o)) = (match o with PSetMolar b => (b, 0) | _ => q_molar_mass p end).
Proof.
  intros HI o Ho.
  destruct o; try discriminate Ho; simpl;
    unfold set_const_index, set_thermo_active, set_water_species, set_min_val, set_molar_mass;
    rewrite HI; try (destruct (p_const_ind p =? int_unassigned));
    unfold q_standard_name, q_units, q_is_advected, q_default_value, q_is_thermo_active, q_long_name, q_vertical_dimension,
           q_is_mass, q_is_volume, q_is_number, q_is_dry, q_is_moist, q_is_wet,
           q_is_water_species, q_minimum, q_molar_mass, query;
    unfold is_instantiated in *; simpl; destruct (p_std_name p); try discriminate HI;
    simpl; auto 15.
Qed.

Lemma instantiate_values p a : is_instantiated p = false -> valid_mixing a = true ->
  let q := fst (prop_instantiate p a) in
  q_standard_name q = (rtrim (a_std_name a), 0) /\
  q_long_name q = (rtrim (a_long_name a), 0) /\
  q_units q = (rtrim (a_units a), 0) /\
  q_vertical_dimension q = (rtrim (a_vert_dim a), 0) /\
  q_is_advected q = (or_else (a_advected a) false, 0) /\
  q_is_thermo_active q = (p_thermo_active p, 0) /\
  (forall x, a_default a = Some x -> q_default_value q = (x, 0)) /\
  (forall x, a_min a = Some x -> q_minimum q = (x, 0)) /\
  (forall x, a_molar a = Some x -> q_molar_mass q = (x, 0)) /\
  (forall x, a_water a = Some x -> q_is_water_species q = (x, 0)).
Proof.
  intros H Hv. unfold prop_instantiate. rewrite H.
  apply (const_water_of_valid (rtrim (a_std_name a))) in Hv as [w Hw]. rewrite Hw.
  simpl. repeat split; try reflexivity; intros x ->; reflexivity.
Qed.

(* an object that never was instantiated, or was deallocated, has no index and no default *)
Definition clean (p : cprop) : Prop :=
  is_instantiated p = false -> p_const_ind p = int_unassigned /\ p_default_value p = kphys_unassigned.
Lemma pstep_clean p o : clean p -> clean (fst (pstep p o)).
Proof.
  intros C. unfold clean in *. destruct o; cbn [pstep].
  - unfold prop_instantiate. destruct (is_instantiated p); [intros _; auto|].
    destruct (const_water_of _ _); [discriminate|intros _; auto].
  - intros _. auto.
  - unfold set_const_index. destruct (is_instantiated p) eqn:E; [|intros _; now apply C].
    destruct (p_const_ind p =? int_unassigned); intros K; unfold is_instantiated in *; cbn in K; congruence.
  - unfold set_thermo_active. destruct (is_instantiated p) eqn:E; [|intros _; now apply C].
    intros K; unfold is_instantiated in *; cbn in K; congruence.
  - unfold set_water_species. destruct (is_instantiated p) eqn:E; [|intros _; now apply C].
    intros K; unfold is_instantiated in *; cbn in K; congruence.
  - unfold set_min_val. destruct (is_instantiated p) eqn:E; [|intros _; now apply C].
    intros K; unfold is_instantiated in *; cbn in K; congruence.
  - unfold set_molar_mass. destruct (is_instantiated p) eqn:E; [|intros _; now apply C].
    intros K; unfold is_instantiated in *; cbn in K; congruence.
Qed.
Lemma prun_clean ops : forall p, clean p -> clean (prun p ops).
Proof. induction ops as [|o ops IH]; simpl; auto. intros p C. apply IH. now apply pstep_clean. Qed.
Lemma instantiate_unplaced ops a : let p := prun prop_new ops in
  is_instantiated p = false -> valid_mixing a = true ->
  let q := fst (prop_instantiate p a) in
  q_const_index q = (int_unassigned, 0) /\
  q_default_value q = (or_else (a_default a) kphys_unassigned, 0) /\
  q_has_default q = (match a_default a with Some x => negb (x =? kphys_unassigned) | None => false end, 0).
Proof.
  intros p H Hv. assert (C : clean p) by (apply prun_clean; intros _; auto).
  destruct (C H) as [C1 C2]. unfold prop_instantiate. rewrite H.
  apply (const_water_of_valid (rtrim (a_std_name a))) in Hv as [w Hw]. rewrite Hw.
  unfold q_const_index, q_default_value, q_has_default, query. cbn. rewrite C1, C2. repeat split.
  destruct (a_default a); reflexivity.
Qed.

(* contains is the occurrence of a text *)
Lemma prefix_cons c a d s : String.prefix (String c a) (String d s) = true <-> c = d /\ String.prefix a s = true.
Proof. cbn. destruct (ascii_dec c d) as [->|N]; split; try tauto; try discriminate. Qed.
Lemma prefix_app a : forall s, String.prefix a s = true <-> exists b, s = (a ++ b)%string.
Proof.
  induction a as [|c a IH]; intros s.
  - split; [intros _; exists s; reflexivity|intros _; destruct s; reflexivity].
  - destruct s as [|d s].
    + split; [discriminate|]. intros [b H]. discriminate.
    + rewrite prefix_cons, IH. split.
      * intros [-> [b ->]]. exists b. reflexivity.
      * intros [b H]. cbn in H. injection H as -> ->. eauto.
Qed.
Lemma index0_occurs sub : forall s, (exists n, String.index 0 sub s = Some n) <-> occurs sub s.
Proof.
  induction s as [|c s IH].
  - destruct sub as [|d sub]; cbn; split.
    + intros _. exists ""%string, ""%string. reflexivity.
    + intros _. eauto.
    + intros [n H]. discriminate.
    + intros (a & b & H). destruct a; discriminate.
  - cbn [String.index]. destruct (String.prefix sub (String c s)) eqn:E.
    + split; [|eauto]. intros _. apply prefix_app in E. destruct E as [b E]. exists ""%string, b. exact E.
    + split.
      * intros [n H]. destruct (String.index 0 sub s) as [k|] eqn:K; [|discriminate].
        destruct (proj1 IH (ex_intro _ k eq_refl)) as (a & b & G). exists (String c a), b. cbn. now rewrite G.
      * intros (a & b & H). destruct a as [|d a].
        -- cbn in H. assert (T : String.prefix sub (String c s) = true) by (apply prefix_app; eauto). congruence.
        -- cbn in H. injection H as -> H. destruct (proj2 IH) as [k K]; [exists a, b; exact H|]. rewrite K. eauto.
Qed.
Lemma contains_occurs sub s : contains sub s = true <-> occurs sub s.
Proof.
  rewrite <- index0_occurs. unfold contains. destruct (String.index 0 sub s) as [n|].
  - split; [eauto|reflexivity].
  - split; [discriminate|]. intros [n H]. discriminate.
Qed.
Lemma contains_false sub s : contains sub s = false <-> ~ occurs sub s.
Proof. rewrite <- contains_occurs. destruct (contains sub s); split; try congruence; auto. Qed.

Lemma classification_values p a : is_instantiated p = false -> valid_mixing a = true ->
  let q := fst (prop_instantiate p a) in let n := rtrim (a_std_name a) in
  (fst (q_is_volume q) = true <-> occurs "volume_mixing_ratio" n) /\
  (fst (q_is_number q) = true <-> occurs "number_concentration" n /\ ~ occurs "volume_mixing_ratio" n) /\
  (forall m, a_mixing a = Some m ->
     (fst (q_is_wet q) = true <-> rtrim m = "wet"%string) /\
     (fst (q_is_moist q) = true <-> rtrim m = "moist"%string) /\
     (fst (q_is_dry q) = true <-> rtrim m = "dry"%string)) /\
  (a_mixing a = None ->
     (fst (q_is_wet q) = true <-> occurs "wrt_moist_air_and_condensed_water" n) /\
     (fst (q_is_moist q) = true <-> occurs "wrt_moist_air" n /\ ~ occurs "wrt_moist_air_and_condensed_water" n) /\
     (fst (q_is_dry q) = true <-> ~ occurs "wrt_moist_air" n)).
Proof.
  intros H Hv q n.
  pose proof Hv as Hv0.
  apply (const_water_of_valid n) in Hv as [w Hw].
  assert (Eq : q = mkProp (Some n) (Some (rtrim (a_long_name a))) (Some (rtrim (a_units a)))
                (Some (rtrim (a_vert_dim a))) (p_const_ind p) (or_else (a_advected a) false) (p_thermo_active p)
                (or_else (a_water a) (p_water_species p)) (const_type_of n) w
                (or_else (a_min a) (p_min_val p)) (or_else (a_molar a) (p_molar_mass p))
                (or_else (a_default a) (p_default_value p))).
  { unfold q, prop_instantiate. rewrite H. fold n. rewrite Hw. reflexivity. }
  clearbody q. subst q.
  unfold q_is_volume, q_is_number, q_is_wet, q_is_moist, q_is_dry, query. cbn [is_instantiated p_std_name fst p_const_type p_const_water].
  rewrite <- !contains_occurs. unfold const_type_of.
  assert (IMP : contains "wrt_moist_air_and_condensed_water" n = true -> contains "wrt_moist_air" n = true).
  { rewrite !contains_occurs. intros (x & y & ->). exists x, ("_and_condensed_water" ++ y)%string. reflexivity. }
  split; [|split; [|split]].
  - destruct (contains "volume_mixing_ratio" n); [vm_compute; tauto|].
    destruct (contains "number_concentration" n); vm_compute; split; discriminate.
  - destruct (contains "volume_mixing_ratio" n); [vm_compute; split; [discriminate|intros [_ K]; exfalso; apply K; reflexivity]|].
    destruct (contains "number_concentration" n); vm_compute; split; try discriminate.
    + intros _. split; [reflexivity|discriminate].
    + reflexivity.
    + intros [K _]; discriminate.
  - intros m Hm. unfold const_water_of in Hw. rewrite Hm in Hw.
    assert (W : rtrim m = "wet"%string <-> feqb m "wet" = true) by (rewrite feqb_spec; reflexivity).
    assert (M : rtrim m = "moist"%string <-> feqb m "moist" = true) by (rewrite feqb_spec; reflexivity).
    assert (D : rtrim m = "dry"%string <-> feqb m "dry" = true) by (rewrite feqb_spec; reflexivity).
    rewrite W, M, D.
    destruct (feqb m "wet") eqn:E1.
    + injection Hw as <-. apply feqb_spec in E1.
      assert (E2 : feqb m "moist" = false) by (apply feqb_false; rewrite E1; discriminate).
      assert (E3 : feqb m "dry" = false) by (apply feqb_false; rewrite E1; discriminate).
      rewrite E2, E3. clear. vm_compute. repeat split; congruence.
    + destruct (feqb m "moist") eqn:E2.
      * injection Hw as <-. apply feqb_spec in E2.
        assert (E3 : feqb m "dry" = false) by (apply feqb_false; rewrite E2; discriminate).
        rewrite E3. clear. vm_compute. repeat split; congruence.
      * destruct (feqb m "dry"); [|discriminate]. injection Hw as <-. clear. vm_compute. repeat split; congruence.
  - intros Hm. unfold const_water_of in Hw. rewrite Hm in Hw.
    destruct (contains "wrt_moist_air_and_condensed_water" n) eqn:E1.
    + injection Hw as <-. rewrite (IMP eq_refl). clear. vm_compute.
      repeat split; try discriminate; try (intros [_ K]; exfalso; apply K; reflexivity); intros K; exfalso; apply K; reflexivity.
    + destruct (contains "wrt_moist_air" n); injection Hw as <-; clear; vm_compute;
        repeat split; try discriminate; try (intros [K _]; discriminate); intros K; exfalso; apply K; reflexivity.
Qed.

(* stored texts are trimmed and the type follows from the name *)
Definition trimmed (o : option string) : Prop := match o with Some x => rtrim x = x | None => True end.
Definition stored_ok (p : cprop) : Prop :=
  trimmed (p_std_name p) /\ trimmed (p_long_name p) /\ trimmed (p_units p) /\ trimmed (p_vert_dim p) /\
  (forall n, p_std_name p = Some n -> p_const_type p = const_type_of n) /\
  (p_std_name p <> None -> p_long_name p <> None /\ p_units p <> None /\ p_vert_dim p <> None).
Lemma pstep_stored p o : stored_ok p -> stored_ok (fst (pstep p o)).
Proof.
  intros (A & B & C & D & E & F). destruct o; simpl;
    unfold set_const_index, set_thermo_active, set_water_species, set_min_val, set_molar_mass;
    try (destruct (is_instantiated p); [|repeat split; tauto || auto];
         try (destruct (p_const_ind p =? int_unassigned)); repeat split; cbn; auto; apply F; auto).
  - unfold prop_instantiate. destruct (is_instantiated p).
    + repeat split; cbn; auto; discriminate || congruence.
    + destruct (const_water_of _ _); repeat split; cbn; auto using rtrim_idem; try discriminate; try congruence.
  - repeat split; cbn; auto; discriminate || congruence.
Qed.
Lemma prun_stored ops : forall p, stored_ok p -> stored_ok (prun p ops).
Proof. induction ops as [|o ops IH]; simpl; auto. intros p C. apply IH. now apply pstep_stored. Qed.
Lemma new_stored : stored_ok prop_new.
Proof. repeat split; cbn; auto; discriminate || congruence. Qed.

Lemma equivalent_iff ops1 ops2 : let p := prun prop_new ops1 in let q := prun prop_new ops2 in
  is_equivalent p q = true <->
  is_instantiated p = true /\ is_instantiated q = true /\ observe_unplaced p = observe_unplaced q.
Proof.
  intros p q.
  pose proof (prun_stored ops1 _ new_stored) as (A1 & A2 & A3 & A4 & A5 & A6). fold p in A1, A2, A3, A4, A5, A6.
  pose proof (prun_stored ops2 _ new_stored) as (B1 & B2 & B3 & B4 & B5 & B6). fold q in B1, B2, B3, B4, B5, B6.
  assert (Cp : classified p) by (apply prun_classified; intros H; discriminate H).
  assert (Cq : classified q) by (apply prun_classified; intros H; discriminate H).
  clearbody p q. unfold is_equivalent, classified, is_instantiated in *.
  unfold observe_unplaced, q_standard_name, q_long_name, q_units, q_vertical_dimension, q_is_advected, q_is_thermo_active,
    q_is_water_species, q_is_mass, q_is_volume, q_is_number, q_is_dry, q_is_moist, q_is_wet, q_minimum, q_molar_mass,
    q_default_value, q_has_default, query, is_instantiated.
  destruct (p_std_name p) as [n1|] eqn:N1; [|cbn; split; [discriminate|intros [K _]; discriminate]].
  destruct (p_std_name q) as [n2|] eqn:N2; [|cbn; split; [discriminate|intros (_ & K & _); discriminate]].
  destruct (A6 ltac:(discriminate)) as (X1 & X2 & X3). destruct (B6 ltac:(discriminate)) as (Y1 & Y2 & Y3).
  destruct (p_long_name p) as [l1|]; [|congruence]. destruct (p_long_name q) as [l2|]; [|congruence].
  destruct (p_units p) as [u1|]; [|congruence]. destruct (p_units q) as [u2|]; [|congruence].
  destruct (p_vert_dim p) as [v1|]; [|congruence]. destruct (p_vert_dim q) as [v2|]; [|congruence].
  cbn [trimmed ostr or_else] in *. clear X1 X2 X3 Y1 Y2 Y3 A6 B6.
  specialize (A5 _ eq_refl). specialize (B5 _ eq_refl). rewrite A5, B5 in *.
  destruct (Cp eq_refl) as [_ Wp]. destruct (Cq eq_refl) as [_ Wq].
  rewrite !andb_true_iff, !feqb_spec, !Z.eqb_eq, !Bool.eqb_true_iff, A1, A2, A3, A4, B1, B2, B3, B4.
  split.
  - intros ((((((((((((_ & _) & E1) & E2) & E3) & E4) & E5) & E6) & E7) & E8) & E9) & E10) & E11).
    rewrite E1, E2, E3, E4, E5, E6, E7, E8, E9, E10, E11. auto.
  - intros (_ & _ & K). injection K as E1 E2 E3 E4 E5 E6 E7 E8 E9 E10 E11 E12 E13 E14 E15 E16 E17.
    assert (W : p_const_water p = p_const_water q).
    { clear - Wp Wq E11 E12 E13. revert Wp Wq E11 E12 E13.
      generalize (p_const_water p) (p_const_water q). intros w1 w2 Wp Wq E11 E12 E13.
      destruct Wp as [<-|[<-|[<-|[]]]]; destruct Wq as [<-|[<-|[<-|[]]]]; try reflexivity; vm_compute in E11, E12, E13; discriminate. }
    repeat split; auto.
Qed.

Lemma vertical_classes ops : let p := prun prop_new ops in is_instantiated p = true ->
  (is_layer_var p = true <-> q_vertical_dimension p = ("vertical_layer_dimension"%string, 0)) /\
  (is_interface_var p = true <-> q_vertical_dimension p = ("vertical_interface_dimension"%string, 0)) /\
  (is_2d_var p = true <-> q_vertical_dimension p = (""%string, 0)).
Proof.
  intros p H. pose proof (prun_stored ops _ new_stored) as (_ & _ & _ & A4 & _ & A6). fold p in A4, A6. clearbody p.
  unfold is_layer_var, is_interface_var, is_2d_var, q_vertical_dimension, query. rewrite H. cbn [fst].
  unfold is_instantiated in H. destruct (p_std_name p); [|discriminate].
  destruct (A6 ltac:(discriminate)) as (_ & _ & V). destruct (p_vert_dim p) as [v|]; [|congruence].
  cbn [trimmed ostr or_else] in *. rewrite !feqb_spec, A4.
  change (rtrim "vertical_layer_dimension") with "vertical_layer_dimension"%string.
  change (rtrim "vertical_interface_dimension") with "vertical_interface_dimension"%string.
  split; [|split].
  - split; [intros ->; reflexivity|intros K; now injection K].
  - split; [intros ->; reflexivity|intros K; now injection K].
  - destruct v; split; try discriminate; auto.
Qed.

Lemma copy_observe p : observe (copy_constituent p) = observe p.
Proof. destruct p; reflexivity. Qed.
