From Verif Require Import Base HashModel HashSpec HashProofs ConstPropModel ConstModel ConstSpec.
Open Scope Z_scope.

(* ---- with_index ---- *)
Definition with_index (p : cprop) (i : Z) : cprop :=
  mkProp (p_std_name p) (p_long_name p) (p_units p) (p_vert_dim p) i
    (p_advected p) (p_thermo_active p) (p_water_species p) (p_const_type p)
    (p_const_water p) (p_min_val p) (p_molar_mass p) (p_default_value p).

Definition fresh (p : cprop) : Prop :=
  is_instantiated p = true /\ p_const_ind p = int_unassigned /\ is_layer_var p = true.

Lemma set_index_fresh p i : fresh p -> set_const_index p i = (with_index p i, 0).
Proof.
  intros (H1 & H2 & _). unfold set_const_index. rewrite H1, H2, Z.eqb_refl. reflexivity.
Qed.

Lemma layer_with_index p i : is_layer_var (with_index p i) = is_layer_var p.
Proof. reflexivity. Qed.

Lemma upd_same {A} (h : nat -> A) i x : upd h i x i = x.
Proof. unfold upd. now rewrite Nat.eqb_refl. Qed.
Lemma upd_other {A} (h : nat -> A) i j x : i <> j -> upd h i x j = h j.
Proof. intros H. unfold upd. apply Nat.eqb_neq in H. now rewrite H. Qed.

(* ---- Inv depends only on the keys of the held objects ---- *)
Lemma Inv_ext (k1 k2 : nat -> string) n t tb l :
  (forall v, In v l -> k1 v = k2 v) -> Inv k1 n t tb l -> Inv k2 n t tb l.
Proof.
  intros E [i1 i2 i3 i4 i5 i6 i7 i8 i9].
  constructor; auto.
  - intros j b v Hj Hv. specialize (i6 j b v Hj Hv). unfold hash_of in *.
    rewrite <- E; auto. eapply Permutation_in; [exact i8|].
    apply in_contents. eauto.
  - replace (map (tkey k2) l) with (map (tkey k1) l); auto.
    apply map_ext_in. intros v Hv. unfold tkey. now rewrite E.
Qed.

Lemma Inv_NoDup (k : nat -> string) n t tb (l : list nat) : Inv k n t tb l -> NoDup l.
Proof. intros I. pose proof (I_nodup I) as N. eapply NoDup_map_inv; eauto. Qed.

Lemma tbl_entries_inv (k : nat -> string) n t tb (l : list nat) : Inv k n t tb l -> l <> [] ->
  exists es, Permutation es l /\ tbl_entries t = Some (map Some es).
Proof.
  intros I Hl. destruct (iterate_all I Hl) as (it & H1 & es & H2 & H3).
  exists es. split; auto. unfold tbl_entries. rewrite H1. apply H3.
  rewrite (I_keys I). lia.
Qed.

Lemma tbl_entries_nil (k : nat -> string) n t tb : Inv k n t tb [] -> tbl_entries t = None.
Proof. intros I. unfold tbl_entries. now rewrite (iterate_empty I). Qed.

(* ---- the lock loop ---- *)
Definition advb (h : nat -> cprop) (id : nat) : bool := fst (q_is_advected (h id)).
Definition advs h (l : list nat) := List.filter (advb h) l.
Definition nons h (l : list nat) := List.filter (fun i => negb (advb h i)) l.

Lemma advs_app h a b : advs h (a ++ b) = advs h a ++ advs h b.
Proof. unfold advs. apply filter_app. Qed.
Lemma nons_app h a b : nons h (a ++ b) = nons h a ++ nons h b.
Proof. unfold nons. apply filter_app. Qed.

Lemma advs_nons_perm h l : Permutation (advs h l ++ nons h l) l.
Proof.
  induction l as [|x l IH]; simpl; auto. unfold advs, nons in *. simpl.
  destruct (advb h x); simpl; auto.
  rewrite <- Permutation_middle. auto.
Qed.

Lemma advs_nons_length h l : (length (advs h l) + length (nons h l) = length l)%nat.
Proof. rewrite <- app_length. apply Permutation_length. apply advs_nons_perm. Qed.

Lemma count_advected_spec h l : forall n,
  count_advected h (map Some l) n = n + Z.of_nat (length (advs h l)).
Proof.
  induction l as [|x l IH]; intros n.
  - simpl. lia.
  - cbn [map count_advected]. rewrite IH. unfold advs. cbn [List.filter].
    fold (advb h x). destruct (advb h x); cbn [length]; lia.
Qed.

Definition loop_ok (h : nat -> cprop) (es pre post : list nat) (st : lockst) : Prop :=
  let na := length (advs h es) in
  let nn := length (nons h es) in
  l_adv st = Z.of_nat (length (advs h pre)) /\
  l_const st = Z.of_nat (na + length (nons h pre)) /\
  l_meta st = map Some (advs h pre) ++ repeat None (na - length (advs h pre)) ++
              map Some (nons h pre) ++ repeat None (nn - length (nons h pre)) /\
  (forall id, ~ In id pre -> l_heap st id = h id) /\
  (forall j id, nth_error (advs h pre) j = Some id ->
      l_heap st id = with_index (h id) (Z.of_nat j + 1)) /\
  (forall j id, nth_error (nons h pre) j = Some id ->
      l_heap st id = with_index (h id) (Z.of_nat (na + j) + 1)) /\
  l_err st = 0 /\ l_errloc st = 0.

Lemma nth_error_snoc {A} (l : list A) x j y :
  nth_error (l ++ [x]) j = Some y ->
  (nth_error l j = Some y /\ (j < length l)%nat) \/ (j = length l /\ y = x).
Proof.
  intros H. destruct (Nat.lt_ge_cases j (length l)) as [L|L].
  - rewrite nth_error_app1 in H by exact L. auto.
  - rewrite nth_error_app2 in H by exact L.
    destruct (j - length l)%nat as [|k] eqn:E; simpl in H.
    + right. split; [lia|congruence].
    + destruct k; discriminate H.
Qed.

Lemma in_advs h l id : In id (advs h l) -> In id l.
Proof. intros H. apply filter_In in H. tauto. Qed.
Lemma in_nons h l id : In id (nons h l) -> In id l.
Proof. intros H. apply filter_In in H. tauto. Qed.

Lemma lock_one_ok h es pre x post st :
  es = pre ++ x :: post -> NoDup es -> fresh (h x) ->
  loop_ok h es pre (x :: post) st ->
  exists st', lock_one (Z.of_nat (length (advs h es))) (Z.of_nat (length es)) st x = (st', false)
    /\ loop_ok h es (pre ++ [x]) post st'.
Proof.
  intros Ees ND Fx (L1 & L2 & L3 & L4 & L5 & L6 & L7 & L8).
  assert (Nx : ~ In x pre).
  { rewrite Ees in ND. intros H. apply NoDup_remove_2 in ND. apply ND, in_or_app; auto. }
  pose proof (L4 x Nx) as Hx.
  assert (Hlen : (length (advs h es) + length (nons h es) = length es)%nat)
    by apply advs_nons_length.
  assert (HA : advs h es = advs h pre ++ (if advb h x then [x] else []) ++ advs h post).
  { rewrite Ees, advs_app. f_equal. unfold advs. simpl. destruct (advb h x); reflexivity. }
  assert (HN : nons h es = nons h pre ++ (if advb h x then [] else [x]) ++ nons h post).
  { rewrite Ees, nons_app. f_equal. unfold nons. simpl. destruct (advb h x); reflexivity. }
  unfold lock_one. rewrite Hx. fold (advb h x).
  assert (HAl := f_equal (@length nat) HA). assert (HNl := f_equal (@length nat) HN).
  rewrite !app_length in HAl, HNl.
  destruct (advb h x) eqn:EA; cbn [length] in HAl, HNl.
  - (* advected *)
    destruct (Z.ltb_spec (Z.of_nat (length (advs h es))) (l_adv st + 1)) as [Hbad|_]; [lia|].
    rewrite (set_index_fresh _ _ Fx). cbv beta iota zeta.
    rewrite upd_same, layer_with_index. destruct Fx as (F1 & F2 & F3). rewrite F3.
    eexists. split; [reflexivity|].
    assert (PA : advs h (pre ++ [x]) = advs h pre ++ [x]).
    { rewrite advs_app. unfold advs at 2. simpl. now rewrite EA. }
    assert (PN : nons h (pre ++ [x]) = nons h pre).
    { rewrite nons_app. unfold nons at 2. simpl. rewrite EA. simpl. apply app_nil_r. }
    unfold loop_ok. cbn [l_adv l_const l_meta l_heap l_err l_errloc].
    rewrite PA, PN. repeat split; auto.
    + rewrite app_length. simpl. lia.
    + unfold meta_set. rewrite L3, L1.
      replace (Z.to_nat (Z.of_nat (length (advs h pre)) + 1 - 1)) with (length (map (@Some nat) (advs h pre)))
        by (rewrite map_length; lia).
      destruct (length (advs h es) - length (advs h pre))%nat as [|k] eqn:Ek; [lia|].
      simpl repeat. rewrite <- app_comm_cons, list_set_split. rewrite map_app. rewrite app_length. simpl length.
      replace (length (advs h es) - (length (advs h pre) + 1))%nat with k by lia.
      rewrite <- !app_assoc. reflexivity.
    + intros id Hid. rewrite in_app_iff in Hid. simpl in Hid.
      rewrite upd_other by tauto. apply L4. tauto.
    + intros j id Hj. apply nth_error_snoc in Hj as [[Hj Hlt]|[-> ->]].
      * rewrite upd_other; [apply L5; exact Hj|].
        intros ->. apply Nx. apply nth_error_In in Hj. eapply in_advs; eauto.
      * rewrite upd_same. f_equal. lia.
    + intros j id Hj. rewrite upd_other; [apply L6; exact Hj|].
      intros ->. apply Nx. apply nth_error_In in Hj. eapply in_nons; eauto.
  - destruct (Z.ltb_spec (Z.of_nat (length es)) (l_const st + 1)) as [Hbad|_]; [lia|].
    rewrite (set_index_fresh _ _ Fx). cbv beta iota zeta.
    rewrite upd_same, layer_with_index. destruct Fx as (F1 & F2 & F3). rewrite F3.
    eexists. split; [reflexivity|].
    assert (PA : advs h (pre ++ [x]) = advs h pre).
    { rewrite advs_app. unfold advs at 2. simpl. rewrite EA. apply app_nil_r. }
    assert (PN : nons h (pre ++ [x]) = nons h pre ++ [x]).
    { rewrite nons_app. unfold nons at 2. simpl. rewrite EA. reflexivity. }
    unfold loop_ok. cbn [l_adv l_const l_meta l_heap l_err l_errloc].
    rewrite PA, PN. repeat split; auto.
    + rewrite app_length. simpl. lia.
    + unfold meta_set. rewrite L3, L2.
      set (X := map Some (advs h pre) ++ repeat None (length (advs h es) - length (advs h pre)) ++ map Some (nons h pre)).
      assert (HX : length X = (length (advs h es) + length (nons h pre))%nat).
      { unfold X. rewrite !app_length, !map_length, repeat_length. lia. }
      replace (Z.to_nat (Z.of_nat (length (advs h es) + length (nons h pre)) + 1 - 1)) with (length X) by lia.
      destruct (length (nons h es) - length (nons h pre))%nat as [|k] eqn:Ek; [lia|].
      simpl repeat.
      replace (map Some (advs h pre) ++ repeat None (length (advs h es) - length (advs h pre)) ++
               map Some (nons h pre) ++ None :: repeat None k)
        with (X ++ None :: repeat None k) by (unfold X; rewrite <- !app_assoc; reflexivity).
      rewrite list_set_split. unfold X. rewrite map_app, app_length. simpl length.
      replace (length (nons h es) - (length (nons h pre) + 1))%nat with k by lia.
      rewrite <- !app_assoc. reflexivity.
    + intros id Hid. rewrite in_app_iff in Hid. simpl in Hid.
      rewrite upd_other by tauto. apply L4. tauto.
    + intros j id Hj. rewrite upd_other; [apply L5; exact Hj|].
      intros ->. apply Nx. apply nth_error_In in Hj. eapply in_advs; eauto.
    + intros j id Hj. apply nth_error_snoc in Hj as [[Hj Hlt]|[-> ->]].
      * rewrite upd_other; [apply L6; exact Hj|].
        intros ->. apply Nx. apply nth_error_In in Hj. eapply in_nons; eauto.
      * rewrite upd_same. f_equal. lia.
Qed.

Lemma lock_loop_ok h es : NoDup es -> (forall x, In x es -> fresh (h x)) ->
  forall post pre st, es = pre ++ post -> loop_ok h es pre post st ->
  loop_ok h es es [] (lock_loop (Z.of_nat (length (advs h es))) (Z.of_nat (length es)) st (map Some post)).
Proof.
  intros ND F. induction post as [|x post IH]; intros pre st E L.
  - rewrite app_nil_r in E. subst pre. exact L.
  - cbn [map lock_loop].
    destruct (lock_one_ok h es pre x post st E ND) as (st' & H1 & H2); auto.
    { apply F. rewrite E. apply in_or_app. simpl. auto. }
    rewrite H1. apply (IH (pre ++ [x])); auto.
    rewrite <- app_assoc. exact E.
Qed.

Lemma loop_start h es :
  loop_ok h es [] es
    (mkLS h (repeat None (Z.to_nat (Z.of_nat (length es)))) 0 (Z.of_nat (length (advs h es))) 0 0).
Proof.
  unfold loop_ok. cbn [l_adv l_const l_meta l_heap l_err l_errloc advs nons List.filter length map].
  rewrite Nat2Z.id, Nat.add_0_r, !Nat.sub_0_r. repeat split; auto.
  - simpl. rewrite <- repeat_app. f_equal. symmetry. apply advs_nons_length.
  - intros j id H. destruct j; discriminate H.
  - intros j id H. destruct j; discriminate H.
Qed.

(* the final order *)
Definition order h es := advs h es ++ nons h es.

Lemma loop_end h es st : loop_ok h es es [] st ->
  l_adv st = Z.of_nat (length (advs h es)) /\ l_const st = Z.of_nat (length es) /\
  l_meta st = map Some (order h es) /\
  (forall id, ~ In id es -> l_heap st id = h id) /\
  (forall j id, nth_error (order h es) j = Some id -> l_heap st id = with_index (h id) (Z.of_nat j + 1)) /\
  l_err st = 0 /\ l_errloc st = 0.
Proof.
  intros (L1 & L2 & L3 & L4 & L5 & L6 & L7 & L8).
  rewrite !Nat.sub_diag in L3. simpl in L3. rewrite app_nil_r in L3.
  repeat split; auto.
  - rewrite L2. f_equal. apply advs_nons_length.
  - rewrite L3. unfold order. now rewrite map_app.
  - intros j id Hj. unfold order in Hj.
    destruct (Nat.lt_ge_cases j (length (advs h es))) as [L|L].
    + rewrite nth_error_app1 in Hj by exact L. auto.
    + rewrite nth_error_app2 in Hj by exact L. rewrite (L6 _ _ Hj). f_equal. lia.
Qed.

(* effect of lock_table on an open table with fresh objects *)
Lemma lock_table_ok s n tb l :
  Inv (okey (m_heap s)) n (m_hash s) tb l -> l <> [] -> m_tlock s = false ->
  (forall x, In x l -> fresh (m_heap s x)) ->
  exists s' es, mc_lock_table s = (s', MOk) /\ Permutation es l /\
    m_hash s' = m_hash s /\ m_tlock s' = true /\ m_dlock s' = m_dlock s /\
    m_meta s' = Some (map Some (order (m_heap s) es)) /\ m_vars s' = None /\
    m_nadv s' = Z.of_nat (length (advs (m_heap s) es)) /\
    (forall id, ~ In id l -> m_heap s' id = m_heap s id) /\
    (forall j id, nth_error (order (m_heap s) es) j = Some id ->
        m_heap s' id = with_index (m_heap s id) (Z.of_nat j + 1)).
Proof.
  intros I Hl Ht F. destruct (tbl_entries_inv _ _ _ _ _ I Hl) as (es & P & E).
  unfold mc_lock_table. unfold mc_props_locked. rewrite Ht, andb_false_r.
  set (s1 := mc_reset s false).
  assert (S1 : m_hash s1 = m_hash s) by reflexivity.
  assert (S2 : m_heap s1 = m_heap s) by (unfold s1, mc_reset; destruct (m_meta s); reflexivity).
  rewrite S1, E, S2. unfold ht_num_values. rewrite (I_keys I).
  rewrite <- (Permutation_length P).
  rewrite count_advected_spec, Z.add_0_l.
  pose proof (advs_nons_length (m_heap s) es) as HL.
  destruct (Z.ltb_spec (Z.of_nat (length es)) (Z.of_nat (length (advs (m_heap s) es)))) as [B|_]; [lia|].
  assert (ND : NoDup es).
  { eapply Permutation_NoDup; [symmetry; exact P|]. eapply Inv_NoDup; eauto. }
  assert (F' : forall x, In x es -> fresh (m_heap s x)).
  { intros x Hx. apply F. eapply Permutation_in; eauto. }
  pose proof (lock_loop_ok (m_heap s) es ND F' es [] _ eq_refl (loop_start (m_heap s) es)) as LL.
  apply loop_end in LL. cbv zeta.
  destruct LL as (L1 & L2 & L3 & L4 & L5 & L6 & L7).
  set (st := lock_loop _ _ _ _) in *.
  rewrite L1, L2, L6, L7, !Z.eqb_refl.
  eexists _, es. split; [reflexivity|]. cbn [m_hash m_tlock m_dlock m_meta m_vars m_nadv m_heap].
  repeat split; auto.
  - now rewrite L3.
  - intros id Hid. apply L4. intros H. apply Hid. eapply Permutation_in; eauto.
Qed.

(* ---- free_all ---- *)
Lemma free_all_other l : forall h id, ~ In id l -> free_all h (map Some l) id = h id.
Proof.
  induction l as [|x l IH]; intros h id H; simpl; auto.
  simpl in H. rewrite IH by tauto. apply upd_other. tauto.
Qed.

Lemma free_all_dead l : forall h id, In id l -> is_instantiated (free_all h (map Some l) id) = false.
Proof.
  induction l as [|x l IH]; intros h id H; [destruct H|]. simpl.
  destruct (in_dec Nat.eq_dec id l) as [Hl|Hl]; auto.
  rewrite free_all_other by exact Hl. destruct H as [->|H]; [|contradiction].
  rewrite upd_same. reflexivity.
Qed.

Lemma free_all_keeps_dead l : forall h id, is_instantiated (h id) = false ->
  is_instantiated (free_all h (map Some l) id) = false.
Proof.
  intros h id H. destruct (in_dec Nat.eq_dec id l) as [Hl|Hl].
  - now apply free_all_dead.
  - now rewrite free_all_other.
Qed.

(* ---- the simulation relation ---- *)
Section Sim.
Variable h : nat -> cprop.
Hypothesis HF : fresh_objects h.

Definition frozen (s : mconst) (l : list nat) : Prop :=
  l <> [] /\ (exists n tb, Inv (okey h) n (m_hash s) tb l) /\
  m_tlock s = true /\
  exists es, Permutation es l /\
    m_meta s = Some (map Some (order h es)) /\
    m_nadv s = Z.of_nat (length (advs h es)) /\
    (forall j id, nth_error (order h es) j = Some id ->
        m_heap s id = with_index (h id) (Z.of_nat j + 1)).

Definition phase_rel (s : mconst) (dead : list nat) (p : phase) : Prop :=
  match p with
  | CNone => ht_table (m_hash s) = None /\ ht_size (m_hash s) <= 0 /\ ht_keys (m_hash s) = 0 /\
             m_meta s = None /\ m_vars s = None
  | COpen l => (exists n tb, Inv (okey h) n (m_hash s) tb l) /\
               (forall id, In id l -> ~ In id dead) /\
               m_tlock s = false /\ m_dlock s = false /\ m_meta s = None /\ m_vars s = None
  | CLocked l => frozen s l /\ (forall id, In id l -> ~ In id dead) /\
                 m_dlock s = false /\ m_vars s = None
  | CData l => frozen s l /\ (forall id, In id l -> ~ In id dead) /\ m_dlock s = true /\
               exists v, m_vars s = Some v /\ length v = length l
  end.

Definition R (s : mconst) (sp : cspec) : Prop :=
  (forall id, ~ In id (sp_dead sp) -> ~ In id (held (sp_phase sp)) -> m_heap s id = h id) /\
  (forall id, In id (sp_dead sp) -> is_instantiated (m_heap s id) = false) /\
  phase_rel s (sp_dead sp) (sp_phase sp).

Lemma frozen_meta s l : frozen s l -> exists m, m_meta s = Some (map Some m) /\ Permutation m l.
Proof using.
  intros (_ & _ & _ & es & P & M & _). exists (order h es). split; auto.
  rewrite <- P. apply advs_nons_perm.
Qed.

Lemma R_new : R (mc_new h) spec_new.
Proof using.
  unfold R, spec_new. simpl. repeat split; auto; try lia; intros id [].
Qed.

Lemma reset_rel s sp : R s sp ->
  let s' := mc_reset s true in
  let dead' := held (sp_phase sp) ++ sp_dead sp in
  (forall id, ~ In id dead' -> m_heap s' id = h id) /\
  (forall id, In id dead' -> is_instantiated (m_heap s' id) = false) /\
  m_meta s' = None /\ m_vars s' = None /\ m_tlock s' = m_tlock s /\ m_dlock s' = m_dlock s.
Proof using.
  intros (R1 & R2 & R3). simpl.
  destruct (sp_phase sp) as [|l|l|l] eqn:EP; simpl in *.
  - destruct R3 as (_ & _ & _ & M & _). rewrite M. repeat split; auto.
  - destruct R3 as (_ & _ & _ & _ & M & _). rewrite M. repeat split; auto.
  - destruct R3 as (F & _). destruct (frozen_meta _ _ F) as (m & M & P). rewrite M.
    repeat split; auto.
    + intros id H. rewrite in_app_iff in H. rewrite free_all_other.
      * apply R1; tauto.
      * intros Hm. apply H. left. eapply Permutation_in; eauto.
    + intros id H. apply in_app_or in H as [H|H].
      * apply free_all_dead. eapply Permutation_in; [symmetry|]; eauto.
      * apply free_all_keeps_dead; auto.
  - destruct R3 as (F & _). destruct (frozen_meta _ _ F) as (m & M & P). rewrite M.
    repeat split; auto.
    + intros id H. rewrite in_app_iff in H. rewrite free_all_other.
      * apply R1; tauto.
      * intros Hm. apply H. left. eapply Permutation_in; eauto.
    + intros id H. apply in_app_or in H as [H|H].
      * apply free_all_dead. eapply Permutation_in; [symmetry|]; eauto.
      * apply free_all_keeps_dead; auto.
Qed.

Lemma existsb_dead id l : existsb (Nat.eqb id) l = true <-> In id l.
Proof using.
  rewrite existsb_exists. split.
  - intros (x & H1 & H2). apply Nat.eqb_eq in H2. now subst.
  - intros H. exists id. split; auto. apply Nat.eqb_refl.
Qed.

Lemma agree_is_match p q : is_instantiated p = true -> is_instantiated q = true ->
  is_match p q = agree p q.
Proof using.
  intros H1 H2. unfold is_match, agree, q_is_advected, q_is_thermo_active, q_is_water_species, q_units, query.
  rewrite H1, H2. reflexivity.
Qed.

Lemma is_init_inv k n t tb (l : list nat) : Inv k n t tb l -> ht_is_initialized t = true.
Proof using. intros I. unfold ht_is_initialized. now rewrite (I_tab I). Qed.

Lemma mc_heap_open s dead l n tb : Inv (okey h) n (m_hash s) tb l ->
  (forall id, In id l -> ~ In id dead) ->
  (forall id, ~ In id dead -> m_heap s id = h id) ->
  Inv (okey (m_heap s)) n (m_hash s) tb l.
Proof using.
  intros I D E. eapply Inv_ext; [|exact I]. intros v Hv. unfold okey. rewrite E; auto.
Qed.

Lemma step_sim s sp o : R s sp ->
  (forall n, o = MInit n -> m_dlock s = false) ->
  snd (mstep s o) = snd (spec_step h sp o) /\
  (snd (mstep s o) <> MUndef -> R (fst (mstep s o)) (fst (spec_step h sp o))).
Proof using HF.
  intros HR Hseen. pose proof HR as (R1 & R2 & R3).
  destruct o as [ne|id| |nc nl|].
  - (* MInit *)
    specialize (Hseen _ eq_refl). cbn [mstep spec_step]. unfold mc_initialize.
    destruct (ne <=? 0) eqn:En; simpl fst; simpl snd; [split; [auto|congruence]|].
    split; auto. intros _.
    destruct (reset_rel _ _ HR) as (A1 & A2 & A3 & A4 & A5 & A6).
    repeat split; cbn [m_heap sp_dead sp_phase held phase_rel].
    + intros i Hd _. apply A1. exact Hd.
    + intros i Hd. apply A2. exact Hd.
    + eexists _, _. cbn [m_hash]. apply Inv_init. pose proof (Z.log2_nonneg (ne * 10)). lia.
    + intros i [].
    + exact Hseen.
  - (* MNew *)
    cbn [mstep spec_step]. unfold mc_new_field, mc_okay_to_add, mc_props_locked, mc_data_locked.
    destruct (sp_phase sp) as [|l|l|l] eqn:EP; cbn [phase_rel held] in *.
    + destruct R3 as (T & _). unfold ht_is_initialized. rewrite T. simpl.
      split; [reflexivity|intros _; exact HR].
    + destruct R3 as ((n & tb & I) & D & T1 & T2 & M1 & M2).
      rewrite (is_init_inv _ _ _ _ _ I), T1, T2. cbn [andb negb orb].
      destruct (existsb (Nat.eqb id) (sp_dead sp)) eqn:ED.
      * apply existsb_dead in ED. rewrite (R2 _ ED). cbn [negb fst snd].
        split; [auto|congruence].
      * assert (ND : ~ In id (sp_dead sp)).
        { intros H. apply existsb_dead in H. congruence. }
        assert (EH : forall i, ~ In i (sp_dead sp) -> m_heap s i = h i) by (intros i Hi; apply R1; auto).
        rewrite (EH _ ND). destruct (HF id) as (F1 & F2 & F3). rewrite F1. cbn [negb].
        pose proof (mc_heap_open _ _ _ _ _ I D EH) as I'.
        unfold mc_find. unfold q_standard_name, query. rewrite F1. cbn [fst].
        rewrite (ht_value_spec (ostr (p_std_name (h id))) I').
        assert (EL : lookup (okey (m_heap s)) l (ostr (p_std_name (h id)))
                     = registered_as h l (name_of h id)).
        { unfold lookup, registered_as, name_of.
          assert (G : forall l', (forall i, In i l' -> ~ In i (sp_dead sp)) ->
             find (fun v => feqb (okey (m_heap s) v) (ostr (p_std_name (h id)))) l' =
             find (fun c => feqb (ostr (p_std_name (h c))) (ostr (p_std_name (h id)))) l').
          { induction l' as [|y l' IH]; intros Hd; simpl; auto.
            unfold okey at 1. rewrite (EH y) by (apply Hd; simpl; auto).
            destruct (feqb _ _); auto. apply IH. intros i Hi. apply Hd. simpl; auto. }
          apply G. exact D. }
        rewrite EL. destruct (registered_as h l (name_of h id)) as [c|] eqn:EC.
        -- assert (Hc : In c l) by (apply find_some in EC; tauto).
           rewrite (EH c (D c Hc)). destruct (HF c) as (C1 & _).
           rewrite (agree_is_match _ _ C1 F1).
           destruct (agree (h c) (h id)); cbn [fst snd]; (split; [reflexivity|intros _; exact HR]).
        -- pose proof (ht_add_spec id I') as A.
           assert (EK : okey (m_heap s) id = ostr (p_std_name (h id))) by (unfold okey; now rewrite (EH _ ND)).
           rewrite EK, EL in A; rewrite ?EC in A. destruct A as (t' & tb' & A1 & A2). rewrite A1.
           cbn [fst snd]. split; auto. intros _.
           repeat split; cbn [m_heap sp_dead sp_phase held phase_rel m_hash m_tlock m_dlock m_meta m_vars]; auto.
           ++ exists n, tb'. eapply Inv_ext; [|exact A2]. intros v Hv. unfold okey. rewrite EH; auto.
              apply in_app_or in Hv as [Hv|[<-|[]]]; auto.
           ++ intros i Hi. apply in_app_or in Hi as [Hi|[<-|[]]]; auto.
    + destruct R3 as ((F1 & (n & tb & I) & T1 & _) & D & T2 & _).
      rewrite (is_init_inv _ _ _ _ _ I), T1. cbn [andb orb negb fst snd]. split; [reflexivity|intros _; exact HR].
    + destruct R3 as ((F1 & (n & tb & I) & T1 & _) & D & T2 & _).
      rewrite (is_init_inv _ _ _ _ _ I), T1. cbn [andb orb negb fst snd]. split; [reflexivity|intros _; exact HR].
  - (* MLock *)
    cbn [mstep spec_step].
    destruct (sp_phase sp) as [|l|l|l] eqn:EP; cbn [phase_rel held] in *.
    + destruct R3 as (T & _). unfold mc_lock_table, mc_props_locked, ht_is_initialized. rewrite T.
      cbn [andb]. unfold tbl_entries, iter_initialize, mc_reset. cbn [m_hash]. rewrite T.
      cbn [fst snd]. split; [auto|congruence].
    + destruct R3 as ((n & tb & I) & D & T1 & T2 & M1 & M2).
      destruct l as [|c l].
      * unfold mc_lock_table, mc_props_locked. rewrite T1, andb_false_r.
        unfold mc_reset; cbn [m_hash]. rewrite (tbl_entries_nil _ _ _ _ I).
        cbn [fst snd]. split; [auto|congruence].
      * assert (EH : forall i, ~ In i (sp_dead sp) -> m_heap s i = h i) by (intros i Hi; apply R1; auto).
        pose proof (mc_heap_open _ _ _ _ _ I D EH) as I'.
        destruct (lock_table_ok s n tb (c :: l) I') as (s' & es & E & P & Q1 & Q2 & Q3 & Q4 & Q5 & Q6 & Q7 & Q8); auto.
        { congruence. }
        { intros x Hx. rewrite (EH x (D x Hx)). apply HF. }
        rewrite E. cbn [fst snd]. split; auto. intros _.
        assert (Hes : forall x, In x es -> m_heap s x = h x).
        { intros x Hx. apply EH, D. eapply Permutation_in; eauto. }
        assert (EA : advs (m_heap s) es = advs h es).
        { unfold advs. apply filter_ext_in. intros x Hx. unfold advb. now rewrite Hes. }
        assert (EN : nons (m_heap s) es = nons h es).
        { unfold nons. apply filter_ext_in. intros x Hx. unfold advb. now rewrite Hes. }
        unfold order in Q4, Q8. rewrite EA, EN in Q4. rewrite EA in Q6. rewrite EA, EN in Q8.
        repeat split; cbn [sp_dead sp_phase held phase_rel]; auto.
        -- intros i Hi Hl. rewrite Q7 by exact Hl. auto.
        -- intros i Hi. rewrite Q7; auto. intros Hl. exact (D i Hl Hi).
        -- congruence.
        -- rewrite Q1. eauto.
        -- exists es. repeat split; auto. intros j x Hj.
           rewrite (Q8 _ _ Hj). rewrite Hes; auto.
           apply nth_error_In in Hj. apply in_app_or in Hj as [Hj|Hj].
           ++ eapply in_advs; eauto.
           ++ eapply in_nons; eauto.
        -- congruence.
    + destruct R3 as ((F1 & (n & tb & I) & T1 & _) & D & T2 & _).
      unfold mc_lock_table, mc_props_locked. rewrite (is_init_inv _ _ _ _ _ I), T1.
      cbn [andb fst snd]. split; [reflexivity|intros _; exact HR].
    + destruct R3 as ((F1 & (n & tb & I) & T1 & _) & D & T2 & _).
      unfold mc_lock_table, mc_props_locked. rewrite (is_init_inv _ _ _ _ _ I), T1.
      cbn [andb fst snd]. split; [reflexivity|intros _; exact HR].
  - (* MLockData *)
    cbn [mstep spec_step]. unfold mc_lock_data, mc_data_locked, mc_props_locked.
    destruct (sp_phase sp) as [|l|l|l] eqn:EP; cbn [phase_rel held] in *.
    + destruct R3 as (T & _). unfold ht_is_initialized. rewrite T. cbn. split; [reflexivity|intros _; exact HR].
    + destruct R3 as ((n & tb & I) & D & T1 & T2 & M1 & M2).
      rewrite (is_init_inv _ _ _ _ _ I), T1, T2. cbn [andb negb fst snd]. split; [reflexivity|intros _; exact HR].
    + destruct R3 as (FR & D & T2 & V). pose proof FR as (F1 & (n & tb & I) & T1 & es & P & M & NA & FI).
      rewrite (is_init_inv _ _ _ _ _ I), T1, T2, V, M. cbn [andb negb].
      assert (HL : last (map (fun e => snd (meta_min (m_heap s) e)) (map Some (order h es))) 0 = 0).
      { assert (G : forall x, In x (order h es) -> snd (meta_min (m_heap s) (Some x)) = 0).
        { intros x Hx. apply In_nth_error in Hx as [j Hj]. simpl. rewrite (FI _ _ Hj).
          unfold q_minimum, query.
          replace (is_instantiated (with_index (h x) (Z.of_nat j + 1))) with (is_instantiated (h x)) by reflexivity.
          destruct (HF x) as (X1 & _). now rewrite X1. }
        rewrite map_map. clear -G. induction (order h es) as [|x k IH]; auto.
        simpl. destruct k as [|y k].
        - simpl. apply G. simpl; auto.
        - simpl in IH |- *. apply IH. intros z Hz. apply G. simpl; auto. }
      rewrite HL. cbn [fst snd Z.eqb]. split; auto. intros _.
      repeat split; cbn [m_heap sp_dead sp_phase held phase_rel m_hash m_tlock m_dlock m_meta m_vars m_nadv]; auto.
      * eauto.
      * exists es. repeat split; auto.
      * eexists. split; [reflexivity|]. rewrite !map_length. apply Permutation_length.
        rewrite <- P. apply advs_nons_perm.
    + destruct R3 as (FR & D & T2 & V). pose proof FR as (F1 & (n & tb & I) & T1 & es & P & M & NA & FI).
      rewrite (is_init_inv _ _ _ _ _ I), T2. cbn [andb negb fst snd]. split; [reflexivity|intros _; exact HR].
  - (* MReset *)
    cbn [mstep spec_step fst snd]. split; auto. intros _.
    destruct (reset_rel _ _ HR) as (A1 & A2 & A3 & A4 & A5 & A6).
    repeat split; cbn [sp_dead sp_phase held phase_rel]; auto; simpl; lia.
Qed.

Lemma dlock_step s o : m_dlock (fst (mstep s o)) = true -> m_dlock s = true \/ exists a b, o = MLockData a b.
Proof using.
  destruct o as [ne|id| |nc nl|]; simpl.
  - unfold mc_initialize. destruct (ne <=? 0); simpl; auto.
  - unfold mc_new_field. destruct (mc_okay_to_add s); simpl; auto.
    destruct (negb _); simpl; auto. destruct (mc_find _ _) as [c| |]; simpl; auto.
    + destruct (is_match _ _); simpl; auto.
    + destruct (ht_add _ _ _) as [[] ?]; simpl; auto.
  - unfold mc_lock_table. destruct (mc_props_locked s); simpl; auto.
    destruct (tbl_entries _); simpl; auto.
    destruct (_ <? _); simpl; auto.
  - eauto.
  - auto.
Qed.

Lemma run_sim ops : forall s sp seen, R s sp -> (m_dlock s = true -> seen = true) ->
  no_init_after_data seen ops = true ->
  snd (mrun s ops) = snd (spec_run h sp ops) /\
  (~ In MUndef (snd (mrun s ops)) -> R (fst (mrun s ops)) (fst (spec_run h sp ops))).
Proof using HF.
  induction ops as [|o ops IH]; intros s sp seen HR Hs Hn; [simpl; auto|].
  assert (HI : forall n, o = MInit n -> m_dlock s = false).
  { intros n ->. simpl in Hn. destruct (m_dlock s); auto. rewrite Hs in Hn by auto. discriminate Hn. }
  destruct (step_sim s sp o HR HI) as [S1 S2].
  pose proof (dlock_step s o) as DS.
  cbn [mrun spec_run]. destruct (mstep s o) as [s1 o1] eqn:EM. destruct (spec_step h sp o) as [sp1 o1'] eqn:ES.
  simpl in S1, S2, DS. subst o1'.
  assert (Hrest : exists seen', (m_dlock s1 = true -> seen' = true) /\ no_init_after_data seen' ops = true).
  { destruct o; simpl in Hn.
    - apply andb_prop in Hn as [Hn1 Hn2]. exists seen. split; auto.
      intros H. destruct (DS H) as [K|(? & ? & K)]; [auto|discriminate K].
    - exists seen. split; auto. intros H. destruct (DS H) as [K|(? & ? & K)]; [auto|discriminate K].
    - exists seen. split; auto. intros H. destruct (DS H) as [K|(? & ? & K)]; [auto|discriminate K].
    - exists true. auto.
    - exists seen. split; auto. intros H. destruct (DS H) as [K|(? & ? & K)]; [auto|discriminate K]. }
  destruct Hrest as (seen' & Hs' & Hn').
  destruct o1.
  - destruct (IH s1 sp1 seen' (S2 ltac:(discriminate)) Hs' Hn') as [I1 I2].
    destruct (mrun s1 ops) as [s2 os]. destruct (spec_run h sp1 ops) as [sp2 os']. simpl in *.
    subst os'. split; auto.
  - destruct (IH s1 sp1 seen' (S2 ltac:(discriminate)) Hs' Hn') as [I1 I2].
    destruct (mrun s1 ops) as [s2 os]. destruct (spec_run h sp1 ops) as [sp2 os']. simpl in *.
    subst os'. split; auto.
  - simpl. split; [reflexivity|]. intros H. exfalso. apply H. auto.
Qed.

Lemma frozen_index s l dead k : frozen s l ->
  (forall id, ~ In id dead -> ~ In id l -> m_heap s id = h id) ->
  (forall id, In id l -> ~ In id dead) ->
  match registered_as h l k with
  | Some id => exists j es, Permutation es l /\ m_meta s = Some (map Some (order h es)) /\
                 nth_error (order h es) j = Some id /\ mc_const_index s k = Z.of_nat j + 1
  | None => mc_const_index s k = int_unassigned
  end.
Proof using HF.
  intros (F1 & (n & tb & I) & T1 & es & P & M & NA & FI) E D.
  assert (EK : forall v, In v l -> okey h v = okey (m_heap s) v).
  { intros v Hv. assert (Hv' : In v (order h es)).
    { eapply Permutation_in; [|exact Hv]. rewrite <- P. symmetry. apply advs_nons_perm. }
    apply In_nth_error in Hv' as [j Hj]. unfold okey. rewrite (FI _ _ Hj). reflexivity. }
  pose proof (Inv_ext _ _ _ _ _ _ EK I) as I'.
  unfold mc_const_index, mc_props_locked, mc_find.
  rewrite (is_init_inv _ _ _ _ _ I), T1. cbn [andb].
  rewrite (ht_value_spec k I').
  assert (EL : lookup (okey (m_heap s)) l k = registered_as h l k).
  { unfold lookup, registered_as, name_of.
    assert (G : forall l', (forall i, In i l' -> In i l) ->
       find (fun v => feqb (okey (m_heap s) v) k) l' =
       find (fun c => feqb (ostr (p_std_name (h c))) k) l').
    { induction l' as [|y l' IH]; intros Hd; simpl; auto.
      rewrite <- (EK y) by (apply Hd; simpl; auto). unfold okey at 1.
      destruct (feqb _ _); auto. apply IH. intros i Hi. apply Hd. simpl; auto. }
    apply G. auto. }
  rewrite EL. destruct (registered_as h l k) as [c|] eqn:EC; auto.
  assert (Hc : In c l) by (apply find_some in EC; tauto).
  assert (Hv' : In c (order h es)).
  { eapply Permutation_in; [|exact Hc]. rewrite <- P. symmetry. apply advs_nons_perm. }
  apply In_nth_error in Hv' as [j Hj].
  exists j, es. repeat split; auto. rewrite (FI _ _ Hj). unfold q_const_index, query.
  replace (is_instantiated (with_index (h c) (Z.of_nat j + 1))) with (is_instantiated (h c)) by reflexivity.
  destruct (HF c) as (C1 & _). rewrite C1. reflexivity.
Qed.
(* ---- reachable states ---- *)
Lemma reach ops : no_init_after_data false ops = true ->
  ~ In MUndef (snd (mrun (mc_new h) ops)) ->
  R (fst (mrun (mc_new h) ops)) (fst (spec_run h spec_new ops)).
Proof using HF.
  intros N U. destruct (run_sim ops (mc_new h) spec_new false R_new ltac:(simpl; auto) N) as [X Y]; auto.
Qed.

Lemma outcomes ops : no_init_after_data false ops = true ->
  snd (mrun (mc_new h) ops) = snd (spec_run h spec_new ops).
Proof using HF.
  intros N. destruct (run_sim ops (mc_new h) spec_new false R_new ltac:(simpl; auto) N) as [X Y]; auto.
Qed.

Lemma reg_self n t tb l id : Inv (okey h) n t tb l -> In id l ->
  registered_as h l (name_of h id) = Some id.
Proof using.
  intros I Hid. pose proof (I_nodup I) as ND. clear I. unfold registered_as.
  induction l as [|x l IH]; [destruct Hid|]. simpl in ND. inversion ND as [|? ? N1 N2]; subst.
  simpl. destruct (feqb (name_of h x) (name_of h id)) eqn:E.
  - destruct Hid as [->|Hid]; auto. exfalso. apply N1.
    assert (K : tkey (okey h) x = tkey (okey h) id).
    { unfold tkey, okey, name_of, feqb in *. now apply String.eqb_eq in E. }
    rewrite K. now apply in_map.
  - destruct Hid as [->|Hid]; auto.
    unfold feqb in E. rewrite String.eqb_refl in E. discriminate.
Qed.

Lemma frozen_full s l : frozen s l ->
  exists m, Permutation m l /\ m_meta s = Some (map Some m) /\
    (forall j id, nth_error m j = Some id ->
       m_heap s id = with_index (h id) (Z.of_nat j + 1) /\
       mc_const_index s (name_of h id) = Z.of_nat j + 1) /\
    (forall i j a b, nth_error m i = Some a -> nth_error m j = Some b ->
       p_advected (h a) = true -> p_advected (h b) = false -> (i < j)%nat) /\
    m_nadv s = Z.of_nat (length (List.filter (fun id => p_advected (h id)) l)) /\
    (forall k, registered_as h l k = None -> mc_const_index s k = int_unassigned).
Proof using HF.
  intros F. pose proof F as (F1 & (n & tb & I) & T1 & es & P & M & NA & FI).
  assert (AB : forall x, advb h x = p_advected (h x)).
  { intros x. unfold advb, q_is_advected, query. destruct (HF x) as (X1 & _). now rewrite X1. }
  assert (PO : Permutation (order h es) l) by (rewrite <- P; apply advs_nons_perm).
  assert (ND : NoDup (order h es)).
  { eapply Permutation_NoDup; [symmetry; exact PO|]. eapply Inv_NoDup; eauto. }
  exists (order h es). split; [exact PO|]. split; [exact M|]. repeat split.
  - now apply FI.
  - assert (Hl : In id l).
    { eapply Permutation_in; [exact PO|]. eapply nth_error_In; eauto. }
    pose proof (frozen_index s l [] (name_of h id) F) as G.
    rewrite (reg_self _ _ _ _ _ I Hl) in G.
    assert (EK : forall v, In v l -> okey h v = okey (m_heap s) v).
    { intros v Hv. assert (Hv' : In v (order h es)).
      { eapply Permutation_in; [symmetry; exact PO|exact Hv]. }
      apply In_nth_error in Hv' as [j' Hj']. unfold okey. rewrite (FI _ _ Hj'). reflexivity. }
    pose proof (Inv_ext _ _ _ _ _ _ EK I) as I'.
    unfold mc_const_index, mc_props_locked, mc_find.
    rewrite (is_init_inv _ _ _ _ _ I), T1. cbn [andb].
    rewrite (ht_value_spec (name_of h id) I').
    assert (EL : lookup (okey (m_heap s)) l (name_of h id) = Some id).
    { rewrite <- (reg_self _ _ _ _ _ I Hl). unfold lookup, registered_as.
      assert (GG : forall l', (forall i, In i l' -> In i l) ->
         find (fun v => feqb (okey (m_heap s) v) (name_of h id)) l' =
         find (fun c => feqb (name_of h c) (name_of h id)) l').
      { induction l' as [|y l' IH]; intros Hd; simpl; auto.
        rewrite <- (EK y) by (apply Hd; simpl; auto). unfold okey at 1.
        unfold name_of at 3. destruct (feqb _ _); auto. apply IH. intros i Hi. apply Hd. simpl; auto. }
      apply GG. auto. }
    rewrite EL. rewrite (FI _ _ H). unfold q_const_index, query.
    replace (is_instantiated (with_index (h id) (Z.of_nat j + 1))) with (is_instantiated (h id)) by reflexivity.
    destruct (HF id) as (C1 & _). rewrite C1. reflexivity.
  - intros i j a b Ha Hb Aa Ab. unfold order in Ha, Hb.
    assert (Hi : (i < length (advs h es))%nat).
    { destruct (Nat.lt_ge_cases i (length (advs h es))); auto.
      rewrite nth_error_app2 in Ha by lia. apply nth_error_In in Ha.
      unfold nons in Ha. apply filter_In in Ha as [_ Ha]. rewrite AB, Aa in Ha. discriminate. }
    assert (Hj : (length (advs h es) <= j)%nat).
    { destruct (Nat.lt_ge_cases j (length (advs h es))); auto.
      rewrite nth_error_app1 in Hb by lia. apply nth_error_In in Hb.
      unfold advs in Hb. apply filter_In in Hb as [_ Hb]. rewrite AB, Ab in Hb. discriminate. }
    lia.
  - rewrite NA. f_equal. unfold advs.
    rewrite (filter_ext (advb h) (fun id => p_advected (h id))) by exact AB.
    clear - P. induction P as [|x a b P IH|x y a|a b c P1 IH1 P2 IH2]; simpl; auto.
    + destruct (p_advected (h x)); simpl; auto.
    + destruct (p_advected (h x)), (p_advected (h y)); simpl; auto.
    + congruence.
  - intros k Hk. pose proof (frozen_index s l [] k F) as G. rewrite Hk in G.
    destruct (registered_as h l k) eqn:X; [discriminate|].
    clear G. 
    assert (EK : forall v, In v l -> okey h v = okey (m_heap s) v).
    { intros v Hv. assert (Hv' : In v (order h es)).
      { eapply Permutation_in; [symmetry; exact PO|exact Hv]. }
      apply In_nth_error in Hv' as [j' Hj']. unfold okey. rewrite (FI _ _ Hj'). reflexivity. }
    pose proof (Inv_ext _ _ _ _ _ _ EK I) as I'.
    unfold mc_const_index, mc_props_locked, mc_find.
    rewrite (is_init_inv _ _ _ _ _ I), T1. cbn [andb].
    rewrite (ht_value_spec k I').
    assert (EL : lookup (okey (m_heap s)) l k = None).
    { rewrite <- X. unfold lookup, registered_as.
      assert (GG : forall l', (forall i, In i l' -> In i l) ->
         find (fun v => feqb (okey (m_heap s) v) k) l' =
         find (fun c => feqb (name_of h c) k) l').
      { induction l' as [|y l' IH]; intros Hd; simpl; auto.
        rewrite <- (EK y) by (apply Hd; simpl; auto). unfold okey at 1, name_of at 1.
        destruct (feqb _ _); auto. apply IH. intros i Hi. apply Hd. simpl; auto. }
      apply GG. auto. }
    now rewrite EL.
Qed.

(* ---- queries by attribute ---- *)
Lemma meta_match_ind id i f : meta_match (fun _ => with_index (h id) i) (Some id) f = satisfies f (h id).
Proof using HF.
  simpl. unfold satisfies, opt_match, q_is_advected, q_is_thermo_active, q_is_water_species, query.
  replace (is_instantiated (with_index (h id) i)) with (is_instantiated (h id)) by reflexivity.
  destruct (HF id) as (X1 & _). now rewrite X1.
Qed.

Lemma meta_match_heap s id i f : m_heap s id = with_index (h id) i ->
  meta_match (m_heap s) (Some id) f = satisfies f (h id).
Proof using HF.
  intros E. rewrite <- (meta_match_ind id i f). simpl. now rewrite E.
Qed.

Lemma filter_perm {A} (p : A -> bool) l l' : Permutation l l' ->
  length (List.filter p l) = length (List.filter p l').
Proof using.
  intros P. induction P as [|x a b P IH|x y a|a b c P1 IH1 P2 IH2]; simpl; auto.
  - destruct (p x); simpl; auto.
  - destruct (p x), (p y); simpl; auto.
  - congruence.
Qed.

Lemma num_match_frozen s l f : frozen s l ->
  mc_num_match s f = Z.of_nat (length (List.filter (fun id => satisfies f (h id)) l)).
Proof using HF.
  intros F. destruct (frozen_full _ _ F) as (m & P & M & FI & _).
  destruct F as (_ & (n & tb & I) & T1 & _).
  unfold mc_num_match, mc_props_locked. rewrite (is_init_inv _ _ _ _ _ I), T1. cbn [andb]. rewrite M.
  rewrite <- (filter_perm _ _ _ P).
  assert (G : forall k, (forall id, In id k -> meta_match (m_heap s) (Some id) f = satisfies f (h id)) ->
     forall z, fold_left (fun n e => if meta_match (m_heap s) e f then n + 1 else n) (map Some k) z
       = z + Z.of_nat (length (List.filter (fun id => satisfies f (h id)) k))).
  { induction k as [|x k IH]; intros Hk z; cbn [map fold_left List.filter]; [simpl; lia|].
    rewrite (Hk x) by (simpl; auto). rewrite IH by (intros; apply Hk; simpl; auto).
    destruct (satisfies f (h x)); simpl length; lia. }
  rewrite G; [lia|].
  intros id Hid. apply In_nth_error in Hid as [j Hj]. eapply meta_match_heap. apply FI. exact Hj.
Qed.

(* ---- copy_in / copy_out ---- *)
Definition indexed (hp : nat -> cprop) (m : list nat) (base : Z) : Prop :=
  forall j id, nth_error m j = Some id ->
    meta_index hp (Some id) = base + Z.of_nat j /\ meta_layer hp (Some id) = true.

Lemma indexed_tl hp x m base : indexed hp (x :: m) base -> indexed hp m (base + 1).
Proof using. intros H j id Hj. destruct (H (S j) id Hj) as [A B]. split; auto. lia. Qed.

Lemma copy_in_ok hp f : forall m base v a1 rest pre,
  indexed hp m base -> base = Z.of_nat (length pre) + 1 -> length v = length m ->
  (number_of (map (fun id => meta_match hp (Some id) f) m) <= length rest)%nat ->
  copy_in_loop hp (map Some m) base f (pre ++ v) true (a1 ++ rest) (length a1)
  = (a1 ++ pick (map (fun id => meta_match hp (Some id) f) m) v
       ++ skipn (number_of (map (fun id => meta_match hp (Some id) f) m)) rest, MOk).
Proof using.
  induction m as [|x m IH]; intros base v a1 rest pre HI HB HL HN.
  - destruct v; [|discriminate HL]. simpl. reflexivity.
  - destruct v as [|y v]; [discriminate HL|]. injection HL as HL.
    destruct (HI 0%nat x eq_refl) as [IX LY].
    cbn [map copy_in_loop]. cbn [map] in HN.
    destruct (meta_match hp (Some x) f) eqn:EM.
    + unfold number_of in *. cbn [List.filter length] in *.
      destruct rest as [|r0 rest]; [cbn [length] in HN; lia|]. cbn [length] in HN.
      rewrite app_length. cbn [length].
      destruct (Nat.ltb_spec (length a1 + S (length rest)) (S (length a1))); [lia|].
      rewrite IX. replace (base + Z.of_nat 0 =? base) with true by (symmetry; apply Z.eqb_eq; lia).
      cbn [negb]. rewrite LY.
      assert (EV : nth_error (pre ++ y :: v) (Z.to_nat (base - 1)) = Some y).
      { replace (Z.to_nat (base - 1)) with (length pre) by lia.
        rewrite nth_error_app2, Nat.sub_diag by lia. reflexivity. }
      rewrite EV. replace (pre ++ y :: v) with ((pre ++ [y]) ++ v) by (rewrite <- app_assoc; reflexivity).
      rewrite list_set_split.
      replace (a1 ++ y :: rest) with ((a1 ++ [y]) ++ rest) by (rewrite <- app_assoc; reflexivity).
      replace (S (length a1)) with (length (a1 ++ [y])) by (rewrite app_length; simpl; lia).
      rewrite (IH (base + 1) v (a1 ++ [y]) rest (pre ++ [y])).
      * cbn [pick skipn]. rewrite <- app_assoc. reflexivity.
      * eapply indexed_tl; eauto.
      * rewrite app_length. simpl. lia.
      * auto.
      * unfold number_of; lia.
    + replace (pre ++ y :: v) with ((pre ++ [y]) ++ v) by (rewrite <- app_assoc; reflexivity).
      rewrite (IH (base + 1) v a1 rest (pre ++ [y])).
      * reflexivity.
      * eapply indexed_tl; eauto.
      * rewrite app_length. simpl. lia.
      * auto.
      * exact HN.
Qed.

Lemma copy_in_small hp f : forall m base v a1 rest pre,
  indexed hp m base -> base = Z.of_nat (length pre) + 1 -> length v = length m ->
  (length rest < number_of (map (fun id => meta_match hp (Some id) f) m))%nat ->
  snd (copy_in_loop hp (map Some m) base f (pre ++ v) true (a1 ++ rest) (length a1)) = MErr.
Proof using.
  induction m as [|x m IH]; intros base v a1 rest pre HI HB HL HN.
  - simpl in HN. unfold number_of in HN. simpl in HN. lia.
  - destruct v as [|y v]; [discriminate HL|]. injection HL as HL.
    destruct (HI 0%nat x eq_refl) as [IX LY].
    cbn [map copy_in_loop]. cbn [map] in HN.
    destruct (meta_match hp (Some x) f) eqn:EM.
    + unfold number_of in *. cbn [List.filter length] in *.
      rewrite app_length.
      destruct (Nat.ltb_spec (length a1 + length rest) (S (length a1))); [reflexivity|].
      destruct rest as [|r0 rest]; [cbn [length] in *; lia|]. cbn [length] in HN.
      rewrite IX. replace (base + Z.of_nat 0 =? base) with true by (symmetry; apply Z.eqb_eq; lia).
      cbn [negb]. rewrite LY.
      assert (EV : nth_error (pre ++ y :: v) (Z.to_nat (base - 1)) = Some y).
      { replace (Z.to_nat (base - 1)) with (length pre) by lia.
        rewrite nth_error_app2, Nat.sub_diag by lia. reflexivity. }
      rewrite EV. replace (pre ++ y :: v) with ((pre ++ [y]) ++ v) by (rewrite <- app_assoc; reflexivity).
      rewrite list_set_split.
      replace (a1 ++ y :: rest) with ((a1 ++ [y]) ++ rest) by (rewrite <- app_assoc; reflexivity).
      replace (S (length a1)) with (length (a1 ++ [y])) by (rewrite app_length; simpl; lia).
      apply (IH (base + 1) v (a1 ++ [y]) rest (pre ++ [y])).
      * eapply indexed_tl; eauto.
      * rewrite app_length. simpl. lia.
      * auto.
      * unfold number_of; lia.
    + replace (pre ++ y :: v) with ((pre ++ [y]) ++ v) by (rewrite <- app_assoc; reflexivity).
      apply (IH (base + 1) v a1 rest (pre ++ [y])).
      * eapply indexed_tl; eauto.
      * rewrite app_length. simpl. lia.
      * auto.
      * exact HN.
Qed.

Lemma copy_out_ok hp f : forall m base v a1 rest pre,
  indexed hp m base -> base = Z.of_nat (length pre) + 1 -> length v = length m ->
  (number_of (map (fun id => meta_match hp (Some id) f) m) <= length rest)%nat ->
  copy_out_loop hp (map Some m) base f (pre ++ v) true (a1 ++ rest) (length a1)
  = (pre ++ put (map (fun id => meta_match hp (Some id) f) m) v rest, MOk).
Proof using.
  induction m as [|x m IH]; intros base v a1 rest pre HI HB HL HN.
  - destruct v; [|discriminate HL]. simpl. reflexivity.
  - destruct v as [|y v]; [discriminate HL|]. injection HL as HL.
    destruct (HI 0%nat x eq_refl) as [IX LY].
    cbn [map copy_out_loop]. cbn [map] in HN.
    destruct (meta_match hp (Some x) f) eqn:EM.
    + unfold number_of in *. cbn [List.filter length] in *.
      destruct rest as [|r0 rest]; [cbn [length] in HN; lia|]. cbn [length] in HN.
      rewrite nth_error_app2, Nat.sub_diag by lia. cbn [nth_error].
      rewrite IX. replace (base + Z.of_nat 0 =? base) with true by (symmetry; apply Z.eqb_eq; lia).
      cbn [negb]. rewrite LY.
      replace (Z.to_nat (base - 1)) with (length pre) by lia.
      rewrite list_set_split.
      replace (pre ++ r0 :: v) with ((pre ++ [r0]) ++ v) by (rewrite <- app_assoc; reflexivity).
      replace (a1 ++ r0 :: rest) with ((a1 ++ [r0]) ++ rest) by (rewrite <- app_assoc; reflexivity).
      replace (S (length a1)) with (length (a1 ++ [r0])) by (rewrite app_length; simpl; lia).
      rewrite (IH (base + 1) v (a1 ++ [r0]) rest (pre ++ [r0])).
      * cbn [put]. rewrite <- app_assoc. reflexivity.
      * eapply indexed_tl; eauto.
      * rewrite app_length. simpl. lia.
      * auto.
      * unfold number_of; lia.
    + replace (pre ++ y :: v) with ((pre ++ [y]) ++ v) by (rewrite <- app_assoc; reflexivity).
      rewrite (IH (base + 1) v a1 rest (pre ++ [y])).
      * cbn [put]. rewrite <- app_assoc. reflexivity.
      * eapply indexed_tl; eauto.
      * rewrite app_length. simpl. lia.
      * auto.
      * exact HN.
Qed.

Lemma copy_out_small hp f : forall m base v a1 rest pre,
  indexed hp m base -> base = Z.of_nat (length pre) + 1 -> length v = length m ->
  (length rest < number_of (map (fun id => meta_match hp (Some id) f) m))%nat ->
  snd (copy_out_loop hp (map Some m) base f (pre ++ v) true (a1 ++ rest) (length a1)) = MErr.
Proof using.
  induction m as [|x m IH]; intros base v a1 rest pre HI HB HL HN.
  - unfold number_of in HN. simpl in HN. lia.
  - destruct v as [|y v]; [discriminate HL|]. injection HL as HL.
    destruct (HI 0%nat x eq_refl) as [IX LY].
    cbn [map copy_out_loop]. cbn [map] in HN.
    destruct (meta_match hp (Some x) f) eqn:EM.
    + unfold number_of in *. cbn [List.filter length] in *.
      destruct rest as [|r0 rest].
      { rewrite app_nil_r. destruct (nth_error a1 (length a1)) eqn:E; [|reflexivity].
        exfalso. assert (X : nth_error a1 (length a1) <> None) by congruence. apply nth_error_Some in X. lia. }
      cbn [length] in HN.
      rewrite nth_error_app2, Nat.sub_diag by lia. cbn [nth_error].
      rewrite IX. replace (base + Z.of_nat 0 =? base) with true by (symmetry; apply Z.eqb_eq; lia).
      cbn [negb]. rewrite LY.
      replace (Z.to_nat (base - 1)) with (length pre) by lia.
      rewrite list_set_split.
      replace (pre ++ r0 :: v) with ((pre ++ [r0]) ++ v) by (rewrite <- app_assoc; reflexivity).
      replace (a1 ++ r0 :: rest) with ((a1 ++ [r0]) ++ rest) by (rewrite <- app_assoc; reflexivity).
      replace (S (length a1)) with (length (a1 ++ [r0])) by (rewrite app_length; simpl; lia).
      apply (IH (base + 1) v (a1 ++ [r0]) rest (pre ++ [r0])).
      * eapply indexed_tl; eauto.
      * rewrite app_length. simpl. lia.
      * auto.
      * unfold number_of; lia.
    + replace (pre ++ y :: v) with ((pre ++ [y]) ++ v) by (rewrite <- app_assoc; reflexivity).
      apply (IH (base + 1) v a1 rest (pre ++ [y])).
      * eapply indexed_tl; eauto.
      * rewrite app_length. simpl. lia.
      * auto.
      * exact HN.
Qed.

(* a table in the data phase, reached by any history *)
Lemma data_state s l : frozen s l -> m_dlock s = true ->
  exists m, Permutation m l /\ m_meta s = Some (map Some m) /\ mc_locked s = true /\
    indexed (m_heap s) m 1 /\
    (forall j id, nth_error m j = Some id -> mc_const_index s (name_of h id) = Z.of_nat j + 1) /\
    forall f, map (fun id => meta_match (m_heap s) (Some id) f) m = map (fun id => satisfies f (h id)) m.
Proof using HF.
  intros F T2. destruct (frozen_full _ _ F) as (m & P & M & FI & _).
  destruct F as (_ & (n & tb & I) & T1 & _).
  exists m. repeat split; auto.
  - unfold mc_locked. now rewrite (is_init_inv _ _ _ _ _ I), T1, T2.
  - destruct (FI _ _ H) as [E _]. cbn [meta_index]. rewrite E. unfold q_const_index, query.
    replace (is_instantiated (with_index (h id) (Z.of_nat j + 1))) with (is_instantiated (h id)) by reflexivity.
    destruct (HF id) as (C1 & _). rewrite C1. cbn [fst with_index p_const_ind]. lia.
  - destruct (FI _ _ H) as [E _]. simpl. rewrite E. rewrite layer_with_index. apply HF.
  - intros j id Hj. apply (FI _ _ Hj).
  - intros f. apply map_ext_in. intros id Hid. apply In_nth_error in Hid as [j Hj].
    eapply meta_match_heap. apply FI. exact Hj.
Qed.

Lemma new_field_dup s sp l id c : R s sp -> sp_phase sp = COpen l -> ~ In id (sp_dead sp) ->
  registered_as h l (name_of h id) = Some c ->
  mc_new_field s id = (s, if agree (h c) (h id) then MOk else MErr).
Proof using HF.
  intros (R1 & R2 & R3) EP ND EC. rewrite EP in *. cbn [phase_rel held] in *.
  destruct R3 as ((n & tb & I) & D & T1 & T2 & M1 & M2).
  unfold mc_new_field, mc_okay_to_add, mc_props_locked, mc_data_locked.
  rewrite (is_init_inv _ _ _ _ _ I), T1, T2. cbn [andb negb orb].
  assert (EH : forall i, ~ In i (sp_dead sp) -> m_heap s i = h i) by (intros i Hi; apply R1; auto).
  rewrite (EH _ ND). destruct (HF id) as (F1 & F2 & F3). rewrite F1. cbn [negb].
  pose proof (mc_heap_open _ _ _ _ _ I D EH) as I'.
  unfold mc_find. unfold q_standard_name, query. rewrite F1. cbn [fst].
  rewrite (ht_value_spec (ostr (p_std_name (h id))) I').
  assert (EL : lookup (okey (m_heap s)) l (ostr (p_std_name (h id)))
               = registered_as h l (name_of h id)).
  { unfold lookup, registered_as, name_of.
    assert (G : forall l', (forall i, In i l' -> ~ In i (sp_dead sp)) ->
       find (fun v => feqb (okey (m_heap s) v) (ostr (p_std_name (h id)))) l' =
       find (fun c => feqb (ostr (p_std_name (h c))) (ostr (p_std_name (h id)))) l').
    { induction l' as [|y l' IH]; intros Hd; simpl; auto.
      unfold okey at 1. rewrite (EH y) by (apply Hd; simpl; auto).
      destruct (feqb _ _); auto. apply IH. intros i Hi. apply Hd. simpl; auto. }
    apply G. exact D. }
  rewrite EL, EC. assert (Hc : In c l) by (apply find_some in EC; tauto).
  rewrite (EH c (D c Hc)). destruct (HF c) as (C1 & _).
  rewrite (agree_is_match _ _ C1 F1). destruct (agree (h c) (h id)); reflexivity.
Qed.
End Sim.

(* ---- pick / put ---- *)
Lemma pick_put {A} : forall (sel : list bool) (v a : list A), length v = length sel ->
  (number_of sel <= length a)%nat -> pick sel (put sel v a) = firstn (number_of sel) a.
Proof.
  unfold number_of.
  induction sel as [|b sel IH]; intros [|x v] a L N; simpl in *; try lia; auto.
  destruct b; simpl in *.
  - destruct a as [|y a]; simpl in *; [lia|]. f_equal. apply IH; lia.
  - apply IH; lia.
Qed.

Lemma put_pick {A} : forall (sel : list bool) (v : list A) r, length v = length sel ->
  put sel v (pick sel v ++ r) = v.
Proof.
  induction sel as [|b sel IH]; intros [|x v] r L; simpl in *; try lia; auto.
  destruct b; simpl; f_equal; apply IH; lia.
Qed.

Lemma put_length {A} : forall (sel : list bool) (v a : list A), length (put sel v a) = length v.
Proof.
  induction sel as [|[|] sel IH]; intros [|x v] a; simpl; auto.
  destruct a as [|y a]; simpl; auto.
Qed.

Lemma put_frame {A} : forall (sel : list bool) (v a : list A) j,
  nth_error sel j = Some false -> nth_error (put sel v a) j = nth_error v j.
Proof.
  induction sel as [|[|] sel IH]; intros [|x v] a [|j] H; simpl in *; try discriminate; auto.
  destruct a as [|y a]; simpl; auto.
Qed.

Lemma pick_length {A} : forall (sel : list bool) (v : list A), length v = length sel ->
  length (pick sel v) = number_of sel.
Proof.
  unfold number_of.
  induction sel as [|[|] sel IH]; intros [|x v] L; simpl in *; try lia; auto.
Qed.
