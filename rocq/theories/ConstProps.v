(* ConstProps.v: properties C04, C05, C06, C08, C43 and C50 (model constituents object). *)
From Verif Require Import Base HashModel HashSpec HashProofs ConstPropModel ConstModel ConstSpec ConstProofs.
Open Scope Z_scope.

(* ---- example objects ---- *)
Definition ex_obj (name : string) (adv : bool) (units : string) : cprop :=
  fst (prop_instantiate prop_new
    (mkArgs name name units "vertical_layer_dimension" (Some adv) (Some 0) None None None None)).
Definition ex_heap (id : nat) : cprop :=
  match id with
  | 0%nat => ex_obj "cloud_number" false "kg-1"
  | 1%nat => ex_obj "vapor" true "kg kg-1"
  | 2%nat => ex_obj "ozone" true "kg kg-1"
  | 3%nat => ex_obj "vapor   " true "kg kg-1"
  | 4%nat => ex_obj "vapor" true "g kg-1"
  | _ => ex_obj "other" false "1"
  end.
Lemma ex_heap_fresh : fresh_objects ex_heap.
Proof.
  intros [|[|[|[|[|id]]]]]; (split; [reflexivity|split; reflexivity]).
Qed.
Definition ex_ops : list mop := [MInit 1; MNew 0; MNew 1; MNew 2; MNew 3; MNew 4; MLock; MNew 5; MLockData 2 1].

(* ---- C04 ---- *)
(* After any history that leaves the table locked with registered set l: some
   order m of l is such that the objects have index 1..n in that order (by
   const_index of their names), advected ones come first, the advected count is
   exact and unknown names get the unassigned value. *)
Theorem C04_lock_assigns_dense_advected_first_indices :
  forall h ops l,
    fresh_objects h -> no_init_after_data false ops = true ->
    ~ In MUndef (snd (mrun (mc_new h) ops)) ->
    (sp_phase (fst (spec_run h spec_new ops)) = CLocked l \/
     sp_phase (fst (spec_run h spec_new ops)) = CData l) ->
    let s := fst (mrun (mc_new h) ops) in
    exists m, Permutation m l /\ m_meta s = Some (map Some m) /\
      (forall j id, nth_error m j = Some id ->
         mc_const_index s (name_of h id) = Z.of_nat j + 1 /\
         q_const_index (m_heap s id) = (Z.of_nat j + 1, 0)) /\
      (forall i j a b, nth_error m i = Some a -> nth_error m j = Some b ->
         p_advected (h a) = true -> p_advected (h b) = false -> (i < j)%nat) /\
      m_nadv s = Z.of_nat (length (List.filter (fun id => p_advected (h id)) l)) /\
      (forall k, registered_as h l k = None -> mc_const_index s k = int_unassigned).
Proof.
  intros h ops l HF N U HP s. pose proof (reach h HF ops N U) as (_ & _ & R3).
  assert (F : frozen h s l).
  { destruct HP as [HP|HP]; rewrite HP in R3; exact (proj1 R3). }
  destruct (frozen_full h HF _ _ F) as (m & P & M & FI & O & NA & K).
  exists m. split; [exact P|]. split; [exact M|]. split; [|split; [exact O|split; [exact NA|exact K]]].
  intros j id Hj. destruct (FI _ _ Hj) as [E1 E2]. split; [exact E2|].
  rewrite E1. unfold q_const_index, query.
  replace (is_instantiated (with_index (h id) (Z.of_nat j + 1))) with (is_instantiated (h id)) by reflexivity.
  destruct (HF id) as (C1 & _). now rewrite C1.
Qed.
Print Assumptions C04_lock_assigns_dense_advected_first_indices.

(* every attribute query counts exactly the registered constituents with these attributes *)
Theorem C04_num_constituents_exact :
  forall h ops l f,
    fresh_objects h -> no_init_after_data false ops = true ->
    ~ In MUndef (snd (mrun (mc_new h) ops)) ->
    (sp_phase (fst (spec_run h spec_new ops)) = CLocked l \/
     sp_phase (fst (spec_run h spec_new ops)) = CData l) ->
    mc_num_match (fst (mrun (mc_new h) ops)) f
    = Z.of_nat (length (List.filter (fun id => satisfies f (h id)) l)).
Proof.
  intros h ops l f HF N U HP. pose proof (reach h HF ops N U) as (_ & _ & R3).
  apply num_match_frozen; auto.
  destruct HP as [HP|HP]; rewrite HP in R3; exact (proj1 R3).
Qed.
Print Assumptions C04_num_constituents_exact.

Example C04_example :
  no_init_after_data false ex_ops = true /\
  sp_phase (fst (spec_run ex_heap spec_new ex_ops)) = CData [0; 1; 2]%nat /\
  snd (mrun (mc_new ex_heap) ex_ops) = [MOk; MOk; MOk; MOk; MOk; MErr; MOk; MErr; MOk] /\
  let s := fst (mrun (mc_new ex_heap) ex_ops) in
  map (mc_const_index s) ["ozone"; "vapor"; "cloud_number"; "none"] = [1; 2; 3; int_unassigned] /\
  mc_num_match s (mkFilter (Some true) None None) = 2.
Proof. repeat split; vm_compute; reflexivity. Qed.

(* ---- C05 ---- *)
(* Every history without initialize_table after lock_data gives exactly the
   outcomes of the documented protocol. *)
Theorem C05_protocol_partial :
  forall h ops,
    fresh_objects h -> no_init_after_data false ops = true ->
    snd (mrun (mc_new h) ops) = snd (spec_run h spec_new ops).
Proof. intros h ops HF N. exact (outcomes h HF ops N). Qed.
Print Assumptions C05_protocol_partial.

(* data_locked is never cleared: after lock_data, reset and initialize_table, a
   registration that the protocol accepts is refused. *)
Theorem C05_reusable_after_reset_refuted :
  exists h ops, fresh_objects h /\
    snd (spec_run h spec_new ops) = [MOk; MOk; MOk; MOk; MOk; MOk; MOk] /\
    snd (mrun (mc_new h) ops) = [MOk; MOk; MOk; MOk; MOk; MOk; MErr].
Proof.
  exists ex_heap, [MInit 1; MNew 0; MLock; MLockData 1 1; MReset; MInit 1; MNew 1].
  split; [apply ex_heap_fresh|]. split; vm_compute; reflexivity.
Qed.
Print Assumptions C05_reusable_after_reset_refuted.

(* Locking a table that was never initialised or has no constituents is undefined
   behaviour (out-of-bounds read in the iterator) instead of an error. *)
Theorem C05_lock_empty_table_is_undefined_refuted :
  forall h, fresh_objects h ->
    snd (mrun (mc_new h) [MLock]) = [MUndef] /\
    forall n, 0 < n -> snd (mrun (mc_new h) [MInit n; MLock]) = [MOk; MUndef].
Proof.
  intros h HF. split; [reflexivity|]. intros n Hn.
  rewrite (outcomes h HF) by reflexivity. simpl.
  destruct (Z.leb_spec n 0); [lia|reflexivity].
Qed.
Print Assumptions C05_lock_empty_table_is_undefined_refuted.

(* ---- C06 ---- *)
Theorem C06_duplicate_registration :
  forall h ops l id c,
    fresh_objects h -> no_init_after_data false ops = true ->
    ~ In MUndef (snd (mrun (mc_new h) ops)) ->
    sp_phase (fst (spec_run h spec_new ops)) = COpen l ->
    ~ In id (sp_dead (fst (spec_run h spec_new ops))) ->
    registered_as h l (name_of h id) = Some c ->
    let s := fst (mrun (mc_new h) ops) in
    mc_new_field s id = (s, if agree (h c) (h id) then MOk else MErr).
Proof.
  intros h ops l id c HF N U HP ND HC s.
  exact (new_field_dup h HF s _ l id c (reach h HF ops N U) HP ND HC).
Qed.
Print Assumptions C06_duplicate_registration.

Example C06_example :
  let ops := [MInit 1; MNew 0; MNew 1] in
  sp_phase (fst (spec_run ex_heap spec_new ops)) = COpen [0; 1]%nat /\
  registered_as ex_heap [0; 1]%nat (name_of ex_heap 3%nat) = Some 1%nat /\
  agree (ex_heap 1%nat) (ex_heap 3%nat) = true /\ agree (ex_heap 1%nat) (ex_heap 4%nat) = false.
Proof. repeat split; vm_compute; reflexivity. Qed.

(* ---- C08 ---- *)
(* In the data phase, with m the constituents in index order and v the field
   data: copy_in gathers exactly the selected fields, in index order, into the
   front of the caller's array; copy_out replaces exactly the selected fields. *)
Theorem C08_copy_in_out :
  forall h ops l,
    fresh_objects h -> no_init_after_data false ops = true ->
    ~ In MUndef (snd (mrun (mc_new h) ops)) ->
    sp_phase (fst (spec_run h spec_new ops)) = CData l ->
    let s := fst (mrun (mc_new h) ops) in
    exists m v, Permutation m l /\ m_vars s = Some v /\ length v = length m /\
      (forall j id, nth_error m j = Some id -> mc_const_index s (name_of h id) = Z.of_nat j + 1) /\
      forall f arr v', length v' = length m ->
      let s' := mkMC (m_heap s) (m_hash s) (m_tlock s) (m_dlock s) (m_nlayer s) (m_nadv s)
                  (m_nlev s) (m_meta s) (Some v') (m_minv s) in   (* any field values *)
      let sel := map (fun id => satisfies f (h id)) m in
      if (number_of sel <=? length arr)%nat then
        mc_copy_in s' arr (m_nlev s) f = (pick sel v' ++ skipn (number_of sel) arr, MOk) /\
        mc_copy_out s' arr (m_nlev s) f
          = (mkMC (m_heap s) (m_hash s) (m_tlock s) (m_dlock s) (m_nlayer s) (m_nadv s)
                  (m_nlev s) (m_meta s) (Some (put sel v' arr)) (m_minv s), MOk)
      else snd (mc_copy_in s' arr (m_nlev s) f) = MErr /\
           snd (mc_copy_out s' arr (m_nlev s) f) = MErr.
Proof.
  intros h ops l HF N U HP s. pose proof (reach h HF ops N U) as (_ & _ & R3).
  rewrite HP in R3. destruct R3 as (F & _ & T2 & v & V & LV).
  destruct (data_state h HF _ _ F T2) as (m & P & M & LK & IX & CI & MM).
  exists m, v. split; [exact P|]. split; [exact V|].
  split; [rewrite LV; symmetry; now apply Permutation_length|]. split; [exact CI|].
  intros f arr v' LV' s' sel. subst sel. rewrite <- (MM f). fold s.
  assert (LK' : mc_locked s' = true) by exact LK.
  unfold mc_copy_in, mc_copy_out. rewrite LK'. subst s'. cbn [m_meta m_vars m_heap m_nlev m_hash m_tlock m_dlock m_nlayer m_nadv m_minv].
  fold s in M. rewrite M, Z.eqb_refl.
  destruct (Nat.leb_spec (number_of (map (fun id => meta_match (m_heap s) (Some id) f) m)) (length arr)) as [L|L].
  - pose proof (copy_in_ok (m_heap s) f m 1 v' [] arr [] IX eq_refl LV' L) as A.
    pose proof (copy_out_ok (m_heap s) f m 1 v' [] arr [] IX eq_refl LV' L) as B.
    cbn [app length] in A, B. rewrite A, B. split; reflexivity.
  - pose proof (copy_in_small (m_heap s) f m 1 v' [] arr [] IX eq_refl LV' L) as A.
    pose proof (copy_out_small (m_heap s) f m 1 v' [] arr [] IX eq_refl LV' L) as B.
    cbn [app length] in A, B. split; [exact A|].
    destruct (copy_out_loop _ _ _ _ _ _ _ _) as [? ?]. exact B.
Qed.
Print Assumptions C08_copy_in_out.

(* gather/scatter laws of the two operations above *)
Theorem C08_roundtrips :
  forall (A : Type) (sel : list bool) (v a : list A), length v = length sel ->
    (number_of sel <= length a)%nat ->
    pick sel (put sel v a) = firstn (number_of sel) a /\
    (forall r, put sel v (pick sel v ++ r) = v) /\
    length (put sel v a) = length v /\
    (forall j, nth_error sel j = Some false -> nth_error (put sel v a) j = nth_error v j).
Proof.
  intros A sel v a L N. split; [now apply pick_put|].
  split; [intros r; now apply put_pick|].
  split; [apply put_length|intros j; apply put_frame].
Qed.
Print Assumptions C08_roundtrips.

Example C08_example :
  let s := fst (mrun (mc_new ex_heap) ex_ops) in
  let f := mkFilter (Some true) None None in
  let v := [[[1]; [2]]; [[3]; [4]]; [[5]; [6]]] in
  let s' := mkMC (m_heap s) (m_hash s) (m_tlock s) (m_dlock s) (m_nlayer s) (m_nadv s)
                  (m_nlev s) (m_meta s) (Some v) (m_minv s) in
  mc_copy_in s' [[]; []; []] 1 f = ([[[1]; [2]]; [[3]; [4]]; []], MOk) /\
  snd (mc_copy_in s' [[]] 1 f) = MErr /\
  m_vars (fst (mc_copy_out s' [[[7]; [8]]; [[9]; [10]]] 1 f)) = Some [[[7]; [8]]; [[9]; [10]]; [[5]; [6]]].
Proof. repeat split; vm_compute; reflexivity. Qed.

(* ---- C43: lock_table fails whenever a constituent did not get its index ---- *)
(* Refuted: errcode is overwritten by the next set_const_index, so a constituent
   that already carries an index keeps it and lock_table reports success. *)
Definition bad_heap (id : nat) : cprop :=
  if (id =? 2)%nat then fst (set_const_index (ex_heap 2%nat) 7) else ex_heap id.

Theorem C43_lock_detects_preassigned_index_refuted :
  exists h ops, (forall id, is_instantiated (h id) = true) /\
    snd (mrun (mc_new h) ops) = [MOk; MOk; MOk; MOk] /\
    let s := fst (mrun (mc_new h) ops) in
    mc_props_locked s = true /\ m_meta s = Some [Some 2%nat; Some 1%nat] /\
    name_of h 2%nat = "ozone" /\ mc_const_index s "ozone" = 7.
Proof.
  exists bad_heap, [MInit 1; MNew 1; MNew 2; MLock].
  split; [intros [|[|[|[|[|id]]]]]; reflexivity|].
  repeat split; vm_compute; reflexivity.
Qed.
Print Assumptions C43_lock_detects_preassigned_index_refuted.

(* ---- C50: lock_data gives every constituent a field of its own default value ---- *)
(* With m the constituents in index order: after a successful lock_data(nc, nl) on
   a locked table, field j is nc columns of nl copies of the default value of
   constituent j, the minimum values are those of the objects, and the advected
   data are exactly the fields of the advected constituents. *)
Definition uniform (nc nl : Z) (x : Z) : slab := List.repeat (List.repeat x (Z.to_nat nl)) (Z.to_nat nc).

Theorem C50_lock_data_initialises_fields :
  forall h ops l nc nl,
    fresh_objects h -> no_init_after_data false ops = true ->
    ~ In MUndef (snd (mrun (mc_new h) ops)) ->
    sp_phase (fst (spec_run h spec_new ops)) = CLocked l ->
    let s := fst (mrun (mc_new h) ops) in
    mc_field_data s = None /\ mc_advected_data s = None /\
    exists s', mc_lock_data s nc nl = (s', MOk) /\
    exists m, Permutation m l /\
      (forall j id, nth_error m j = Some id -> mc_const_index s' (name_of h id) = Z.of_nat j + 1) /\
      mc_field_data s' = Some (map (fun id => uniform nc nl (p_default_value (h id))) m) /\
      mc_advected_data s' = Some (map (fun id => uniform nc nl (p_default_value (h id)))
                                      (List.filter (fun id => p_advected (h id)) m)) /\
      m_minv s' = Some (map (fun id => p_min_val (h id)) m) /\ m_nlev s' = nl.
Proof.
  intros h ops l nc nl HF N U HP s. pose proof (reach h HF ops N U) as (_ & _ & R3).
  rewrite HP in R3. fold s in R3. destruct R3 as (F & _ & D0 & V0).
  destruct F as (F1 & (n & tb & I) & T1 & es & P & M & NA & FI).
  assert (FR : frozen h s l) by (repeat split; eauto 10).
  assert (AB : forall x, advb h x = p_advected (h x)).
  { intros x. unfold advb, q_is_advected, query. destruct (HF x) as (X1 & _). now rewrite X1. }
  assert (IN : forall id, In id (order h es) -> exists i, m_heap s id = with_index (h id) i).
  { intros id Hid. apply In_nth_error in Hid as [j Hj]. eauto. }
  assert (DV : forall id, In id (order h es) -> q_default_value (m_heap s id) = (p_default_value (h id), 0) /\
                                             q_minimum (m_heap s id) = (p_min_val (h id), 0)).
  { intros id Hid. destruct (IN id Hid) as [i ->]. destruct (HF id) as (X1 & _).
    unfold q_default_value, q_minimum, query.
    replace (is_instantiated (with_index (h id) i)) with (is_instantiated (h id)) by reflexivity.
    now rewrite X1. }
  assert (LST : last (map (fun e => snd (meta_min (m_heap s) e)) (map Some (order h es))) 0 = 0).
  { rewrite map_map. cbn [meta_min].
    rewrite (map_ext_in _ (fun _ => 0)) by (intros a Ha; now rewrite (proj2 (DV a Ha))).
    clear. induction (order h es) as [|x l IH]; [reflexivity|]. cbn [map].
    destruct (map (fun _ => 0) l) eqn:E; [reflexivity|]. exact IH. }
  split; [unfold mc_field_data, mc_locked; now rewrite D0, andb_false_r, andb_false_r|].
  split; [unfold mc_advected_data, mc_locked; now rewrite D0, andb_false_r, andb_false_r|].
  unfold mc_lock_data, mc_data_locked, mc_props_locked.
  rewrite D0, andb_false_r, (is_init_inv _ _ _ _ _ I), T1, V0, M. cbn [andb negb].
  rewrite LST. cbn [Z.eqb]. eexists. split; [reflexivity|].
  exists (order h es). split; [rewrite <- P; apply advs_nons_perm|].
  split.
  { intros j id Hj. destruct (frozen_full h HF _ _ FR) as (m & _ & M' & FI' & _).
    rewrite M in M'. injection M' as M'.
    assert (EQ : m = order h es).
    { clear - M'. revert m M'. induction (order h es) as [|x l IH]; intros [|y m] K; try discriminate; auto.
      cbn in K. injection K as -> K. f_equal. auto. }
    subst m. destruct (FI' _ _ Hj) as [_ C]. rewrite <- C.
    unfold mc_const_index, mc_props_locked, mc_find. cbn [m_hash m_tlock m_heap]. now rewrite T1. }
  split.
  { unfold mc_field_data, mc_locked. cbn [m_hash m_tlock m_dlock m_vars].
    rewrite (is_init_inv _ _ _ _ _ I). cbn [andb]. f_equal. rewrite map_map.
    apply map_ext_in. intros a Ha. cbn [meta_default]. now rewrite (proj1 (DV a Ha)). }
  split.
  { unfold mc_advected_data, mc_locked. cbn [m_hash m_tlock m_dlock m_vars m_nadv].
    rewrite (is_init_inv _ _ _ _ _ I). cbn [andb]. f_equal. rewrite map_map.
    rewrite NA, Nat2Z.id. rewrite firstn_map. unfold order at 1. rewrite firstn_app, Nat.sub_diag, firstn_all.
    cbn [firstn]. rewrite app_nil_r.
    assert (E : advs h es = List.filter (fun id => p_advected (h id)) (order h es)).
    { unfold order. rewrite filter_app. unfold advs, nons.
      assert (G1 : forall k, List.filter (fun id => p_advected (h id)) (List.filter (advb h) k) = List.filter (advb h) k).
      { induction k as [|x k IH]; simpl; auto. destruct (advb h x) eqn:E; simpl; auto. rewrite <- AB, E. now f_equal. }
      assert (G2 : forall k, List.filter (fun id => p_advected (h id)) (List.filter (fun i => negb (advb h i)) k) = []).
      { induction k as [|x k IH]; simpl; auto. destruct (advb h x) eqn:E; simpl; auto. rewrite <- AB, E. auto. }
      now rewrite G1, G2, app_nil_r. }
    rewrite <- E. apply map_ext_in. intros a Ha. cbn [meta_default].
    rewrite (proj1 (DV a ltac:(unfold order; apply in_or_app; auto))). reflexivity. }
  split; [|reflexivity]. cbn [m_minv]. f_equal. rewrite map_map. apply map_ext_in. intros a Ha.
  cbn [meta_min]. now rewrite (proj2 (DV a Ha)).
Qed.
Print Assumptions C50_lock_data_initialises_fields.

Example C50_example :
  let ops := [MInit 1; MNew 0; MNew 1; MNew 2; MLock] in
  sp_phase (fst (spec_run ex_heap spec_new ops)) = CLocked [0; 1; 2]%nat /\
  let s' := fst (mc_lock_data (fst (mrun (mc_new ex_heap) ops)) 2 3) in
  mc_field_data s' = Some [[[0;0;0];[0;0;0]]; [[0;0;0];[0;0;0]]; [[0;0;0];[0;0;0]]] /\
  mc_advected_data s' = Some [[[0;0;0];[0;0;0]]; [[0;0;0];[0;0;0]]].
Proof. repeat split; vm_compute; reflexivity. Qed.

(* before the table is locked no constituent has an index and the counts are 0 *)
Theorem C04_no_index_before_lock :
  forall h ops f k,
    fresh_objects h -> no_init_after_data false ops = true ->
    ~ In MUndef (snd (mrun (mc_new h) ops)) ->
    (forall l, sp_phase (fst (spec_run h spec_new ops)) <> CLocked l) ->
    (forall l, sp_phase (fst (spec_run h spec_new ops)) <> CData l) ->
    let s := fst (mrun (mc_new h) ops) in
    mc_const_index s k = int_unassigned /\ mc_num_match s f = 0 /\
    mc_props_locked s = false /\ mc_field_data s = None.
Proof.
  intros h ops f k HF N U N1 N2 s. pose proof (reach h HF ops N U) as (_ & _ & R3). fold s in R3.
  assert (X : mc_props_locked s = false).
  { unfold mc_props_locked. destruct (sp_phase (fst (spec_run h spec_new ops))) as [|l|l|l] eqn:E.
    - destruct R3 as (A & B & C & _). unfold ht_is_initialized. now rewrite A.
    - destruct R3 as (_ & _ & T & _). now rewrite T, andb_false_r.
    - now destruct (N1 l).
    - now destruct (N2 l). }
  unfold mc_const_index, mc_num_match, mc_field_data, mc_locked. rewrite X.
  unfold mc_props_locked in X. rewrite andb_assoc, X. auto.
Qed.
Print Assumptions C04_no_index_before_lock.

Example C04_no_index_before_lock_example :
  let ops := [MInit 1; MNew 0; MNew 1] in
  sp_phase (fst (spec_run ex_heap spec_new ops)) = COpen [0; 1]%nat /\
  mc_const_index (fst (mrun (mc_new ex_heap) ops)) "vapor" = int_unassigned /\
  mc_const_index (fst (mrun (mc_new ex_heap) (ops ++ [MLock]))) "vapor" = 1.
Proof. repeat split; vm_compute; reflexivity. Qed.

(* a destination with another number of levels is refused as soon as one field is selected *)
Theorem C08_wrong_levels_refused :
  forall h ops l f arr nl,
    fresh_objects h -> no_init_after_data false ops = true ->
    ~ In MUndef (snd (mrun (mc_new h) ops)) ->
    sp_phase (fst (spec_run h spec_new ops)) = CData l ->
    let s := fst (mrun (mc_new h) ops) in
    nl <> m_nlev s ->
    existsb (fun id => satisfies f (h id)) l = true ->
    mc_copy_in s arr nl f = (arr, MErr) /\
    snd (mc_copy_out s arr nl f) = MErr /\ m_vars (fst (mc_copy_out s arr nl f)) = m_vars s.
Proof.
  intros h ops l f arr nl HF N U HP s HL EX. pose proof (reach h HF ops N U) as (_ & _ & R3).
  rewrite HP in R3. destruct R3 as (F & _ & T2 & v & V & LV).
  destruct (data_state h HF _ _ F T2) as (m & P & M & LK & IX & CI & MM).
  fold s in M, LK, V, IX, CI, MM. unfold mc_copy_in, mc_copy_out. rewrite LK, M, V.
  assert (E : (m_nlev s =? nl) = false) by (apply Z.eqb_neq; congruence). rewrite E.
  specialize (MM f).
  assert (EX' : existsb (fun b => b) (map (fun id => meta_match (m_heap s) (Some id) f) m) = true).
  { rewrite MM. apply existsb_exists in EX as (id & I1 & I2). apply existsb_exists. exists true. split; auto.
    apply in_map_iff. exists id. split; auto. eapply Permutation_in; [symmetry; exact P|exact I1]. }
  assert (A : forall m i arr c, existsb (fun b => b) (map (fun id => meta_match (m_heap s) (Some id) f) m) = true ->
     copy_in_loop (m_heap s) (map Some m) i f v false arr c = (arr, MErr)).
  { clear. induction m as [|x m IH]; intros i arr c K; [discriminate|].
    cbn [map copy_in_loop]. cbn [map existsb] in K. destruct (meta_match (m_heap s) (Some x) f); [|now apply IH].
    repeat match goal with |- context [if ?b then _ else _] => destruct b end; reflexivity. }
  assert (B : forall m i w c, existsb (fun b => b) (map (fun id => meta_match (m_heap s) (Some id) f) m) = true ->
     copy_out_loop (m_heap s) (map Some m) i f w false arr c = (w, MErr)).
  { clear. induction m as [|x m IH]; intros i w c K; [discriminate|].
    cbn [map copy_out_loop]. cbn [map existsb] in K. destruct (meta_match (m_heap s) (Some x) f); [|now apply IH].
    destruct (nth_error arr c); [|reflexivity].
    repeat match goal with |- context [if ?b then _ else _] => destruct b end; reflexivity. }
  rewrite A, B by exact EX'. auto.
Qed.
Print Assumptions C08_wrong_levels_refused.

Example C08_wrong_levels_example :
  let s := fst (mrun (mc_new ex_heap) ex_ops) in
  m_nlev s = 1 /\ mc_copy_in s [[]; []; []] 5 (mkFilter (Some true) None None) = ([[]; []; []], MErr).
Proof. split; vm_compute; reflexivity. Qed.
