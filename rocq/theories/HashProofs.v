(* HashProofs.v: lemmas about HashModel. *)
From Verif Require Import Base HashModel HashSpec.
Set Implicit Arguments.
Open Scope Z_scope.

(* ---------- key_hash ---------- *)
Lemma land_range a n : 0 <= n -> 0 <= Z.land a (2 ^ n - 1) < 2 ^ n.
Proof.
  intros Hn.
  replace (2 ^ n - 1) with (Z.ones n) by (rewrite Z.ones_equiv; lia).
  rewrite Z.land_ones by lia.
  apply Z.mod_pos_bound. apply Z.pow_pos_nonneg; lia.
Qed.

Lemma key_hash_pow n off k :
  0 <= n -> exists h, key_hash (2 ^ n) off k = Some h /\ 1 <= h <= 2 ^ n.
Proof.
  intros Hn. unfold key_hash.
  pose proof (land_range (key_hash_loop (rtrim k) 0 off) Hn) as R.
  set (h := Z.land _ _ + 1).
  destruct ((h <? 1) || (2 ^ n <? h)) eqn:E.
  - exfalso. subst h. lia.
  - exists h. split; auto. subst h. lia.
Qed.

Lemma key_hash_nonpos sz off k : sz <= 0 -> key_hash sz off k = None.
Proof.
  intros H. unfold key_hash.
  set (h := Z.land _ _ + 1).
  destruct ((h <? 1) || (sz <? h)) eqn:E; [reflexivity|lia].
Qed.

Lemma key_hash_trim sz off k k' :
  rtrim k = rtrim k' -> key_hash sz off k = key_hash sz off k'.
Proof. intros H. unfold key_hash. now rewrite H. Qed.

Lemma init_size e : 0 <= e -> Z.shiftl 1 (Z.min e (32 - 2)) = 2 ^ Z.min e 30.
Proof. intros H. rewrite Z.shiftl_mul_pow2 by lia. apply Z.mul_1_l. Qed.

Lemma init_size_neg e : e < 0 -> Z.shiftl 1 (Z.min e (32 - 2)) = 0.
Proof.
  intros H. rewrite Z.min_l by lia.
  rewrite Z.shiftl_div_pow2 by lia.
  apply Z.div_small. split; [lia|]. apply Z.pow_gt_1; lia.
Qed.

(* ---------- lookup in lists with distinct keys ---------- *)
Section P.
Variable V : Type.
Variable key : V -> string.

Definition tkey (v : V) : string := rtrim (key v).

Lemma lookup_in l k v : lookup key l k = Some v -> In v l /\ tkey v = rtrim k.
Proof.
  intros H. apply find_some in H as [H1 H2]. split; auto.
  now apply feqb_spec in H2.
Qed.

Lemma lookup_none l k : lookup key l k = None -> forall v, In v l -> tkey v <> rtrim k.
Proof.
  intros H v Hv Hk. apply (find_none _ _ H) in Hv.
  apply feqb_false in Hv. auto.
Qed.

Lemma lookup_some_iff l k v :
  NoDup (map tkey l) -> (lookup key l k = Some v <-> In v l /\ tkey v = rtrim k).
Proof.
  intros N; split; [apply lookup_in|].
  intros [Hi Hk]. induction l as [|a l IH]; [contradiction|].
  unfold lookup; simpl. simpl in N. inversion_clear N.
  destruct (feqb (key a) k) eqn:E.
  - apply feqb_spec in E. destruct Hi as [->|Hi]; auto.
    exfalso. apply H. apply in_map_iff. exists v. split; auto.
    unfold tkey in *. congruence.
  - destruct Hi as [->|Hi].
    + apply feqb_false in E. contradiction.
    + now apply IH.
Qed.

Lemma lookup_perm l l' k :
  NoDup (map tkey l) -> Permutation l l' -> lookup key l k = lookup key l' k.
Proof.
  intros N P.
  assert (N' : NoDup (map tkey l')).
  { eapply Permutation_NoDup; [|exact N]. now apply Permutation_map. }
  destruct (lookup key l k) as [v|] eqn:E.
  - symmetry. apply lookup_some_iff; auto.
    apply lookup_in in E as [E1 E2]. split; auto. eapply Permutation_in; eauto.
  - destruct (lookup key l' k) as [v|] eqn:E'; auto.
    apply lookup_in in E' as [E1 E2].
    exfalso. eapply lookup_none; eauto. eapply Permutation_in; [symmetry|]; eauto.
Qed.

(* ---------- table contents ---------- *)
Fixpoint somes (l : list (option V)) : list V :=
  match l with [] => [] | Some v :: r => v :: somes r | None :: r => somes r end.

Definition bvals (b : bucket V) : list V := somes (b_val b :: b_next b).
Definition contents (tb : list (bucket V)) : list V := flat_map bvals tb.

Definition wfb (b : bucket V) : Prop :=
  match b_val b with
  | None => b_next b = []
  | Some _ => exists vs, b_next b = map Some vs
  end.

Lemma somes_map_Some vs : somes (map Some vs) = vs.
Proof. induction vs as [|v vs IH]; simpl; congruence. Qed.

Lemma somes_app a b : somes (a ++ b) = somes a ++ somes b.
Proof. induction a as [|[v|] a IH]; simpl; rewrite ?IH; auto. Qed.

Lemma chain_find_lookup k ch : chain_find key k ch = lookup key (somes ch) k.
Proof.
  induction ch as [|[v|] ch IH]; simpl; auto.
  unfold lookup in *; simpl. destruct (feqb (key v) k); auto.
Qed.

Definition hash_of (sz off : Z) (v : V) : option Z := key_hash sz off (key v).

(* every value sits in the bucket its key hashes to; [i] is the 1-based index
   of the first bucket of the list *)
Definition placed (sz off : Z) (tb : list (bucket V)) : Prop :=
  forall j b v, nth_error tb j = Some b -> In v (bvals b) ->
    hash_of sz off v = Some (Z.of_nat j + 1).

Record Inv (n : Z) (t : htable V) (tb : list (bucket V)) (l : list V) : Prop := {
  I_n : 0 <= n;
  I_tab : ht_table t = Some tb;
  I_size : ht_size t = 2 ^ n;
  I_len : length tb = Z.to_nat (2 ^ n);
  I_wf : Forall wfb tb;
  I_placed : placed (2 ^ n) (ht_off t) tb;
  I_nodup : NoDup (map tkey l);
  I_perm : Permutation (contents tb) l;
  I_keys : ht_keys t = Z.of_nat (length l) }.

Lemma contents_repeat m : contents (repeat (empty_bucket V) m) = [].
Proof. induction m as [|m IH]; simpl; auto. Qed.

Lemma Inv_init t e ko : 0 <= e ->
  Inv (Z.min e 30) (ht_initialize t e ko)
      (repeat (empty_bucket V) (Z.to_nat (2 ^ Z.min e 30))) [].
Proof.
  intros He. unfold ht_initialize. rewrite init_size by lia.
  constructor; simpl; auto; try lia.
  - now rewrite repeat_length.
  - apply Forall_forall. intros b Hb. apply repeat_spec in Hb. subst. reflexivity.
  - intros j b v Hj Hv. apply nth_error_In in Hj. apply repeat_spec in Hj. subst.
    destruct Hv.
  - constructor.
  - rewrite contents_repeat. constructor.
Qed.

Lemma in_contents tb v : In v (contents tb) <-> exists j b, nth_error tb j = Some b /\ In v (bvals b).
Proof.
  unfold contents. rewrite in_flat_map. split.
  - intros (b & Hb & Hv). apply In_nth_error in Hb as [j Hj]. eauto.
  - intros (j & b & Hj & Hv). apply nth_error_In in Hj. eauto.
Qed.

Lemma Inv_at n t tb l k : Inv n t tb l ->
  exists h b, key_hash (ht_size t) (ht_off t) k = Some h /\ 1 <= h <= 2 ^ n /\
    tbl_at t h = Some b /\ nth_error tb (Z.to_nat (h - 1)) = Some b /\ wfb b.
Proof.
  intros I. destruct (key_hash_pow (ht_off t) k (I_n I)) as (h & Hh & Hr).
  destruct (nth_error tb (Z.to_nat (h - 1))) as [b|] eqn:E.
  - exists h, b. rewrite (I_size I). repeat split; auto; try lia.
    + unfold tbl_at. destruct (h <? 1) eqn:E1; [lia|]. now rewrite (I_tab I).
    + apply nth_error_In in E. pose proof (I_wf I) as W. rewrite Forall_forall in W. auto.
  - apply nth_error_None in E. rewrite (I_len I) in E. lia.
Qed.

Lemma Inv_nodup_contents n t tb l : Inv n t tb l -> NoDup (map tkey (contents tb)).
Proof.
  intros I. eapply Permutation_NoDup; [|exact (I_nodup I)].
  apply Permutation_map. symmetry. exact (I_perm I).
Qed.

(* values with key k can only be in bucket (hash k) *)
Lemma bucket_lookup n t tb l k h b :
  Inv n t tb l -> key_hash (ht_size t) (ht_off t) k = Some h -> 1 <= h ->
  nth_error tb (Z.to_nat (h - 1)) = Some b ->
  lookup key (bvals b) k = lookup key l k.
Proof.
  intros I Hh Hr Hb.
  rewrite <- (lookup_perm (l:=contents tb) (l':=l) k (Inv_nodup_contents I) (I_perm I)).
  destruct (lookup key (contents tb) k) as [v|] eqn:E.
  - apply lookup_in in E as [E1 E2].
    apply in_contents in E1 as (j & b' & Hj & Hv).
    pose proof (I_placed I) as HP0. pose proof (HP0 _ _ _ Hj Hv) as HP. unfold hash_of in HP.
    rewrite (@key_hash_trim _ _ (key v) k) in HP by exact E2.
    rewrite (I_size I) in Hh. rewrite Hh in HP. injection HP as HP.
    assert (j = Z.to_nat (h - 1)) by lia. subst j.
    rewrite Hb in Hj. injection Hj as <-.
    destruct (nth_error_split_at _ _ Hb) as (l1 & l2 & -> & _).
    assert (N : NoDup (map tkey (bvals b))).
    { pose proof (Inv_nodup_contents I) as N. unfold contents in N.
      rewrite flat_map_app, map_app in N. simpl in N. rewrite map_app in N.
      apply NoDup_app_r in N. apply NoDup_app_l in N. exact N. }
    apply lookup_some_iff; auto.
  - destruct (lookup key (bvals b) k) as [v|] eqn:E'; auto.
    apply lookup_in in E' as [E1 E2]. exfalso.
    eapply lookup_none; eauto. apply in_contents. eauto.
Qed.

Lemma ht_value_bucket t k h b :
  key_hash (ht_size t) (ht_off t) k = Some h -> tbl_at t h = Some b -> wfb b ->
  ht_value key t k = match lookup key (bvals b) k with Some v => ROk v | None => RErr end.
Proof.
  intros Hh Hb W. unfold ht_value. rewrite Hh, Hb.
  unfold bvals. unfold wfb in W. destruct (b_val b) as [v|] eqn:E.
  - unfold lookup. simpl. destruct (feqb (key v) k); auto.
    rewrite chain_find_lookup. reflexivity.
  - rewrite W. reflexivity.
Qed.

Lemma ht_value_spec n t tb l k : Inv n t tb l ->
  ht_value key t k = match lookup key l k with Some v => ROk v | None => RErr end.
Proof.
  intros I. destruct (Inv_at k I) as (h & b & Hh & Hr & Hb & Hn & W).
  rewrite (ht_value_bucket _ _ Hh Hb W).
  rewrite (@bucket_lookup n t tb l k h b I Hh); auto; lia.
Qed.

Lemma Forall_list_set {A} (P : A -> Prop) l i x : Forall P l -> P x -> Forall P (list_set l i x).
Proof.
  intros F Px. revert i. induction F as [|h l Hh F IH]; intros [|i]; simpl; auto.
Qed.

Lemma contents_set tb i b b' v :
  nth_error tb i = Some b -> Permutation (bvals b') (v :: bvals b) ->
  Permutation (contents (list_set tb i b')) (v :: contents tb).
Proof.
  intros H P. destruct (nth_error_split_at _ _ H) as (l1 & l2 & -> & <-).
  rewrite list_set_split. unfold contents. rewrite !flat_map_app. simpl.
  rewrite P. simpl. symmetry. apply Permutation_middle.
Qed.

Lemma placed_set sz off tb i b b' v :
  placed sz off tb -> nth_error tb i = Some b ->
  hash_of sz off v = Some (Z.of_nat i + 1) ->
  Permutation (bvals b') (v :: bvals b) -> placed sz off (list_set tb i b').
Proof.
  intros HP Hi Hv P j c w Hj Hw.
  destruct (Nat.eq_dec i j) as [->|Hne].
  - assert (Hlt : (j < length tb)%nat) by (apply nth_error_Some; congruence).
    rewrite nth_error_list_set_eq in Hj by exact Hlt. injection Hj as <-.
    eapply Permutation_in in Hw; [|exact P]. destruct Hw as [<-|Hw]; auto.
    eapply HP; eauto.
  - rewrite nth_error_list_set_neq in Hj by exact Hne. eapply HP; eauto.
Qed.

Lemma ht_add_spec n t tb l v : Inv n t tb l ->
  match lookup key l (key v) with
  | Some _ => ht_add key t v = (RErr, t)
  | None => exists t' tb', ht_add key t v = (ROk tt, t') /\ Inv n t' tb' (l ++ [v])
  end.
Proof.
  intros I. destruct (Inv_at (key v) I) as (h & b & Hh & Hr & Hb & Hn & W).
  unfold ht_add. rewrite Hh. rewrite (ht_value_spec (key v) I).
  destruct (lookup key l (key v)) as [w|] eqn:E; [reflexivity|].
  rewrite Hb, (I_tab I).
  assert (HN : NoDup (map tkey (l ++ [v]))).
  { rewrite map_app. simpl. apply NoDup_snoc; [exact (I_nodup I)|].
    intros Hin. apply in_map_iff in Hin as (w & Hw & Hin).
    eapply lookup_none; eauto. }
  assert (G : forall b', Permutation (bvals b') (v :: bvals b) -> wfb b' ->
     Forall wfb (list_set tb (Z.to_nat (h - 1)) b') /\
     placed (2 ^ n) (ht_off t) (list_set tb (Z.to_nat (h - 1)) b') /\
     Permutation (contents (list_set tb (Z.to_nat (h - 1)) b')) (l ++ [v]) /\
     length (list_set tb (Z.to_nat (h - 1)) b') = Z.to_nat (2 ^ n)).
  { intros b' P W'. repeat split.
    - apply Forall_list_set; auto. exact (I_wf I).
    - eapply placed_set; eauto; [exact (I_placed I)|].
      unfold hash_of. rewrite <- (I_size I), Hh. f_equal. lia.
    - rewrite (@contents_set tb _ b b' v Hn P). rewrite (I_perm I).
      apply Permutation_cons_append.
    - rewrite list_set_length. exact (I_len I). }
  unfold wfb in W. destruct (b_val b) as [w|] eqn:Eb.
  - destruct W as [vs Evs].
    destruct (G (mkBucket (Some w) (b_next b ++ [Some v]))) as (G1 & G2 & G3 & G4).
    { unfold bvals. simpl. rewrite Eb, somes_app. simpl.
      rewrite Permutation_app_comm. simpl. apply perm_swap. }
    { simpl. exists (vs ++ [v]). rewrite Evs, map_app. reflexivity. }
    eexists _, _. split; [reflexivity|].
    destruct I as [i1 i2 i3 i4 i5 i6 i7 i8 i9].
    constructor; simpl; auto.
    rewrite i9, app_length. simpl. lia.
  - destruct (G (mkBucket (Some v) (b_next b))) as (G1 & G2 & G3 & G4).
    { unfold bvals. simpl. rewrite Eb, W. reflexivity. }
    { simpl. exists []. now rewrite W. }
    eexists _, _. split; [reflexivity|].
    destruct I as [i1 i2 i3 i4 i5 i6 i7 i8 i9].
    constructor; simpl; auto.
    rewrite i9, app_length. simpl. lia.
Qed.

(* ---------- refinement ---------- *)
Definition absrel (t : htable V) (s : sstate V) : Prop :=
  match s with
  | SUninit => ht_table t = None /\ ht_size t <= 0 /\ ht_keys t = 0
  | SZero => ht_table t = Some [] /\ ht_size t <= 0 /\ ht_keys t = 0
  | SReady l => exists n tb, Inv n t tb l
  end.

Lemma absrel_new : absrel ht_new SUninit.
Proof. simpl. repeat split; lia. Qed.

Lemma hstep_refines t s o : absrel t s ->
  snd (hstep key t o) = snd (sstep key s o) /\
  absrel (fst (hstep key t o)) (fst (sstep key s o)).
Proof.
  intros R. destruct o as [e ko|v|k| | |].
  - cbn [hstep sstep fst snd]. split; [reflexivity|].
    destruct (e <? 0) eqn:E.
    + unfold absrel, ht_initialize. rewrite init_size_neg by lia. simpl.
      repeat split; lia.
    + assert (0 <= e) by lia. simpl. eexists _, _. now apply Inv_init.
  - cbn [hstep sstep]. destruct s as [|l|].
    + destruct R as (R1 & R2 & R3). unfold ht_add. rewrite key_hash_nonpos by lia.
      simpl. auto.
    + destruct R as (n & tb & I). pose proof (ht_add_spec v I) as A.
      destruct (lookup key l (key v)).
      * rewrite A. simpl. split; auto. eexists _, _; eauto.
      * destruct A as (t' & tb' & A & I'). rewrite A. simpl. split; auto.
        eexists _, _; eauto.
    + destruct R as (R1 & R2 & R3). unfold ht_add. rewrite key_hash_nonpos by lia.
      simpl. auto.
  - cbn [hstep sstep]. destruct s as [|l|].
    + destruct R as (R1 & R2 & R3). unfold ht_value. rewrite key_hash_nonpos by lia.
      simpl. auto.
    + destruct R as (n & tb & I). rewrite (ht_value_spec k I).
      destruct (lookup key l k); simpl; split; auto; eexists _, _; eauto.
    + destruct R as (R1 & R2 & R3). unfold ht_value. rewrite key_hash_nonpos by lia.
      simpl. auto.
  - cbn [hstep sstep]. destruct s as [|l|]; cbn [fst snd]; split; auto;
      unfold ht_num_values; f_equal; try (now destruct R as (R1 & R2 & R3)).
    destruct R as (n & tb & I). exact (I_keys I).
  - cbn [hstep sstep]. unfold ht_is_initialized.
    destruct s as [|l|]; cbn [fst snd]; split; auto; f_equal.
    + destruct R as (R1 & R2 & R3). now rewrite R1.
    + destruct R as (n & tb & I). now rewrite (I_tab I).
    + destruct R as (R1 & R2 & R3). now rewrite R1.
  - simpl. repeat split; lia.
Qed.

Lemma hrun_refines ops : forall t s, absrel t s ->
  snd (hrun key t ops) = snd (srun key s ops) /\
  absrel (fst (hrun key t ops)) (fst (srun key s ops)).
Proof.
  induction ops as [|o ops IH]; intros t s R; simpl; auto.
  destruct (hstep_refines _ _ o R) as [H1 H2].
  destruct (hstep key t o) as [t1 o1]. destruct (sstep key s o) as [s1 o1'].
  simpl in H1, H2. subst o1'.
  destruct (IH _ _ H2) as [H3 H4].
  destruct (hrun key t1 ops) as [t2 os]. destruct (srun key s1 ops) as [s2 os'].
  simpl in *. subst. auto.
Qed.

Theorem hash_refines_map ops :
  snd (hrun key ht_new ops) = snd (srun key SUninit ops).
Proof. apply hrun_refines. exact absrel_new. Qed.

Lemma sstep_no_oob s o : snd (sstep key s o) <> HOob.
Proof.
  destruct o, s; simpl; try congruence;
    match goal with |- context [lookup ?a ?b ?c] => destruct (lookup a b c) end; simpl; congruence.
Qed.

Lemma srun_no_oob ops : forall s, ~ In HOob (snd (srun key s ops)).
Proof.
  induction ops as [|o ops IH]; intros s; simpl; auto.
  pose proof (sstep_no_oob s o) as H.
  destruct (sstep key s o) as [s1 o1]. specialize (IH s1).
  destruct (srun key s1 ops) as [s2 os]. simpl in *. intros [E|E]; auto.
Qed.

Theorem hash_never_out_of_bounds ops : ~ In HOob (snd (hrun key ht_new ops)).
Proof. rewrite hash_refines_map. apply srun_no_oob. Qed.

(* ---------- iterator ---------- *)
(* collecting from position "start of bucket list tb, whose first bucket has
   1-based index i+1" *)
Lemma bvals_none b : wfb b -> b_val b = None -> bvals b = [].
Proof. unfold wfb, bvals. intros W E. rewrite E in *. now rewrite W. Qed.

Section Iter.
Variables (n : Z) (t : htable V) (tb : list (bucket V)) (l : list V).
Hypothesis I : Inv n t tb l.

Lemma size_len : ht_size t = Z.of_nat (length tb).
Proof using I. rewrite (I_size I), (I_len I). rewrite Z2Nat.id; auto. apply Z.pow_nonneg. lia. Qed.

Lemma valid_at i e : (0 < i <= length tb)%nat -> iter_valid t (mkIter (Z.of_nat i) e) = true.
Proof using I. intros H. unfold iter_valid. simpl it_index. rewrite size_len. lia. Qed.

Lemma collect_chain : forall ch i r fuel,
  skipn i tb = r -> (0 < i <= length tb)%nat ->
  (forall m, (length (contents r) < m)%nat -> (m <= fuel)%nat ->
     iter_collect m t (iter_next_loop r (Z.of_nat i)) = Some (map Some (contents r))) ->
  forall v m, (length (v :: ch) + length (contents r) < m)%nat -> (m <= S fuel)%nat ->
  iter_collect m t (mkIter (Z.of_nat i) (Some (Some v :: map Some ch)))
   = Some (map Some (v :: ch) ++ map Some (contents r)).
Proof using I.
  intros ch i r fuel Hr Hi Hloop.
  induction ch as [|w ch IH]; intros v m Hm Hf;
    (destruct m as [|m]; [simpl in Hm; lia|]);
    cbn [iter_collect]; rewrite valid_at by lia;
    unfold iter_value; rewrite valid_at by lia;
    unfold iter_next; simpl it_index; simpl it_entry;
    (destruct (0 <? Z.of_nat i) eqn:E0; [|lia]); simpl map; cbv iota.
  - rewrite (I_tab I), Nat2Z.id, Hr. rewrite Hloop; [reflexivity|simpl in Hm; lia|lia].
  - rewrite IH; [reflexivity|simpl in *; lia|lia].
Qed.

Lemma skipn_cons {A} i (x : A) r k : skipn i k = x :: r -> nth_error k i = Some x /\ skipn (S i) k = r /\ (i < length k)%nat.
Proof.
  revert k; induction i as [|i IH]; intros [|y k] H; simpl in *; try discriminate.
  - injection H as -> ->. repeat split; auto. lia.
  - apply IH in H as (H1 & H2 & H3). repeat split; auto. lia.
Qed.

Lemma collect_loop : forall r i,
  skipn i tb = r -> forall m, (length (contents r) < m)%nat ->
  iter_collect m t (iter_next_loop r (Z.of_nat i)) = Some (map Some (contents r)).
Proof using I.
  induction r as [|b r IH]; intros i Hr m Hm.
  - simpl. destruct m as [|m]; [simpl in Hm; lia|]. reflexivity.
  - destruct (skipn_cons _ _ Hr) as (Hn & Hr' & Hlt).
    assert (W : wfb b).
    { pose proof (I_wf I) as F. rewrite Forall_forall in F. apply F. eapply nth_error_In; eauto. }
    simpl iter_next_loop. change (contents (b :: r)) with (bvals b ++ contents r) in *.
    replace (Z.of_nat i + 1) with (Z.of_nat (S i)) by lia.
    destruct (b_val b) as [v|] eqn:Eb.
    + unfold wfb in W. rewrite Eb in W. destruct W as [vs Evs].
      assert (EB : bvals b = v :: vs).
      { unfold bvals. rewrite Eb, Evs. simpl. now rewrite somes_map_Some. }
      rewrite EB in *. rewrite app_length in Hm. simpl in Hm.
      destruct m as [|m]; [lia|].
      assert (TA : tbl_at t (Z.of_nat (S i)) = Some b).
      { unfold tbl_at. destruct (Z.ltb_spec (Z.of_nat (S i)) 1) as [E1|E1]; [lia|].
        rewrite (I_tab I). replace (Z.to_nat (Z.of_nat (S i) - 1)) with i by lia. exact Hn. }
      cbn [iter_collect]. rewrite valid_at by lia.
      unfold iter_value. rewrite valid_at by lia.
      unfold iter_next. cbn [it_index it_entry].
      destruct (Z.ltb_spec 0 (Z.of_nat (S i))) as [E0|E0]; [|lia].
      rewrite TA, Eb, Evs.
      destruct vs as [|w vs].
      * cbn [map]. rewrite (I_tab I), Nat2Z.id, Hr'.
        rewrite IH; auto. simpl in Hm. lia.
      * cbn [map]. rewrite (@collect_chain vs (S i) r m Hr'); auto; [|lia|simpl in *; lia].
        cbn [map]. rewrite map_app. reflexivity.
    + rewrite (bvals_none _ W Eb) in *. simpl in Hm. apply IH; auto.
Qed.

(* a non-empty bucket list: initialize agrees with the next loop *)
Lemma init_loop_next_loop : forall r i, contents r <> [] -> Forall wfb r ->
  iter_init_loop r (i + 1) = Some (iter_next_loop r i).
Proof using.
  induction r as [|b r IH]; intros i H F; simpl in *; [congruence|].
  inversion_clear F. destruct (b_val b) eqn:E; auto.
  apply IH; auto. rewrite (bvals_none) in H by assumption. exact H.
Qed.

Lemma init_loop_empty : forall r i, contents r = [] -> iter_init_loop r i = None.
Proof using.
  induction r as [|b r IH]; intros i H; simpl in *; auto.
  apply app_eq_nil in H as [H1 H2]. unfold bvals in H1.
  destruct (b_val b); [discriminate H1|]. auto.
Qed.

Lemma iterate_all : l <> [] ->
  exists it, iter_initialize t = Some it /\
    exists vals, Permutation vals l /\
      forall m, (length l < m)%nat -> iter_collect m t it = Some (map Some vals).
Proof using I.
  intros Hl. unfold iter_initialize. rewrite (I_tab I).
  exists (iter_next_loop tb 0). split.
  - apply (init_loop_next_loop 0).
    + intros E. pose proof (I_perm I) as P. rewrite E in P.
      apply Permutation_nil in P. auto.
    + exact (I_wf I).
  - exists (contents tb). split; [exact (I_perm I)|].
    intros m Hm. apply (@collect_loop tb 0%nat); auto.
    now rewrite (Permutation_length (I_perm I)).
Qed.

Lemma iterate_empty : l = [] -> iter_initialize t = None.
Proof using I.
  intros ->. unfold iter_initialize. rewrite (I_tab I). apply init_loop_empty.
  pose proof (I_perm I) as P. symmetry in P. now apply Permutation_nil in P.
Qed.
End Iter.

Theorem iterate_reachable ops l :
  fst (srun key SUninit ops) = SReady l -> l <> [] ->
  exists it, iter_initialize (fst (hrun key ht_new ops)) = Some it /\
    exists vals, Permutation vals l /\
      forall m, (length l < m)%nat ->
        iter_collect m (fst (hrun key ht_new ops)) it = Some (map Some vals).
Proof.
  intros H Hl. destruct (hrun_refines ops _ _ absrel_new) as [_ R].
  rewrite H in R. destruct R as (n & tb & I). eapply iterate_all; eauto.
Qed.

Theorem iterate_empty_oob ops :
  fst (srun key SUninit ops) = SReady [] ->
  iter_initialize (fst (hrun key ht_new ops)) = None.
Proof.
  intros H. destruct (hrun_refines ops _ _ absrel_new) as [_ R].
  rewrite H in R. destruct R as (n & tb & I). eapply iterate_empty; eauto.
Qed.
End P.
