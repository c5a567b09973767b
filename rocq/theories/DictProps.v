(* DictProps.v: properties C27-C29, variable dictionaries. *)
From Verif Require Import PyStr PyNum CompatModel ReqModel ReqProofs DictModel DictSpec DictProofs.
Open Scope nat_scope.
Open Scope list_scope.

(* ================= C27 ================= *)
(* one variable per standard name, stored under its own name, whatever the history *)
Theorem C27_one_per_name : forall compat ops,
  NoDup (map fst (d_vars (run compat ops))) /\
  (forall s v, In (s, v) (d_vars (run compat ops)) -> x_std v = s).
Proof. intros. exact (keys_run compat ops). Qed.

(* a duplicate standard name is rejected and nothing changes *)
Theorem C27_duplicate_rejected : forall compat d v g a w,
  get (x_std v) (d_vars d) = Some w ->
  exists e, add_variable compat d v false g a = (d, Raise e).
Proof. intros. unfold add_variable. rewrite H. cbn. eauto. Qed.

(* a variable whose intent differs from that of the one found under its standard
   name is rejected, and nothing changes, unless intents are to be adjusted *)
Theorem C27_intent_mismatch_rejected : forall compat d v e g c,
  find_variable d (x_std v) = Some c -> x_intent c <> x_intent v ->
  exists er, add_variable compat d v e g false = (d, Raise er).
Proof.
  intros compat d v e g c F N. unfold add_variable. cbv zeta.
  destruct ((match get (x_std v) (d_vars d) with Some _ => true | None => false end) && negb e); [eauto|].
  unfold check_existing. rewrite F. destruct (compat c v); [|eauto].
  assert (E : intent_eqb (x_intent c) (x_intent v) = false).
  { destruct (x_intent c) as [[]|], (x_intent v) as [[]|]; try reflexivity; congruence. }
  rewrite E. eauto.
Qed.
Print Assumptions C27_intent_mismatch_rejected.

(* a variable that is added is found; it is the variable given, under its own local
   name when that name is free; a variable present before stays *)
Theorem C27_added_is_found : forall compat d v e g a d',
  add_variable compat d v e g a = (d', Ok tt) -> x_std v <> const_one ->
  exists w, find_variable d' (x_std v) = Some w /\
    (find_variable d (x_std v) = None ->
       x_std w = x_std v /\ x_intent w = x_intent v /\ x_prot w = x_prot v /\
       (find_local_name d (x_local v) = Ok None \/ g = false -> w = v)) /\
    (forall c, find_variable d (x_std v) = Some c ->
       e = true /\ compat c v = true /\ same_but_intent c w /\
       (x_intent w = x_intent c \/ x_intent c = None \/ x_intent w = Some InOut_)).
Proof.
  intros compat d v e g a d' H N. pose proof (add_variable_cases compat d v e g a) as C. rewrite H in C.
  destruct C as (PR & CC & d1 & v' & CK & V1 & V2 & V3 & RN & DV & _).
  destruct (checked_find _ _ _ _ (x_std v) CK) as (_ & F1 & F2).
  rewrite (find_present d') by assumption. rewrite DV. rewrite !find_present in * by assumption.
  destruct (get (x_std v) (d_vars d)) as [c|] eqn:G.
  - destruct (F1 c eq_refl) as (c' & FC & FS & FI). rewrite FC.
    exists c'. split; auto. split; [discriminate|]. intros c0 [= <-]. destruct PR as [PR|PR]; [discriminate|]. auto.
  - specialize (F2 eq_refl). rewrite F2, get_app, F2, str_eqb_refl.
    exists v'. split; auto. split; [|intros c K; discriminate]. intros _. split; auto. split; auto. split; auto.
    intros FL. destruct RN as [(-> & _)|(G1 & lv & RN & _)]; auto.
    destruct FL as [FL|FL]; [|congruence].
    destruct CK as [|c c' Fc]; [congruence|]. rewrite find_present in Fc by assumption. congruence.
Qed.

(* until it is removed, every later operation keeps it; only its intent may become inout *)
Theorem C27_kept_until_removed : forall compat ops more s w,
  find_variable (run compat ops) s = Some w ->
  (forall o, In o more -> o <> Remove s) ->
  exists w', find_variable (run compat (ops ++ more)) s = Some w' /\ same_but_intent w w'.
Proof.
  intros compat ops more s w F. induction more as [|o more IH] using rev_ind; intros H.
  - rewrite app_nil_r. exists w. unfold same_but_intent. auto.
  - destruct IH as (w1 & F1 & (S1 & S2 & S3)); [intros x Hx; apply H, in_app_iff; auto|].
    rewrite app_assoc, run_snoc.
    destruct (step_keeps compat _ o s w1 F1) as (w2 & F2 & (T1 & T2 & T3) & _).
    + apply H, in_app_iff. right. now left.
    + apply keys_run.
    + exists w2. split; auto. unfold same_but_intent. rewrite T1, T2, T3. auto.
Qed.

(* other names are not affected; a removed variable is gone *)
Theorem C27_others_unaffected : forall compat d v e g a s, s <> x_std v ->
  find_variable (fst (add_variable compat d v e g a)) s = find_variable d s.
Proof. intros. now apply add_other. Qed.
Theorem C27_removed_is_gone : forall compat ops s, s <> const_one ->
  find_variable (run compat (ops ++ [Remove s])) s = None /\
  (forall t, t <> s -> find_variable (run compat (ops ++ [Remove s])) t = find_variable (run compat ops) t).
Proof.
  intros compat ops s N. rewrite run_snoc. cbn [step]. destruct (keys_run compat ops) as [K _]. unfold find_variable, remove_variable.
  cbn [d_vars]. split.
  - rewrite (proj2 (str_eqb_neq _ _) N), get_del, str_eqb_refl; auto.
  - intros t T. destruct (str_eqb t const_one); auto. now rewrite get_del, (proj2 (str_eqb_neq _ _) T).
Qed.

(* an add that fails changes nothing, in histories without removals and (with
   gen_unique) dictionaries below 10^63 entries times name length; missing: histories
   with removals, where it is false (below) *)
Theorem C27_failed_add_changes_nothing_partial : forall compat ops v e g a d' er,
  only_adds ops -> (g = false \/ fuel_of (run compat ops) (x_local v) < 10 ^ max_len) ->
  add_variable compat (run compat ops) v e g a = (d', Raise er) -> d' = run compat ops.
Proof.
  intros compat ops v e g a d' er O G H. eapply failed_unchanged; eauto; [now apply no_stale_run|apply keys_run].
Qed.

(* scopes: the innermost dictionary of the chain that has the name wins *)
Theorem C27_innermost_scope : forall ds s v, s <> const_one ->
  (find_any ds s = Some v <->
   exists inner d outer, ds = inner ++ d :: outer /\ find_variable d s = Some v /\
     forall d0, In d0 inner -> find_variable d0 s = None).
Proof.
  intros ds s v N. induction ds as [|d ds IH]; cbn [find_any].
  - split; [discriminate|]. intros (i & d & o & E & _). destruct i; discriminate.
  - rewrite (proj2 (str_eqb_neq _ _) N). destruct (get s (d_vars d)) as [w|] eqn:G.
    + split.
      * intros [= ->]. exists [], d, ds. rewrite find_present by assumption. split; auto. split; auto. intros d0 [].
      * intros (i & d1 & o & E & F & B). destruct i as [|d2 i]; injection E as -> E.
        -- rewrite find_present in F by assumption. congruence.
        -- specialize (B d2 ltac:(now left)). rewrite find_present in B by assumption. congruence.
    + rewrite IH. split.
      * intros (i & d1 & o & -> & F & B). exists (d :: i), d1, o. split; auto. split; auto.
        intros d0 [<-|K]; auto. now rewrite find_present.
      * intros (i & d1 & o & E & F & B). destruct i as [|d2 i]; injection E as -> E.
        -- rewrite find_present in F by assumption. congruence.
        -- exists i, d1, o. split; auto. split; auto. intros d0 K. apply B. now right.
Qed.

(* ---- examples and refutations ---- *)
Definition yes : var -> var -> bool := fun _ _ => true.
Definition va := mkV (L "air_temperature") (L "t") (Some In_) false.
Definition vb := mkV (L "surface_pressure") (L "ps") (Some In_) false.
Definition vc := mkV (L "air_temperature") (L "ps") (Some Out_) false.
Definition hist : list op := [Add va false false false; Add vb false false false].
Example C27_ex : find_variable (run yes hist) (L "air_temperature") = Some va /\
  find_variable (run yes (hist ++ [Add vc true false true])) (L "air_temperature") = Some (set_intent va InOut_) /\
  snd (add_variable yes (run yes hist) vc false false false) = Raise "ParseSyntaxError: duplicate standard name".
Proof. vm_compute. auto. Qed.
Example C27_ex_fail : exists e, add_variable yes (run yes hist) (mkV (L "cloud_fraction") (L "T") None false) false false false = (run yes hist, Raise e) /\ only_adds hist.
Proof. eexists. split; [reflexivity|]. intros o [<-|[<-|[]]]; exact I. Qed.
Example C27_ex_scope : find_any [run yes [Add vb false false false]; run yes hist] (L "air_temperature") = Some va.
Proof. reflexivity. Qed.

(* after a removal, a failing add may change the dictionary *)
Theorem C27_failed_add_after_removal_refuted : ~ (forall compat ops v e g a d' er,
  add_variable compat (run compat ops) v e g a = (d', Raise er) -> d' = run compat ops).
Proof.
  intros H. specialize (H yes (hist ++ [Remove (L "surface_pressure")]) vc true false true).
  destruct (add_variable yes (run yes (hist ++ [Remove (L "surface_pressure")])) vc true false true) as [d' [u|er]] eqn:E.
  - vm_compute in E. discriminate.
  - specialize (H d' er eq_refl). subst d'. vm_compute in E. discriminate.
Qed.
(* and a removed variable cannot be added again *)
Theorem C27_add_after_removal_refuted : ~ (forall compat ops v,
  find_variable (run compat ops) (x_std v) = None -> (forall w, In w (map snd (d_vars (run compat ops))) -> lower (x_local w) <> lower (x_local v)) ->
  snd (add_variable compat (run compat ops) v false false false) = Ok tt).
Proof.
  intros H. specialize (H yes [Add va false false false; Remove (L "air_temperature")] va eq_refl).
  assert (K : forall w, In w (map snd (d_vars (run yes [Add va false false false; Remove (L "air_temperature")]))) -> lower (x_local w) <> lower (x_local va)).
  { intros w K. vm_compute in K. destruct K. }
  specialize (H K). vm_compute in H. discriminate.
Qed.

(* ================= C28 ================= *)
(* the search for a new name ends and respects the length limit, for every
   dictionary of fewer than 10^63 (entries times name length) *)
Theorem C28_search_terminates : forall d l, fuel_of d l < 10 ^ max_len ->
  exists n, new_name (fuel_of d l) d max_len l = Some n /\ length n <= 63.
Proof.
  intros d l H. destruct (new_name_total d l H) as [n N]. exists n. split; auto.
  unfold new_name in N. apply new_name_loop_sound in N. apply N.
Qed.
(* for a lower-case name short enough not to be truncated, the new name differs
   from every registered local name, without regard to case *)
Theorem C28_fresh_partial : forall fuel d l n, lower l = l ->
  (forall j, j < fuel -> length l + length (str_of_nat j) <= 63) ->
  new_name fuel d max_len l = Some n -> ~ In (lower n) (map fst (d_locals d)).
Proof.
  intros fuel d l n LL LEN H. unfold new_name in H. pose proof H as H'.
  apply new_name_loop_sound in H as (_ & H & _).
  apply new_name_loop_prefix in H' as (j & _ & ->).
  - rewrite cand_lower by assumption. eapply cand_fresh; eauto.
  - intros j J. unfold cand, max_len. specialize (LEN j J). destruct (j =? 0); [lia|]. rewrite app_length. lia.
Qed.
(* hence the first renaming in a dictionary built without renamings gives local
   names that are all different.  Missing: upper-case or long names and further
   renamings, for which it is false (below) *)
Theorem C28_first_rename_unique_partial : forall compat ops v e a d',
  no_renames ops -> let d := run compat ops in
  NoDup (local_names d) -> lower (x_local v) = x_local v ->
  (forall j, j < fuel_of d (x_local v) -> length (x_local v) + length (str_of_nat j) <= 63) ->
  find_variable d (x_std v) = None ->
  add_variable compat d v e true a = (d', Ok tt) ->
  NoDup (local_names d').
Proof.
  intros compat ops v e a d' NR d ND LL LEN NF H.
  pose proof (add_variable_cases compat d v e true a) as C. rewrite H in C.
  destruct C as (_ & _ & d1 & v' & CK & _ & _ & _ & RN & DV & _).
  assert (d1 = d) by (destruct CK as [|c c' F]; [reflexivity|congruence]). subst d1.
  assert (R : registered d) by now apply registered_run.
  assert (X : x_std v <> const_one) by (intros Q; unfold find_variable in NF; rewrite Q, str_eqb_refl in NF; discriminate).
  rewrite find_present in NF by assumption. rewrite NF in DV.
  unfold local_names. rewrite DV, map_app. apply NoDup_snoc; [exact ND|]. cbn [snd].
  intros I. apply in_map_iff in I as ([s w] & E & I). cbn [snd] in E. pose proof (R _ _ I) as RI. rewrite E in RI.
  destruct RN as [(-> & [RN|(RN & _)])|(_ & lv & RN & n & NN & ->)]; [|discriminate|].
  - unfold find_local_name in RN. destruct (get (lower (x_local v)) (d_locals d)) as [s0|] eqn:G.
    + destruct (find_variable d s0); discriminate.
    + apply get_none in G. contradiction.
  - cbn [set_local x_local] in RI. revert RI. eapply C28_fresh_partial; eauto.
Qed.

Definition u1 := mkV (L "s1") (L "a") None false. Definition u2 := mkV (L "s2") (L "a") None false.
Definition u3 := mkV (L "s3") (L "a") None false.
Example C28_ex : map (fun kv => x_local (snd kv)) (d_vars (run yes [Add u1 false true false; Add u2 false true false])) = [L "a"; L "a1"] /\
  no_renames [Add u1 false false false] /\
  NoDup (local_names (run yes [Add u1 false false false])) /\
  (forall j, j < fuel_of (run yes [Add u1 false false false]) (x_local u2) -> length (x_local u2) + length (str_of_nat j) <= 63) /\
  fuel_of (run yes [Add u1 false false false]) (x_local u2) < 10 ^ max_len.
Proof.
  split; [vm_compute; reflexivity|]. split; [intros o [<-|[]]; reflexivity|].
  split; [repeat constructor; cbn; tauto|].
  change (fuel_of (run yes [Add u1 false false false]) (x_local u2)) with 5.
  split.
  - intros j J. destruct j as [|[|[|[|[|j]]]]]; [cbn; lia..|lia].
  - unfold max_len. apply Nat.lt_le_trans with (10 ^ 1); [cbn; lia|]. apply Nat.pow_le_mono_r; lia.
Qed.

(* the original, not the new, local name is registered: the third variable gets the
   name of the second *)
Example C28_third : map (fun kv => x_local (snd kv))
  (d_vars (run yes [Add u1 false true false; Add u2 false true false; Add u3 false true false])) = [L "a"; L "a1"; L "a1"].
Proof. vm_compute. reflexivity. Qed.
Theorem C28_unique_refuted : ~ (forall compat ops, only_adds ops ->
  (forall o, In o ops -> match o with Add _ _ g _ => g = true | _ => True end) ->
  NoDup (local_names (run compat ops))).
Proof.
  intros H. specialize (H yes [Add u1 false true false; Add u2 false true false; Add u3 false true false]).
  assert (A : only_adds [Add u1 false true false; Add u2 false true false; Add u3 false true false]) by (intros o [<-|[<-|[<-|[]]]]; exact I).
  assert (B : forall o, In o [Add u1 false true false; Add u2 false true false; Add u3 false true false] -> match o with Add _ _ g _ => g = true | _ => True end)
    by (intros o [<-|[<-|[<-|[]]]]; reflexivity).
  specialize (H A B). vm_compute in H. inversion H; subst. inversion H3; subst. apply H4. now left.
Qed.
(* an upper-case letter defeats the search at the first collision *)
Definition w1 := mkV (L "s1") (L "T") None false. Definition w2 := mkV (L "s2") (L "T") None false.
Theorem C28_upper_case_refuted : ~ (forall compat ops v d', no_renames ops ->
  NoDup (local_names (run compat ops)) -> length (x_local v) < 10 ->
  add_variable compat (run compat ops) v false true false = (d', Ok tt) -> NoDup (local_names d')).
Proof.
  intros H. specialize (H yes [Add w1 false false false] w2).
  destruct (add_variable yes (run yes [Add w1 false false false]) w2 false true false) as [d' r] eqn:E.
  vm_compute in E. injection E as <- <-.
  assert (R : no_renames [Add w1 false false false]) by (intros o [<-|[]]; reflexivity).
  assert (N : NoDup (local_names (run yes [Add w1 false false false]))) by (repeat constructor; cbn; tauto).
  specialize (H _ R N ltac:(cbn; lia) eq_refl). vm_compute in H. inversion H; subst. apply H2. now left.
Qed.
(* truncation: with names of 63 characters the shortened prefix is not compared with
   the names already there *)
Definition long1 := L "a23456789012345678901234567890123456789012345678901234567890123".
Definition long2 := L "a2345678901234567890123456789012345678901234567890123456789012".
Definition t0 := mkV (L "s0") (long2 ++ L "1") None false. 
Definition t1 := mkV (L "s1") long1 None false. Definition t2 := mkV (L "s2") long1 None false.
Example C28_truncation : map (fun kv => x_local (snd kv)) (d_vars (run yes [Add t0 false true false; Add t1 false true false; Add t2 false true false]))
  = [long2 ++ L "1"; long1; long2 ++ L "2"].
Proof. vm_compute. reflexivity. Qed.
Definition t3 := mkV (L "s0") (long2 ++ L "2") None false.
Example C28_truncation_clash : map (fun kv => x_local (snd kv)) (d_vars (run yes [Add t3 false true false; Add t1 false true false; Add t2 false true false]))
  = [long2 ++ L "2"; long1; long2 ++ L "2"].
Proof. vm_compute. reflexivity. Qed.

(* ================= C29 ================= *)
(* merging uses with intents: the result reads (writes) when some use reads
   (writes), provided the variable is not protected *)
Theorem C29_merged_intent_covers : forall l v i,
  x_prot v = false -> x_intent v = Some i ->
  exists w j, merge_all v l = Ok w /\ x_intent w = Some j /\ same_but_intent v w /\
    (forall u k, In u (v :: l) -> x_intent u = Some k -> (reads k = true -> reads j = true) /\ (writes k = true -> writes j = true)) /\
    ((forall u, In u l -> x_intent u = Some i) -> j = i) /\
    (j = i \/ j = InOut_).
Proof.
  induction l as [|u l IH]; intros v i P I; cbn [merge_all].
  - exists v, i. split; auto. split; auto. split; [unfold same_but_intent; auto|]. split; [|auto].
    intros u k [<-|[]] K. rewrite I in K. injection K as <-. auto.
  - set (sv := match x_intent u with Some k => k | None => In_ end).
    assert (A : exists v', adjust_intent v u = Ok v' /\ x_prot v' = false /\ same_but_intent v v' /\
      x_intent v' = Some (if intent_eqb (Some i) (Some sv) then i else InOut_)).
    { unfold adjust_intent. fold sv. rewrite P, andb_false_r, I. eexists. split; [reflexivity|].
      destruct (intent_eqb (Some i) (Some sv)); unfold same_but_intent; cbn; auto. }
    destruct A as (v' & A & P' & (S1 & S2 & S3) & I'). rewrite A. cbn [bind].
    destruct (IH v' _ P' I') as (w & j & M & J & (T1 & T2 & T3) & COV & EQ & RNG).
    exists w, j. split; auto. split; auto. split; [unfold same_but_intent; rewrite T1, T2, T3; auto|].
    assert (BASE : forall k, k = i \/ k = sv -> (reads k = true -> reads j = true) /\ (writes k = true -> writes j = true)).
    { intros k K. destruct (COV v' _ ltac:(now left) I') as [C1 C2].
      destruct K as [-> | ->]; destruct i, sv; cbn in *; auto. }
    split; [|split].
    + intros x k [<-|[<-|K]] X.
      * apply BASE. left. congruence.
      * apply BASE. right. unfold sv. now rewrite X.
      * eapply COV; eauto. now right.
    + intros ALL. assert (SI : sv = i) by (unfold sv; rewrite ALL; [reflexivity|now left]).
      rewrite SI in EQ. replace (intent_eqb (Some i) (Some i)) with true in EQ by now destruct i. apply EQ. intros x X. apply ALL. now right.
    + destruct RNG as [-> | ->]; auto. destruct (intent_eqb (Some i) (Some sv)); auto.
Qed.
(* the resulting intent does not depend on the order of the uses, nor on which of
   them comes first *)
Lemma merged_char : forall l v i, x_prot v = false -> x_intent v = Some i ->
  (forall u, In u l -> x_intent u <> None) ->
  exists w, merge_all v l = Ok w /\
    ((forall u, In u l -> x_intent u = Some i) /\ x_intent w = Some i \/
     (exists u, In u l /\ x_intent u <> Some i) /\ x_intent w = Some InOut_).
Proof.
  intros l v i P I NN. destruct (C29_merged_intent_covers l v i P I) as (w & j & M & J & _ & COV & EQ & RNG).
  exists w. split; auto.
  assert (D : (forall u, In u l -> x_intent u = Some i) \/ exists u, In u l /\ x_intent u <> Some i).
  { clear - l. induction l as [|u l IH]; [left; intros u []|].
    destruct IH as [IH|(x & X1 & X2)]; [|right; exists x; split; [now right|auto]].
    assert (E : x_intent u = Some i \/ x_intent u <> Some i) by (destruct (x_intent u) as [k|]; [destruct k, i|]; auto; right; discriminate).
    destruct E as [E|E]; [left; intros x [<-|X]; auto|right; exists u; split; [now left|auto]]. }
  destruct D as [D|(u & U1 & U2)]; [left; split; auto; rewrite J; f_equal; auto|].
  right. split; [eauto|]. rewrite J. f_equal.
  destruct (x_intent u) as [k|] eqn:K; [|exfalso; eapply NN; eauto].
  destruct (COV v i ltac:(now left) I) as [C1 C2]. destruct (COV u k ltac:(now right) K) as [C3 C4].
  destruct RNG as [->|]; auto. destruct i, k; cbn in *; auto; try congruence; try (now specialize (C4 eq_refl)); try (now specialize (C3 eq_refl)).
Qed.
Theorem C29_order_irrelevant : forall l l' v v',
  Permutation (v :: l) (v' :: l') ->
  (forall u, In u (v :: l) -> x_prot u = false /\ x_intent u <> None) ->
  exists w w', merge_all v l = Ok w /\ merge_all v' l' = Ok w' /\ x_intent w = x_intent w'.
Proof.
  intros l l' v v' P H.
  assert (H' : forall u, In u (v' :: l') -> x_prot u = false /\ x_intent u <> None).
  { intros u U. apply H. eapply Permutation_in; [symmetry|]; eauto. }
  destruct (H v ltac:(now left)) as [P1 N1]. destruct (H' v' ltac:(now left)) as [P2 N2].
  destruct (x_intent v) as [i|] eqn:I; [|contradiction]. destruct (x_intent v') as [i'|] eqn:I'; [|contradiction].
  destruct (merged_char l v i P1 I) as (w & M & C); [intros u U; apply H; now right|].
  destruct (merged_char l' v' i' P2 I') as (w' & M' & C'); [intros u U; apply H'; now right|].
  exists w, w'. split; auto. split; auto.
  assert (IN : forall u, In u (v :: l) <-> In u (v' :: l')).
  { intros u. split; apply Permutation_in; auto. now symmetry. }
  destruct C as [[A W]|[(u & U1 & U2) W]], C' as [[A' W']|[(u' & U1' & U2') W']]; rewrite W, W'; auto.
  - assert (K : In v' (v :: l)) by (apply IN; now left). destruct K as [<-|K]; [congruence|]. rewrite <- (A v' K). auto.
  - exfalso. assert (K : In u' (v :: l)) by (apply IN; now right).
    assert (E : x_intent v' = Some i) by (destruct (proj2 (IN v') ltac:(now left)) as [<-|K2]; auto).
    apply U2'. destruct K as [<-|K]; [congruence|]. rewrite (A u' K). congruence.
  - exfalso. assert (K : In u (v' :: l')) by (apply IN; now right).
    assert (E : x_intent v = Some i') by (destruct (proj1 (IN v) ltac:(now left)) as [<-|K2]; auto).
    apply U2. destruct K as [<-|K]; [congruence|]. rewrite (A' u K). congruence.
Qed.
(* a protected variable refuses exactly the writing uses *)
Theorem C29_protected_target : forall v u, x_prot v = true ->
  ((exists e, adjust_intent v u = Raise e) <-> exists k, x_intent u = Some k /\ writes k = true).
Proof.
  intros v u P. unfold adjust_intent. rewrite P, andb_true_r.
  destruct (x_intent u) as [[| |]|]; split.
  all: try (intros (k & [= <-] & W); discriminate W).
  all: try (intros (e & E); destruct (x_intent v); discriminate E).
  all: try (intros _; eauto; fail).
  all: intros (k & K & _); discriminate.
Qed.
(* but a protected use merged into a written variable is accepted: the order matters *)
Definition pin := mkV (L "gravity") (L "g") (Some In_) true.
Definition gout := mkV (L "gravity") (L "g2") (Some Out_) false.
Theorem C29_protected_refuted : ~ (forall v u w, x_prot v = true \/ x_prot u = true ->
  adjust_intent v u = Ok w -> forall k, x_intent w = Some k -> writes k = false).
Proof. intros H. specialize (H gout pin (set_intent gout InOut_) (or_intror eq_refl) eq_refl InOut_ eq_refl). discriminate. Qed.
Example C29_order_matters : (exists e, adjust_intent pin gout = Raise e) /\ adjust_intent gout pin = Ok (set_intent gout InOut_).
Proof. split; [eexists|]; reflexivity. Qed.
Example C29_ex : merge_all va [va; gout; va] = Ok (set_intent va InOut_) /\ merge_all va [va; va] = Ok va.
Proof. split; reflexivity. Qed.

Print Assumptions C27_one_per_name.
Print Assumptions C27_duplicate_rejected.
Print Assumptions C27_added_is_found.
Print Assumptions C27_kept_until_removed.
Print Assumptions C27_others_unaffected.
Print Assumptions C27_removed_is_gone.
Print Assumptions C27_failed_add_changes_nothing_partial.
Print Assumptions C27_innermost_scope.
Print Assumptions C27_failed_add_after_removal_refuted.
Print Assumptions C27_add_after_removal_refuted.
Print Assumptions C28_search_terminates.
Print Assumptions C28_fresh_partial.
Print Assumptions C28_first_rename_unique_partial.
Print Assumptions C28_unique_refuted.
Print Assumptions C28_upper_case_refuted.
Print Assumptions C29_merged_intent_covers.
Print Assumptions C29_order_irrelevant.
Print Assumptions C29_protected_target.
Print Assumptions C29_protected_refuted.
