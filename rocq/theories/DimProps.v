(* DimProps.v: properties C30, C52 and part of C31, matching of dimension lists. *)
From Verif Require Import PyStr CompatModel CompatProofs ReqProofs DimModel DimSpec DimProofs.
Open Scope nat_scope.
Open Scope list_scope.

Lemma hv_dec l : (exists v h, find_index is_vertical l = Some v /\ first_vertical l v h) \/
  (find_index is_vertical l = None /\ ~ has_vertical l).
Proof.
  destruct (find_index is_vertical l) as [v|] eqn:F.
  - left. destruct (find_index_some _ _ _ F) as (h & A & B & C). exists v, h. split; auto. unfold first_vertical. auto.
  - right. split; auto. intros (d & D & V). rewrite (proj1 (find_index_none _ _) F d D) in V. discriminate.
Qed.
Lemma first_vertical_fun l v h v' h' : first_vertical l v h -> first_vertical l v' h' -> v = v' /\ h = h'.
Proof.
  intros (A & B & C) (A' & B' & C'). assert (v = v').
  { destruct (Nat.lt_trichotomy v v') as [X|[X|X]]; auto; exfalso.
    - rewrite (C' _ _ X A) in B. discriminate.
    - rewrite (C _ _ X A') in B'. discriminate. }
  subst. split; congruence.
Qed.
Lemma reports_of p n m missing : m = true \/ missing <> None -> reports (final_perm m missing p n) p n.
Proof.
  intros H. unfold final_perm, reports. destruct (nats_eqb p (seq 0 n)) eqn:E.
  - apply nats_eqb_eq in E. right. auto.
  - assert (N : p <> seq 0 n) by (intros K; apply nats_eqb_eq in K; congruence). left. split; auto.
    destruct H as [->|H]; [reflexivity|]. destruct missing; [|congruence]. now rewrite andb_false_r.
Qed.
Lemma insert_end {A} i (x : A) l : length l <= i -> firstn i l ++ x :: skipn i l = l ++ [x].
Proof. intros. now rewrite firstn_all2, skipn_all2. Qed.

(* A reported match: every needed dimension takes a position of its own of the offered
   list, whose dimension meets it.  A vertical dimension that only the offered list
   has is replaced by its loop index, at its own place. *)
Theorem C30_match_sound : forall e need have r,
  match_dimensions e need have = Ok r -> r_match r = true ->
  exists q base, length q = length need /\ length base = length need /\ NoDup q /\
    (forall k n, nth_error need k = Some n -> exists i h m, nth_error q k = Some i /\ nth_error have i = Some h /\
       nth_error base k = Some m /\ meets e n h m /\ nth_error (r_have r) i = Some m) /\
    length (r_have r) = length have /\
    (forall i, ~ In i q -> nth_error (r_have r) i = nth_error have i) /\
    r_missing r = None /\
    (has_vertical need \/ ~ has_vertical have -> r_need r = base /\ reports (r_perm r) q (length have)) /\
    (forall v h, ~ has_vertical need -> first_vertical have v h ->
       ~ In v q /\ exists x, vertical_index h = Some x /\ e_avail e x = true /\
         r_need r = firstn v base ++ x :: skipn v base /\
         reports (r_perm r) (firstn v q ++ v :: skipn v q) (length have)).
Proof.
  intros e need have r H M. unfold match_dimensions in H.
  set (no_h := match find_index is_horizontal have with Some _ => false | None => match find_index is_horizontal need with Some _ => true | None => false end end) in H.
  destruct no_h eqn:NH.
  - exfalso. cbv beta iota zeta in H. apply bind_ok in H as ([[[m nn] ms] p] & B & H). injection H as <-. cbn [r_match] in M. subst m.
    destruct (find_index is_vertical need); [discriminate|]. destruct (find_index is_vertical have); [|discriminate].
    destruct (loop_var_match _); [|discriminate]. cbv zeta in B. cbn [andb] in B. destruct (n <? _) in B; discriminate.
  - cbv zeta in H.
    destruct (match_loop e have (find_index is_vertical need) (find_index is_vertical have) (find_index is_horizontal need) (find_index is_horizontal have) 0 need (mkM [] [] have)) as [ok s] eqn:ML.
    destruct (match_loop_inv e have need need [] _ ok s eq_refl (inv_init e have need) ML) as (done & rest & E & I & OK).
    apply bind_ok in H as ([[[m nn] ms] p] & B & H). injection H as <-. cbn [r_match r_need r_have r_missing r_perm] in *. subst m.
    assert (OKT : ok = true).
    { destruct ok; auto. exfalso. destruct (find_index is_vertical need); [discriminate|]. destruct (find_index is_vertical have); [|discriminate].
      destruct (loop_var_match _); [|discriminate]. cbv zeta in B. cbn [andb] in B. destruct (n <? _) in B; discriminate. }
    subst ok. rewrite (OK eq_refl), app_nil_r in E. subst done. clear OK ML.
    destruct I as (I1 & I2 & I3 & I4 & I5 & I6 & I7 & I8 & I9).
    exists (m_perm s), (m_need s). split; auto. split; auto. split; auto. split.
    { intros k n K. destruct (I4 k n K) as (i & m & A1 & A2 & (h & A3 & A4) & A5). exists i, h, m. auto. }
    split; auto. split; auto.
    destruct (hv_dec need) as [(v1 & h1 & F1 & V1)|[F1 V1]].
    + rewrite F1 in B. injection B as <- <- <-. split; auto. split.
      * intros _. split; auto. apply reports_of. auto.
      * intros v h K. exfalso. apply K. exists h1. destruct V1 as (A & B & _). split; auto. eapply nth_error_In; eauto.
    + rewrite F1 in B. destruct (hv_dec have) as [(v2 & h2 & F2 & V2)|[F2 V2]]; rewrite F2 in B.
      * assert (NT : nth v2 have [] = h2) by (destruct V2; now apply nth_error_nth). rewrite NT in B.
        destruct (loop_var_match h2) as [req|] eqn:LV; [|discriminate].
        destruct (vertical_index_loop h2 req (proj1 (proj2 V2)) LV) as (x & X1 & ->). cbv zeta in B. cbn [forallb join] in B.
        rewrite andb_true_r in B. cbn [andb] in B.
        assert (FD : e_avail e x = true /\ ms = None /\ nn = firstn v2 (m_need s) ++ x :: skipn v2 (m_need s) /\ p = firstn v2 (m_perm s) ++ v2 :: skipn v2 (m_perm s)).
        { destruct (v2 <? length (m_need s)) eqn:LT.
          - destruct (e_avail e x); [|discriminate]. injection B as <- <- <-. auto.
          - apply Nat.ltb_ge in LT. destruct (e_avail e x); [|discriminate]. injection B as <- <- <-. rewrite !insert_end by lia. auto. }
        destruct FD as (FD1 & -> & -> & ->). split; auto. split.
        { intros [K|K]; [contradiction|]. exfalso. apply K. exists h2. destruct V2 as (A & B' & _). split; auto. eapply nth_error_In; eauto. }
        intros v h _ V. destruct (first_vertical_fun _ _ _ _ _ V2 V) as [<- <-]. split; [now apply I8|].
        exists x. split; auto. split; auto. split; auto. apply reports_of. auto.
      * injection B as <- <- <-. split; auto. split.
        { intros _. split; auto. apply reports_of. auto. }
        intros v h _ V. exfalso. apply V2. exists h. destruct V as (A & B & _). split; auto. eapply nth_error_In; eauto.
Qed.
Print Assumptions C30_match_sound.

(* Every matching there is is found: if each needed dimension can be given an offered
   dimension of its own that meets it, and an extra vertical dimension has a loop index
   in scope, a match is reported. *)
Theorem C30_match_complete : forall e need have q,
  one_horizontal need -> one_horizontal have ->
  NoDup q -> length q = length need ->
  (forall k n, nth_error need k = Some n ->
     exists i h m, nth_error q k = Some i /\ nth_error have i = Some h /\ meets e n h m) ->
  (forall v h, ~ has_vertical need -> first_vertical have v h ->
     exists x, vertical_index h = Some x /\ e_avail e x = true) ->
  exists r, match_dimensions e need have = Ok r /\ r_match r = true.
Proof.
  intros e need have q OH OH2 ND LQ H V. unfold match_dimensions.
  assert (HM : forall k n, nth_error need k = Some n -> is_horizontal n = true ->
    exists h x m, find_index is_horizontal have = Some h /\ nth_error have h = Some x /\ horiz_dim_match e n x (loop_var_match n) = Some m).
  { intros k n K N. destruct (H k n K) as (i & h & m & Q1 & Q2 & Q3). pose proof (meets_horiz_both _ _ _ _ N Q3) as HH.
    destruct (find_index is_horizontal have) as [j|] eqn:F.
    - destruct (find_index_some _ _ _ F) as (y & Y1 & Y2 & _). assert (j = i) by (eapply OH2; eauto). subst j.
      exists i, h, m. split; auto. split; auto. apply meets_horiz; auto.
    - rewrite (proj1 (find_index_none _ _) F h) in HH; [discriminate|]. eapply nth_error_In; eauto. }
  assert (HC : forall nd, is_horizontal nd = false -> cnt nd need <= cnt nd have).
  { intros nd N. apply (cnt_injection need have q); auto. intros k K. destruct (H k nd K) as (i & h & m & Q1 & Q2 & Q3).
    apply meets_not_horiz in Q3; auto. subst h. eauto. }
  assert (NOH : match find_index is_horizontal have with Some _ => false | None => match find_index is_horizontal need with Some _ => true | None => false end end = false).
  { destruct (find_index is_horizontal need) as [k|] eqn:F; [|destruct (find_index is_horizontal have); auto].
    destruct (find_index_some _ _ _ F) as (n & N1 & N2 & _). destruct (HM k n N1 N2) as (h & x & m & -> & _). reflexivity. }
  rewrite NOH. cbv zeta.
  destruct (match_loop_complete e have need OH HC HM need [] (mkM [] [] have) eq_refl (inv_init e have need) eq_refl) as (s & ML).
  cbn [length] in ML. rewrite ML.
  destruct (hv_dec need) as [(v1 & h1 & F1 & V1)|[F1 V1]]; rewrite F1.
  - cbn [bind]. eexists. split; reflexivity.
  - destruct (hv_dec have) as [(v2 & h2 & F2 & V2)|[F2 V2]]; rewrite F2; [|cbn [bind]; eexists; split; reflexivity].
    assert (NT : nth v2 have [] = h2) by (destruct V2; now apply nth_error_nth). rewrite NT.
    destruct (V v2 h2 V1 V2) as (x & X1 & X2).
    assert (LV : loop_var_match h2 = Some [x]).
    { unfold vertical_index in X1. destruct (str_eqb h2 (L "vertical_layer_dimension") || _) eqn:Q.
      - injection X1 as <-. apply orb_true_iff in Q. rewrite !str_eqb_eq in Q. destruct Q as [-> | ->]; vm_compute; reflexivity.
      - destruct (str_eqb h2 (L "vertical_interface_dimension") || _) eqn:Q2; [|discriminate].
        injection X1 as <-. apply orb_true_iff in Q2. rewrite !str_eqb_eq in Q2. destruct Q2 as [-> | ->]; vm_compute; reflexivity. }
    rewrite LV. cbv zeta. cbn [forallb]. rewrite X2. cbn [andb]. destruct (v2 <? length (m_need s)); cbn [bind]; eexists; split; reflexivity.
Qed.
Print Assumptions C30_match_complete.

(* no permutation reported: the dimensions agree place by place *)
Theorem C30_no_permutation : forall e need have r,
  match_dimensions e need have = Ok r -> r_match r = true -> r_perm r = None ->
  length (r_need r) = length have /\
  (has_vertical need \/ ~ has_vertical have ->
     forall k n, nth_error need k = Some n -> exists h m, nth_error have k = Some h /\ nth_error (r_need r) k = Some m /\ meets e n h m).
Proof.
  intros e need have r H M P. destruct (C30_match_sound e need have r H M) as (q & base & L1 & L2 & ND & A & LH & U & MS & B & C).
  destruct (hv_dec have) as [(v & h & F & V)|[F NV]].
  - destruct (hv_dec need) as [(v' & h' & F' & V')|[F' NV']].
    + assert (HN : has_vertical need) by (exists h'; destruct V' as (X & Y & _); split; auto; eapply nth_error_In; eauto).
      destruct (B (or_introl HN)) as (-> & [(R & _)|(_ & R)]); [congruence|]. split.
      * rewrite L2, <- L1, R, seq_length. reflexivity.
      * intros _ k n K. destruct (A k n K) as (i & h0 & m & Q1 & Q2 & Q3 & Q4 & _). subst q.
        assert (i = k). { assert (k < length have) by (rewrite <- (seq_length (length have) 0); apply nth_error_Some; congruence).
          rewrite nth_error_nth' with (d := 0) in Q1 by (rewrite seq_length; auto). rewrite seq_nth in Q1 by auto. cbn in Q1. congruence. }
        subst i. eauto.
    + destruct (C v h NV' V) as (_ & x & _ & _ & RN & [(R & _)|(_ & R)]); [congruence|]. split.
      * rewrite RN. assert (E : length (firstn v base ++ x :: skipn v base) = length (firstn v q ++ v :: skipn v q)).
        { rewrite !app_length. cbn [length]. rewrite !firstn_length, !skipn_length. lia. }
        rewrite E, R, seq_length. reflexivity.
      * intros [K|K]; [contradiction|]. exfalso. apply K. exists h. destruct V as (X & Y & _). split; auto. eapply nth_error_In; eauto.
  - destruct (B (or_intror NV)) as (-> & [(R & _)|(_ & R)]); [congruence|]. split.
    + rewrite L2, <- L1, R, seq_length. reflexivity.
    + intros _ k n K. destruct (A k n K) as (i & h0 & m & Q1 & Q2 & Q3 & Q4 & _). subst q.
      assert (i = k). { assert (k < length have) by (rewrite <- (seq_length (length have) 0); apply nth_error_Some; congruence).
        rewrite nth_error_nth' with (d := 0) in Q1 by (rewrite seq_length; auto). rewrite seq_nth in Q1 by auto. cbn in Q1. congruence. }
      subst i. eauto.
Qed.
Print Assumptions C30_no_permutation.

(* equal lists match without change or permutation *)
Theorem C30_identity : forall e l, match_dimensions e l l = Ok (mkMR true l l None None).
Proof.
  intros e l. unfold match_dimensions.
  replace (match find_index is_horizontal l with Some _ => false | None => match find_index is_horizontal l with Some _ => true | None => false end end) with false by (destruct (find_index is_horizontal l); auto).
  cbv zeta. pose proof (match_loop_same e l l [] (mkM [] [] l) eq_refl eq_refl eq_refl eq_refl) as M. cbn [length] in M. rewrite M. cbn [m_need m_perm m_have].
  destruct (find_index is_vertical l); cbn [bind]; unfold final_perm; rewrite (proj2 (nats_eqb_eq _ _) eq_refl); reflexivity.
Qed.
Print Assumptions C30_identity.

(* a reordering is matched, the needed order is kept, and the permutation is its own *)
Theorem C30_reordered : forall e need have, Permutation need have -> one_horizontal need ->
  exists r q, match_dimensions e need have = Ok r /\ r_match r = true /\ r_need r = need /\ r_have r = have /\
    r_missing r = None /\ map (fun i => nth_error have i) q = map Some need /\ NoDup q /\ reports (r_perm r) q (length have).
Proof.
  intros e need have P OH.
  destruct (match_loop_perm e have need P OH need [] (mkM [] [] have) eq_refl (inv_init e have need) eq_refl eq_refl eq_refl) as (s & ML & I & A & B & C).
  cbn [length] in ML. unfold match_dimensions.
  pose proof (find_index_perm have need P is_horizontal) as HH. pose proof (find_index_perm have need P is_vertical) as HV.
  replace (match find_index is_horizontal have with Some _ => false | None => match find_index is_horizontal need with Some _ => true | None => false end end) with false.
  2:{ destruct (find_index is_horizontal have) eqn:F1; auto. destruct (find_index is_horizontal need) eqn:F2; auto.
      destruct (proj1 HH (ex_intro _ n eq_refl)). discriminate. }
  cbv zeta. rewrite ML.
  assert (B0 : forall o, match find_index is_vertical need, find_index is_vertical have with None, Some v => o v | _, _ => Ok (true, m_need s, None (A := str), m_perm s) end = Ok (true, m_need s, None, m_perm s)).
  { intros o. destruct (find_index is_vertical need) eqn:F1; auto. destruct (find_index is_vertical have) eqn:F2; auto.
    destruct (proj2 HV (ex_intro _ n eq_refl)). discriminate. }
  rewrite B0. cbn [bind]. eexists. exists (m_perm s). split; [reflexivity|]. cbn [r_match r_need r_have r_missing r_perm].
  split; auto. split; auto. split; auto. split; auto. destruct I as (_ & _ & I3 & _ & I5 & _). split; [|split; [assumption|apply reports_of; auto]].
  rewrite <- A, map_map. apply map_ext_in. intros i K. apply nth_error_nth'. auto.
Qed.
Print Assumptions C30_reordered.

(* ---- where it falls short ---- *)
(* Two things a caller would rely on: 'n' offered for 'ccpp_constant_one:n' (same range) is accepted,
   and a needed list of lower rank is not matched. *)
Definition default_bound_accepted : Prop := forall e n have,
  is_horizontal n = false -> is_vertical n = false -> have = [n] ->
  exists r, match_dimensions e [L "ccpp_constant_one:" ++ n] have = Ok r /\ r_match r = true.
Theorem C31_needed_default_bound_refuted : ~ default_bound_accepted.
Proof.
  intros H. destruct (H (mkEnv true (fun _ => true)) (L "nbnd") [L "nbnd"]) as (r & R & M); try reflexivity.
  vm_compute in R. injection R as <-. discriminate.
Qed.
Print Assumptions C31_needed_default_bound_refuted.
Definition match_keeps_rank : Prop := forall e need have r,
  match_dimensions e need have = Ok r -> r_match r = true -> ~ has_vertical have -> length need = length have.
Theorem C52_rank_refuted : ~ match_keeps_rank.
Proof.
  intros H. specialize (H (mkEnv true (fun _ => true)) [L "a"] [L "a"; L "b"] (mkMR true [L "a"] [L "a"; L "b"] None (Some [0]))).
  assert (Q : length [L "a"] = length [L "a"; L "b"]); [|discriminate]. apply H; [vm_compute; reflexivity|reflexivity|].
  intros (d & [<-|[<-|[]]] & V); vm_compute in V; discriminate.
Qed.
Print Assumptions C52_rank_refuted.
(* it does when no permutation is reported, which is the only result callers accept *)
Theorem C52_rank_unpermuted_partial : forall e need have r,
  match_dimensions e need have = Ok r -> r_match r = true -> r_perm r = None -> length (r_need r) = length have.
Proof. intros e need have r H M P. exact (proj1 (C30_no_permutation e need have r H M P)). Qed.
Print Assumptions C52_rank_unpermuted_partial.

(* ---- concrete cases ---- *)
Definition ex_env := mkEnv true (fun s => existsb (str_eqb s) [L "horizontal_loop_begin"; L "horizontal_loop_end"; L "vertical_layer_index"]).
(* a scheme needs (horizontal_loop_extent, nbnd), the host offers (nbnd, vertical, horizontal_dimension) *)
Example C30_ex :
  match_dimensions ex_env [L "ccpp_constant_one:horizontal_loop_extent"; L "nbnd"]
    [L "nbnd"; L "ccpp_constant_one:vertical_layer_dimension"; L "ccpp_constant_one:horizontal_dimension"]
  = Ok (mkMR true [L "horizontal_loop_begin:horizontal_loop_end"; L "vertical_layer_index"; L "nbnd"]
         [L "nbnd"; L "ccpp_constant_one:vertical_layer_dimension"; L "horizontal_loop_begin:horizontal_loop_end"]
         None (Some [2; 1; 0])).
Proof. vm_compute. reflexivity. Qed.
Example C30_ex_complete : exists r, match_dimensions ex_env [L "ccpp_constant_one:horizontal_loop_extent"; L "nbnd"]
    [L "nbnd"; L "ccpp_constant_one:vertical_layer_dimension"; L "ccpp_constant_one:horizontal_dimension"] = Ok r /\ r_match r = true.
Proof.
  assert (one : forall l, length (List.filter is_horizontal l) <= 1 -> one_horizontal l).
  { clear. intros l. induction l as [|x l IH]; intros H i j a b A B HA HB; [destruct i; discriminate|].
    cbn [List.filter] in H. destruct (is_horizontal x) eqn:X.
    - cbn [length] in H. assert (Z : List.filter is_horizontal l = []) by (destruct (List.filter is_horizontal l); auto; cbn in H; lia).
      assert (N : forall k c, nth_error l k = Some c -> is_horizontal c = true -> False).
      { intros k c K C. assert (Q : In c (List.filter is_horizontal l)) by (apply filter_In; split; auto; eapply nth_error_In; eauto). rewrite Z in Q. destruct Q. }
      destruct i as [|i], j as [|j]; auto; cbn in A, B; exfalso; eauto.
    - destruct i as [|i], j as [|j]; auto; cbn in A, B; try congruence. f_equal. eapply IH; eauto. }
  apply (C30_match_complete _ _ _ [2; 0]).
  - apply one. vm_compute. lia.
  - apply one. vm_compute. lia.
  - repeat constructor; cbn; intuition discriminate.
  - reflexivity.
  - intros [|[|[|k]]] n K; cbn in K; try discriminate; injection K as <-.
    + exists 2, (L "ccpp_constant_one:horizontal_dimension"), begin_end. split; auto. split; auto.
      apply Run_extent; auto; try (vm_compute; reflexivity). intros Q. apply str_eqb_eq in Q. vm_compute in Q. discriminate.
    + exists 0, (L "nbnd"), (L "nbnd"). split; auto. split; auto. now apply Same.
  - intros v h NV V. destruct (first_vertical_fun [L "nbnd"; L "ccpp_constant_one:vertical_layer_dimension"; L "ccpp_constant_one:horizontal_dimension"] 1 (L "ccpp_constant_one:vertical_layer_dimension") _ _ ltac:(split; [reflexivity|split; [vm_compute; reflexivity|intros [|[|j]] d J K; try lia; cbn in K; injection K as <-; vm_compute; reflexivity]]) V) as [<- <-].
    exists (L "vertical_layer_index"). split; vm_compute; reflexivity.
Qed.
Example C30_ex_reordered : Permutation [L "a"; L "b"; L "a"] [L "b"; L "a"; L "a"] /\
  match_dimensions ex_env [L "a"; L "b"; L "a"] [L "b"; L "a"; L "a"] = Ok (mkMR true [L "a"; L "b"; L "a"] [L "b"; L "a"; L "a"] None (Some [1; 0; 2])).
Proof. split; [constructor|vm_compute; reflexivity]. Qed.
