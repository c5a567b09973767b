From Verif Require Import PyStr CompatModel CompatProofs ReqProofs DimModel DimSpec.
Open Scope nat_scope.
Open Scope list_scope.

Lemma find_index_some f l i : find_index f l = Some i ->
  exists x, nth_error l i = Some x /\ f x = true /\ forall j y, j < i -> nth_error l j = Some y -> f y = false.
Proof.
  revert i. induction l as [|x l IH]; intros i; cbn [find_index]; [discriminate|]. destruct (f x) eqn:E.
  - intros [= <-]. exists x. split; auto. split; auto. intros; lia.
  - destruct (find_index f l) as [k|]; [|discriminate]. intros [= <-]. destruct (IH k eq_refl) as (y & H1 & H2 & H3).
    exists y. split; auto. split; auto. intros [|j] z J; cbn; [congruence|]. apply H3. lia.
Qed.
Lemma find_index_none f l : find_index f l = None <-> forall x, In x l -> f x = false.
Proof.
  induction l as [|x l IH]; cbn [find_index In]; [split; [intros _ x []|auto]|].
  destruct (f x) eqn:E.
  - split; [discriminate|]. intros H. rewrite (H x) in E; auto; discriminate.
  - destruct (find_index f l); [split; [discriminate|]|].
    + intros H. exfalso. assert (Q : Some n = None) by (apply IH; auto). discriminate.
    + split; auto. intros _ y [<-|K]; auto. now apply IH.
Qed.
Lemma hv_disjoint d : is_horizontal d = true -> is_vertical d = true -> False.
Proof.
  unfold is_horizontal, horizontal_dims. cbn [map existsb]. rewrite !orb_true_iff.
  intros H V. repeat (destruct H as [H|H]; [apply str_eqb_eq in H; subst d; vm_compute in V; discriminate|]). discriminate.
Qed.

Lemma dim_match_eq nd hd m : dim_match nd hd = Some m <-> nd = hd /\ m = nd.
Proof.
  unfold dim_match. destruct (str_eqb nd hd) eqn:E.
  - apply str_eqb_eq in E. split; [intros [= <-]; auto|intros [_ ->]; reflexivity].
  - apply str_eqb_neq in E. cbv zeta. split; [|tauto].
    destruct (length (split_on ":" hd) <? length (split_on ":" nd)) eqn:Q; [|discriminate].
    destruct (strs_eqb (split_on ":" nd) (split_on ":" hd)) eqn:S; [|discriminate].
    apply strs_eqb_eq in S. rewrite S in Q. apply Nat.ltb_lt in Q. lia.
Qed.
Lemma horiz_meets e n h m : horiz_dim_match e n h (loop_var_match n) = Some m ->
  is_horizontal n = true /\ is_horizontal h = true /\ meets e n h m.
Proof.
  unfold horiz_dim_match. destruct (is_horizontal n) eqn:N; [|discriminate]. destruct (is_horizontal h) eqn:H; [|discriminate].
  cbn [andb]. destruct (str_eqb n h) eqn:E.
  - intros [= <-]. apply str_eqb_eq in E. split; auto. split; auto. now apply Same.
  - apply str_eqb_neq in E. intros M. split; auto. split; auto. destruct (e_run e) eqn:R.
    + assert (X : (n = L "horizontal_loop_extent" \/ n = one_hext) \/ loop_var_match n = None).
      { unfold is_horizontal, horizontal_dims in N. cbn [map existsb] in N. rewrite !orb_true_iff in N.
        repeat (destruct N as [N|N]; [apply str_eqb_eq in N; subst n; first [left; unfold one_hext; auto; fail|right; vm_compute; reflexivity]|]). discriminate. }
      destruct X as [X|X]; [|rewrite X in M; discriminate].
      assert (LV : loop_var_match n = Some [L "horizontal_loop_begin"; L "horizontal_loop_end"]) by (destruct X as [-> | ->]; vm_compute; reflexivity).
      rewrite LV in M. cbn [forallb] in M. rewrite andb_true_r in M.
      destruct (e_avail e (L "horizontal_loop_begin")) eqn:A1; [|discriminate].
      destruct (e_avail e (L "horizontal_loop_end")) eqn:A2; [|discriminate].
      injection M as <-. apply Run_extent; auto.
    + match type of M with (if ?b then _ else _) = _ => destruct b eqn:B; [|discriminate] end. injection M as <-.
      apply andb_true_iff in B as [B1 B2]. apply str_eqb_eq in B1. apply orb_true_iff in B2. rewrite !str_eqb_eq in B2.
      apply NonRun_extent; auto.
Qed.
Lemma first_match_some nd have idx i m : first_match nd have idx = Some (i, m) ->
  In i idx /\ nth i have [] = nd /\ m = nd.
Proof.
  induction idx as [|j r IH]; cbn [first_match]; [discriminate|]. destruct (dim_match nd (nth j have [])) as [x|] eqn:E.
  - intros [= <- <-]. apply dim_match_eq in E as [E1 E2]. split; [now left|auto].
  - intros H. destruct (IH H) as (H1 & H2). split; [now right|auto].
Qed.
Lemma first_match_none nd have idx : first_match nd have idx = None -> forall i, In i idx -> nth i have [] <> nd.
Proof.
  induction idx as [|j r IH]; cbn [first_match]; [intros _ i []|]. destruct (dim_match nd (nth j have [])) as [x|] eqn:E; [discriminate|].
  intros H i [<-|K]; [|auto]. intros Q. assert (D : dim_match nd (nth j have []) = Some nd) by (apply dim_match_eq; auto). congruence.
Qed.
Lemma nat_in_spec x l : nat_in x l = true <-> In x l.
Proof.
  unfold nat_in. rewrite existsb_exists. split; [intros (y & H & K); apply Nat.eqb_eq in K; now subst|].
  intros H. exists x. split; auto. apply Nat.eqb_refl.
Qed.
Lemma opt_is_spec o i : opt_is o i = true <-> o = Some i.
Proof. destruct o; cbn; rewrite ?Nat.eqb_eq; split; congruence. Qed.

Section Loop.
Variable e : env.
Variable have : list str.
Variable need : list str.
Let nv := find_index is_vertical need.
Let hv := find_index is_vertical have.
Let nh := find_index is_horizontal need.
Let hh := find_index is_horizontal have.

Definition agree (n : str) (i : nat) (m : str) : Prop := exists h, nth_error have i = Some h /\ meets e n h m.
Definition inv (done : list str) (s : mstate) : Prop :=
  length (m_perm s) = length done /\ length (m_need s) = length done /\ NoDup (m_perm s) /\
  (forall k n, nth_error done k = Some n -> exists i m, nth_error (m_perm s) k = Some i /\ nth_error (m_need s) k = Some m /\ agree n i m /\
     nth_error (m_have s) i = Some m) /\
  (forall i, In i (m_perm s) -> i < length have) /\
  length (m_have s) = length have /\
  (forall i, ~ In i (m_perm s) -> nth_error (m_have s) i = nth_error have i) /\
  (forall v, nv = None -> hv = Some v -> ~ In v (m_perm s)) /\
  (forall k h, nh = Some k -> length done <= k -> hh = Some h -> ~ In h (m_perm s)).

Lemma inv_init : inv [] (mkM [] [] have).
Proof using.
  unfold inv. cbn [m_perm m_need m_have length]. split; [auto|]. split; [auto|]. split; [constructor|].
  split; [intros [|k] n H; discriminate|]. split; [intros i []|]. split; auto.
Qed.

Lemma inv_add done nd i m s : inv done s -> agree nd i m -> ~ In i (m_perm s) -> i < length have ->
  (forall v, nv = None -> hv = Some v -> i <> v) ->
  (forall k h, nh = Some k -> length done < k -> hh = Some h -> i <> h) ->
  inv (done ++ [nd]) (mkM (m_perm s ++ [i]) (m_need s ++ [m]) (list_set (m_have s) i m)).
Proof using.
  intros (I1 & I2 & I3 & I4 & I5 & I6 & I7 & I8 & I9) A N L V H. unfold inv. cbn [m_perm m_need m_have].
  rewrite !app_length. cbn [length]. split; [lia|]. split; [lia|]. split; [now apply NoDup_snoc|].
  split; [|split; [|split; [|split; [|split]]]].
  - intros k n K. destruct (Nat.lt_ge_cases k (length done)) as [Q|Q].
    + rewrite nth_error_app1 in K by assumption. destruct (I4 k n K) as (j & m' & P1 & P2 & P3 & P4).
      exists j, m'. rewrite !nth_error_app1 by lia. split; auto. split; auto. split; auto.
      rewrite nth_error_list_set_neq; auto. intros ->. apply N. eapply nth_error_In; eauto.
    + rewrite nth_error_app2 in K by assumption. destruct (k - length done) as [|z] eqn:Z; [|destruct z; discriminate].
      injection K as <-. exists i, m. rewrite !nth_error_app2 by lia. rewrite I1, I2, Z. cbn. split; auto. split; auto. split; auto.
      apply nth_error_list_set_eq. lia.
  - intros j J. apply in_app_iff in J as [J|[<-|[]]]; auto.
  - now rewrite list_set_length.
  - intros j J. rewrite in_app_iff in J. cbn in J. rewrite nth_error_list_set_neq by tauto. apply I7. tauto.
  - intros v V1 V2 J. apply in_app_iff in J as [J|[<-|[]]]; [eapply I8; eauto|eapply V; eauto].
  - intros k h K1 K2 K3 J. apply in_app_iff in J as [J|[<-|[]]]; [eapply (I9 k h); eauto; lia|eapply H; eauto; lia].
Qed.

Lemma match_one_inv done nd s s' rest : need = done ++ nd :: rest -> inv done s ->
  match_one e have nv hv nh hh (length done) nd s = Some s' -> inv (done ++ [nd]) s'.
Proof using.
  intros E I. unfold match_one.
  assert (ND : nth_error need (length done) = Some nd).
  { rewrite E, nth_error_app2 by lia. now rewrite Nat.sub_diag. }
  destruct (opt_is nh (length done)) eqn:O.
  - apply opt_is_spec in O. case_eq hh; [|discriminate]. intros h HH.
    destruct (horiz_dim_match e nd (nth h have []) (loop_var_match nd)) as [m|] eqn:M; [|discriminate]. intros [= <-].
    apply horiz_meets in M as (M1 & M2 & M3).
    destruct (find_index_some _ _ _ HH) as (x & X1 & X2 & _).
    assert (NE : nth h have [] = x) by (now apply nth_error_nth). rewrite NE in *.
    apply inv_add; auto.
    + exists x. auto.
    + destruct I as (_ & _ & _ & _ & _ & _ & _ & _ & I9). eapply I9; eauto.
    + apply nth_error_Some. congruence.
    + intros v V1 V2 ->. destruct (find_index_some _ _ _ V2) as (y & Y1 & Y2 & _).
      assert (x = y) by congruence. subst y. eapply hv_disjoint; eauto.
    + intros k h0 K1 K2. rewrite O in K1. injection K1 as K1. lia.
  - cbv zeta. destruct (first_match nd have _) as [[i m]|] eqn:F; [|discriminate]. intros [= <-].
    apply first_match_some in F as (F1 & F2 & ->).
    apply filter_In in F1 as [F1 F3]. apply filter_In in F1 as [F1 F4]. apply in_seq in F1.
    apply andb_true_iff in F4 as [F4 F5]. rewrite negb_true_iff in F4, F5.
    assert (NE : nth_error have i = Some nd) by (rewrite <- F2; apply nth_error_nth'; lia).
    apply inv_add; auto.
    + exists nd. split; auto. now apply Same.
    + rewrite <- nat_in_spec. congruence.
    + lia.
    + intros v V1 V2. rewrite V1, V2 in F5. intros ->. cbn [skip_of opt_is] in F5. rewrite Nat.eqb_refl in F5. discriminate.
    + intros k h K1 K2 K3 ->. destruct (find_index_some _ _ _ K3) as (x & X1 & X2 & _).
      assert (x = nd) by congruence. subst x.
      destruct (find_index_some _ _ _ K1) as (y & _ & _ & Y3). rewrite (Y3 (length done) nd) in X2; auto; discriminate.
Qed.

Lemma match_loop_inv : forall rest done s ok s', need = done ++ rest -> inv done s ->
  match_loop e have nv hv nh hh (length done) rest s = (ok, s') ->
  exists done' rest', need = done' ++ rest' /\ inv done' s' /\ (ok = true -> rest' = []).
Proof using.
  induction rest as [|nd r IH]; intros done s ok s' E I M; cbn [match_loop] in M.
  - injection M as <- <-. exists done, []. auto.
  - destruct (match_one e have nv hv nh hh (length done) nd s) as [s1|] eqn:O.
    + assert (I1 : inv (done ++ [nd]) s1) by (eapply match_one_inv; eauto).
      replace (S (length done)) with (length (done ++ [nd])) in M by (rewrite app_length; cbn; lia).
      eapply IH; eauto. now rewrite <- app_assoc.
    + injection M as <- <-. exists done, (nd :: r). split; auto. split; auto. discriminate.
Qed.
End Loop.

Lemma nats_eqb_eq a b : nats_eqb a b = true <-> a = b.
Proof.
  revert b. induction a as [|x a IH]; intros [|y b]; cbn; try (split; congruence).
  rewrite andb_true_iff, Nat.eqb_eq, IH. split; [intros [-> ->]; auto|intros [= -> ->]; auto].
Qed.
Lemma vertical_index_loop h req : is_vertical h = true -> loop_var_match h = Some req ->
  exists x, vertical_index h = Some x /\ req = [x].
Proof.
  unfold is_vertical, vertical_dims. cbn [map existsb]. rewrite !orb_true_iff.
  intros H V. repeat (destruct H as [H|H]; [apply str_eqb_eq in H; subst h; vm_compute in V; try discriminate V; injection V as <-; eexists; split; vm_compute; reflexivity|]).
  discriminate.
Qed.

(* ---- a reordered list of dimensions is always matched ---- *)
Definition cnt (d : str) (l : list str) : nat := length (List.filter (str_eqb d) l).
Lemma cnt_perm d l l' : Permutation l l' -> cnt d l = cnt d l'.
Proof.
  induction 1; unfold cnt in *; cbn [List.filter]; auto.
  - destruct (str_eqb d x); cbn; auto.
  - destruct (str_eqb d x), (str_eqb d y); cbn; auto.
  - congruence.
Qed.
Lemma cnt_app d l l' : cnt d (l ++ l') = cnt d l + cnt d l'.
Proof. unfold cnt. now rewrite filter_app, app_length. Qed.
Lemma filter_map_length {A B} (f : B -> bool) (g : A -> B) l : length (List.filter f (map g l)) = length (List.filter (fun x => f (g x)) l).
Proof. induction l as [|x l IH]; cbn; auto. destruct (f (g x)); cbn; auto. Qed.
Lemma map_nth_seq (l : list str) : map (fun i => nth i l []) (seq 0 (length l)) = l.
Proof.
  induction l as [|x l IH]; cbn [length seq map nth]; auto. f_equal.
  rewrite <- seq_shift, map_map. exact IH.
Qed.
Lemma unused_position (have : list str) (perm : list nat) nd : NoDup perm ->
  cnt nd (map (fun i => nth i have []) perm) < cnt nd have ->
  exists i, i < length have /\ ~ In i perm /\ nth i have [] = nd.
Proof.
  intros ND H. set (g := fun i => nth i have []) in *.
  set (I := List.filter (fun i => str_eqb nd (g i)) (seq 0 (length have))).
  assert (LI : length I = cnt nd have).
  { unfold I, cnt. rewrite <- (map_nth_seq have) at 2. fold g. now rewrite filter_map_length. }
  set (J := List.filter (fun i => str_eqb nd (g i)) perm).
  assert (LJ : length J = cnt nd (map g perm)) by (unfold J, cnt; now rewrite filter_map_length).
  assert (D : (exists i, In i I /\ ~ In i perm) \/ (forall i, In i I -> In i perm)).
  { clear. induction I as [|x I IH]; [right; intros i []|]. destruct (in_dec Nat.eq_dec x perm) as [Y|N].
    - destruct IH as [(i & A & B)|IH]; [left; exists i; split; auto; now right|right; intros i [<-|K]; auto].
    - left. exists x. split; auto. now left. }
  destruct D as [(i & A & B)|D].
  - exists i. unfold I in A. apply filter_In in A as [A1 A2]. apply in_seq in A1. apply str_eqb_eq in A2. split; [lia|]. auto.
  - exfalso. assert (NoDup I) by (apply NoDup_filter, seq_NoDup).
    assert (length I <= length J); [|lia]. apply NoDup_incl_length; auto. intros i K. unfold J. apply filter_In. split; auto.
    unfold I in K. apply filter_In in K. tauto.
Qed.

Section Perm.
Variable e : env.
Variable have : list str.
Variable need : list str.
Let nv := find_index is_vertical need.
Let hv := find_index is_vertical have.
Let nh := find_index is_horizontal need.
Let hh := find_index is_horizontal have.
Hypothesis P : Permutation need have.
Hypothesis OH : one_horizontal need.

Lemma find_index_perm f : (exists i, find_index f need = Some i) <-> exists i, find_index f have = Some i.
Proof using P.
  assert (G : forall a b, Permutation a b -> (exists i, find_index f a = Some i) -> exists i, find_index f b = Some i).
  { intros a b PP (i & F). destruct (find_index_some _ _ _ F) as (x & X1 & X2 & _).
    destruct (find_index f b) as [j|] eqn:Q; [eauto|]. exfalso. rewrite (proj1 (find_index_none f b) Q x) in X2; [discriminate|].
    eapply Permutation_in; eauto. eapply nth_error_In; eauto. }
  split; apply G; auto. now symmetry.
Qed.
Lemma match_one_perm done nd rest s : need = done ++ nd :: rest -> inv e have need done s ->
  map (fun i => nth i have []) (m_perm s) = done -> m_need s = done -> m_have s = have ->
  exists s', match_one e have nv hv nh hh (length done) nd s = Some s' /\
    map (fun i => nth i have []) (m_perm s') = done ++ [nd] /\ m_need s' = done ++ [nd] /\ m_have s' = have.
Proof using P OH.
  intros E I MP MN MH. unfold match_one.
  assert (ND : nth_error need (length done) = Some nd).
  { rewrite E, nth_error_app2 by lia. now rewrite Nat.sub_diag. }
  assert (SET : forall i, i < length have -> nth i have [] = nd -> list_set have i nd = have).
  { clear. intros i. revert have. induction i as [|i IH]; intros [|x l] H E; cbn in *; try lia; auto; [congruence|]. f_equal. apply IH; auto. lia. }
  destruct (opt_is nh (length done)) eqn:O.
  - apply opt_is_spec in O. destruct (find_index_some _ _ _ O) as (x & X1 & X2 & _).
    assert (x = nd) by congruence. subst x.
    destruct (proj1 (find_index_perm is_horizontal) (ex_intro _ _ O)) as [h HH]. fold hh in HH. rewrite HH.
    destruct (find_index_some _ _ _ HH) as (y & Y1 & Y2 & _).
    assert (Y : y = nd).
    { assert (IN : In y need) by (eapply Permutation_in; [symmetry; exact P|eapply nth_error_In; eauto]).
      apply In_nth_error in IN as [j J]. assert (j = length done) by (eapply OH; eauto). subst j. congruence. }
    subst y. assert (NH : nth h have [] = nd) by now apply nth_error_nth.
    rewrite NH. unfold horiz_dim_match. rewrite X2, str_eqb_refl. cbn [andb]. eexists. split; [reflexivity|].
    cbn [m_perm m_need m_have]. rewrite map_app, MP, MN, MH. cbn [map]. rewrite NH. split; auto. split; auto.
    apply SET; auto. apply nth_error_Some. congruence.
  - cbv zeta.
    assert (VV : (nv = None /\ hv = None) \/ exists a b, nv = Some a /\ hv = Some b).
    { pose proof (find_index_perm is_vertical) as V. fold nv hv in V. destruct nv as [a|], hv as [b|]; eauto; exfalso.
      - destruct (proj1 V (ex_intro _ a eq_refl)) as [? Q]. discriminate.
      - destruct (proj2 V (ex_intro _ b eq_refl)) as [? Q]. discriminate. }
    destruct I as (I1 & I2 & I3 & _).
    destruct (unused_position have (m_perm s) nd I3) as (i & L & NI & NE).
    { rewrite MP, <- (cnt_perm nd _ _ P), E, cnt_app. unfold cnt at 3. cbn [List.filter]. rewrite str_eqb_refl. cbn. lia. }
    match goal with |- context [first_match nd have ?idx] => set (idx0 := idx) end.
    assert (IN : In i idx0).
    { unfold idx0. apply filter_In. split; [apply filter_In; split; [apply in_seq; lia|]|].
      - apply andb_true_iff. split.
        + apply negb_true_iff. destruct (nat_in i (m_perm s)) eqn:Q; auto. apply nat_in_spec in Q. contradiction.
        + destruct VV as [[-> ->]|(a & b & -> & ->)]; reflexivity.
      - destruct VV as [[-> ->]|(a & b & -> & ->)]; cbn; auto using orb_true_r. }
    destruct (first_match nd have idx0) as [[j m]|] eqn:F; [|exfalso; eapply first_match_none; eauto].
    apply first_match_some in F as (F1 & F2 & ->).
    eexists. split; [reflexivity|]. cbn [m_perm m_need m_have]. rewrite map_app, MP, MN, MH. cbn [map]. rewrite F2.
    split; auto. split; auto. apply SET; auto. unfold idx0 in F1. apply filter_In in F1 as [F1 _]. apply filter_In in F1 as [F1 _].
    apply in_seq in F1. lia.
Qed.
Lemma match_loop_perm : forall rest done s, need = done ++ rest -> inv e have need done s ->
  map (fun i => nth i have []) (m_perm s) = done -> m_need s = done -> m_have s = have ->
  exists s', match_loop e have nv hv nh hh (length done) rest s = (true, s') /\ inv e have need need s' /\
    map (fun i => nth i have []) (m_perm s') = need /\ m_need s' = need /\ m_have s' = have.
Proof using P OH.
  induction rest as [|nd r IH]; intros done s E I A B C; cbn [match_loop].
  - rewrite app_nil_r in E. rewrite <- E in *. eauto 8.
  - destruct (match_one_perm done nd r s E I A B C) as (s1 & O & A1 & B1 & C1). rewrite O.
    replace (S (length done)) with (length (done ++ [nd])) by (rewrite app_length; cbn; lia).
    apply IH; auto; [now rewrite <- app_assoc|]. eapply match_one_inv; eauto.
Qed.
End Perm.

Lemma filter_nil {A} (f : A -> bool) l : (forall x, In x l -> f x = false) -> List.filter f l = [].
Proof. induction l as [|x l IH]; cbn; intros H; auto. rewrite (H x) by auto. apply IH. auto. Qed.
(* equal lists: position by position *)
Lemma match_loop_same e l : forall rest done s, l = done ++ rest ->
  m_perm s = seq 0 (length done) -> m_need s = done -> m_have s = l ->
  match_loop e l (find_index is_vertical l) (find_index is_vertical l) (find_index is_horizontal l) (find_index is_horizontal l) (length done) rest s
  = (true, mkM (seq 0 (length l)) l l).
Proof.
  induction rest as [|nd r IH]; intros done s E A B C; cbn [match_loop].
  - rewrite app_nil_r in E. subst done. destruct s. cbn in *. now subst.
  - assert (ND : nth_error l (length done) = Some nd).
    { rewrite E, nth_error_app2 by lia. now rewrite Nat.sub_diag. }
    assert (NT : nth (length done) l [] = nd) by now apply nth_error_nth.
    assert (LT : length done < length l) by (apply nth_error_Some; congruence).
    assert (SET : list_set l (length done) nd = l).
    { clear - NT LT. revert NT LT. generalize (length done). intros i. revert l. induction i as [|i IH]; intros [|x l] E H; cbn in *; try lia; auto; [congruence|]. f_equal. apply IH; auto. lia. }
    assert (O : match_one e l (find_index is_vertical l) (find_index is_vertical l) (find_index is_horizontal l) (find_index is_horizontal l) (length done) nd s
      = Some (mkM (seq 0 (length (done ++ [nd]))) (done ++ [nd]) l)).
    { unfold match_one. rewrite A, B, C. rewrite app_length. cbn [length]. rewrite Nat.add_1_r, seq_S. cbn [plus].
      destruct (opt_is (find_index is_horizontal l) (length done)) eqn:Q.
      - apply opt_is_spec in Q. rewrite Q, NT. destruct (find_index_some _ _ _ Q) as (x & X1 & X2 & _).
        assert (x = nd) by congruence. subst x. unfold horiz_dim_match. rewrite X2, str_eqb_refl. cbn [andb]. now rewrite SET.
      - cbv zeta. match goal with |- context [first_match nd l ?idx] => assert (I : exists t, idx = length done :: t) end.
        { assert (SK : skip_of (find_index is_vertical l) (find_index is_vertical l) = None) by (destruct (find_index is_vertical l); auto).
          rewrite SK.
          assert (F2 : forall x, negb (opt_is (find_index is_vertical l) x) || match find_index is_vertical l with Some _ => true | None => false end = true)
            by (intros x; destruct (find_index is_vertical l); cbn; auto using orb_true_r).
          replace (length l) with (length done + S (length l - length done - 1)) by lia.
          rewrite seq_app, !filter_app. cbn [plus seq].
          assert (Z : List.filter (fun x => negb (nat_in x (seq 0 (length done))) && negb (opt_is None x)) (seq 0 (length done)) = []).
          { apply filter_nil. intros x X. replace (nat_in x (seq 0 (length done))) with true; auto. symmetry. now apply nat_in_spec. }
          rewrite Z. cbn [List.filter app opt_is negb].
          replace (nat_in (length done) (seq 0 (length done))) with false.
          2:{ symmetry. destruct (nat_in (length done) (seq 0 (length done))) eqn:W; auto. apply nat_in_spec, in_seq in W. lia. }
          cbn [negb andb List.filter]. rewrite F2. eauto. }
        destruct I as [t I]. rewrite I. cbn [first_match]. rewrite NT.
        replace (dim_match nd nd) with (Some nd) by (symmetry; now apply dim_match_eq). now rewrite SET. }
    rewrite O. replace (S (length done)) with (length (done ++ [nd])) by (rewrite app_length; cbn; lia).
    apply IH; auto. now rewrite <- app_assoc.
Qed.

(* ---- completeness ---- *)
Lemma meets_horiz e n h m : is_horizontal n = true -> is_horizontal h = true -> meets e n h m ->
  horiz_dim_match e n h (loop_var_match n) = Some m.
Proof.
  intros N H M. unfold horiz_dim_match. rewrite N, H. cbn [andb]. destruct M as [-> ->|R X _ NE A1 A2 ->|R X HE ->].
  - now rewrite str_eqb_refl.
  - replace (str_eqb n h) with false by (symmetry; now apply str_eqb_neq). rewrite R.
    assert (LV : loop_var_match n = Some [L "horizontal_loop_begin"; L "horizontal_loop_end"]) by (destruct X as [-> | ->]; vm_compute; reflexivity).
    rewrite LV. cbn [forallb]. now rewrite A1, A2.
  - subst h. replace (str_eqb n one_hdim) with false by (destruct X as [-> | ->]; vm_compute; reflexivity). rewrite R.
    destruct X as [-> | ->]; vm_compute; reflexivity.
Qed.
Lemma meets_not_horiz e n h m : is_horizontal n = false -> meets e n h m -> n = h.
Proof.
  intros N M. destruct M as [E _|R [X|X] _ _ _ _ _|R [X|X] _ _]; auto; subst n; vm_compute in N; discriminate.
Qed.
Lemma meets_horiz_both e n h m : is_horizontal n = true -> meets e n h m -> is_horizontal h = true.
Proof. intros N M. destruct M as [<- _|R _ H _ _ _ _|R _ -> _]; auto. Qed.

Lemma cnt_injection (need have : list str) (q : list nat) nd : NoDup q -> length q = length need ->
  (forall k, nth_error need k = Some nd -> exists i, nth_error q k = Some i /\ nth_error have i = Some nd) ->
  cnt nd need <= cnt nd have.
Proof.
  intros ND LQ H.
  set (I := List.filter (fun i => str_eqb nd (nth i need [])) (seq 0 (length need))).
  set (J := List.filter (fun i => str_eqb nd (nth i have [])) (seq 0 (length have))).
  assert (LI : length I = cnt nd need).
  { unfold I, cnt. rewrite <- (map_nth_seq need) at 2. now rewrite filter_map_length. }
  assert (LJ : length J = cnt nd have).
  { unfold J, cnt. rewrite <- (map_nth_seq have) at 2. now rewrite filter_map_length. }
  assert (NI : NoDup I) by (apply NoDup_filter, seq_NoDup).
  assert (IB : forall k, In k I -> k < length need /\ nth k need [] = nd).
  { intros k K. apply filter_In in K as [K1 K2]. apply in_seq in K1. apply str_eqb_eq in K2. split; auto; lia. }
  assert (NM : NoDup (map (fun k => nth k q 0) I)).
  { clear -NI IB ND LQ. induction I as [|k I IH]; cbn; [constructor|]. apply NoDup_cons_iff in NI as [N1 N2]. constructor.
    - intros K. apply in_map_iff in K as (k' & K1 & K2). apply N1.
      destruct (IB k) as [B1 _]; [now left|]. destruct (IB k') as [B2 _]; [now right|].
      assert (k' = k); [|now subst]. eapply (proj1 (NoDup_nth q 0)); eauto; lia.
    - apply IH; auto. intros k' K. apply IB. now right. }
  rewrite <- LI, <- LJ. rewrite <- (map_length (fun k => nth k q 0) I). apply NoDup_incl_length; auto.
  intros i K. apply in_map_iff in K as (k & <- & K). destruct (IB k K) as [B1 B2].
  destruct (H k) as (i & Q1 & Q2); [rewrite <- B2; now apply nth_error_nth'|].
  assert (E : nth k q 0 = i) by now apply nth_error_nth. rewrite E. unfold J. apply filter_In. split.
  - apply in_seq. assert (i < length have) by (apply nth_error_Some; congruence). lia.
  - apply str_eqb_eq. symmetry. now apply nth_error_nth.
Qed.

Section Complete.
Variable e : env.
Variable have : list str.
Variable need : list str.
Let nv := find_index is_vertical need.
Let hv := find_index is_vertical have.
Let nh := find_index is_horizontal need.
Let hh := find_index is_horizontal have.
Hypothesis OH : one_horizontal need.
Hypothesis HC : forall nd, is_horizontal nd = false -> cnt nd need <= cnt nd have.
Hypothesis HM : forall k n, nth_error need k = Some n -> is_horizontal n = true ->
  exists h x m, hh = Some h /\ nth_error have h = Some x /\ horiz_dim_match e n x (loop_var_match n) = Some m.

Definition nonh (l : list str) : list str := List.filter (fun d => negb (is_horizontal d)) l.
Lemma cnt_nonh nd l : is_horizontal nd = false -> cnt nd (nonh l) = cnt nd l.
Proof using.
  intros N. unfold cnt, nonh. induction l as [|x l IH]; cbn [List.filter]; auto.
  destruct (is_horizontal x) eqn:X; cbn [negb List.filter].
  - destruct (str_eqb nd x) eqn:Q; auto. apply str_eqb_eq in Q. congruence.
  - destruct (str_eqb nd x); cbn; auto.
Qed.
(* the positions used for non-horizontal dimensions hold those dimensions *)
Definition used (done : list str) (s : mstate) : Prop :=
  nonh (map (fun i => nth i have []) (m_perm s)) = nonh done.

Lemma match_one_complete done nd rest s : need = done ++ nd :: rest -> inv e have need done s -> used done s ->
  exists s', match_one e have nv hv nh hh (length done) nd s = Some s' /\ used (done ++ [nd]) s'.
Proof using OH HC HM.
  intros E I U. unfold match_one.
  assert (ND : nth_error need (length done) = Some nd).
  { rewrite E, nth_error_app2 by lia. now rewrite Nat.sub_diag. }
  destruct (opt_is nh (length done)) eqn:O.
  - apply opt_is_spec in O. destruct (find_index_some _ _ _ O) as (x & X1 & X2 & _).
    assert (x = nd) by congruence. subst x.
    destruct (HM _ _ X1 X2) as (h & y & m & H1 & H2 & H3). rewrite H1.
    assert (NH : nth h have [] = y) by now apply nth_error_nth. rewrite NH, H3. eexists. split; [reflexivity|].
    unfold used in *. cbn [m_perm]. unfold nonh in *. rewrite map_app, !filter_app, U. f_equal. cbn [map List.filter]. rewrite NH.
    apply horiz_meets in H3 as (Q1 & Q2 & _). now rewrite Q1, Q2.
  - cbv zeta. assert (NN : is_horizontal nd = false).
    { destruct (is_horizontal nd) eqn:Q; auto. exfalso.
      assert (F : nh <> None). { intros F. rewrite (proj1 (find_index_none _ _) F nd) in Q; [discriminate|]. eapply nth_error_In; eauto. }
      case_eq nh; [|congruence]. intros j J. destruct (find_index_some _ _ _ J) as (x & X1 & X2 & _).
      assert (j = length done) by (eapply OH; eauto). subst j. assert (B : opt_is nh (length done) = true) by now apply opt_is_spec. congruence. }
    destruct I as (I1 & I2 & I3 & _).
    destruct (unused_position have (m_perm s) nd I3) as (i & Ln & NI & NE).
    { rewrite <- (cnt_nonh nd _ NN), U, (cnt_nonh nd _ NN). eapply Nat.lt_le_trans; [|apply (HC nd NN)]. rewrite E, cnt_app. unfold cnt at 3. cbn [List.filter]. rewrite str_eqb_refl. cbn. lia. }
    match goal with |- context [first_match nd have ?idx] => set (idx0 := idx) end.
    assert (VS : nv = None -> hv <> Some i).
    { intros V1 V2. destruct (find_index_some _ _ _ V2) as (x & X1 & X2 & _).
      assert (x = nd) by (apply nth_error_nth with (d := []) in X1; congruence). subst x.
      rewrite (proj1 (find_index_none _ _) V1 nd) in X2; [discriminate|]. eapply nth_error_In; eauto. }
    assert (IN : In i idx0).
    { unfold idx0. apply filter_In. split; [apply filter_In; split; [apply in_seq; lia|]|].
      - apply andb_true_iff. split.
        + apply negb_true_iff. destruct (nat_in i (m_perm s)) eqn:Q; auto. apply nat_in_spec in Q. contradiction.
        + apply negb_true_iff. destruct nv; [reflexivity|]. cbn [skip_of]. destruct (opt_is hv i) eqn:Q; auto. apply opt_is_spec in Q. now apply VS in Q.
      - destruct nv; [apply orb_true_r|]. destruct (opt_is hv i) eqn:Q; auto. apply opt_is_spec in Q. now apply VS in Q. }
    destruct (first_match nd have idx0) as [[j m]|] eqn:F; [|exfalso; eapply first_match_none; eauto].
    apply first_match_some in F as (F1 & F2 & ->).
    eexists. split; [reflexivity|]. unfold used in *. cbn [m_perm]. unfold nonh in *. rewrite map_app, !filter_app, U. cbn [map List.filter]. now rewrite F2.
Qed.
Lemma match_loop_complete : forall rest done s, need = done ++ rest -> inv e have need done s -> used done s ->
  exists s', match_loop e have nv hv nh hh (length done) rest s = (true, s').
Proof using OH HC HM.
  induction rest as [|nd r IH]; intros done s E I A; cbn [match_loop]; [eauto|].
  destruct (match_one_complete done nd r s E I A) as (s1 & O & A1). rewrite O.
  replace (S (length done)) with (length (done ++ [nd])) by (rewrite app_length; cbn; lia).
  apply IH; auto; [now rewrite <- app_assoc|]. eapply match_one_inv; eauto.
Qed.
End Complete.
